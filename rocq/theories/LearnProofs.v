(** Proofs for C104 and C105. *)
From Verif Require Import Base RList Ext Sums SmcModel SmcSpec SmcProofs DerProofs LearnSpec.
From Coq Require Import List.

Section A.
Context {O E RND : Type}.
Variables (c : @config O E RND) (rs : nat -> RND) (dom : E -> list O) (V : loc -> Prop).
Hypothesis (Hlen : forall r l e, length (timestep (md c) r l e) = length l).
Hypothesis (Hdom : forall x e, V x -> SumL (dom e) (fun o => lik (md c) o x e) = 1).
Hypothesis (Hstep : forall r l e, Forall V l -> Forall V (timestep (md c) r l e)).

Lemma path_total pol n : forall hist idx l i, Forall V l -> (i < length l)%nat ->
  SumL (records dom pol n hist) (fun data => path_lik c rs idx data l i) = 1.
Proof.
  induction n as [|n IH]; intros hist idx l i HV Hi; cbn [records].
  - unfold SumL. cbn. ring.
  - rewrite SumL_flat_map. rewrite (SumL_ext _ _ (fun o => lik (md c) o (nth i l []) (pol hist))).
    + apply Hdom. rewrite Forall_forall in HV. now apply HV, nth_In.
    + intros o _. rewrite SumL_map. cbn [path_lik]. rewrite SumL_scal, IH; [ring|now apply Hstep|now rewrite Hlen].
Qed.
Lemma predictive_total pol n hist s : Forall V (ls s) -> full_inv s -> SumL (records dom pol n hist) (predictive c rs s) = 1.
Proof.
  intros HV Hinv. unfold predictive. rewrite SumL_Sum_swap. rewrite <- (full_inv_Sum s Hinv). apply Sum_ext. intros i Hi.
  rewrite SumL_scal, path_total by assumption. ring.
Qed.
Lemma predictive_recorded s data : good_config c -> zthresh c < 1 -> full_inv s -> regular c rs 0 data s ->
  exists Ns, nrec (run c s (updates rs 0 data)) = nrec s ++ Ns /\ rprod Ns = predictive c rs s data /\ 0 < rprod Ns /\
    forall i, (i < n_particles s)%nat -> predictive c rs s data * wt (run c s (updates rs 0 data)) i = wt s i * path_lik c rs 0 data (ls s) i.
Proof.
  intros G Ht Hinv Hreg. destruct (run_regular c rs G Ht data 0%nat s Hinv Hreg) as (H1 & H2 & Ns & H3 & H4 & H5). exists Ns.
  assert (P : rprod Ns = predictive c rs s data).
  { unfold predictive. rewrite <- (Sum_ext _ _ _ H5).
    rewrite (Sum_ext _ _ (fun i => rprod Ns * wt (run c s (updates rs 0 data)) i)) by (intros; ring).
    rewrite Sum_scal, <- H2, full_inv_Sum by assumption. ring. }
  repeat split; [assumption|assumption|now apply rprod_pos|]. intros i Hi. rewrite <- P, <- H5 by assumption. ring.
Qed.
Lemma path_nonneg data : good_config c -> forall idx l i, 0 <= path_lik c rs idx data l i.
Proof. intros G. induction data as [|[o e] data IH]; intros idx l i; cbn [path_lik]; [lra|]. apply Rmult_le_pos; [apply (lik_nonneg c G)|apply IH]. Qed.
Lemma Sum_zero_each n f i : (forall j, (j < n)%nat -> 0 <= f j) -> Sum n f = 0 -> (i < n)%nat -> f i = 0.
Proof.
  intros Hf H0 Hi. apply Rle_antisym; [|now apply Hf]. rewrite <- H0. clear H0. revert f i Hf Hi. induction n as [|n IH]; intros f i Hf Hi; [lia|].
  rewrite Sum_S. destruct i as [|i].
  - assert (0 <= Sum n (fun j => f (S j))) by (apply Sum_nonneg; intros; apply Hf; lia). lra.
  - specialize (IH (fun j => f (S j)) i (fun j Hj => Hf (S j) ltac:(lia)) ltac:(lia)). specialize (Hf 0%nat ltac:(lia)). lra.
Qed.
Lemma averaged_weight pol n s i : good_config c -> zthresh c < 1 -> full_inv s -> Forall V (ls s) ->
  (forall data, In data (records dom pol n []) -> predictive c rs s data = 0 \/ regular c rs 0 data s) -> (i < n_particles s)%nat ->
  averaged c rs s (records dom pol n []) (fun s' => wt s' i) = wt s i.
Proof.
  intros G Ht Hinv HV Hr Hi. unfold averaged. rewrite (SumL_ext _ _ (fun data => wt s i * path_lik c rs 0 data (ls s) i)).
  - rewrite SumL_scal, path_total by assumption. ring.
  - intros data Hin. destruct (Hr data Hin) as [Z|R0].
    + rewrite Z, Rmult_0_l. symmetry. unfold predictive in Z. apply (Sum_zero_each _ _ i) in Z; [exact Z| |exact Hi].
      intros j Hj. apply Rmult_le_pos; [|now apply path_nonneg]. destruct Hinv as [HL [Hnn _]]. rewrite Forall_forall in Hnn. apply Hnn, nth_In. unfold n_particles in Hj. lia.
    + destruct (predictive_recorded s data G Ht Hinv R0) as (Ns & _ & _ & _ & H). now apply H.
Qed.
Lemma averaged_fun pol n s (f : nat -> R) : good_config c -> zthresh c < 1 -> full_inv s -> Forall V (ls s) ->
  (forall data, In data (records dom pol n []) -> predictive c rs s data = 0 \/ regular c rs 0 data s) ->
  averaged c rs s (records dom pol n []) (fun s' => Sum (n_particles s) (fun i => wt s' i * f i)) = Sum (n_particles s) (fun i => wt s i * f i).
Proof.
  intros G Ht Hinv HV Hr. unfold averaged. rewrite (SumL_ext _ _ (fun data => Sum (n_particles s) (fun i => f i * (predictive c rs s data * wt (run c s (updates rs 0 data)) i)))).
  - rewrite SumL_Sum_swap. apply Sum_ext. intros i Hi. rewrite SumL_scal. rewrite <- (averaged_weight pol n s i) at 1 by assumption. unfold averaged. ring.
  - intros data _. rewrite <- Sum_scal. apply Sum_ext. intros; ring.
Qed.
End A.

(** Moments in index form. *)
Section B.
Context {O E RND : Type}.
Variables (c : @config O E RND) (rs : nat -> RND).
Definition mom (w : nat -> R) (l : list loc) (f : loc -> R) : R := Sum (length l) (fun i => w i * f (nth i l [])).
Lemma rdot_mom w l j : length w = length l -> rdot w (col j l) = mom (fun i => nth i w 0) l (fun x => nth j x 0).
Proof. intros H. unfold col. rewrite rdot_map, (rsum_map2_index _ w l 0 []) by assumption. rewrite H. reflexivity. Qed.
Lemma cov_mom w l m n : length w = length l -> particle_cov w l m n =
  mom (fun i => nth i w 0) l (fun x => nth m x 0 * nth n x 0) - mom (fun i => nth i w 0) l (fun x => nth m x 0) * mom (fun i => nth i w 0) l (fun x => nth n x 0).
Proof.
  intros H. unfold particle_cov. rewrite !rdot_mom by assumption. f_equal. rewrite (rsum_map2_index _ w l 0 []) by assumption. unfold mom. rewrite H.
  apply Sum_ext. intros; ring.
Qed.
Lemma mean_mom d w l j : (j < d)%nat -> length w = length l -> nth j (particle_mean d w l) 0 = mom (fun i => nth i w 0) l (fun x => nth j x 0).
Proof.
  intros Hj H. unfold particle_mean. rewrite (nth_indep _ 0 (rdot w (col 0%nat l))) by (now rewrite map_length, seq_length).
  rewrite (map_nth (fun j => rdot w (col j l))), seq_nth by assumption. cbn. now apply rdot_mom.
Qed.
End B.

Section C.
Context {O E RND : Type}.
Variables (c : @config O E RND) (rs : nat -> RND) (dom : E -> list O).
Hypothesis (Hst : forall r l e, timestep (md c) r l e = l).
Variable (s : @state O).
Hypothesis (Hdom : forall x e, In x (ls s) -> SumL (dom e) (fun o => lik (md c) o x e) = 1).
Hypothesis (G : good_config c) (Ht : zthresh c < 1) (Hinv : full_inv s).

Lemma avg_mom pol n (f : loc -> R) :
  (forall data, In data (records dom pol n []) -> predictive c rs s data = 0 \/ regular c rs 0 data s) ->
  averaged c rs s (records dom pol n []) (fun s' => mom (fun i => nth i (ws s') 0) (ls s) f) = mom (wt s) (ls s) f.
Proof.
  intros Hr. unfold mom. exact (averaged_fun c rs dom (fun x => In x (ls s)) (step_len c G) (fun x e => Hdom x e) (fun r l e H => eq_ind_r (Forall _) H (Hst r l e)) pol n s
    (fun i => f (nth i (ls s) [])) G Ht Hinv (proj2 (Forall_forall _ _) (fun x H => H)) Hr).
Qed.
Lemma avg_ext recs (f g : @state O -> R) : (forall data, In data recs -> predictive c rs s data = 0 \/ f (run c s (updates rs 0 data)) = g (run c s (updates rs 0 data))) ->
  averaged c rs s recs f = averaged c rs s recs g.
Proof. intros H. unfold averaged. apply SumL_ext. intros data Hin. destruct (H data Hin) as [Z|Z]; rewrite Z; ring. Qed.
Lemma avg_plus recs f g : averaged c rs s recs (fun s' => f s' + g s') = averaged c rs s recs f + averaged c rs s recs g.
Proof. unfold averaged. rewrite !SumL_rsum, <- rsum_map_plus. apply rsum_map_ext. intros; ring. Qed.
Lemma avg_scal recs k f : averaged c rs s recs (fun s' => k * f s') = k * averaged c rs s recs f.
Proof. unfold averaged. rewrite <- SumL_scal. apply SumL_ext. intros; ring. Qed.
Lemma static_run data : regular c rs 0 data s -> length (ws (run c s (updates rs 0 data))) = length (ls s) /\ ls (run c s (updates rs 0 data)) = ls s.
Proof.
  intros H. pose proof (run_static_ls c rs data Hst G Ht 0%nat s Hinv H) as L. split; [|exact L].
  destruct (run_regular c rs G Ht data 0%nat s Hinv H) as ((Q & _) & _). now rewrite Q, L.
Qed.
Lemma avg_mean pol n d j : (j < d)%nat ->
  (forall data, In data (records dom pol n []) -> predictive c rs s data = 0 \/ regular c rs 0 data s) ->
  averaged c rs s (records dom pol n []) (fun s' => nth j (particle_mean d (ws s') (ls s')) 0) = nth j (particle_mean d (ws s) (ls s)) 0.
Proof.
  intros Hj Hr. rewrite mean_mom by (try assumption; apply Hinv). change (fun i => nth i (ws s) 0) with (wt s). rewrite <- (avg_mom pol n (fun x => nth j x 0) Hr). apply avg_ext. intros data Hin.
  destruct (Hr data Hin) as [Z|R0]; [now left|right]. destruct (static_run data R0) as [L1 L2]. rewrite mean_mom by (try assumption; congruence). now rewrite L2.
Qed.
Lemma avg_cov pol n d j k : (j < d)%nat -> (k < d)%nat ->
  (forall data, In data (records dom pol n []) -> predictive c rs s data = 0 \/ regular c rs 0 data s) ->
  particle_cov (ws s) (ls s) j k =
    averaged c rs s (records dom pol n []) (fun s' => particle_cov (ws s') (ls s') j k)
  + averaged c rs s (records dom pol n []) (fun s' =>
      (nth j (particle_mean d (ws s') (ls s')) 0 - nth j (particle_mean d (ws s) (ls s)) 0) * (nth k (particle_mean d (ws s') (ls s')) 0 - nth k (particle_mean d (ws s) (ls s)) 0)).
Proof.
  intros Hj Hk Hr. set (recs := records dom pol n []) in *. set (a := nth j (particle_mean d (ws s) (ls s)) 0). set (b := nth k (particle_mean d (ws s) (ls s)) 0).
  pose proof (avg_mean pol n d j Hj Hr) as Ma. pose proof (avg_mean pol n d k Hk Hr) as Mb. fold recs a in Ma. fold recs b in Mb.
  pose proof (avg_mom pol n (fun x => nth j x 0 * nth k x 0) Hr) as M2. fold recs in M2.
  assert (T : averaged c rs s recs (fun _ => 1) = 1).
  { unfold averaged. rewrite (SumL_ext _ _ (predictive c rs s)) by (intros; ring).
    apply (predictive_total c rs dom (fun x => In x (ls s)) (step_len c G) (fun x e => Hdom x e)); try assumption; [intros r l e; now rewrite Hst|now apply Forall_forall]. }
  assert (L0 : length (ws s) = length (ls s)) by apply Hinv.
  rewrite (cov_mom (ws s)), <- !(mean_mom d) by assumption. fold a b. change (fun i => nth i (ws s) 0) with (wt s). rewrite <- M2.
  rewrite <- avg_plus.
  rewrite (avg_ext recs (fun s' => particle_cov (ws s') (ls s') j k + (nth j (particle_mean d (ws s') (ls s')) 0 - a) * (nth k (particle_mean d (ws s') (ls s')) 0 - b))
    (fun s' => (mom (fun i => nth i (ws s') 0) (ls s) (fun x => nth j x 0 * nth k x 0) + (- a) * nth k (particle_mean d (ws s') (ls s')) 0) + ((- b) * nth j (particle_mean d (ws s') (ls s')) 0 + (a * b) * 1))).
  - rewrite !avg_plus, !avg_scal, Ma, Mb, T. ring.
  - intros data Hin. destruct (Hr data Hin) as [Z|R0]; [now left|right]. destruct (static_run data R0) as [L1 L2].
    assert (L3 : length (ws (run c s (updates rs 0 data))) = length (ls (run c s (updates rs 0 data)))) by congruence.
    rewrite cov_mom, <- !(mean_mom d) by assumption. rewrite L2. ring.
Qed.
End C.

(** ** Convergence *)
Lemma tends_ext u v l : (forall n, u n = v n) -> tends u l -> tends v l.
Proof. intros H Hu h Hh. destruct (Hu h Hh) as [N HN]. exists N. intros n Hn. rewrite <- H. now apply HN. Qed.
Lemma tends_const k : tends (fun _ => k) k.
Proof. intros h Hh. exists 0%nat. intros n _. rewrite Rminus_diag_eq by reflexivity. now rewrite Rabs_R0. Qed.
Lemma tends_plus u v a b : tends u a -> tends v b -> tends (fun n => u n + v n) (a + b).
Proof.
  intros Hu Hv h Hh. destruct (Hu (h/2) ltac:(lra)) as [N1 H1]. destruct (Hv (h/2) ltac:(lra)) as [N2 H2]. exists (max N1 N2). intros n Hn.
  specialize (H1 n ltac:(lia)). specialize (H2 n ltac:(lia)). apply Rabs_def2 in H1. apply Rabs_def2 in H2. apply Rabs_def1; lra.
Qed.
Lemma tends_scal k u a : tends u a -> tends (fun n => k * u n) (k * a).
Proof.
  intros Hu h Hh. pose proof (Rabs_pos k). destruct (Hu (h / (Rabs k + 1)) ltac:(apply Rdiv_lt_0_compat; lra)) as [N HN]. exists N. intros n Hn. specialize (HN n Hn).
  rewrite <- Rmult_minus_distr_l, Rabs_mult. apply Rle_lt_trans with (Rabs k * (h / (Rabs k + 1))); [apply Rmult_le_compat_l; [assumption|now apply Rlt_le]|].
  apply Rmult_lt_reg_r with (Rabs k + 1); [lra|]. replace (Rabs k * (h / (Rabs k + 1)) * (Rabs k + 1)) with (Rabs k * h) by (field; lra). nra.
Qed.
Lemma tends_SumL {A} (l : list A) (u : A -> nat -> R) (a : A -> R) : (forall x, In x l -> tends (u x) (a x)) -> tends (fun n => SumL l (fun x => u x n)) (SumL l a).
Proof.
  induction l as [|x l IH]; intros H; [exact (tends_const 0)|]. unfold SumL in *. cbn [fold_right]. apply (tends_plus (u x)); [apply H; now left|apply IH; intros; apply H; now right].
Qed.
Lemma tends_Sum m (u : nat -> nat -> R) (a : nat -> R) : (forall i, (i < m)%nat -> tends (u i) (a i)) -> tends (fun n => Sum m (fun i => u i n)) (Sum m a).
Proof.
  intros H. rewrite <- SumL_seq. apply (tends_ext (fun n => SumL (seq 0 m) (fun i => u i n))); [intros n; apply SumL_seq|].
  apply tends_SumL. intros i Hi. apply in_seq in Hi. apply H. lia.
Qed.

(** ** Logarithms of likelihood ratios *)
Lemma ln_lt_minus1 x : 0 < x -> x <> 1 -> ln x < x - 1.
Proof.
  intros Hx Hn. assert (H : exp (ln x) = x) by now apply exp_ln. assert (Hl : ln x <> 0) by (intros Z; rewrite Z, exp_0 in H; congruence).
  pose proof (exp_ineq1 (ln x) Hl). lra.
Qed.
Lemma ln_le_minus1' x : 0 < x -> ln x <= x - 1.
Proof. intros Hx. destruct (Req_EM_T x 1) as [->|H]; [rewrite ln_1; lra|]. now apply Rlt_le, ln_lt_minus1. Qed.
Lemma term_gibbs p r : 0 < p -> 0 < r -> p - r <= p * (ln p - ln r).
Proof.
  intros Hp Hr. pose proof (ln_le_minus1' (r / p) ltac:(now apply Rdiv_lt_0_compat)) as H. unfold Rdiv in H. rewrite ln_mult, ln_Rinv in H by (try assumption; now apply Rinv_0_lt_compat).
  apply (Rmult_le_compat_l p) in H; [|lra]. replace (p * (r * / p - 1)) with (r - p) in H by (field; lra). lra.
Qed.
Lemma term_gibbs_strict p r : 0 < p -> 0 < r -> p <> r -> p - r < p * (ln p - ln r).
Proof.
  intros Hp Hr Hn. assert (Hq : r / p <> 1). { intros Z. apply Hn. apply (f_equal (fun z => z * p)) in Z. unfold Rdiv in Z. rewrite Rmult_assoc, Rinv_l, Rmult_1_r, Rmult_1_l in Z by lra. congruence. }
  pose proof (ln_lt_minus1 (r / p) ltac:(now apply Rdiv_lt_0_compat) Hq) as H. unfold Rdiv in H. rewrite ln_mult, ln_Rinv in H by (try assumption; now apply Rinv_0_lt_compat).
  apply (Rmult_lt_compat_l p) in H; [|lra]. replace (p * (r * / p - 1)) with (r - p) in H by (field; lra). lra.
Qed.
Lemma SumL_minus {A} (l : list A) f g : SumL l (fun a => f a - g a) = SumL l f - SumL l g.
Proof. induction l as [|x l IH]; unfold SumL in *; cbn [fold_right]; [ring|]. rewrite IH. ring. Qed.
Lemma SumL_lt {A} (l : list A) f g x : In x l -> f x < g x -> (forall a, In a l -> f a <= g a) -> SumL l f < SumL l g.
Proof.
  induction l as [|y l IH]; intros Hx Hlt Hle; [destruct Hx|]. pose proof (SumL_le l f g (fun a Ha => Hle a (or_intror Ha))) as HL. pose proof (Hle y (or_introl eq_refl)) as Hy.
  assert (C1 : SumL (y :: l) f = f y + SumL l f) by reflexivity. assert (C2 : SumL (y :: l) g = g y + SumL l g) by reflexivity. rewrite C1, C2.
  destruct Hx as [->|Hx]; [lra|]. specialize (IH Hx Hlt (fun a Ha => Hle a (or_intror Ha))). lra.
Qed.
Lemma gibbs {A} (l : list A) (p r : A -> R) : (forall a, In a l -> 0 < p a) -> (forall a, In a l -> 0 < r a) -> SumL l p = 1 -> SumL l r = 1 ->
  0 <= SumL l (fun a => p a * (ln (p a) - ln (r a))) /\ ((exists a, In a l /\ p a <> r a) -> 0 < SumL l (fun a => p a * (ln (p a) - ln (r a)))).
Proof.
  intros Hp Hr Sp Sr. assert (Z : SumL l (fun a => p a - r a) = 0) by (rewrite SumL_minus; lra). split.
  - rewrite <- Z. apply SumL_le. intros a Ha. apply term_gibbs; auto.
  - intros (a & Ha & Hn). rewrite <- Z. apply (SumL_lt _ _ _ a Ha); [apply term_gibbs_strict; auto|intros b Hb; apply term_gibbs; auto].
Qed.
Lemma count_group {A} (dec : forall a b : A, {a = b} + {a <> b}) (keys l : list A) (g : A -> R) : NoDup keys -> (forall a, In a l -> In a keys) ->
  SumL l g = SumL keys (fun v => INR (count_occ dec l v) * g v).
Proof.
  intros Hn Hin. rewrite <- (SumL_group dec (fun a => a) g keys l Hn Hin). apply SumL_ext. intros v _. clear.
  induction l as [|a l IH]; cbn [filter count_occ]; [unfold SumL; cbn; ring|]. destruct (dec a v) as [->|D]; [|exact IH].
  assert (C1 : SumL (v :: filter (fun a => if dec a v then true else false) l) g = g v + SumL (filter (fun a => if dec a v then true else false) l) g) by reflexivity.
  rewrite C1, IH, S_INR. ring.
Qed.
Lemma ln_rprod l : Forall (fun x => 0 < x) l -> ln (rprod l) = SumL l ln.
Proof. induction 1 as [|x l Hx Hl IH]; [unfold rprod, SumL; cbn; apply ln_1|]. rewrite rprod_cons, ln_mult, IH by (try assumption; now apply rprod_pos). reflexivity. Qed.

Section D.
Context {O E RND : Type}.
Variables (c : @config O E RND) (rs : nat -> RND) (s : @state O).
Hypothesis (Hst : forall r l e, timestep (md c) r l e = l).
Hypothesis (G : good_config c) (Ht : zthresh c < 1) (Hinv : full_inv s).
Notation after data := (run c s (updates rs 0 data)).
Definition L (i : nat) (p : O * E) : R := lik (md c) (fst p) (at_ s i) (snd p).

Lemma wt_range (s' : @state O) i : full_inv s' -> 0 <= wt s' i <= 1.
Proof.
  intros [HL [Hnn Hs]]. unfold wt. destruct (Nat.lt_ge_cases i (length (ws s'))) as [Hi|Hi]; [|rewrite nth_overflow by lia; lra].
  assert (0 <= nth i (ws s') 0) by (rewrite Forall_forall in Hnn; now apply Hnn, nth_In). split; [assumption|]. rewrite <- Hs, rsum_index.
  clear - Hnn Hi. revert i Hi. induction (ws s') as [|w l IH]; intros i Hi; [cbn in Hi; lia|]. cbn [length] in *. rewrite Sum_S.
  inversion Hnn as [|? ? Hw Hl]; subst. assert (0 <= Sum (length l) (fun i => nth i l 0)) by (apply Sum_nonneg; intros j Hj; rewrite Forall_forall in Hl; now apply Hl, nth_In).
  destruct i as [|i]; cbn [nth]; [lra|]. specialize (IH Hl i ltac:(lia)). lra.
Qed.
Lemma odds data i t : regular c rs 0 data s -> (i < n_particles s)%nat -> (t < n_particles s)%nat ->
  wt (after data) i * (wt s t * rprod (map (L t) data)) = wt (after data) t * (wt s i * rprod (map (L i) data)).
Proof.
  intros Hr Hi Htt. destruct (predictive_recorded c rs s data G Ht Hinv Hr) as (Ns & _ & P & Pp & H).
  pose proof (H i Hi) as H1. pose proof (H t Htt) as H2. rewrite <- P in H1, H2. rewrite !path_lik_static in H1, H2 by assumption.
  change (rprod (map (fun d => lik (md c) (fst d) (nth i (ls s) []) (snd d)) data)) with (rprod (map (L i) data)) in H1.
  change (rprod (map (fun d => lik (md c) (fst d) (nth t (ls s) []) (snd d)) data)) with (rprod (map (L t) data)) in H2. rewrite <- H1, <- H2. ring.
Qed.

Variables (dom : E -> list O) (es : list E) (q : E -> R) (t : nat) (dec : forall a b : O * E, {a = b} + {a <> b}) (d : nat -> O * E).
Definition pairs := flat_map (fun e => map (fun o => (o, e)) (dom e)) es.
Hypothesis (Hdom : forall x e, In x (ls s) -> In e es -> SumL (dom e) (fun o => lik (md c) o x e) = 1).
Hypothesis (Hpos : forall x e o, In x (ls s) -> In e es -> In o (dom e) -> eps <= lik (md c) o x e).
Hypothesis (Hnd : NoDup pairs).
Hypothesis (Hd : forall k, In (d k) pairs).
Hypothesis (Hq : forall e, In e es -> 0 <= q e).
Hypothesis (Htn : (t < n_particles s)%nat) (Hwt : 0 < wt s t).
Hypothesis (Hf : forall p, In p pairs -> tends (freq dec d p) (q (snd p) * lik (md c) (fst p) (at_ s t) (snd p))).

Definition first (n : nat) : list (O * E) := map d (seq 0 n).
Lemma first_pairs n p : In p (first n) -> In p pairs.
Proof. intros H. apply in_map_iff in H. destruct H as (k & <- & _). apply Hd. Qed.
Lemma pairs_in p : In p pairs -> In (snd p) es /\ In (fst p) (dom (snd p)).
Proof. intros H. apply in_flat_map in H. destruct H as (e & He & H). apply in_map_iff in H. destruct H as (o & <- & Ho). now split. Qed.
Lemma L_eps i p : (i < n_particles s)%nat -> In p pairs -> eps <= L i p.
Proof. intros Hi Hp. apply pairs_in in Hp. destruct Hp. apply Hpos; try assumption. now apply nth_In. Qed.
Lemma L_pos i p : (i < n_particles s)%nat -> In p pairs -> 0 < L i p.
Proof. intros Hi Hp. pose proof (L_eps i p Hi Hp). pose proof eps_pos. lra. Qed.

Lemma regular_static data : (forall p, In p data -> In p pairs) -> forall idx s', full_inv s' -> ls s' = ls s -> regular c rs idx data s'.
Proof.
  induction data as [|[o e] data IH]; intros HB idx s' Hi' El; [exact I|].
  assert (Ev : eps <= evidence c s' o e).
  { pose proof (full_inv_Sum s' Hi') as S1. unfold evidence. rewrite <- (Rmult_1_r eps), <- S1, <- Sum_scal. apply Sum_le. intros i Hi.
    pose proof (wt_range s' i Hi'). assert (eps <= lik (md c) o (at_ s' i) e).
    { unfold at_. rewrite El. apply (L_eps i (o, e)); [unfold n_particles in *; now rewrite <- El|apply HB; now left]. }
    pose proof eps_pos. rewrite Rmult_comm. apply Rmult_le_compat_l; [lra|assumption]. }
  split; [exact Ev|]. pose proof (run_regular c rs G Ht [(o, e)] idx s' Hi' (conj Ev I)) as (Q1 & _).
  apply IH; [intros; apply HB; now right|exact Q1|]. rewrite <- El. exact (run_static_ls c rs [(o, e)] Hst G Ht idx s' Hi' (conj Ev I)).
Qed.
Lemma regular_first n : regular c rs 0 (first n) s.
Proof. apply regular_static; [apply first_pairs|exact Hinv|reflexivity]. Qed.

Definition gap (i : nat) (p : O * E) : R := ln (L t p) - ln (L i p).
Lemma ratio n i : (i < n_particles s)%nat -> rprod (map (L i) (first n)) = rprod (map (L t) (first n)) * exp (- SumL (first n) (gap i)).
Proof.
  intros Hi. assert (F : forall j, (j < n_particles s)%nat -> Forall (fun x => 0 < x) (map (L j) (first n))).
  { intros j Hj. apply Forall_forall. intros x Hx. apply in_map_iff in Hx. destruct Hx as (p & <- & Hp). apply L_pos; [assumption|now apply (first_pairs n)]. }
  unfold gap. rewrite SumL_minus. rewrite <- (SumL_map (L t) (first n) ln), <- (SumL_map (L i) (first n) ln), <- !ln_rprod by auto.
  pose proof (rprod_pos _ (F i Hi)). pose proof (rprod_pos _ (F t Htn)).
  replace (- (ln (rprod (map (L t) (first n))) - ln (rprod (map (L i) (first n))))) with (ln (rprod (map (L i) (first n))) + - ln (rprod (map (L t) (first n)))) by ring.
  rewrite exp_plus, exp_Ropp, !exp_ln by assumption. field. lra.
Qed.
Lemma gap_freq n i : (0 < n)%nat -> SumL (first n) (gap i) = INR n * SumL pairs (fun p => freq dec d p n * gap i p).
Proof.
  intros Hn. rewrite (count_group dec pairs (first n) (gap i) Hnd (first_pairs n)). rewrite <- SumL_scal. apply SumL_ext. intros p _. unfold freq. fold (first n). field. apply not_0_INR. lia.
Qed.
Definition div (i : nat) : R := SumL pairs (fun p => q (snd p) * L t p * gap i p).
Lemma div_sum i : div i = SumL es (fun e => q e * SumL (dom e) (fun o => L t (o, e) * (ln (L t (o, e)) - ln (L i (o, e))))).
Proof. unfold div, pairs. rewrite SumL_flat_map. apply SumL_ext. intros e _. rewrite SumL_map, <- SumL_scal. apply SumL_ext. intros o _. unfold gap. cbn [snd]. ring. Qed.
Lemma at_in i : (i < n_particles s)%nat -> In (at_ s i) (ls s).
Proof. intros Hi. now apply nth_In. Qed.
Lemma div_pos i : (i < n_particles s)%nat -> (exists e o, In e es /\ 0 < q e /\ In o (dom e) /\ lik (md c) o (at_ s i) e <> lik (md c) o (at_ s t) e) -> 0 < div i.
Proof.
  intros Hi (e & o & He & Hqe & Ho & Hn). rewrite div_sum.
  assert (P : forall j e' o', (j < n_particles s)%nat -> In e' es -> In o' (dom e') -> 0 < L j (o', e')).
  { intros j e' o' Hj He' Ho'. apply L_pos; [assumption|]. apply in_flat_map. exists e'. split; [assumption|]. apply in_map_iff. now exists o'. }
  assert (Gi : forall e', In e' es -> 0 <= SumL (dom e') (fun o => L t (o, e') * (ln (L t (o, e')) - ln (L i (o, e')))) /\
    ((exists a, In a (dom e') /\ L t (a, e') <> L i (a, e')) -> 0 < SumL (dom e') (fun o => L t (o, e') * (ln (L t (o, e')) - ln (L i (o, e')))))).
  { intros e' He'. apply (gibbs (dom e') (fun o => L t (o, e')) (fun o => L i (o, e'))); try (intros; apply P; assumption).
    - apply (Hdom (at_ s t) e'); [now apply at_in|assumption].
    - apply (Hdom (at_ s i) e'); [now apply at_in|assumption]. }
  replace 0 with (SumL es (fun _ => 0)) by (rewrite SumL_rsum; apply rsum_map_zero).
  apply (SumL_lt _ _ _ e He).
  - apply Rmult_lt_0_compat; [assumption|]. apply Gi; [assumption|]. exists o. split; [assumption|]. unfold L. cbn [fst snd]. auto.
  - intros e' He'. apply Rmult_le_pos; [now apply Hq|now apply Gi].
Qed.
Lemma ruled_out i : (i < n_particles s)%nat -> 0 < div i -> tends (fun n => wt (after (first n)) i) 0.
Proof.
  intros Hi HD. set (D := div i) in *.
  assert (T : tends (fun n => SumL pairs (fun p => freq dec d p n * gap i p)) D).
  { apply tends_SumL. intros p Hp. apply (tends_ext (fun n => gap i p * freq dec d p n)); [intros; ring|].
    replace (q (snd p) * L t p * gap i p) with (gap i p * (q (snd p) * L t p)) by ring. apply tends_scal. now apply Hf. }
  intros h Hh. destruct (T (D/2) ltac:(lra)) as [N1 HN1]. pose proof (wt_range s i Hinv) as Wi.
  set (K := wt s i / wt s t). assert (K0 : 0 <= K) by (unfold K; apply Rmult_le_pos; [lra|apply Rlt_le, Rinv_0_lt_compat; lra]).
  destruct (archimed (2 * K / (h * D))) as [A1 _]. set (z := up (2 * K / (h * D))) in *.
  exists (max (S N1) (Z.to_nat z)). intros n Hn. specialize (HN1 n ltac:(lia)). apply Rabs_def2 in HN1.
  assert (Hr : regular c rs 0 (first n) s) by apply regular_first.
  pose proof (odds (first n) i t Hr Hi Htn) as Od. rewrite (ratio n i Hi) in Od.
  assert (Fp : 0 < rprod (map (L t) (first n))).
  { apply rprod_pos. apply Forall_forall. intros x Hx. apply in_map_iff in Hx. destruct Hx as (p & <- & Hp). apply L_pos; [assumption|now apply (first_pairs n)]. }
  rewrite gap_freq in Od by lia. set (S0 := SumL pairs (fun p => freq dec d p n * gap i p)) in *.
  destruct (run_regular c rs G Ht (first n) 0%nat s Hinv Hr) as (I1 & _).
  pose proof (wt_range _ i I1) as Wn. pose proof (wt_range _ t I1) as Wtn. set (a := wt (after (first n)) i) in *. set (b := wt (after (first n)) t) in *.
  assert (Od' : a = b * K * exp (- (INR n * S0))).
  { unfold K. apply Rmult_eq_reg_r with (wt s t * rprod (map (L t) (first n))); [|apply Rgt_not_eq, Rmult_lt_0_compat; assumption]. rewrite Od. field. lra. }
  rewrite Rminus_0_r, Rabs_pos_eq by lra.
  assert (Np : INR n > 2 * K / (h * D)).
  { destruct (Z_lt_le_dec z 0) as [Hz|Hz]; [apply IZR_lt in Hz; pose proof (pos_INR n); lra|].
    apply Rlt_le_trans with (IZR z); [exact A1|]. rewrite INR_IZR_INZ. apply IZR_le. lia. }
  assert (n0 : 0 < INR n) by (apply lt_0_INR; lia).
  assert (X : INR n * D / 2 <= INR n * S0). { unfold Rdiv. rewrite Rmult_assoc. apply Rmult_le_compat_l; lra. }
  assert (Y : exp (- (INR n * S0)) <= / (1 + INR n * D / 2)).
  { rewrite exp_Ropp. apply Rinv_le_contravar; [nra|]. apply Rle_trans with (exp (INR n * D / 2)); [apply exp_ineq1_le|]. destruct (Rle_lt_or_eq_dec _ _ X) as [X'|X']; [now apply Rlt_le, exp_increasing|rewrite X'; lra]. }
  assert (Z0 : a <= K * / (1 + INR n * D / 2)).
  { rewrite Od'. apply Rle_trans with (K * exp (- (INR n * S0))).
    - rewrite Rmult_assoc. rewrite <- (Rmult_1_l (K * exp (- (INR n * S0)))) at 2. apply Rmult_le_compat_r; [|lra]. apply Rmult_le_pos; [assumption|apply Rlt_le, exp_pos].
    - now apply Rmult_le_compat_l. }
  apply Rle_lt_trans with (1 := Z0). apply Rmult_lt_reg_r with (1 + INR n * D / 2); [nra|]. rewrite Rmult_assoc, Rinv_l by nra. rewrite Rmult_1_r.
  apply Rmult_gt_compat_r with (r := h * D) in Np; [|nra]. unfold Rdiv in Np. rewrite Rmult_assoc, Rinv_l, Rmult_1_r in Np by nra. nra.
Qed.

Lemma weights_total n : Sum (n_particles s) (fun i => wt (after (first n)) i) = 1.
Proof.
  destruct (run_regular c rs G Ht (first n) 0%nat s Hinv (regular_first n)) as (I1 & I2 & _). rewrite <- I2. exact (full_inv_Sum _ I1).
Qed.
Lemma expectation_tends (f : loc -> R) : (forall i, (i < n_particles s)%nat -> f (at_ s i) = f (at_ s t) \/ 0 < div i) ->
  tends (fun n => Sum (n_particles s) (fun i => wt (after (first n)) i * f (at_ s i))) (f (at_ s t)).
Proof.
  intros H.
  apply (tends_ext (fun n => f (at_ s t) + Sum (n_particles s) (fun i => (f (at_ s i) - f (at_ s t)) * wt (after (first n)) i))).
  - intros n. rewrite (Sum_ext _ (fun i => wt (after (first n)) i * f (at_ s i)) (fun i => (f (at_ s i) - f (at_ s t)) * wt (after (first n)) i + f (at_ s t) * wt (after (first n)) i)) by (intros; ring).
    rewrite Sum_plus, Sum_scal, weights_total. ring.
  - rewrite <- (Rplus_0_r (f (at_ s t))) at 1. apply (tends_plus (fun _ => _)); [apply tends_const|].
    assert (Z : Sum (n_particles s) (fun i => 0) = 0) by (apply Sum_zero; reflexivity). rewrite <- Z. apply tends_Sum. intros i Hi.
    destruct (H i Hi) as [Hz|HD].
    + apply (tends_ext (fun _ => 0)); [|apply tends_const]. intros n. rewrite Hz. ring.
    + replace 0 with ((f (at_ s i) - f (at_ s t)) * 0) by ring. apply (tends_scal (f (at_ s i) - f (at_ s t)) (fun n => wt (after (first n)) i)). now apply ruled_out.
Qed.
End D.
