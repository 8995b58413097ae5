(** C146: approximate likelihoods move the posterior little.  Two updaters whose initial weights agree up to a factor [rho] and whose
    likelihoods agree up to a factor [kappa] on every datum end with weights that agree up to a power of these factors. *)
From Verif Require Import Base RList Ext Sums SmcModel SmcSpec SmcProofs SmcProofs2 PartModel PartSpec PartProofs PartProofs3 PartProps CountProofs DerModel DerProps.
From Coq Require Import List.

(** [u] and [v] agree up to the factor [k] *)
Definition near (k u v : R) : Prop := u <= k * v /\ v <= k * u.

Lemma near_mult k h u v u' v' : 0 <= k -> 0 <= h -> 0 <= u -> 0 <= v -> 0 <= u' -> 0 <= v' -> near k u v -> near h u' v' -> near (k * h) (u * u') (v * v').
Proof. intros Hk Hh Hu Hv Hu' Hv' [A1 A2] [B1 B2]. split; [replace (k * h * (v * v')) with ((k * v) * (h * v')) by ring|replace (k * h * (u * u')) with ((k * u) * (h * u')) by ring]; apply Rmult_le_compat; assumption. Qed.
Lemma near_Sum n k f g : (forall i, (i < n)%nat -> near k (f i) (g i)) -> near k (Sum n f) (Sum n g).
Proof. intros H. split; rewrite <- Sum_scal; apply Sum_le; intros i Hi; apply H; assumption. Qed.

Section Two.
Context {O E RND O' E' RND' : Type}.
Variable c : @config O E RND.
Variable c' : @config O' E' RND'.
(** The likelihoods of corresponding data agree up to [kappa] on the particles *)
Definition near_data (kappa : R) (l : list loc) (data : list (O * E)) (data' : list (O' * E')) : Prop :=
  Forall2 (fun d d' => forall x, In x l -> near kappa (lik (md c) (fst d) x (snd d)) (lik (md c') (fst d') x (snd d'))) data data'.

Lemma near_path kappa l : good_config c -> good_config c' -> 0 <= kappa -> forall data data', near_data kappa l data data' -> forall x, In x l ->
  near (kappa ^ length data) (rprod (map (fun d => lik (md c) (fst d) x (snd d)) data)) (rprod (map (fun d => lik (md c') (fst d) x (snd d)) data')).
Proof.
  intros G G' Hk data data' H x Hx. induction H as [|d d' data data' Hd H IH]; [unfold rprod, near; cbn; lra|]. cbn [map length pow]. rewrite !rprod_cons.
  apply near_mult; [assumption|now apply pow_le|apply (lik_nonneg c G)|apply (lik_nonneg c' G')| | |now apply Hd|exact IH]; apply rprod_nonneg; apply Forall_forall; intros y Hy; apply in_map_iff in Hy as (z & <- & _); [apply (lik_nonneg c G)|apply (lik_nonneg c' G')].
Qed.

(** Everything below is about these two runs. *)
Variables (rs : nat -> RND) (rs' : nat -> RND') (s : @state O) (s' : @state O') (data : list (O * E)) (data' : list (O' * E')) (rho kappa : R).
Definition close_runs : Prop :=
  good_config c /\ good_config c' /\ zthresh c < 1 /\ zthresh c' < 1 /\ (forall r l e, timestep (md c) r l e = l) /\ (forall r l e, timestep (md c') r l e = l) /\
  full_inv s /\ full_inv s' /\ ls s' = ls s /\ regular c rs 0 data s /\ regular c' rs' 0 data' s' /\ 1 <= rho /\ 1 <= kappa /\
  (forall i, (i < n_particles s)%nat -> near rho (wt s i) (wt s' i)) /\ near_data kappa (ls s) data data'.
Let a := run c s (updates rs 0 data).
Let b := run c' s' (updates rs' 0 data').
Let K := rho * kappa ^ length data.

Lemma wt_nonneg {T} (t : @state T) i : full_inv t -> 0 <= wt t i.
Proof. intros [_ [Hw _]]. unfold wt. destruct (nth_in_or_default i (ws t) 0) as [H|H]; [|lra]. rewrite Forall_forall in Hw. now apply Hw. Qed.

Lemma close_lem : close_runs -> 1 <= K /\ n_particles b = n_particles s /\ n_particles a = n_particles s /\ full_inv a /\ full_inv b /\
  (forall i, (i < n_particles s)%nat -> near (K ^ 2) (wt a i) (wt b i)) /\
  exists Na Nb, nrec a = nrec s ++ Na /\ nrec b = nrec s' ++ Nb /\ Forall (fun x => 0 < x) Na /\ Forall (fun x => 0 < x) Nb /\ near K (rprod Na) (rprod Nb).
Proof.
  intros (G & G' & Ht & Ht' & Hst & Hst' & Hi & Hi' & El & R1 & R2 & Hr & Hk & Hw & HL).
  destruct (run_regular c rs G Ht data 0%nat s Hi R1) as (A1 & A2 & Na & A3 & A4 & A5). destruct (run_regular c' rs' G' Ht' data' 0%nat s' Hi' R2) as (B1 & B2 & Nb & B3 & B4 & B5). fold a in A1, A2, A3, A5. fold b in B1, B2, B3, B5.
  assert (En : n_particles s' = n_particles s) by (unfold n_particles; now rewrite El). rewrite En in *.
  assert (HK1 : 1 <= kappa ^ length data) by (apply pow_R1_Rle; assumption). assert (HK : 1 <= K) by (unfold K; nra).
  assert (HU : forall i, (i < n_particles s)%nat -> near K (wt a i * rprod Na) (wt b i * rprod Nb)).
  { intros i Hi0. rewrite A5, B5 by assumption. rewrite !path_lik_static by assumption. rewrite El. assert (Hin : In (nth i (ls s) []) (ls s)) by (now apply nth_In).
    unfold K. apply near_mult; try lra; try (now apply wt_nonneg); [| |now apply Hw|apply (near_path kappa (ls s)); try assumption; lra].
    - apply rprod_nonneg, Forall_forall. intros y Hy. apply in_map_iff in Hy as (z & <- & _). apply (lik_nonneg c G).
    - apply rprod_nonneg, Forall_forall. intros y Hy. apply in_map_iff in Hy as (z & <- & _). apply (lik_nonneg c' G'). }
  assert (HN : near K (rprod Na) (rprod Nb)).
  { pose proof (full_inv_Sum a A1) as Sa. pose proof (full_inv_Sum b B1) as Sb. rewrite A2 in Sa. rewrite B2 in Sb.
    pose proof (near_Sum _ _ _ _ HU) as HS. cbv beta in HS. rewrite !Sum_scal_r, Sa, Sb, !Rmult_1_l in HS. exact HS. }
  pose proof (rprod_pos _ A4) as PA. pose proof (rprod_pos _ B4) as PB.
  split; [exact HK|]. split; [exact B2|]. split; [exact A2|]. split; [exact A1|]. split; [exact B1|]. split; [|exists Na, Nb; repeat split; try assumption; apply HN].
  intros i Hi0. destruct (HU i Hi0) as [U1 U2]. destruct HN as [N1 N2]. pose proof (wt_nonneg a i A1) as Wa. pose proof (wt_nonneg b i B1) as Wb.
  set (x := wt a i) in *. set (y := wt b i) in *. set (A0 := rprod Na) in *. set (B0 := rprod Nb) in *. clearbody x y A0 B0 K. split.
  - apply Rmult_le_reg_r with A0; [assumption|]. apply Rle_trans with (1 := U1). replace (K ^ 2 * y * A0) with (K * (y * (K * A0))) by ring. apply Rmult_le_compat_l; [lra|]. apply Rmult_le_compat_l; [assumption|exact N2].
  - apply Rmult_le_reg_r with B0; [assumption|]. apply Rle_trans with (1 := U2). replace (K ^ 2 * x * B0) with (K * (x * (K * B0))) by ring. apply Rmult_le_compat_l; [lra|]. apply Rmult_le_compat_l; [assumption|exact N1].
Qed.

(** Every weight. *)
Theorem c146_weights i : close_runs -> (i < n_particles s)%nat -> near (K ^ 2) (wt a i) (wt b i).
Proof. intros H Hi. now apply close_lem. Qed.
(** Every posterior average of a quantity between [lo] and [hi]; in particular est_mean. *)
Theorem c146_averages f lo hi : close_runs -> (forall i, (i < n_particles s)%nat -> lo <= f i <= hi) ->
  Rabs (Sum (n_particles s) (fun i => wt b i * f i) - Sum (n_particles s) (fun i => wt a i * f i)) <= (1 - / K ^ 2) * (hi - lo).
Proof.
  intros H Hf. destruct (close_lem H) as (HK & Nb & Na & Ia & Ib & Hw & _). pose proof (full_inv_Sum a Ia) as Sa. pose proof (full_inv_Sum b Ib) as Sb. rewrite Na in Sa. rewrite Nb in Sb.
  assert (HK2 : 1 <= K ^ 2) by (apply pow_R1_Rle; exact HK). set (k := / K ^ 2). assert (Hk : 0 < k <= 1) by (split; [apply Rinv_0_lt_compat; lra|unfold k; rewrite <- Rinv_1; apply Rinv_le_contravar; lra]).
  assert (Hge : forall i, (i < n_particles s)%nat -> 0 <= wt b i - k * wt a i).
  { intros i Hi. destruct (Hw i Hi) as [W1 _]. assert (k * wt a i <= k * (K ^ 2 * wt b i)) by (apply Rmult_le_compat_l; lra). assert (k * (K ^ 2 * wt b i) = wt b i) by (unfold k; field; apply Rgt_not_eq; nra). lra. }
  set (Ef := Sum (n_particles s) (fun i => wt a i * f i)).
  assert (Bound : lo <= Ef <= hi).
  { unfold Ef. split; [rewrite <- (Rmult_1_r lo), <- Sa|rewrite <- (Rmult_1_r hi), <- Sa]; rewrite <- Sum_scal; apply Sum_le; intros i Hi; pose proof (wt_nonneg a i Ia); specialize (Hf i Hi); nra. }
  assert (Split : Sum (n_particles s) (fun i => wt b i * f i) = k * Ef + Sum (n_particles s) (fun i => (wt b i - k * wt a i) * f i)).
  { unfold Ef. rewrite <- Sum_scal, <- Sum_plus. apply Sum_ext. intros; ring. }
  assert (Rest : Sum (n_particles s) (fun i => wt b i - k * wt a i) = 1 - k) by (rewrite Sum_minus, Sum_scal, Sa, Sb; ring).
  assert (Rb : lo * (1 - k) <= Sum (n_particles s) (fun i => (wt b i - k * wt a i) * f i) <= hi * (1 - k)).
  { rewrite <- Rest. rewrite <- !Sum_scal. split; apply Sum_le; intros i Hi; specialize (Hf i Hi); specialize (Hge i Hi); nra. }
  rewrite Split. set (rest := Sum (n_particles s) (fun i => (wt b i - k * wt a i) * f i)) in *. clearbody rest Ef. clear - Bound Rb Hk.
  apply Rabs_le. split; nra.
Qed.
Theorem c146_mean d j lo hi : close_runs -> (j < d)%nat -> (forall x, In x (ls s) -> lo <= nth j x 0 <= hi) ->
  Rabs (nth j (est_mean d (ws b) (ls b)) 0 - nth j (est_mean d (ws a) (ls a)) 0) <= (1 - / K ^ 2) * (hi - lo).
Proof.
  intros H Hj Hx. destruct (close_lem H) as (_ & Nb & Na & Ia & Ib & _). assert (H' := H). destruct H' as (G & G' & Ht & Ht' & Hst & Hst' & Hi & Hi' & El & R1 & R2 & _).
  assert (La : ls a = ls s) by (apply run_static_ls; assumption). assert (Lb : ls b = ls s).
  { transitivity (ls s'); [apply run_static_ls; assumption|exact El]. }
  rewrite !c17_mean_is_weighted_average by (try assumption; apply Ia || apply Ib). unfold expect. rewrite (proj1 Ia), (proj1 Ib). fold (n_particles a). fold (n_particles b). rewrite Na, Nb, La, Lb.
  apply (c146_averages (fun i => coord (ls s) j i) lo hi); [exact H|]. intros i0 Hi0. unfold coord. apply Hx. now apply nth_In.
Qed.
(** The total likelihoods. *)
Theorem c146_total_likelihood : close_runs -> nrec s = [] -> nrec s' = [] ->
  exists x y, log_total_likelihood a = Fin x /\ log_total_likelihood b = Fin y /\ Rabs (y - x) <= ln rho + INR (length data) * ln kappa.
Proof.
  intros H E1 E2. destruct (close_lem H) as (HK & _ & _ & _ & _ & _ & Na & Nb & A1 & B1 & A2 & B2 & N1 & N2). rewrite E1 in A1. rewrite E2 in B1. cbn [app] in A1, B1.
  exists (ln (rprod Na)), (ln (rprod Nb)). split; [rewrite log_total_exp; now rewrite A1|]. split; [rewrite log_total_exp; now rewrite B1|].
  pose proof (rprod_pos _ A2) as PA. pose proof (rprod_pos _ B2) as PB. destruct H as (_ & _ & _ & _ & _ & _ & _ & _ & _ & _ & _ & Hr & Hk & _).
  assert (EK : ln K = ln rho + INR (length data) * ln kappa) by (unfold K; rewrite ln_mult, ln_pow; [reflexivity|lra|lra|apply pow_lt; lra]).
  rewrite <- EK. assert (L : forall u v, 0 < u -> 0 < v -> u <= K * v -> ln u - ln v <= ln K).
  { intros u v Hu Hv Huv. assert (ln u <= ln (K * v)) by (destruct Huv as [Huv|Huv]; [left; now apply ln_increasing|right; now rewrite <- Huv]). rewrite ln_mult in H by lra. lra. }
  apply Rabs_le. pose proof (L _ _ PA PB N1). pose proof (L _ _ PB PA N2). lra.
Qed.
(** The effective sample sizes. *)
Theorem c146_n_ess : close_runs -> exists x y, n_ess (ws a) = Fin x /\ n_ess (ws b) = Fin y /\ near (K ^ 4) x y.
Proof.
  intros H. destruct (close_lem H) as (HK & Nb & Na & Ia & Ib & Hw & _). destruct (n_ess_Fin _ (proj2 Ia)) as [Pa Ea]. destruct (n_ess_Fin _ (proj2 Ib)) as [Pb Eb].
  exists (/ sumsq (ws a)), (/ sumsq (ws b)). split; [exact Ea|]. split; [exact Eb|].
  assert (Q : forall T (t : @state T), full_inv t -> sumsq (ws t) = Sum (n_particles t) (fun i => wt t i * wt t i)).
  { intros T t It. unfold sumsq. rewrite rsum_index, map_length, (proj1 It). apply Sum_ext. intros i Hi. rewrite (nth_indep _ 0 (0 * 0)) by (rewrite map_length, (proj1 It); exact Hi). now rewrite (map_nth (fun x => x * x)). }
  rewrite !Q in * by assumption. rewrite Na, Nb in *. assert (HK2 : 1 <= K ^ 2) by (apply pow_R1_Rle; exact HK).
  assert (HS : near (K ^ 4) (Sum (n_particles s) (fun i => wt a i * wt a i)) (Sum (n_particles s) (fun i => wt b i * wt b i))).
  { apply near_Sum. intros i Hi. replace (K ^ 4) with (K ^ 2 * K ^ 2) by ring. apply near_mult; try lra; try (now apply wt_nonneg); now apply Hw. }
  set (x := Sum _ (fun i => wt a i * wt a i)) in *. set (y := Sum _ (fun i => wt b i * wt b i)) in *. clearbody x y. assert (HK4 : 1 <= K ^ 4) by (apply pow_R1_Rle; exact HK). set (q := K ^ 4) in *. clearbody q. destruct HS as [S1 S2].
  split; (apply Rmult_le_reg_r with (x * y); [now apply Rmult_lt_0_compat|]).
  - replace (/ x * (x * y)) with y by (field; lra). replace (q * / y * (x * y)) with (q * x) by (field; lra). exact S2.
  - replace (/ y * (x * y)) with x by (field; lra). replace (q * / x * (x * y)) with (q * y) by (field; lra). exact S1.
Qed.
End Two.

(** PoisonedModel: noise of at most [tau] on likelihoods of at least [p0 > tau] stays within the factor p0 / (p0 - tau). *)
Theorem c146_poisoned p L z sc r p0 tau : p0 <= L <= 1 -> 0 <= tau < p0 -> poison_scale p L = Ok (Fin sc) -> Rabs (z * sc) <= tau -> poisoned_entry p L z = Ok r ->
  exists y, r = Fin y /\ near (p0 / (p0 - tau)) L y.
Proof.
  intros HL Ht Hs Hz Hr. destruct (c34_range_and_error p L z sc r ltac:(lra) Hs Hr) as (y & -> & Hy & He). exists y. split; [reflexivity|].
  assert (Ha : - tau <= y - L <= tau) by (clear - He Hz; unfold Rabs in *; destruct (Rcase_abs (y - L)), (Rcase_abs (z * sc)); lra). split; (apply Rmult_le_reg_r with (p0 - tau); [lra|]).
  - replace (p0 / (p0 - tau) * y * (p0 - tau)) with (p0 * y) by (field; lra). nra.
  - replace (p0 / (p0 - tau) * L * (p0 - tau)) with (p0 * L) by (field; lra). nra.
Qed.

(** A coin with two candidate biases, 1/4 and 3/4, simulated with 1/5 and 4/5 instead: after n shots the means differ by at most 1 - (16/25)^n. *)
Definition two_bias (p q : R) (o : Z) (x : loc) (_ : unit) : R := let b := if Rltb (nth 0 x 0) (1/2) then p else q in if Z.eqb o 1 then b else 1 - b.
Definition two_config (p q : R) : @config Z unit unit :=
  {| md := {| lik := two_bias p q; timestep := fun _ x _ => x; canon := fun x => x |}; prior := fun _ n => repeat [0] n; rsmp := fun _ _ _ => Err RuntimeError;
     rthresh := 1/2; zpolicy := PError; zthresh := 1/2; canonize := true |}.
Definition two_state : @state Z :=
  {| ws := [1/2; 1/2]; ls := [[0]; [1]]; drec := []; nrec := []; mness := PInf; rcnt := 0; jr := false; calls := 0 |}.
Lemma two_good p q : 0 <= p <= 1 -> 0 <= q <= 1 -> good_config (two_config p q).
Proof. intros Hp Hq. constructor; cbn; auto; [intros o x e; unfold two_bias; destruct (Rltb _ _), (Z.eqb o 1); lra|intros; apply repeat_length|discriminate]. Qed.
Lemma two_regular p q rs data : 1/5 <= p <= 4/5 -> 1/5 <= q <= 4/5 -> regular (two_config p q) rs 0 data two_state.
Proof.
  intros Hp Hq. assert (Ep : eps <= 1/32). { unfold eps. replace (1/32) with (/ 2 ^ 5) by lra. apply Rinv_le_contravar; [apply pow_lt; lra|]. apply Rle_pow; [lra|lia]. }
  apply regular_bounded; [apply two_good; lra|cbn; lra| |split; [reflexivity|split; [repeat constructor; lra|cbn; rewrite !rsum_cons, rsum_nil; lra]]].
  intros o e x _. cbn. unfold two_bias. destruct (Rltb _ _), (Z.eqb o 1); lra.
Qed.
Lemma two_close rs data : close_runs (two_config (1/4) (3/4)) (two_config (1/5) (4/5)) rs rs two_state two_state data data 1 (5/4).
Proof.
  assert (F : full_inv two_state) by (split; [reflexivity|split; [repeat constructor; lra|cbn; rewrite !rsum_cons, rsum_nil; lra]]).
  repeat (split; [first [apply two_good; lra|cbn; lra|reflexivity|exact F|apply two_regular; lra|lra]|]). split; [intros i _; unfold near; lra|].
  unfold near_data. induction data as [|d data IH]; constructor; [|exact IH]. intros x _. cbn. unfold two_bias, near. destruct (Rltb _ _), (Z.eqb _ 1); lra.
Qed.
Example ex_c146 rs data : Rabs (nth 0 (est_mean 1 (ws (run (two_config (1/5) (4/5)) two_state (updates rs 0 data))) (ls (run (two_config (1/5) (4/5)) two_state (updates rs 0 data)))) 0
    - nth 0 (est_mean 1 (ws (run (two_config (1/4) (3/4)) two_state (updates rs 0 data))) (ls (run (two_config (1/4) (3/4)) two_state (updates rs 0 data)))) 0) <= 1 - (16/25) ^ length data.
Proof.
  pose proof (c146_mean _ _ _ _ _ _ _ _ _ _ 1 0 0 1 (two_close rs data) (Nat.lt_succ_diag_r 0) ltac:(intros x [<-|[<-|[]]]; cbn; lra)) as H. cbv zeta in H.
  replace ((1 - / (1 * (5/4) ^ length data) ^ 2) * (1 - 0)) with (1 - (16/25) ^ length data) in H; [exact H|]. rewrite Rmult_1_l, Rminus_0_r, Rmult_1_r. f_equal. rewrite <- pow_mult, Nat.mul_comm, pow_mult. rewrite <- pow_inv. f_equal. field.
Qed.
Example ex_c146_poisoned : exists y, poisoned_entry (ALE (1/10)) (1/2) (-1) = Ok (Fin y) /\ near (5/4) (1/2) y.
Proof.
  assert (Hr : poisoned_entry (ALE (1/10)) (1/2) (-1) = Ok (xclip 0 1 (xadd (Fin (1/2)) (xmul (Fin (-1)) (Fin (1/10)))))) by reflexivity.
  destruct (c146_poisoned (ALE (1/10)) (1/2) (-1) (1/10) _ (1/2) (1/10) ltac:(lra) ltac:(lra) eq_refl ltac:(apply Rabs_le; lra) Hr) as (y & E & H). exists y. split; [rewrite Hr, E; reflexivity|]. replace (5/4) with (1/2 / (1/2 - 1/10)) by field. exact H.
Qed.
Print Assumptions c146_weights.
Print Assumptions c146_averages.
Print Assumptions c146_mean.
Print Assumptions c146_total_likelihood.
Print Assumptions c146_n_ess.
Print Assumptions c146_poisoned.
