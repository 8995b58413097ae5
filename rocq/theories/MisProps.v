(** C153: when no particle predicts the data, the posterior settles on the particles that come closest *)
From Verif Require Import Base RList Ext Sums SmcModel SmcSpec SmcProofs CountProofs CountProps DerProofs LearnSpec LearnProofs LearnProps VarProps MisSpec.
From Coq Require Import List.

Lemma tends_over_n k : tends (fun n => k / INR n) 0.
Proof.
  intros h Hh. destruct (archimed (Rabs k / h)) as [A1 _]. exists (max 1 (Z.to_nat (up (Rabs k / h)))). intros n Hn. assert (n0 : 0 < INR n) by (apply lt_0_INR; lia).
  assert (X : Rabs k / h < INR n) by (apply Rlt_le_trans with (1 := A1); rewrite INR_IZR_INZ; apply IZR_le; lia).
  rewrite Rminus_0_r. unfold Rdiv. rewrite Rabs_mult, (Rabs_pos_eq (/ _)) by (now apply Rlt_le, Rinv_0_lt_compat).
  apply Rmult_lt_reg_r with (INR n); [assumption|]. rewrite Rmult_assoc, Rinv_l, Rmult_1_r by lra. apply Rmult_lt_compat_r with (r := h) in X; [|assumption]. unfold Rdiv in X. rewrite Rmult_assoc, Rinv_l in X by lra. lra.
Qed.
Lemma tends_late u v l N : (forall n, (N <= n)%nat -> u n = v n) -> tends u l -> tends v l.
Proof. intros H T h Hh. destruct (T h Hh) as [M HM]. exists (max M N). intros n Hn. rewrite <- H by lia. apply HM. lia. Qed.
Lemma tends_minus u v a b : tends u a -> tends v b -> tends (fun n => u n - v n) (a - b).
Proof. intros U V. apply (tends_ext (fun n => u n + -1 * v n)); [intros; ring|]. replace (a - b) with (a + -1 * b) by ring. apply tends_plus; [exact U|now apply tends_scal]. Qed.
Lemma tends_decay (a u : nat -> R) K D : 0 <= K -> 0 < D -> tends u D -> (forall n, (0 < n)%nat -> 0 <= a n <= K * exp (- (INR n * u n))) -> tends a 0.
Proof.
  intros K0 HD T Ha h Hh. destruct (T (D/2) ltac:(lra)) as [N1 HN1]. destruct (tends_over_n (2 * K / D) h Hh) as [N2 HN2]. exists (max (S N1) (S N2)). intros n Hn.
  specialize (HN1 n ltac:(lia)). specialize (HN2 n ltac:(lia)). apply Rabs_def2 in HN1. apply Rabs_def2 in HN2. destruct (Ha n ltac:(lia)) as [P Q]. rewrite Rminus_0_r, Rabs_pos_eq by exact P.
  assert (n0 : 0 < INR n) by (apply lt_0_INR; lia). apply Rle_lt_trans with (1 := Q). apply Rle_lt_trans with (2 * K / D / INR n); [|lra].
  assert (X : INR n * D / 2 <= INR n * u n) by (unfold Rdiv; rewrite Rmult_assoc; apply Rmult_le_compat_l; lra).
  assert (Y : exp (- (INR n * u n)) <= / (INR n * D / 2)).
  { rewrite exp_Ropp. apply Rinv_le_contravar; [nra|]. apply Rle_trans with (exp (INR n * D / 2)); [pose proof (exp_ineq1_le (INR n * D / 2)); lra|]. destruct (Rle_lt_or_eq_dec _ _ X) as [X'|X']; [now apply Rlt_le, exp_increasing|rewrite X'; lra]. }
  apply Rle_trans with (K * / (INR n * D / 2)); [now apply Rmult_le_compat_l|]. right. field. lra.
Qed.
Lemma eventually_all (P : nat -> nat -> Prop) m : (forall i, (i < m)%nat -> exists N, forall n, (N <= n)%nat -> P i n) -> exists N, forall i n, (i < m)%nat -> (N <= n)%nat -> P i n.
Proof.
  induction m as [|m IH]; intros H; [exists 0%nat; lia|]. destruct IH as [N1 H1]; [intros; apply H; lia|]. destruct (H m ltac:(lia)) as [N2 H2]. exists (max N1 N2). intros i n Hi Hn.
  destruct (Nat.eq_dec i m) as [->|]; [apply H2; lia|apply H1; lia].
Qed.

Section Mis.
Context {O E RND : Type}.
Variables (c : @config O E RND) (rs : nat -> RND) (dom : E -> list O) (es : list E) (phi : O -> E -> R) (s : @state O) (dec : forall a b : O * E, {a = b} + {a <> b}) (d : nat -> O * E).
Hypothesis HS : settled c dom es phi s dec d.

Notation after n := (run c s (updates rs 0 (map d (seq 0 n)))).
Notation fit_ := (fit c dom es phi s).
Let avg i n := SumL (pairs dom es) (fun p => freq dec d p n * ln (L c s i p)).
Lemma pos_first i n : (i < n_particles s)%nat -> Forall (fun x => 0 < x) (map (L c s i) (first d n)).
Proof. intros Hi. apply Forall_forall. intros x Hx. apply in_map_iff in Hx. destruct Hx as (p & <- & Hp). destruct HS. apply (L_pos c s dom es); try assumption. now apply (first_pairs dom es d l_data n). Qed.
Lemma avg_value i n : (i < n_particles s)%nat -> (0 < n)%nat -> rprod (map (L c s i) (first d n)) = exp (INR n * avg i n).
Proof.
  intros Hi Hn. pose proof (pos_first i n Hi) as F. rewrite <- (exp_ln (rprod _)) by (now apply rprod_pos). f_equal. rewrite ln_rprod by exact F. rewrite SumL_map.
  destruct HS. rewrite (count_group dec (pairs dom es) (first d n) (fun p => ln (L c s i p)) l_distinct (first_pairs dom es d l_data n)). unfold avg. rewrite <- SumL_scal. apply SumL_ext. intros p _. unfold freq. fold (first d n). field. apply not_0_INR. lia.
Qed.
Lemma avg_tends i : tends (avg i) (fit_ i).
Proof.
  replace (fit_ i) with (SumL (pairs dom es) (fun p => phi (fst p) (snd p) * ln (L c s i p))).
  - apply tends_SumL. intros p Hp. apply (tends_ext (fun n => ln (L c s i p) * freq dec d p n)); [intros; ring|]. rewrite Rmult_comm. apply tends_scal. destruct p as [o e]. apply pairs_in in Hp. cbn [fst snd] in Hp. destruct HS. now apply l_freq.
  - unfold fit, pairs. rewrite SumL_flat_map. apply SumL_ext. intros e _. rewrite SumL_map. reflexivity.
Qed.
Lemma reg n : regular c rs 0 (map d (seq 0 n)) s.
Proof. destruct HS. now apply (regular_first c rs s l_static l_config l_threshold l_state dom es d). Qed.
Lemma ran n i : (i < n_particles s)%nat -> 0 <= wt (after n) i <= 1.
Proof. intros Hi. destruct HS. destruct (run_regular c rs l_config l_threshold (map d (seq 0 n)) 0%nat s l_state (reg n)) as (I1 & _). now apply wt_range. Qed.
Lemma odds_n n i t : (0 < n)%nat -> (i < n_particles s)%nat -> (t < n_particles s)%nat -> wt (after n) i * wt s t = wt (after n) t * wt s i * exp (INR n * (avg i n - avg t n)).
Proof.
  intros Hn Hi Ht. pose proof HS as HS'. destruct HS'. pose proof (odds c rs s l_static l_config l_threshold l_state (map d (seq 0 n)) i t (reg n) Hi Ht) as H. fold (first d n) in H. rewrite !avg_value in H by assumption.
  rewrite Rmult_minus_distr_l. unfold Rminus. rewrite exp_plus, exp_Ropp. pose proof (exp_pos (INR n * avg t n)). set (x := exp (INR n * avg t n)) in *. set (y := exp (INR n * avg i n)) in *. fold (first d n). clearbody x y.
  apply Rmult_eq_reg_r with x; [|lra]. rewrite Rmult_assoc, H. field. lra.
Qed.

(** Particles that fit less well than one of positive weight are ruled out. *)
Theorem c153_worse_particles_vanish i t : (i < n_particles s)%nat -> (t < n_particles s)%nat -> 0 < wt s t -> fit_ i < fit_ t -> tends (fun n => wt (after n) i) 0.
Proof.
  intros Hi Ht Hw Hf. pose proof HS as HS'. destruct HS'. pose proof (wt_range s i l_state) as Wi. apply (tends_decay _ (fun n => avg t n - avg i n) (wt s i / wt s t) (fit_ t - fit_ i)).
  - apply Rmult_le_pos; [lra|now apply Rlt_le, Rinv_0_lt_compat].
  - lra.
  - apply tends_minus; apply avg_tends.
  - intros n Hn. split; [apply ran; exact Hi|]. pose proof (odds_n n i t Hn Hi Ht) as H. pose proof (ran n t Ht) as Wt. replace (- (INR n * (avg t n - avg i n))) with (INR n * (avg i n - avg t n)) by ring.
    pose proof (exp_pos (INR n * (avg i n - avg t n))) as X. set (x := exp _) in *. clearbody x. apply Rmult_le_reg_r with (wt s t); [assumption|]. rewrite H. unfold Rdiv. replace (wt s i * / wt s t * x * wt s t) with (1 * (wt s i * x)) by (field; lra).
    rewrite Rmult_assoc. apply Rmult_le_compat_r; [apply Rmult_le_pos; lra|lra].
Qed.
Lemma zero_stays i n : (i < n_particles s)%nat -> wt s i = 0 -> wt (after n) i = 0.
Proof.
  intros Hi Hz. pose proof HS as HS'. destruct HS'.
  destruct (predictive_recorded c rs s (map d (seq 0 n)) l_config l_threshold l_state (reg n)) as (Ns & _ & P & Pp & H). specialize (H i Hi). rewrite Hz, Rmult_0_l in H. apply Rmult_integral in H. destruct H as [H|H]; [|rewrite P in *]; lra.
Qed.
(** The best-fitting particles get all the weight: *)
Theorem c153_best_particles_take_all (best : nat -> bool) t : (t < n_particles s)%nat -> 0 < wt s t -> (forall i, (i < n_particles s)%nat -> best i = false -> wt s i = 0 \/ fit_ i < fit_ t) ->
  tends (fun n => Sum (n_particles s) (fun i => if best i then wt (after n) i else 0)) 1.
Proof.
  intros Ht Hw Hb. pose proof HS as HS'. destruct HS'.
  apply (tends_ext (fun n => 1 - Sum (n_particles s) (fun i => if best i then 0 else wt (after n) i))).
  - intros n. rewrite <- (weights_total c rs s l_static l_config l_threshold l_state dom es d l_positive l_data n). rewrite <- Sum_minus. apply Sum_ext. intros i _. unfold first. destruct (best i); ring.
  - match goal with |- tends ?u _ => cut (tends u (1 - 0)); [now rewrite Rminus_0_r|] end. apply (tends_minus (fun _ => 1)); [apply tends_const|]. assert (Z : Sum (n_particles s) (fun i => 0) = 0) by (apply Sum_zero; reflexivity). match goal with |- tends ?u _ => cut (tends u (Sum (n_particles s) (fun i => 0))); [now rewrite Z|] end. apply tends_Sum. intros i Hi.
    destruct (best i) eqn:B; [apply tends_const|]. destruct (Hb i Hi B) as [Hz|Hf]; [|now apply (c153_worse_particles_vanish i t)]. apply (tends_ext (fun _ => 0)); [|apply tends_const]. intros n. symmetry. now apply zero_stays.
Qed.
(** posterior averages converge to the value at a best-fitting particle, if the others are ruled out or have the same value. *)
Theorem c153_averages (f : loc -> R) t : (t < n_particles s)%nat -> 0 < wt s t -> (forall i, (i < n_particles s)%nat -> f (at_ s i) = f (at_ s t) \/ wt s i = 0 \/ fit_ i < fit_ t) ->
  tends (fun n => Sum (n_particles s) (fun i => wt (after n) i * f (at_ s i))) (f (at_ s t)).
Proof.
  intros Ht Hw Hb. pose proof HS as HS'. destruct HS'.
  apply (tends_ext (fun n => f (at_ s t) + Sum (n_particles s) (fun i => (f (at_ s i) - f (at_ s t)) * wt (after n) i))).
  - intros n. rewrite (Sum_ext _ (fun i => wt (after n) i * f (at_ s i)) (fun i => (f (at_ s i) - f (at_ s t)) * wt (after n) i + f (at_ s t) * wt (after n) i)) by (intros; ring).
    rewrite Sum_plus, Sum_scal. pose proof (weights_total c rs s l_static l_config l_threshold l_state dom es d l_positive l_data n) as W. unfold first in W. match goal with |- _ = _ + _ * ?x => replace x with 1 by (symmetry; exact W) end. ring.
  - rewrite <- (Rplus_0_r (f (at_ s t))) at 1. apply (tends_plus (fun _ => _)); [apply tends_const|]. assert (Z : Sum (n_particles s) (fun i => 0) = 0) by (apply Sum_zero; reflexivity). match goal with |- tends ?u _ => cut (tends u (Sum (n_particles s) (fun i => 0))); [now rewrite Z|] end. apply tends_Sum. intros i Hi.
    destruct (Hb i Hi) as [Hz|[Hz|Hf]].
    + apply (tends_ext (fun _ => 0)); [|apply tends_const]. intros n. rewrite Hz. ring.
    + apply (tends_ext (fun _ => 0)); [|apply tends_const]. intros n. rewrite zero_stays by assumption. ring.
    + replace 0 with ((f (at_ s i) - f (at_ s t)) * 0) by ring. apply (tends_scal (f (at_ s i) - f (at_ s t)) (fun n => wt (after n) i)). now apply (c153_worse_particles_vanish i t).
Qed.
(** The logarithm of the odds of two particles changes per datum by the difference of their fits. *)
Theorem c153_rate i t : (i < n_particles s)%nat -> (t < n_particles s)%nat -> 0 < wt s i -> 0 < wt s t -> tends (fun n => ln (wt (after n) i / wt (after n) t) / INR n) (fit_ i - fit_ t).
Proof.
  intros Hi Ht Wi Wt. apply (tends_late (fun n => ln (wt s i / wt s t) / INR n + (avg i n - avg t n)) _ _ 1).
  - intros n Hn. pose proof (odds_n n i t ltac:(lia) Hi Ht) as H.
    assert (P : forall j, (j < n_particles s)%nat -> 0 < wt s j -> 0 < wt (after n) j).
    { intros j Hj Wj. pose proof HS as HS'. destruct HS'. destruct (predictive_recorded c rs s (map d (seq 0 n)) l_config l_threshold l_state (reg n)) as (Ns & _ & Q & Qp & K). specialize (K j Hj).
      rewrite path_lik_static in K by assumption. assert (0 < rprod (map (L c s j) (first d n))) as X by (apply rprod_pos, pos_first, Hj). unfold L, first in X. fold (at_ s j) in K. assert (Y := Rmult_lt_0_compat _ _ Wj X). rewrite K in Y || rewrite <- K in Y. pose proof (ran n j Hj). nra. }
    pose proof (P i Hi Wi). pose proof (P t Ht Wt). assert (n0 : 0 < INR n) by (apply lt_0_INR; lia).
    assert (Q : wt (after n) i / wt (after n) t = wt s i / wt s t * exp (INR n * (avg i n - avg t n))).
    { apply Rmult_eq_reg_r with (wt (after n) t * wt s t); [|apply Rgt_not_eq, Rmult_lt_0_compat; assumption]. transitivity (wt (after n) i * wt s t); [field; lra|]. rewrite H. field. lra. }
    rewrite Q, ln_mult, ln_exp by (first [apply exp_pos|apply Rmult_lt_0_compat; [assumption|now apply Rinv_0_lt_compat]]). field. lra.
  - replace (fit_ i - fit_ t) with (0 + (fit_ i - fit_ t)) by ring. apply tends_plus; [apply tends_over_n|]. apply tends_minus; apply avg_tends.
Qed.
(** The recorded total log-likelihood grows per datum by the best fit. *)
Theorem c153_total t : nrec s = [] -> (t < n_particles s)%nat -> 0 < wt s t -> (forall i, (i < n_particles s)%nat -> 0 < wt s i -> fit_ i <= fit_ t) ->
  exists T, (forall n, log_total_likelihood (after n) = Fin (T n)) /\ tends (fun n => T n / INR n) (fit_ t).
Proof.
  intros H0 Ht Wt Hb. pose proof HS as HS'. destruct HS'. exists (fun n => ln (predictive c rs s (map d (seq 0 n)))).
  assert (TP := fun n => total_is_prediction c rs s (map d (seq 0 n)) l_config l_threshold l_state H0 (reg n)). split; [intros n; apply TP|].
  assert (PV : forall n, (0 < n)%nat -> predictive c rs s (map d (seq 0 n)) = Sum (n_particles s) (fun i => wt s i * exp (INR n * avg i n))).
  { intros n Hn. unfold predictive. apply Sum_ext. intros i Hi. f_equal. rewrite path_lik_static by assumption. rewrite <- avg_value by assumption. reflexivity. }
  intros h Hh.
  destruct (eventually_all (fun i n => 0 < wt s i -> avg i n <= fit_ t + h/2) (n_particles s)) as [N1 H1].
  { intros i Hi. destruct (avg_tends i (h/2) ltac:(lra)) as [N HN]. exists N. intros n Hn Wi. specialize (HN n Hn). specialize (Hb i Hi Wi). apply Rabs_def2 in HN. lra. }
  destruct (tends_plus (fun n => ln (wt s t) / INR n) (avg t) 0 (fit_ t) (tends_over_n _) (avg_tends t) h Hh) as [N2 H2].
  exists (max 1 (max N1 N2)). intros n Hn. assert (n0 : 0 < INR n) by (apply lt_0_INR; lia). destruct (TP n) as [_ Pp]. specialize (H2 n ltac:(lia)). cbn beta in H2. apply Rabs_def2 in H2.
  assert (Lo : ln (wt s t) / INR n + avg t n <= ln (predictive c rs s (map d (seq 0 n))) / INR n).
  { apply Rmult_le_reg_r with (INR n); [assumption|]. unfold Rdiv. rewrite Rmult_plus_distr_r, !Rmult_assoc, Rinv_l, !Rmult_1_r by lra.
    replace (ln (wt s t) + avg t n * INR n) with (ln (wt s t * exp (INR n * avg t n))) by (rewrite ln_mult, ln_exp by (assumption || apply exp_pos); ring).
    assert (X : wt s t * exp (INR n * avg t n) <= predictive c rs s (map d (seq 0 n))).
    { rewrite PV by lia. apply (Sum_ge_term' (n_particles s) (fun i => wt s i * exp (INR n * avg i n)) t); [|exact Ht]. intros j _. apply Rmult_le_pos; [apply (wt_range s j l_state)|apply Rlt_le, exp_pos]. }
    destruct X as [X|X]; [left; apply ln_increasing; [apply Rmult_lt_0_compat; [assumption|apply exp_pos]|exact X]|right; now f_equal]. }
  assert (Up : ln (predictive c rs s (map d (seq 0 n))) / INR n <= fit_ t + h/2).
  { apply Rmult_le_reg_r with (INR n); [assumption|]. unfold Rdiv at 1. rewrite Rmult_assoc, Rinv_l, Rmult_1_r by lra. rewrite <- (ln_exp ((fit_ t + h/2) * INR n)).
    assert (X : predictive c rs s (map d (seq 0 n)) <= exp ((fit_ t + h/2) * INR n)).
    { rewrite PV by lia. apply Rle_trans with (Sum (n_particles s) (fun i => exp ((fit_ t + h/2) * INR n) * wt s i)).
      - apply Sum_le. intros i Hi. rewrite (Rmult_comm (exp _)). destruct (proj1 (wt_range s i l_state)) as [Wi|Wi]; [|rewrite <- Wi; lra]. apply Rmult_le_compat_l; [lra|]. specialize (H1 i n Hi ltac:(lia) Wi).
        assert (Y : INR n * avg i n <= (fit_ t + h/2) * INR n) by nra. destruct Y as [Y|Y]; [now apply Rlt_le, exp_increasing|rewrite Y; lra].
      - rewrite Sum_scal, (full_inv_Sum s l_state). lra. }
    destruct X as [X|X]; [left; now apply ln_increasing|right; now f_equal]. }
  apply Rabs_def1; lra.
Qed.
End Mis.

(** The best fit is the least relative entropy from the true outcome probabilities. *)
Theorem c153_closest {O E RND} (c : @config O E RND) dom es q tr s i t :
  fit c dom es (fun o e => q e * tr o e) s i - fit c dom es (fun o e => q e * tr o e) s t = miss c dom es q tr s t - miss c dom es q tr s i.
Proof.
  unfold fit, miss. rewrite <- !SumL_minus. apply SumL_ext. intros e _. rewrite <- Rmult_minus_distr_l, <- !SumL_minus, <- SumL_scal. apply SumL_ext. intros o _. ring.
Qed.
(** If a particle predicts exactly the true probabilities, it misses nothing, and every particle that some used experiment tells apart misses something. *)
Theorem c153_truth {O E RND} (c : @config O E RND) dom es q tr s i : (i < n_particles s)%nat -> (forall e, In e es -> 0 <= q e) ->
  (forall e o, In e es -> In o (dom e) -> 0 < tr o e /\ 0 < lik (md c) o (at_ s i) e) -> (forall e, In e es -> SumL (dom e) (fun o => tr o e) = 1 /\ SumL (dom e) (fun o => lik (md c) o (at_ s i) e) = 1) ->
  0 <= miss c dom es q tr s i /\ ((exists e o, In e es /\ 0 < q e /\ In o (dom e) /\ tr o e <> lik (md c) o (at_ s i) e) -> 0 < miss c dom es q tr s i) /\
  ((forall e o, In e es -> In o (dom e) -> tr o e = lik (md c) o (at_ s i) e) -> miss c dom es q tr s i = 0).
Proof.
  intros Hi Hq Hp H1. unfold miss.
  assert (Gi := fun e (He : In e es) => gibbs (dom e) (fun o => tr o e) (fun o => lik (md c) o (at_ s i) e) (fun o Ho => proj1 (Hp e o He Ho)) (fun o Ho => proj2 (Hp e o He Ho)) (proj1 (H1 e He)) (proj2 (H1 e He))). cbv beta in Gi.
  assert (Z : SumL es (fun _ => 0) = 0) by (rewrite SumL_rsum; apply rsum_map_zero). split; [|split].
  - rewrite <- Z. apply SumL_le. intros e He. apply Rmult_le_pos; [now apply Hq|now apply Gi].
  - intros (e & o & He & Hqe & Ho & Hn). rewrite <- Z. apply (SumL_lt _ _ _ e He).
    + apply Rmult_lt_0_compat; [assumption|]. apply Gi; [assumption|]. now exists o.
    + intros e' He'. apply Rmult_le_pos; [now apply Hq|now apply Gi].
  - intros Hx. rewrite <- Z. apply SumL_ext. intros e He. rewrite (SumL_ext _ _ (fun _ => 0)); [|intros o Ho; rewrite (Hx e o He Ho); ring]. rewrite SumL_rsum, rsum_map_zero. ring.
Qed.

(** ** Case: tosses of a fair coin (alternating); the two particles have heads with probability 1/8 and 1/4. *)
Definition unfair (o : Z) (x : loc) (_ : unit) : R := let p := match x with [a] => if Rltb a (1/2) then 1/8 else 1/4 | _ => 1/2 end in if Z.eqb o 1 then p else 1 - p.
Example mis_settled : settled (ex_config unfair) (fun _ => [0%Z; 1%Z]) [tt] (fun _ _ => 1/2) ex_state dec_zu alternating /\
  fit (ex_config unfair) (fun _ => [0%Z; 1%Z]) [tt] (fun _ _ => 1/2) ex_state 0 < fit (ex_config unfair) (fun _ => [0%Z; 1%Z]) [tt] (fun _ _ => 1/2) ex_state 1.
Proof.
  assert (B1 : forall o x e, 1/8 <= unfair o x e) by (intros o x e; unfold unfair; destruct x as [|a [|b x]]; cbn; try (destruct (Rltb a (1/2))); destruct (Z.eqb o 1); lra).
  assert (Ep : eps <= 1/32). { unfold eps. replace (1/32) with (/ 2 ^ 5) by lra. apply Rinv_le_contravar; [apply pow_lt; lra|]. apply Rle_pow; [lra|lia]. }
  split.
  - constructor.
    + apply ex_good. intros. specialize (B1 o x e). lra.
    + cbn. lra.
    + reflexivity.
    + split; [reflexivity|split; [repeat constructor; lra|cbn; rewrite !rsum_cons, rsum_nil; lra]].
    + intros x e o _ _ _. cbn. specialize (B1 o x e). lra.
    + cbn. repeat constructor; cbn; intuition congruence.
    + intros k. unfold alternating. destruct (Nat.even k); cbn; auto.
    + intros [] o _ Ho. apply alternating_freq. cbn in Ho. intuition.
  - unfold fit, SumL. cbn. rewrite Rltb_true by lra. rewrite Rltb_false by lra. unfold unfair. cbn.
    assert (ln (1 - 1/8) + ln (1/8) < ln (1 - 1/4) + ln (1/4)); [|lra]. rewrite <- !ln_mult by lra. apply ln_increasing; lra.
Qed.
Example mis_case : tends (fun n => Sum 2 (fun i => wt (run (ex_config unfair) ex_state (updates (fun _ => tt) 0 (map alternating (seq 0 n)))) i * nth 0 (at_ (@ex_state Z) i) 0)) 1.
Proof.
  destruct mis_settled as [S1 S2]. apply (c153_averages (ex_config unfair) (fun _ => tt) _ _ _ ex_state dec_zu alternating S1 (fun x => nth 0 x 0) 1); [cbn; lia|cbn; lra|].
  intros [|[|i]] Hi; [right; right; exact S2|now left|cbn in Hi; lia].
Qed.

Print Assumptions c153_worse_particles_vanish.
Print Assumptions c153_best_particles_take_all.
Print Assumptions c153_averages.
Print Assumptions c153_rate.
Print Assumptions c153_total.
Print Assumptions c153_closest.
Print Assumptions c153_truth.
