(** C118: how fast the updater learns.  The data are drawn from the likelihood of one particle, the truth, and every experiment may
    depend on the outcomes so far; no resampling.  The weight of the truth is unlikely ever to drop far, and other particles die out
    exponentially fast. *)
From Verif Require Import Base RList Ext Sums SmcModel SmcSpec SmcProofs CountProofs CountProps DerProofs LearnSpec LearnProofs RateSpec RateProofs.
From Coq Require Import List.

Section Props.
Context {O E RND : Type}.
Implicit Types (c : @config O E RND) (s : @state O).

(** The setting: [n] experiments chosen by [pol] with outcomes [dom e]; particles stay in a set [V] of locations at which the likelihoods
    of an experiment add up to one; particle [t] has positive weight; on records that [t] can produce, no update runs into the
    zero-weight rules. *)
Record truth c rs dom (V : loc -> Prop) pol n s t : Prop := {
  u_config : good_config c; u_threshold : zthresh c < 1; u_state : full_inv s; u_valid : Forall V (ls s);
  u_normal : forall x e, V x -> SumL (dom e) (fun o => lik (md c) o x e) = 1;
  u_step : forall r l e, Forall V l -> Forall V (timestep (md c) r l e);
  u_particle : (t < n_particles s)%nat; u_prior : 0 < wt s t;
  u_regular : forall data, In data (records dom pol n []) -> path_lik c rs 0 data (ls s) t = 0 \/ regular c rs 0 data s
}.
Notation after c rs s data := (run c s (updates rs 0 data)).

Theorem c118_generated_is_a_distribution c rs dom V pol n s t : truth c rs dom V pol n s t -> generated c rs s t (records dom pol n []) (fun _ => 1) = 1.
Proof. intros []. now apply (generated_total c rs dom V). Qed.
(** The probability that the weight of the truth drops to a fraction [a] of its initial value, at any time, is at most [a]. *)
Theorem c118_true_weight_rarely_dips c rs dom V pol n s t a : truth c rs dom V pol n s t -> 0 <= a ->
  generated c rs s t (records dom pol n []) (fun data => indicator (dips c rs 0 s t (a * wt s t) data)) <= a.
Proof.
  intros [] Ha. pose proof (ville c rs dom V u_config0 u_threshold0 u_normal0 u_step0 pol t (a * wt s t) n ltac:(apply Rmult_le_pos; lra) [] 0%nat s u_valid0 u_state0 u_particle0 u_regular0 u_prior0) as H.
  apply Rmult_le_reg_l with (wt s t); [assumption|]. rewrite (Rmult_comm (wt s t) a). exact H.
Qed.
(** On average the inverse weight of the truth does not grow. *)
Theorem c118_inverse_weight_does_not_grow c rs dom V pol n s t : truth c rs dom V pol n s t ->
  generated c rs s t (records dom pol n []) (fun data => / wt (after c rs s data) t) <= / wt s t.
Proof. intros []. now apply (inverse_weight c rs dom V). Qed.

(** Predictions merge with the truth, whether or not the truth can be told from the other particles: over any number of experiments the
    expected squared distances between predicted and true outcome distributions sum up to at most minus the logarithm of the prior weight
    of the truth. *)
Theorem c118_predictions_merge c rs dom V pol n s t : truth c rs dom V pol n s t ->
  generated c rs s t (records dom pol n []) (gaps c rs dom 0 s t) <= ln (/ wt s t).
Proof. intros []. rewrite ln_Rinv by assumption. now apply (merging c rs dom V). Qed.
(** In particular the expected number of experiments with a prediction off by [h] or more stays bounded. *)
Theorem c118_few_surprises c rs dom V pol n s t h : truth c rs dom V pol n s t -> 0 < h ->
  generated c rs s t (records dom pol n []) (fun data => INR (surprises c rs dom 0 s t h data)) <= ln (/ wt s t) / h.
Proof.
  intros Hu Hh. apply Rmult_le_reg_l with h; [assumption|]. replace (h * (ln (/ wt s t) / h)) with (ln (/ wt s t)) by (field; lra).
  apply Rle_trans with (2 := c118_predictions_merge c rs dom V pol n s t Hu). rewrite <- (generated_scal c rs dom pol n t s).
  destruct Hu. apply (generated_le c rs dom u_config0). intros data _ _. apply surprises_le. lra.
Qed.

(** The overlap of two locations is at most one, and less than one if the experiment tells them apart. *)
Theorem c118_overlap c dom x y e : good_config c -> SumL (dom e) (fun o => lik (md c) o x e) = 1 -> SumL (dom e) (fun o => lik (md c) o y e) = 1 ->
  0 <= overlap c dom x y e <= 1 /\ ((exists o, In o (dom e) /\ lik (md c) o x e <> lik (md c) o y e) -> overlap c dom x y e < 1).
Proof. intros G Hx Hy. apply (overlap_lt (dom e) (fun o => lik (md c) o x e) (fun o => lik (md c) o y e)); auto; intros; apply (lik_nonneg c G). Qed.

(** If no experiment has a larger overlap than [rho], the expected weight of another particle falls like [rho ^ n]. *)
Theorem c118_wrong_particle_decays c rs dom V pol n s t i rho : truth c rs dom V pol n s t -> (forall r l e, timestep (md c) r l e = l) ->
  (i < n_particles s)%nat -> i <> t -> 0 <= rho -> (forall hist, overlap c dom (at_ s i) (at_ s t) (pol hist) <= rho) ->
  generated c rs s t (records dom pol n []) (fun data => wt (after c rs s data) i) <= sqrt (wt s i / wt s t) / 2 * rho ^ n.
Proof.
  intros [] Hst Hi Hn H0 Hov.
  apply Rle_trans with (SumL (records dom pol n []) (fun d => sqrt (wt s i / wt s t) / 2 * sqrt (path_lik c rs 0 d (ls s) i * path_lik c rs 0 d (ls s) t))).
  - apply SumL_le. intros d Hd. now apply (weight_term c rs dom u_config0 u_threshold0 pol n t s).
  - rewrite SumL_scal. apply Rmult_le_compat_l; [pose proof (sqrt_pos (wt s i / wt s t)); lra|]. now apply (overlap_power c rs dom u_config0 Hst).
Qed.
(** With finitely many experiments that all tell particle [i] from the truth, it does so at some rate below one, for any way of choosing
    experiments. *)
Theorem c118_exponential_rate c rs dom (V : loc -> Prop) es s t i : good_config c -> (forall x e, V x -> SumL (dom e) (fun o => lik (md c) o x e) = 1) ->
  V (at_ s i) -> V (at_ s t) -> (i < n_particles s)%nat -> i <> t -> (forall r l e, timestep (md c) r l e = l) ->
  (forall e, In e es -> exists o, In o (dom e) /\ lik (md c) o (at_ s i) e <> lik (md c) o (at_ s t) e) ->
  exists rho, 0 <= rho < 1 /\ forall pol n, (forall hist, In (pol hist) es) -> truth c rs dom V pol n s t ->
    generated c rs s t (records dom pol n []) (fun data => wt (after c rs s data) i) <= sqrt (wt s i / wt s t) / 2 * rho ^ n.
Proof.
  intros G Hno V1 V2 Hi Hn Hst Hes.
  assert (B : exists rho, 0 <= rho < 1 /\ forall e, In e es -> overlap c dom (at_ s i) (at_ s t) e <= rho).
  { clear - G Hes V1 V2 Hno. induction es as [|e es IH]; [exists 0; split; [lra|intros e []]|].
    destruct IH as (r1 & Hr1 & H1); [intros; apply Hes; now right|].
    destruct (c118_overlap c dom (at_ s i) (at_ s t) e G ltac:(auto) ltac:(auto)) as [[A1 A2] A3].
    specialize (A3 (Hes e (or_introl eq_refl))). exists (Rmax r1 (overlap c dom (at_ s i) (at_ s t) e)). split.
    - split; [apply Rle_trans with (2 := Rmax_l _ _); lra|now apply Rmax_lub_lt].
    - intros e' [<-|He]; [apply Rmax_r|]. apply Rle_trans with (2 := Rmax_l _ _). now apply H1. }
  destruct B as (rho & Hrho & HB). exists rho. split; [assumption|]. intros pol n Hp Hu. apply (c118_wrong_particle_decays c rs dom V); try assumption; [lra|]. intros hist. now apply HB.
Qed.

(** Constant in front of the rate: prior odds and how far the particles are from the truth. *)
Definition spread s t (g : loc -> R) : R := Sum (n_particles s) (fun i => g (at_ s i) * (sqrt (wt s i / wt s t) / 2)).
(** The average of any non-negative quantity that vanishes at the truth decays exponentially; particles may agree with the truth on [g]
    instead of being told apart. *)
Theorem c118_posterior_average_decays c rs dom V pol n s t rho (g : loc -> R) : truth c rs dom V pol n s t -> (forall r l e, timestep (md c) r l e = l) ->
  0 <= rho -> (forall x, 0 <= g x) -> g (at_ s t) = 0 ->
  (forall i, (i < n_particles s)%nat -> g (at_ s i) = 0 \/ forall hist, overlap c dom (at_ s i) (at_ s t) (pol hist) <= rho) ->
  generated c rs s t (records dom pol n []) (fun data => Sum (n_particles s) (fun i => wt (after c rs s data) i * g (at_ s i))) <= spread s t g * rho ^ n.
Proof.
  intros Hu Hst H0 Hg Hgt Hov. rewrite (generated_Sum c rs dom pol n t s). unfold spread. rewrite <- Sum_scal_r. apply Sum_le. intros i Hi.
  unfold generated. rewrite (SumL_ext _ _ (fun d => g (at_ s i) * (path_lik c rs 0 d (ls s) t * wt (after c rs s d) i))) by (intros; ring). rewrite SumL_scal, Rmult_assoc.
  destruct (Hov i Hi) as [Z|Z]; [rewrite Z; lra|]. destruct (Nat.eq_dec i t) as [->|Hn]; [rewrite Hgt; lra|].
  apply Rmult_le_compat_l; [apply Hg|]. now apply (c118_wrong_particle_decays c rs dom V pol n s t i rho).
Qed.
(** The expected loss of the mean estimate, as performance tests measure it. *)
Theorem c118_expected_loss_decays c rs dom V pol n s t rho d (Q : nat -> R) : truth c rs dom V pol n s t -> (forall r l e, timestep (md c) r l e = l) ->
  0 <= rho -> (forall j, 0 <= Q j) -> (forall i, (i < n_particles s)%nat -> at_ s i = at_ s t \/ forall hist, overlap c dom (at_ s i) (at_ s t) (pol hist) <= rho) ->
  generated c rs s t (records dom pol n []) (fun data => quadratic_loss d Q (after c rs s data) (at_ s t))
    <= spread s t (fun x => Sum d (fun j => Q j * (nth j x 0 - nth j (at_ s t) 0) ^ 2)) * rho ^ n.
Proof.
  intros Hu Hst H0 HQ Hov. set (g := fun x => Sum d (fun j => Q j * (nth j x 0 - nth j (at_ s t) 0) ^ 2)).
  assert (Hg0 : forall x, 0 <= g x) by (intros x; apply Sum_nonneg; intros j _; apply Rmult_le_pos; [apply HQ|apply pow2_ge_0]).
  assert (Hgt : g (at_ s t) = 0) by (apply Sum_zero; intros j _; ring).
  eapply Rle_trans; [|apply (c118_posterior_average_decays c rs dom V pol n s t rho g Hu Hst H0 Hg0 Hgt)].
  2:{ intros i Hi. destruct (Hov i Hi) as [->|Z]; [now left|now right]. }
  pose proof Hu as Hu0. destruct Hu0. apply (generated_le c rs dom u_config0). intros data Hd Hp.
  destruct (after_facts c rs dom u_config0 u_threshold0 pol n t s u_state0 u_particle0 u_prior0 u_regular0 data Hd Hp) as (I1 & I2 & _).
  destruct (u_regular0 data Hd) as [Z|Rg]; [now elim Hp|]. destruct (static_run c rs Hst s u_config0 u_threshold0 u_state0 data Rg) as [L1 L2].
  pose proof (full_inv_Sum _ I1) as W. rewrite I2 in W. set (s' := after c rs s data) in *.
  unfold quadratic_loss, g.
  rewrite (Sum_ext _ (fun i => wt s' i * _) (fun i => Sum d (fun j => Q j * (wt s' i * (nth j (at_ s i) 0 - nth j (at_ s t) 0) ^ 2)))) by (intros; rewrite <- Sum_scal; apply Sum_ext; intros; ring).
  rewrite Sum_swap. apply Sum_le. intros j Hj. rewrite Sum_scal. apply Rmult_le_compat_l; [apply HQ|].
  rewrite mean_mom by (try assumption; congruence). unfold mom. rewrite L2. change (length (ls s)) with (n_particles s). change (fun i => nth i (ws s') 0) with (wt s').
  set (a := nth j (at_ s t) 0). set (x := fun i => nth j (nth i (ls s) []) 0).
  set (m := Sum (n_particles s) (fun i => wt s' i * x i)).
  change (Sum (n_particles s) (fun i => nth i (ws s') 0 * nth j (nth i (ls s) []) 0)) with m.
  (* the second moment about [a] exceeds the squared distance of the mean by the variance *)
  assert (Vr : 0 <= Sum (n_particles s) (fun i => wt s' i * (x i - m) ^ 2)) by (apply Sum_nonneg; intros i _; apply Rmult_le_pos; [apply (wt_range s' i I1)|apply pow2_ge_0]).
  rewrite (Sum_ext _ (fun i => wt s' i * (x i - m) ^ 2) (fun i => (wt s' i * (x i - a) ^ 2 + (-2 * (m - a)) * (wt s' i * x i)) + (m ^ 2 - a ^ 2) * wt s' i)) in Vr by (intros; ring).
  rewrite !Sum_plus, !Sum_scal, W in Vr. fold m in Vr. change (fun i => wt s' i * (nth j (at_ s i) 0 - a) ^ 2) with (fun i => wt s' i * (x i - a) ^ 2).
  set (S2 := Sum _ (fun i => wt s' i * (x i - a) ^ 2)) in *. clearbody S2 m a. lra.
Qed.
(** The posterior is confident of the truth except with exponentially small probability. *)
Theorem c118_confidence c rs dom V pol n s t rho h : truth c rs dom V pol n s t -> (forall r l e, timestep (md c) r l e = l) ->
  0 <= rho -> 0 < h -> (forall i, (i < n_particles s)%nat -> i <> t -> forall hist, overlap c dom (at_ s i) (at_ s t) (pol hist) <= rho) ->
  generated c rs s t (records dom pol n []) (fun data => indicator (Rleb (wt (after c rs s data) t) (1 - h)))
    <= / h * Sum (n_particles s) (fun i => if Nat.eqb i t then 0 else sqrt (wt s i / wt s t) / 2) * rho ^ n.
Proof.
  intros Hu Hst H0 Hh Hov.
  apply Rle_trans with (generated c rs s t (records dom pol n []) (fun data => / h * Sum (n_particles s) (fun i => (if Nat.eqb i t then 0 else 1) * wt (after c rs s data) i))).
  - pose proof Hu as Hu0. destruct Hu0. apply (generated_le c rs dom u_config0). intros data Hd Hp.
    destruct (after_facts c rs dom u_config0 u_threshold0 pol n t s u_state0 u_particle0 u_prior0 u_regular0 data Hd Hp) as (I1 & I2 & _).
    pose proof (full_inv_Sum _ I1) as W. rewrite I2 in W. set (s' := after c rs s data) in *.
    assert (S1 : Sum (n_particles s) (fun i => (if Nat.eqb i t then 0 else 1) * wt s' i) = 1 - wt s' t).
    { assert (D : forall m f j, (j < m)%nat -> Sum m (fun i => (if Nat.eqb i j then 0 else 1) * f i) = Sum m f - f j).
      { induction m as [|m IH]; intros f j Hj; [lia|]. rewrite !Sum_S. destruct j as [|j]; cbn [Nat.eqb].
        - rewrite (Sum_ext m _ (fun i => f (S i))) by (intros; ring). ring.
        - rewrite (IH (fun i => f (S i)) j) by lia. ring. }
      rewrite (D _ (wt s')) by assumption. now rewrite W. }
    rewrite S1. pose proof (wt_range s' t I1) as Wt. destruct (Rleb_spec (wt s' t) (1 - h)) as [Hl|Hl]; cbn [indicator].
    + apply Rmult_le_reg_l with h; [assumption|]. rewrite <- Rmult_assoc, Rinv_r by lra. lra.
    + apply Rmult_le_pos; [apply Rlt_le, Rinv_0_lt_compat; assumption|lra].
  - rewrite (generated_scal c rs dom pol n t s (/ h)), Rmult_assoc. apply Rmult_le_compat_l; [apply Rlt_le, Rinv_0_lt_compat; assumption|].
    rewrite (generated_Sum c rs dom pol n t s), <- Sum_scal_r. apply Sum_le. intros i Hi. rewrite (generated_scal c rs dom pol n t s).
    destruct (Nat.eqb_spec i t) as [->|Hn]; [lra|]. rewrite Rmult_1_l. apply (c118_wrong_particle_decays c rs dom V); auto.
Qed.
End Props.

(** Two coins, one fair and one not (LearnProps); the fair one generates the data. *)
Definition coin (o : Z) (x : loc) (_ : unit) : R := match x with [a] => if Rltb a (1/2) then (if Z.eqb o 1 then 1/10 else 9/10) else 1/2 | _ => 1/2 end.
Lemma coin_low o x e : 1/10 <= coin o x e.
Proof. unfold coin. destruct x as [|a [|b x]]; try lra. destruct (Rltb a (1/2)), (Z.eqb o 1); lra. Qed.
Lemma coin_truth pol n : truth (ex_config coin) (fun _ => tt) (fun _ => [0%Z; 1%Z]) (fun _ => True) pol n ex_state 1.
Proof.
  assert (Ep : eps <= 1/32). { unfold eps. replace (1/32) with (/ 2 ^ 5) by lra. apply Rinv_le_contravar; [apply pow_lt; lra|]. apply Rle_pow; [lra|lia]. }
  assert (G : good_config (ex_config coin)) by (apply ex_good; intros o x e; pose proof (coin_low o x e); lra).
  assert (F : full_inv (@ex_state Z)) by (split; [reflexivity|split; [repeat constructor; lra|cbn; rewrite !rsum_cons, rsum_nil; lra]]).
  constructor; try assumption; try (cbn; lra); try (cbn; lia).
  - now repeat constructor.
  - intros x e _. unfold SumL. cbn. unfold coin. destruct x as [|a [|b x]]; try lra. destruct (Rltb a (1/2)); cbn; lra.
  - intros r l e H. exact H.
  - intros data _. right. apply regular_bounded; [assumption|cbn; lra| |assumption]. intros o e x _. cbn. pose proof (coin_low o x e). lra.
Qed.
(** After any number of tosses the expected weight of the unfair coin is at most (9/10) ^ n / 2. *)
Example c118_example n : generated (ex_config coin) (fun _ => tt) ex_state 1 (records (fun _ => [0%Z; 1%Z]) (fun _ => tt) n [])
  (fun data => wt (run (ex_config coin) ex_state (updates (fun _ => tt) 0 data)) 0) <= 1/2 * (9/10) ^ n.
Proof.
  eapply Rle_trans; [apply (c118_wrong_particle_decays (ex_config coin) _ _ (fun _ => True) (fun _ => tt) n ex_state 1 0 (9/10) (coin_truth _ n)); try reflexivity; try lra; try (cbn; lia)|].
  - intros hist. unfold overlap, SumL, at_. cbn. unfold coin. rewrite !Rltb_true, !Rltb_false by lra. cbn.
    assert (S1 : sqrt (9/10 * (1/2)) <= 671/1000) by (rewrite <- (sqrt_square (671/1000)) by lra; apply sqrt_le_1_alt; lra).
    assert (S2 : sqrt (1/10 * (1/2)) <= 224/1000) by (rewrite <- (sqrt_square (224/1000)) by lra; apply sqrt_le_1_alt; lra). lra.
  - cbn. unfold wt, ex_state. cbn. replace (1 / 2 / (1 / 2)) with 1 by field. rewrite sqrt_1. lra.
Qed.
(** and the weight of the fair one ever drops to a tenth of its initial value with probability at most 1/10. *)
Example c118_example_dips n : generated (ex_config coin) (fun _ => tt) ex_state 1 (records (fun _ => [0%Z; 1%Z]) (fun _ => tt) n [])
  (fun data => indicator (dips (ex_config coin) (fun _ => tt) 0 ex_state 1 (1/10 * (1/2)) data)) <= 1/10.
Proof. exact (c118_true_weight_rarely_dips (ex_config coin) _ _ (fun _ => True) _ n ex_state 1 (1/10) (coin_truth _ n) ltac:(lra)). Qed.
Example c118_example_merge n : generated (ex_config coin) (fun _ => tt) ex_state 1 (records (fun _ => [0%Z; 1%Z]) (fun _ => tt) n [])
  (gaps (ex_config coin) (fun _ => tt) (fun _ => [0%Z; 1%Z]) 0 ex_state 1) <= ln 2.
Proof.
  eapply Rle_trans; [apply (c118_predictions_merge (ex_config coin) _ _ (fun _ => True) _ n ex_state 1 (coin_truth _ n))|].
  unfold wt, ex_state. cbn. replace (/ (1 / 2)) with 2 by field. lra.
Qed.
(** The expected loss of the estimate of the fair coin. *)
Example c118_example_loss n : generated (ex_config coin) (fun _ => tt) ex_state 1 (records (fun _ => [0%Z; 1%Z]) (fun _ => tt) n [])
  (fun data => quadratic_loss 1 (fun _ => 1) (run (ex_config coin) ex_state (updates (fun _ => tt) 0 data)) [1]) <= 1/2 * (9/10) ^ n.
Proof.
  eapply Rle_trans; [apply (c118_expected_loss_decays (ex_config coin) (fun _ => tt) (fun _ => [0%Z; 1%Z]) (fun _ => True) (fun _ => tt) n ex_state 1 (9/10) 1 (fun _ => 1) (coin_truth _ n)); try reflexivity; try lra; try (intros; lra)|].
  - intros i Hi. cbn in Hi. destruct i as [|[|i]]; [right|now left|lia]. intros hist. unfold overlap, SumL, at_. cbn. unfold coin. rewrite !Rltb_true, !Rltb_false by lra. cbn.
    assert (S1 : sqrt (9/10 * (1/2)) <= 671/1000) by (rewrite <- (sqrt_square (671/1000)) by lra; apply sqrt_le_1_alt; lra).
    assert (S2 : sqrt (1/10 * (1/2)) <= 224/1000) by (rewrite <- (sqrt_square (224/1000)) by lra; apply sqrt_le_1_alt; lra). lra.
  - apply Rmult_le_compat_r; [apply pow_le; lra|]. unfold spread, wt, at_, ex_state, n_particles. cbn [ls ws length]. rewrite !Sum_S, !Sum_0. cbn [nth].
    replace (1 / 2 / (1 / 2)) with 1 by field. rewrite sqrt_1. lra.
Qed.
Print Assumptions c118_generated_is_a_distribution.
Print Assumptions c118_true_weight_rarely_dips.
Print Assumptions c118_inverse_weight_does_not_grow.
Print Assumptions c118_predictions_merge.
Print Assumptions c118_few_surprises.
Print Assumptions c118_overlap.
Print Assumptions c118_wrong_particle_decays.
Print Assumptions c118_exponential_rate.
Print Assumptions c118_posterior_average_decays.
Print Assumptions c118_expected_loss_decays.
Print Assumptions c118_confidence.
