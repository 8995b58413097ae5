(** C104: on average over the data that the particle cloud itself predicts, an update neither shifts the posterior mean nor
    widens the posterior.  C105: on data with the frequencies one particle predicts, the posterior settles on that particle. *)
From Verif Require Import Base RList Ext Sums SmcModel SmcSpec SmcProofs CountProofs CountProps DerProofs LearnSpec LearnProofs.
From Coq Require Import List.

Section Props.
Context {O E RND : Type}.
Implicit Types (c : @config O E RND) (s : @state O).

(** C104.  Experiments may be chosen adaptively ([pol]); particles may drift inside a set [V] of valid locations.  The predicted
    probabilities of all records of [n] outcomes add up to one. *)
Theorem c104_records_are_a_distribution c rs dom (V : loc -> Prop) pol n s :
  good_config c -> full_inv s -> Forall V (ls s) -> (forall x e, V x -> SumL (dom e) (fun o => lik (md c) o x e) = 1) ->
  (forall r l e, Forall V l -> Forall V (timestep (md c) r l e)) ->
  SumL (records dom pol n []) (predictive c rs s) = 1 /\ (forall data, 0 <= predictive c rs s data).
Proof.
  intros G Hinv HV Hdom Hstep. split; [exact (predictive_total c rs dom V (step_len c G) Hdom Hstep pol n [] s HV Hinv)|].
  intros data. unfold predictive. apply Sum_nonneg. intros i Hi. apply Rmult_le_pos; [apply (wt_range s i Hinv)|now apply path_nonneg].
Qed.
(** The predicted probability of a record is the product of the normalisations the updater records on it. *)
Theorem c104_normalizations_multiply_to_the_prediction c rs s data :
  good_config c -> zthresh c < 1 -> full_inv s -> regular c rs 0 data s ->
  exists Ns, nrec (run c s (updates rs 0 data)) = nrec s ++ Ns /\ rprod Ns = predictive c rs s data.
Proof. intros G Ht Hinv Hr. destruct (predictive_recorded c rs s data G Ht Hinv Hr) as (Ns & H1 & H2 & _). now exists Ns. Qed.
(** The average posterior is the prior, particle by particle. *)
Theorem c104_average_posterior_is_prior c rs dom (V : loc -> Prop) pol n s i :
  good_config c -> zthresh c < 1 -> full_inv s -> Forall V (ls s) -> (forall x e, V x -> SumL (dom e) (fun o => lik (md c) o x e) = 1) ->
  (forall r l e, Forall V l -> Forall V (timestep (md c) r l e)) ->
  (forall data, In data (records dom pol n []) -> predictive c rs s data = 0 \/ regular c rs 0 data s) -> (i < n_particles s)%nat ->
  averaged c rs s (records dom pol n []) (fun s' => wt s' i) = wt s i.
Proof. intros G Ht Hinv HV Hdom Hstep. now apply (averaged_weight c rs dom V (step_len c G) Hdom Hstep). Qed.
(** For resting particles: the average posterior mean is the prior mean, *)
Theorem c104_average_mean c rs dom pol n s d j :
  good_config c -> zthresh c < 1 -> full_inv s -> (forall r l e, timestep (md c) r l e = l) ->
  (forall x e, In x (ls s) -> SumL (dom e) (fun o => lik (md c) o x e) = 1) ->
  (forall data, In data (records dom pol n []) -> predictive c rs s data = 0 \/ regular c rs 0 data s) -> (j < d)%nat ->
  averaged c rs s (records dom pol n []) (fun s' => nth j (particle_mean d (ws s') (ls s')) 0) = nth j (particle_mean d (ws s) (ls s)) 0.
Proof. intros. now apply avg_mean. Qed.
(** and the prior covariance is the average posterior covariance plus the covariance of the posterior mean, so that the average
    posterior variance never exceeds the prior variance. *)
Theorem c104_total_covariance c rs dom pol n s d j k :
  good_config c -> zthresh c < 1 -> full_inv s -> (forall r l e, timestep (md c) r l e = l) ->
  (forall x e, In x (ls s) -> SumL (dom e) (fun o => lik (md c) o x e) = 1) ->
  (forall data, In data (records dom pol n []) -> predictive c rs s data = 0 \/ regular c rs 0 data s) -> (j < d)%nat -> (k < d)%nat ->
  let mean s' i := nth i (particle_mean d (ws s') (ls s')) 0 in
  particle_cov (ws s) (ls s) j k = averaged c rs s (records dom pol n []) (fun s' => particle_cov (ws s') (ls s') j k)
    + averaged c rs s (records dom pol n []) (fun s' => (mean s' j - mean s j) * (mean s' k - mean s k)).
Proof. intros. now apply avg_cov. Qed.
Theorem c104_variance_shrinks c rs dom pol n s j :
  good_config c -> zthresh c < 1 -> full_inv s -> (forall r l e, timestep (md c) r l e = l) ->
  (forall x e, In x (ls s) -> SumL (dom e) (fun o => lik (md c) o x e) = 1) ->
  (forall data, In data (records dom pol n []) -> predictive c rs s data = 0 \/ regular c rs 0 data s) ->
  averaged c rs s (records dom pol n []) (fun s' => particle_cov (ws s') (ls s') j j) <= particle_cov (ws s) (ls s) j j.
Proof.
  intros G Ht Hinv Hst Hdom Hr. rewrite (avg_cov c rs dom Hst s Hdom G Ht Hinv pol n (S j) j j) by (try lia; assumption).
  match goal with |- ?a <= ?a + ?b => assert (0 <= b); [|lra] end.
  unfold averaged. apply SumL_nonneg. intros data Hin. apply Rmult_le_pos; [|apply Rle_0_sqr].
  unfold predictive. apply Sum_nonneg. intros i Hi. apply Rmult_le_pos; [apply (wt_range s i Hinv)|now apply path_nonneg].
Qed.

(** C105.  Posterior odds of two particles are prior odds times the ratio of their likelihoods of the data. *)
Theorem c105_odds c rs s data i j :
  good_config c -> zthresh c < 1 -> full_inv s -> (forall r l e, timestep (md c) r l e = l) -> regular c rs 0 data s ->
  (i < n_particles s)%nat -> (j < n_particles s)%nat ->
  let s' := run c s (updates rs 0 data) in let lk i := rprod (map (fun p => lik (md c) (fst p) (at_ s i) (snd p)) data) in
  wt s' i * (wt s j * lk j) = wt s' j * (wt s i * lk i).
Proof. intros. now apply odds. Qed.
(** What "data with the frequencies particle [t] predicts" means: finitely many experiments [es] with outcomes [dom e], used with
    asymptotic frequencies [q e], and outcome [o] of experiment [e] seen with frequency q(e) times its likelihood under [t]. *)
Record typical c dom es q s t (dec : forall a b : O * E, {a = b} + {a <> b}) (d : nat -> O * E) : Prop := {
  t_config : good_config c; t_threshold : zthresh c < 1; t_static : forall r l e, timestep (md c) r l e = l; t_state : full_inv s;
  t_normal : forall x e, In x (ls s) -> In e es -> SumL (dom e) (fun o => lik (md c) o x e) = 1;
  t_positive : forall x e o, In x (ls s) -> In e es -> In o (dom e) -> eps <= lik (md c) o x e;
  t_distinct : NoDup (flat_map (fun e => map (fun o => (o, e)) (dom e)) es);
  t_data : forall k, In (d k) (flat_map (fun e => map (fun o => (o, e)) (dom e)) es);
  t_rates : forall e, In e es -> 0 <= q e;
  t_particle : (t < n_particles s)%nat; t_prior : 0 < wt s t;
  t_freq : forall e o, In e es -> In o (dom e) -> tends (freq dec d (o, e)) (q e * lik (md c) o (at_ s t) e)
}.
(** Some experiment that keeps being used tells particle [i] from particle [t]. *)
Definition told_apart c (dom : E -> list O) es (q : E -> R) s t i : Prop :=
  exists e o, In e es /\ 0 < q e /\ In o (dom e) /\ lik (md c) o (at_ s i) e <> lik (md c) o (at_ s t) e.
Lemma typ_freq c dom es q s t dec d : typical c dom es q s t dec d -> forall p, In p (pairs dom es) -> tends (freq dec d p) (q (snd p) * lik (md c) (fst p) (at_ s t) (snd p)).
Proof. intros H p Hp. apply pairs_in in Hp. destruct Hp as [H1 H2]. destruct p as [o e]. now apply (t_freq _ _ _ _ _ _ _ _ H). Qed.
Theorem c105_other_particles_vanish c rs dom es q s t dec d i :
  typical c dom es q s t dec d -> (i < n_particles s)%nat -> told_apart c dom es q s t i ->
  tends (fun n => wt (run c s (updates rs 0 (map d (seq 0 n)))) i) 0.
Proof.
  intros H Hi Hx. pose proof (typ_freq _ _ _ _ _ _ _ _ H) as Hf. destruct H.
  apply (ruled_out c rs s t_static0 t_config0 t_threshold0 t_state0 dom es q t dec d); try assumption.
  now apply (div_pos c s dom es q t).
Qed.
(** If every particle is either told apart from [t] or gives the same value of [f], posterior averages of [f] converge to f at [t]:
    in particular the posterior mean converges to the location of [t] and the covariance to zero. *)
Theorem c105_averages_converge c rs dom es q s t dec d (f : loc -> R) :
  typical c dom es q s t dec d -> (forall i, (i < n_particles s)%nat -> f (at_ s i) = f (at_ s t) \/ told_apart c dom es q s t i) ->
  tends (fun n => Sum (n_particles s) (fun i => wt (run c s (updates rs 0 (map d (seq 0 n)))) i * f (at_ s i))) (f (at_ s t)).
Proof.
  intros H Hx. pose proof (typ_freq _ _ _ _ _ _ _ _ H) as Hf. destruct H.
  apply (expectation_tends c rs s t_static0 t_config0 t_threshold0 t_state0 dom es q t dec d); try assumption.
  intros i Hi. destruct (Hx i Hi) as [Z|Z]; [now left|right]. now apply (div_pos c s dom es q t).
Qed.
Theorem c105_mean_and_covariance_converge c rs dom es q s t dec d dm j k :
  typical c dom es q s t dec d -> (forall i, (i < n_particles s)%nat -> at_ s i = at_ s t \/ told_apart c dom es q s t i) -> (j < dm)%nat -> (k < dm)%nat ->
  let s' n := run c s (updates rs 0 (map d (seq 0 n))) in
  tends (fun n => nth j (particle_mean dm (ws (s' n)) (ls (s' n))) 0) (nth j (at_ s t) 0) /\
  tends (fun n => particle_cov (ws (s' n)) (ls (s' n)) j k) 0.
Proof.
  intros H Hx Hj Hk s'.
  assert (Hx' : forall f : loc -> R, forall i, (i < n_particles s)%nat -> f (at_ s i) = f (at_ s t) \/ told_apart c dom es q s t i).
  { intros f i Hi. destruct (Hx i Hi) as [-> | Z]; [now left|now right]. }
  pose proof (fun f => c105_averages_converge c rs dom es q s t dec d f H (Hx' f)) as T. pose proof H as H0. destruct H0.
  assert (Rg : forall n, regular c rs 0 (map d (seq 0 n)) s) by (intros n; now apply (regular_first c rs s t_static0 t_config0 t_threshold0 t_state0 dom es d)).
  assert (Ls : forall n, length (ws (s' n)) = length (ls s) /\ ls (s' n) = ls s) by (intros n; now apply (static_run c rs t_static0 s t_config0 t_threshold0 t_state0)).
  assert (M : forall i, (i < dm)%nat -> tends (fun n => nth i (particle_mean dm (ws (s' n)) (ls (s' n))) 0) (nth i (at_ s t) 0)).
  { intros i Hi. apply (tends_ext (fun n => Sum (n_particles s) (fun a => wt (s' n) a * nth i (at_ s a) 0))); [|apply (T (fun x => nth i x 0))].
    intros n. destruct (Ls n) as [L1 L2]. rewrite mean_mom by (try assumption; congruence). unfold mom. rewrite L2. reflexivity. }
  split; [now apply M|].
  set (a := nth j (at_ s t) 0). set (b := nth k (at_ s t) 0).
  pose proof (T (fun x => (nth j x 0 - a) * (nth k x 0 - b))) as T2. cbn beta in T2. fold a b in T2. replace ((a - a) * (b - b)) with 0 in T2 by ring.
  pose proof (M j Hj) as Mj. pose proof (M k Hk) as Mk. fold a in Mj. fold b in Mk.
  (* cov = E[(x-a)(y-b)] - (E x - a)(E y - b) *)
  assert (Pr : tends (fun n => (nth j (particle_mean dm (ws (s' n)) (ls (s' n))) 0 - a) * (nth k (particle_mean dm (ws (s' n)) (ls (s' n))) 0 - b)) 0).
  { intros h Hh. destruct (Mj (Rmin 1 h) ltac:(apply Rmin_glb_lt; lra)) as [N1 H1]. destruct (Mk 1 ltac:(lra)) as [N2 H2]. exists (max N1 N2). intros n Hn.
    specialize (H1 n ltac:(lia)). specialize (H2 n ltac:(lia)). rewrite Rminus_0_r, Rabs_mult. pose proof (Rmin_r 1 h).
    pose proof (Rabs_pos (nth j (particle_mean dm (ws (s' n)) (ls (s' n))) 0 - a)) as P1. pose proof (Rabs_pos (nth k (particle_mean dm (ws (s' n)) (ls (s' n))) 0 - b)) as P2.
    revert H1 H2 P1 P2. generalize (Rabs (nth j (particle_mean dm (ws (s' n)) (ls (s' n))) 0 - a)) (Rabs (nth k (particle_mean dm (ws (s' n)) (ls (s' n))) 0 - b)). intros u v H1 H2 Hu Hv.
    apply Rle_lt_trans with (u * 1); [apply Rmult_le_compat_l; lra|]. lra. }
  replace 0 with (0 + -1 * 0) by ring. apply (tends_ext (fun n => Sum (n_particles s) (fun i => wt (s' n) i * ((nth j (at_ s i) 0 - a) * (nth k (at_ s i) 0 - b))) + -1 * ((nth j (particle_mean dm (ws (s' n)) (ls (s' n))) 0 - a) * (nth k (particle_mean dm (ws (s' n)) (ls (s' n))) 0 - b)))).
  2:{ apply tends_plus; [exact T2|]. now apply tends_scal. }
  intros n. destruct (Ls n) as [L1 L2]. rewrite cov_mom, !mean_mom by (try assumption; congruence). rewrite L2. unfold mom. change (length (ls s)) with (n_particles s). change (fun i => nth i (ws (s' n)) 0) with (wt (s' n)).
  assert (W : Sum (n_particles s) (wt (s' n)) = 1) by (now apply (weights_total c rs s t_static0 t_config0 t_threshold0 t_state0 dom es d)).
  change (nth j (at_ s t) 0) with a. change (nth k (at_ s t) 0) with b.
  rewrite (Sum_ext _ (fun i => wt (s' n) i * ((nth j (at_ s i) 0 - a) * (nth k (at_ s i) 0 - b)))
    (fun i => ((wt (s' n) i * (nth j (nth i (ls s) []) 0 * nth k (nth i (ls s) []) 0) + (- b) * (wt (s' n) i * nth j (nth i (ls s) []) 0)) + ((- a) * (wt (s' n) i * nth k (nth i (ls s) []) 0) + (a * b) * wt (s' n) i)))) by (intros; unfold at_; ring).
  rewrite !Sum_plus, !Sum_scal, W. unfold wt. ring.
Qed.
End Props.

(** The coin of CountProps with two candidate biases: any number of tosses. *)
Example c104_example n : averaged (ex_config ex_shot) (fun _ => tt) ex_state (records (fun _ => [0%Z; 1%Z]) (fun _ => tt) n []) (fun s' => nth 0 (particle_mean 1 (ws s') (ls s')) 0) = 1/2.
Proof.
  assert (B1 : forall o x e, 1/4 <= ex_shot o x e) by (intros o x e; unfold ex_shot; pose proof (bias_range x); destruct (Z.eqb o 1); lra).
  assert (Ep : eps <= 1/32). { unfold eps. replace (1/32) with (/ 2 ^ 5) by lra. apply Rinv_le_contravar; [apply pow_lt; lra|]. apply Rle_pow; [lra|lia]. }
  assert (G1 : good_config (ex_config ex_shot)) by (apply ex_good; intros; specialize (B1 o x e); lra).
  assert (F : full_inv (@ex_state Z)) by (split; [reflexivity|split; [repeat constructor; lra|cbn; rewrite !rsum_cons, rsum_nil; lra]]).
  rewrite (c104_average_mean (ex_config ex_shot) _ _ _ n ex_state 1 0); try assumption; try (cbn; lra); try reflexivity; try lia.
  - unfold particle_mean, ex_state, col. cbn. rewrite !rdot_cons, rdot_nil_l. lra.
  - intros x e _. unfold SumL. cbn. unfold ex_shot. cbn. ring.
  - intros data _. right. apply regular_bounded; [assumption|cbn; lra| |assumption]. intros o e x _. cbn. specialize (B1 o x e). lra.
Qed.
(** A fair and an unfair coin; the data alternate. *)
Definition fair_or_not (o : Z) (x : loc) (_ : unit) : R := match x with [a] => if Rltb a (1/2) then (if Z.eqb o 1 then 1/4 else 3/4) else 1/2 | _ => 1/2 end.
Definition alternating (k : nat) : Z * unit := (if Nat.even k then 0%Z else 1%Z, tt).
Definition dec_zu (a b : Z * unit) : {a = b} + {a <> b}.
Proof. destruct a as [x []], b as [y []]. destruct (Z.eq_dec x y) as [->|H]; [now left|right]. congruence. Defined.
Lemma alternating_count o n : o = 0%Z \/ o = 1%Z -> Rabs (2 * INR (count_occ dec_zu (map alternating (seq 0 n)) (o, tt)) - INR n) <= 1.
Proof.
  intros Ho.
  assert (P : forall m, 2 * INR (count_occ dec_zu (map alternating (seq 0 (2 * m))) (o, tt)) = INR (2 * m)).
  { induction m as [|m IH]; [cbn; lra|]. replace (2 * S m)%nat with (2 * m + 1 + 1)%nat by lia. rewrite !seq_app, !map_app, !count_occ_app, !plus_INR. cbn [seq map plus].
    rewrite Rmult_plus_distr_l, Rmult_plus_distr_l, IH. unfold alternating at 1 2. replace (Nat.even (2 * m)) with true by (symmetry; rewrite Nat.even_spec; now exists m).
    replace (Nat.even (2 * m + 1)) with false by (symmetry; rewrite <- Bool.not_true_iff_false, Nat.even_spec; intros [k Hk]; lia).
    destruct Ho as [-> | ->]; cbn; lra. }
  destruct (Nat.Even_or_Odd n) as [[m ->]|[m ->]].
  - rewrite P, Rminus_diag_eq, Rabs_R0 by reflexivity. lra.
  - rewrite seq_app, map_app, count_occ_app, !plus_INR, Rmult_plus_distr_l, P. cbn [seq map plus]. destruct (alternating (2 * m)) as [z []]. cbn [count_occ].
    destruct (dec_zu (z, tt) (o, tt)); cbn [INR]; apply Rabs_le; lra.
Qed.
Lemma alternating_freq o : o = 0%Z \/ o = 1%Z -> tends (freq dec_zu alternating (o, tt)) (1/2).
Proof.
  intros Ho h Hh. destruct (archimed (1 / h)) as [A1 _]. exists (max 1 (Z.to_nat (up (1 / h)))). intros n Hn. unfold freq.
  pose proof (alternating_count o n Ho) as K. assert (n0 : 0 < INR n) by (apply lt_0_INR; lia).
  assert (Hin : 1 / h < INR n). { apply Rlt_le_trans with (1 := A1). rewrite INR_IZR_INZ. apply IZR_le. lia. }
  apply Rmult_lt_compat_r with (r := h) in Hin; [|assumption]. unfold Rdiv in Hin at 1. rewrite Rmult_assoc, Rinv_l, Rmult_1_r in Hin by lra.
  set (k := INR (count_occ dec_zu (map alternating (seq 0 n)) (o, tt))) in *.
  replace (k / INR n - 1 / 2) with ((2 * k - INR n) * / (2 * INR n)) by (field; lra). rewrite Rabs_mult, (Rabs_pos_eq (/ _)) by (apply Rlt_le, Rinv_0_lt_compat; lra).
  apply Rle_lt_trans with (1 * / (2 * INR n)); [apply Rmult_le_compat_r; [apply Rlt_le, Rinv_0_lt_compat; lra|assumption]|].
  apply Rmult_lt_reg_r with (2 * INR n); [lra|]. rewrite Rmult_assoc, Rinv_l by lra. lra.
Qed.
Example c105_example : tends (fun n => nth 0 (particle_mean 1 (ws (run (ex_config fair_or_not) ex_state (updates (fun _ => tt) 0 (map alternating (seq 0 n))))) (ls (run (ex_config fair_or_not) ex_state (updates (fun _ => tt) 0 (map alternating (seq 0 n)))))) 0) 1.
Proof.
  assert (B1 : forall o x e, 1/4 <= fair_or_not o x e) by (intros o x e; unfold fair_or_not; destruct x as [|a [|b x]]; try lra; destruct (Rltb a (1/2)), (Z.eqb o 1); lra).
  assert (Ep : eps <= 1/32). { unfold eps. replace (1/32) with (/ 2 ^ 5) by lra. apply Rinv_le_contravar; [apply pow_lt; lra|]. apply Rle_pow; [lra|lia]. }
  assert (Ty : typical (ex_config fair_or_not) (fun _ => [0%Z; 1%Z]) [tt] (fun _ => 1) ex_state 1 dec_zu alternating).
  { constructor.
    - apply ex_good. intros. specialize (B1 o x e). lra.
    - cbn. lra.
    - reflexivity.
    - split; [reflexivity|split; [repeat constructor; lra|cbn; rewrite !rsum_cons, rsum_nil; lra]].
    - intros x e Hx _. unfold SumL. cbn. unfold fair_or_not. destruct x as [|a [|b x]]; try lra. destruct (Rltb a (1/2)); cbn; lra.
    - intros x e o _ _ _. cbn. specialize (B1 o x e). lra.
    - cbn. repeat constructor; cbn; intuition congruence.
    - intros k. unfold alternating. destruct (Nat.even k); cbn; auto.
    - intros; lra.
    - cbn. lia.
    - cbn. lra.
    - intros [] o _ Ho. replace (1 * lik (md (ex_config fair_or_not)) o (at_ ex_state 1) tt) with (1/2).
      + apply alternating_freq. cbn in Ho. intuition.
      + cbn. rewrite Rltb_false by lra. ring. }
  destruct (c105_mean_and_covariance_converge (ex_config fair_or_not) (fun _ => tt) (fun _ => [0%Z; 1%Z]) [tt] (fun _ => 1) ex_state 1 dec_zu alternating 1 0 0 Ty) as [T _]; try lia; [|exact T].
  intros i Hi. cbn in Hi. destruct i as [|[|i]]; [right|now left|lia].
  exists tt, 1%Z. repeat split; try (cbn; auto; fail); [lra|]. cbn. rewrite Rltb_true by lra. rewrite Rltb_false by lra. lra.
Qed.
Print Assumptions c104_records_are_a_distribution.
Print Assumptions c104_normalizations_multiply_to_the_prediction.
Print Assumptions c104_average_posterior_is_prior.
Print Assumptions c104_average_mean.
Print Assumptions c104_total_covariance.
Print Assumptions c104_variance_shrinks.
Print Assumptions c105_odds.
Print Assumptions c105_other_particles_vanish.
Print Assumptions c105_averages_converge.
Print Assumptions c105_mean_and_covariance_converge.
