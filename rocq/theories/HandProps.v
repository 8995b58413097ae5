(** C164: a posterior handed on as the prior of another updater.  [SMCUpdater(model, n, updater)] draws its particles from the cloud of [updater]. *)
From Coq Require Import List ZArith Lia Lra Psatz.
From Verif Require Import Base RList Ext Sums SmcModel SmcSpec SmcProofs PartModel PartSpec PartProofs LearnSpec LearnProofs RateSpec ReSpec ReProofs3 ConvSpec ConvProofs ConvProofs2 ConvProps HandModel HandProofs.
Import ListNotations.

(** ** The cloud of the new updater *)
(** The rows drawn are independent draws of particles with the probabilities given by their weights. *)
Theorem c164_law w l Eu n (G : list loc -> R) : prob_vector w -> length l = length w -> uniform_law Eu ->
  uniforms Eu n (fun us => match pd_sample w l us with Ok l' => G l' | Err _ => 0 end) = independent l w n G.
Proof.
  intros Hp Hl HU. rewrite (locs_idx w l n Hl). apply (uniforms_idx w Eu Hp HU). intros us _ _. rewrite pd_sample_ok.
  - now rewrite map_map.
  - intros H. pose proof (prob_vector_nonempty _ Hp) as Q. rewrite H in Q. cbn in Q. lia.
  - exact Hl.
Qed.
(** Every particle of the new updater, at its construction and after every later reset, is a particle of the old one with positive weight; their number is the one
    asked for and their weights are equal.  A particle the old updater has ruled out never comes back. *)
Theorem c164_particles {O O' E} (s : @state O') (c : @config O E (nat -> R)) r s2 n : full_inv s -> hands_on s c -> (canonize c = true -> forall l, canon (md c) l = l) ->
  (forall i, 0 <= r i < 1) -> let s' := fst (reset c r s2 (Some n) None true) in
  ws s' = uniform_weights n /\ length (ls s') = n /\ forall x, In x (ls s') -> exists j, (j < n_particles s)%nat /\ x = at_ s j /\ 0 < wt s j.
Proof.
  intros HI HH Hc Hr s'. assert (Q : ls s' = prior c r n) by (unfold s', reset; cbn; destruct (canonize c); [now rewrite Hc|reflexivity]). split; [reflexivity|]. rewrite Q. split; [now apply (prior_length s)|].
  intros x Hx. rewrite (prior_rows s c HI HH) in Hx. apply in_map_iff in Hx as (i & <- & _). pose proof (Hw s HI) as HP. pose proof (Hlw s HI) as HL. exists (sample_index (ws s) (r i)).
  assert (Rg : (sample_index (ws s) (r i) < length (ws s))%nat) by (apply sample_index_range, (w_ne s HI)). split; [unfold n_particles; now rewrite HL|]. split; [reflexivity|].
  pose proof (proj1 (sample_index_slot (ws s) (r i) _ HP (Hr i) Rg) eq_refl) as Sl. unfold in_slot in Sl. unfold wt. lra.
Qed.

Section Props.
Context {O E : Type}.
Variables (s : @state O) (c : @config O E (nat -> R)) (Eu : (R -> R) -> R).
Hypothesis HI : full_inv s.
Hypothesis HH : hands_on s c.
Hypothesis HU : uniform_law Eu.
(** The new cloud represents the old posterior: averages are right in the mean, with a mean squared error of the posterior variance over the number of particles. *)
Section Start.
Hypothesis Hc : canonize c = true -> forall l, canon (md c) l = l.
Let everything : Forall (fun x => In x (ls s)) (ls s). Proof. apply Forall_forall. auto. Qed.
Lemma on_cloud g : bounded (fun x => In x (ls s)) g.
Proof.
  unfold bounded. generalize (ls s) as l. induction l as [|y l [b Hb]]; [exists 0; intros x []|]. exists (Rmax b (Rabs (g y))). intros x [<-|Hx]; [apply Rmax_r|]. apply Rle_trans with b; [now apply Hb|apply Rmax_l].
Qed.
Lemma start_emp n r g : (0 < n)%nat -> average (fresh c n r) g = emp c n g r.
Proof.
  intros Hn. unfold average, cloud_average, emp. rewrite fresh_begun. cbn [begun ls ws]. replace (if canonize c then canon (md c) (prior c r n) else prior c r n) with (prior c r n) by (destruct (canonize c); [now rewrite Hc|reflexivity]).
  rewrite (prior_length s c HI HH). apply Sum_ext. intros i Hi. unfold uniform_weights. rewrite (nth_indep _ 0 (/ INR n)) by now rewrite repeat_length. now rewrite nth_repeat.
Qed.
Theorem c164_unbiased n g : (0 < n)%nat -> over Eu n (fun r => average (fresh c n r) g) = average s g.
Proof.
  intros Hn. rewrite (transfer s c Eu HI HH HU n (fun st => average st g)). rewrite <- (emp_mean c _ n _ _ (quant_sampling s c _ HI HH everything n) Hn (fun r => prior_length s c HI HH r n) g (on_cloud g)).
  unfold quant. apply (ind_ext _ _ (Hw s HI) (eq_sym (ends_length (ws s)))). intros x _ _. now apply start_emp.
Qed.
Theorem c164_error n g : (0 < n)%nat -> over Eu n (fun r => (average (fresh c n r) g - average s g) ^ 2) = average s (fun x => (g x - average s g) ^ 2) / INR n.
Proof.
  intros Hn. rewrite (transfer s c Eu HI HH HU n (fun st => (average st g - average s g) ^ 2)). rewrite <- (mean_square c _ n _ _ (quant_sampling s c _ HI HH everything n) Hn (fun r => prior_length s c HI HH r n) g (on_cloud g)).
  unfold quant. apply (ind_ext _ _ (Hw s HI) (eq_sym (ends_length (ws s)))). intros x _ _. now rewrite start_emp.
Qed.
End Start.

(** ** Learning goes on *)
Section Going.
Variables (mv : (nat -> R) -> E -> loc -> loc) (rs : nat -> nat -> R) (V : loc -> Prop) (data : list (O * E)).
Hypothesis HF : from_prior c mv rs V (average s) data.
Hypothesis HV : Forall V (ls s).
Notation new n r := (run c (fresh c n r) (updates rs 0 data)).
Notation old := (run c s (updates rs 0 data)).
Lemma old_regular : regular c rs 0 data s.
Proof.
  destruct HF. apply (regular_of_prefixes c rs fp_config fp_threshold data 0 s HI). intros k Hk. pose proof eps_pos as Pe. specialize (fp_likely k Hk).
  assert (Q : forall d, Sum (n_particles s) (fun i => wt s i * path_lik c rs 0 d (ls s) i) = average s (record_lik c mv rs 0 d)) by (intros d; apply Sum_ext; intros i Hi; now rewrite (path_record c mv rs fp_moves) by exact Hi).
  rewrite !Q. unfold exact_evidence in fp_likely. apply Rle_trans with (2 := fp_likely). assert (0 <= average s (record_lik c mv rs 0 (firstn k data))).
  { rewrite <- Q. apply Sum_nonneg. intros i Hi. apply Rmult_le_pos; [apply (w_nonneg _ (Hw s HI))|]. rewrite (path_record c mv rs fp_moves) by exact Hi. apply (rl_nonneg c mv rs V (average s) data HF). }
  nra.
Qed.
(** The target of the new updater is the posterior the old one reaches with the same data. *)
Theorem c164_target f : exact_average c mv rs (average s) data f = average old f.
Proof.
  destruct HF. destruct (posterior_average c mv rs fp_config fp_threshold fp_moves data s f HI old_regular) as [_ Q]. rewrite Q. reflexivity.
Qed.
(** The new updater predicts the data, on average over its draws, as the old one does. *)
Theorem c164_prediction n : (0 < n)%nat -> over Eu n (fun r => predictive c rs (fresh c n r) data) = predictive c rs s data.
Proof.
  intros Hn. rewrite (transfer s c Eu HI HH HU n (fun st => predictive c rs st data)). rewrite (c123_prediction_is_unbiased c mv rs V n (average s) (quant s n) data HF (quant_sampling s c V HI HH HV n) Hn).
  unfold exact_evidence. rewrite firstn_all. symmetry. apply Sum_ext. intros i Hi. now rewrite (path_record c mv rs (fp_moves _ _ _ _ _ _ HF)) by exact Hi.
Qed.
(** The chance that the two updaters disagree by [h] about a posterior average falls like one over the number of particles of the new one. *)
Theorem c164_posterior n f h : (0 < n)%nat -> 0 < h -> (exists b, forall x, V x -> Rabs (f (final mv rs 0 data x)) <= b) ->
  let T := length data in let a := average old f in
  over Eu n (fun r => indicator (Rleb h (Rabs (average (new n r) f - a)))) <=
  (9 * Sum T (fun k => spread c mv rs (average s) data (S k)) +
   9 / 4 * (average s (fun x => (record_lik c mv rs 0 data x * (f (final mv rs 0 data x) - a)) ^ 2) / exact_evidence c mv rs (average s) data T ^ 2) / h ^ 2) / INR n.
Proof.
  intros Hn Hh Hb T a. rewrite (transfer s c Eu HI HH HU n (fun st => indicator (Rleb h (Rabs (average (run c st (updates rs 0 data)) f - a))))). unfold a. rewrite <- c164_target. apply (c123_posterior_average c mv rs V n (average s) (quant s n) data f h HF (quant_sampling s c V HI HH HV n) Hn Hh Hb).
Qed.
Theorem c164_total_likelihood n h : (0 < n)%nat -> 0 < h -> let T := length data in
  over Eu n (fun r => indicator (match log_total_likelihood (new n r) with Fin t => Rleb h (Rabs (exp t / predictive c rs s data - 1)) | _ => true end)) <=
  (9 * Sum T (fun k => spread c mv rs (average s) data (S k)) + spread c mv rs (average s) data T / h ^ 2) / INR n.
Proof.
  intros Hn Hh T. rewrite (transfer s c Eu HI HH HU n (fun st => indicator (match log_total_likelihood (run c st (updates rs 0 data)) with Fin t => Rleb h (Rabs (exp t / predictive c rs s data - 1)) | _ => true end))).
  rewrite <- (c164_prediction n Hn), (transfer s c Eu HI HH HU n (fun st => predictive c rs st data)), (c123_prediction_is_unbiased c mv rs V n (average s) (quant s n) data HF (quant_sampling s c V HI HH HV n) Hn).
  apply (c123_total_likelihood c mv rs V n (average s) (quant s n) data h HF (quant_sampling s c V HI HH HV n) Hn Hh).
Qed.
(** So with enough particles the new updater agrees with the old one as closely and as surely as wanted: about averages, means and covariances. *)
Lemma settles_over psi a : settles (fun n => quant s n) (fun n r => psi (fresh c n r)) a -> settles (over Eu) (fun n r => psi (fresh c n r)) a.
Proof. intros H h d Hh Hd. destruct (H h d Hh Hd) as [N HN]. exists N. intros n Hn. unfold chance. rewrite (transfer s c Eu HI HH HU n (fun st => indicator (Rleb h (Rabs (psi st - a))))). now apply HN. Qed.
Notation reaches est a := (settles (over Eu) (fun n r => est (new n r)) a).
Theorem c164_agree f : (exists b, forall x, V x -> Rabs (f (final mv rs 0 data x)) <= b) -> reaches (fun st => average st f) (average old f).
Proof.
  intros Hb. apply (settles_over (fun st => average (run c st (updates rs 0 data)) f)). rewrite <- c164_target. apply (c123_averages_settle c mv rs V (average s) (fun n => quant s n) data f HF); [|exact Hb]. intros n Hn. now apply quant_sampling.
Qed.
Lemma old_weights : prob_vector (ws old) /\ length (ws old) = length (ls old).
Proof. destruct (run_regular c rs (fp_config _ _ _ _ _ _ HF) (fp_threshold _ _ _ _ _ _ HF) data 0%nat s HI old_regular) as ((Q1 & Q2) & _). split; [exact Q2|]. first [exact Q1|exact (eq_sym Q1)]. Qed.
Theorem c164_mean d j : (j < d)%nat -> (exists b, forall x, V x -> Rabs (nth j (final mv rs 0 data x) 0) <= b) ->
  reaches (fun st => nth j (particle_mean d (ws st) (ls st)) 0) (nth j (particle_mean d (ws old) (ls old)) 0).
Proof.
  intros Hj Hb. apply (settles_over (fun st => nth j (particle_mean d (ws (run c st (updates rs 0 data))) (ls (run c st (updates rs 0 data)))) 0)).
  rewrite mean_mom by (try exact Hj; destruct old_weights; congruence). change (settles (fun n => quant s n) (fun n r => nth j (particle_mean d (ws (new n r)) (ls (new n r))) 0) (average old (fun x => nth j x 0))). rewrite <- c164_target.
  apply (c123_mean_settles c mv rs V (average s) (fun n => quant s n) data d j HF); auto. intros n Hn. now apply quant_sampling.
Qed.
Theorem c164_covariance j k : (exists b, forall x, V x -> Rabs (nth j (final mv rs 0 data x) 0) <= b) -> (exists b, forall x, V x -> Rabs (nth k (final mv rs 0 data x) 0) <= b) ->
  reaches (fun st => particle_cov (ws st) (ls st) j k) (particle_cov (ws old) (ls old) j k).
Proof.
  intros Hb Hb'. apply (settles_over (fun st => particle_cov (ws (run c st (updates rs 0 data))) (ls (run c st (updates rs 0 data))) j k)).
  rewrite cov_mom by (destruct old_weights; congruence). change (settles (fun n => quant s n) (fun n r => particle_cov (ws (new n r)) (ls (new n r)) j k)
    (average old (fun x => nth j x 0 * nth k x 0) - average old (fun x => nth j x 0) * average old (fun x => nth k x 0))). rewrite <- !c164_target.
  apply (c123_covariance_settles c mv rs V (average s) (fun n => quant s n) data j k HF); auto. intros n Hn. now apply quant_sampling.
Qed.
End Going.
End Props.

(** ** A concrete case *)
(** An updater that has seen one head of a coin with bias 1/4 or 3/4, and a new one that takes it as its prior and sees two more. *)
Definition seen : @state Z := {| ws := [1/4; 3/4]; ls := [[1/4]; [3/4]]; drec := [1%Z]; nrec := [1/2]; mness := Fin 2; rcnt := 0; jr := false; calls := 2 |}.
Definition heir : @config Z unit (nat -> R) :=
  {| md := {| lik := fun o x _ => let p := clip 0 1 (nth 0 x 0) in if Z.eqb o 1 then p else 1 - p; timestep := fun _ l _ => l; canon := fun l => l |};
     prior := posterior_prior seen; rsmp := fun _ _ _ => Err RuntimeError; rthresh := 1/2; zpolicy := PError; zthresh := 0; canonize := true |}.
Example c164_example_inv : full_inv seen.
Proof. split; [reflexivity|]. split; [repeat constructor; cbn; lra|unfold rsum; cbn; lra]. Qed.
Example c164_example_hands_on : hands_on seen heir.
Proof. intros r n. cbn [heir prior]. unfold posterior_prior. rewrite pd_sample_ok; [reflexivity|discriminate|reflexivity]. Qed.
Example c164_example_setting : from_prior heir (fun _ _ x => x) (fun _ _ => 0) (fun x => In x (ls seen)) (average seen) two_heads.
Proof.
  assert (C1 : clip 0 1 (1/4) = 1/4) by (unfold clip; rewrite Rmax_right, Rmin_right by lra; reflexivity). assert (C3 : clip 0 1 (3/4) = 3/4) by (unfold clip; rewrite Rmax_right, Rmin_right by lra; reflexivity).
  assert (CR : forall x, 0 <= clip 0 1 x <= 1).
  { intros x. unfold clip. pose proof (Rmax_l 0 x). split; [apply Rmin_glb; lra|apply Rmin_l]. }
  constructor.
  - constructor; try (intros; reflexivity).
    + intros o x e. cbn. destruct (Z.eqb o 1); pose proof (CR (nth 0 x 0)); lra.
    + intros r n. apply (prior_length seen heir c164_example_inv c164_example_hands_on).
    + intros. discriminate.
  - cbn. lra.
  - reflexivity.
  - intros. cbn. now rewrite map_id.
  - intros r e x Hx. exact Hx.
  - intros o e. exists 1. intros x _. cbn. destruct (Z.eqb o 1); pose proof (CR (nth 0 x 0)); lra.
  - assert (Pe : eps <= 1/8) by (unfold eps; apply Rle_trans with (/ 2 ^ 3); [apply Rinv_le_contravar; [apply pow_lt; lra|apply Rle_pow; [lra|lia]]|lra]).
    intros [|[|k]] Hk; [| |cbn in Hk; lia]; unfold exact_evidence, average, cloud_average, two_heads; cbn [firstn record_lik seen ls ws length]; rewrite !Sum_S, !Sum_0; cbn [nth heir md lik Z.eqb Pos.eqb]; rewrite C1, C3; lra.
Qed.
(** Its mean starts at 5/8 on average, with variance 3/64 over the number of particles, and with enough particles ends at the 41/56 of the old updater. *)
Example c164_example n : (0 < n)%nat -> over riemann n (fun r => average (fresh heir n r) (fun x => nth 0 x 0)) = 5/8 /\
  over riemann n (fun r => (average (fresh heir n r) (fun x => nth 0 x 0) - 5/8) ^ 2) = 3/64 / INR n.
Proof.
  intros Hn. assert (Q : average seen (fun x => nth 0 x 0) = 5/8) by (unfold average, cloud_average; cbn [seen ls ws length]; rewrite !Sum_S, !Sum_0; cbn [nth]; lra).
  pose proof (c164_unbiased seen heir riemann c164_example_inv c164_example_hands_on riemann_uniform ltac:(reflexivity) n (fun x => nth 0 x 0) Hn) as U. pose proof (c164_error seen heir riemann c164_example_inv c164_example_hands_on riemann_uniform ltac:(reflexivity) n (fun x => nth 0 x 0) Hn) as V.
  rewrite Q in U, V. split; [exact U|]. rewrite V. f_equal. unfold average, cloud_average. cbn [seen ls ws length]. rewrite !Sum_S, !Sum_0. cbn [nth]. lra.
Qed.
Example c164_example_agree : settles (over riemann) (fun n r => average (run heir (fresh heir n r) (updates (fun _ _ => 0) 0 two_heads)) (fun x => nth 0 x 0)) (41/56).
Proof.
  replace (41/56) with (average (run heir seen (updates (fun _ _ => 0) 0 two_heads)) (fun x => nth 0 x 0)).
  - apply (c164_agree seen heir riemann c164_example_inv c164_example_hands_on riemann_uniform (fun _ _ x => x) (fun _ _ => 0) (fun x => In x (ls seen)) two_heads c164_example_setting); [apply Forall_forall; auto|].
    exists 1. intros x [<-|[<-|[]]]; cbn; rewrite Rabs_pos_eq; lra.
  - rewrite <- (c164_target seen heir c164_example_inv (fun _ _ x => x) (fun _ _ => 0) (fun x => In x (ls seen)) two_heads c164_example_setting).
    assert (C1 : clip 0 1 (1/4) = 1/4) by (unfold clip; rewrite Rmax_right, Rmin_right by lra; reflexivity). assert (C3 : clip 0 1 (3/4) = 3/4) by (unfold clip; rewrite Rmax_right, Rmin_right by lra; reflexivity).
    unfold exact_average, average, cloud_average, two_heads. cbn [record_lik final seen ls ws length]. rewrite !Sum_S, !Sum_0. cbn [nth heir md lik Z.eqb Pos.eqb]. rewrite C1, C3. field.
Qed.
(** The new updater gives two more heads the probability 7/16 on average, with any number of particles, and its mean and variance settle as the theorems say. *)
Example c164_example_prediction n : (0 < n)%nat -> over riemann n (fun r => predictive heir (fun _ _ => 0) (fresh heir n r) two_heads) = 7/16.
Proof.
  intros Hn. rewrite (c164_prediction seen heir riemann c164_example_inv c164_example_hands_on riemann_uniform (fun _ _ x => x) (fun _ _ => 0) (fun x => In x (ls seen)) two_heads c164_example_setting); [|apply Forall_forall; auto|exact Hn].
  assert (C1 : clip 0 1 (1/4) = 1/4) by (unfold clip; rewrite Rmax_right, Rmin_right by lra; reflexivity). assert (C3 : clip 0 1 (3/4) = 3/4) by (unfold clip; rewrite Rmax_right, Rmin_right by lra; reflexivity).
  unfold predictive, n_particles, two_heads, wt. cbn [seen ls ws length]. rewrite !Sum_S, !Sum_0. cbn [path_lik nth heir md lik timestep Z.eqb Pos.eqb]. rewrite C1, C3. lra.
Qed.
Example c164_example_moments : let old := run heir seen (updates (fun _ _ => 0) 0 two_heads) in let new n r := run heir (fresh heir n r) (updates (fun _ _ => 0) 0 two_heads) in
  settles (over riemann) (fun n r => nth 0 (particle_mean 1 (ws (new n r)) (ls (new n r))) 0) (nth 0 (particle_mean 1 (ws old) (ls old)) 0) /\
  settles (over riemann) (fun n r => particle_cov (ws (new n r)) (ls (new n r)) 0 0) (particle_cov (ws old) (ls old) 0 0) /\
  (forall n h, (0 < n)%nat -> 0 < h -> exists K, over riemann n (fun r => indicator (match log_total_likelihood (new n r) with Fin t => Rleb h (Rabs (exp t / (7/16) - 1)) | _ => true end)) <= K / INR n).
Proof.
  cbv zeta. assert (B : exists b, forall x, In x (ls seen) -> Rabs (nth 0 (final (fun (_ : nat -> R) (_ : unit) (x : loc) => x) (fun _ _ => 0) 0 two_heads x) 0) <= b) by (exists 1; intros x [<-|[<-|[]]]; cbn; rewrite Rabs_pos_eq; lra).
  assert (A : Forall (fun x => In x (ls seen)) (ls seen)) by (apply Forall_forall; auto). split; [|split].
  - apply (c164_mean seen heir riemann c164_example_inv c164_example_hands_on riemann_uniform _ _ _ _ c164_example_setting A 1 0); [lia|exact B].
  - apply (c164_covariance seen heir riemann c164_example_inv c164_example_hands_on riemann_uniform _ _ _ _ c164_example_setting A 0 0); exact B.
  - intros n h Hn Hh. eexists. pose proof (c164_total_likelihood seen heir riemann c164_example_inv c164_example_hands_on riemann_uniform _ _ _ _ c164_example_setting A n h Hn Hh) as Q. cbv zeta in Q.
    rewrite <- (c164_prediction seen heir riemann c164_example_inv c164_example_hands_on riemann_uniform _ _ _ _ c164_example_setting A n Hn), (c164_example_prediction n Hn) in Q. exact Q.
Qed.
Example c164_example_particles : let s' := fst (reset heir (fun _ => 1/2) seen (Some 3%nat) None true) in forall x, In x (ls s') -> x = [1/4] \/ x = [3/4].
Proof.
  intros s' x Hx. destruct (c164_particles seen heir (fun _ => 1/2) seen 3 c164_example_inv c164_example_hands_on ltac:(reflexivity) ltac:(intros; lra)) as (_ & _ & Q). destruct (Q x Hx) as (j & Hj & -> & _). destruct j as [|[|j]]; [now left|now right|cbn in Hj; lia].
Qed.

Print Assumptions c164_law.
Print Assumptions c164_particles.
Print Assumptions c164_unbiased.
Print Assumptions c164_error.
Print Assumptions c164_target.
Print Assumptions c164_prediction.
Print Assumptions c164_posterior.
Print Assumptions c164_total_likelihood.
Print Assumptions c164_agree.
Print Assumptions c164_mean.
Print Assumptions c164_covariance.
