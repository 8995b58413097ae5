(** C110: learning with resampling, averaged over the data the cloud itself predicts and over the resampler's random draws. *)
From Verif Require Import Base RList Ext Sums SmcModel SmcSpec SmcProofs PartModel PartSpec PartProofs LwModel LwSpec LwProofs2 LwProofs3 CountProps ReModel ReSpec ReProofs ReProofs2 ReProofs3.
From Coq Require Import List.

Section Props.
Context {O E RND : Type}.
Implicit Types (c : @config O E RND) (s : @state O).

(** Any resampler: if resampling keeps the average of [g] on average, then so does any number of rounds of adaptively chosen
    experiments with updates and resampling whenever the updater finds it necessary. *)
Theorem c110_averages_are_kept c dom pol Cl Good Er n g s :
  learns c dom Cl -> resampling_law c Cl Good Er -> unbiased c Cl Er g ->
  full_inv s -> Cl (ls s) -> regular_rounds c dom pol Good n s ->
  lookahead c dom pol Er n (fun s' => cloud_average (ws s') (ls s') g) s = cloud_average (ws s) (ls s) g.
Proof. intros HL HR HU. exact (martingale c dom pol Cl Good Er HL HR n g HU s). Qed.
(** The rounds form a probability distribution: constants average to themselves. *)
Theorem c110_rounds_are_a_distribution c dom pol Cl Good Er n k s :
  learns c dom Cl -> resampling_law c Cl Good Er -> full_inv s -> Cl (ls s) -> regular_rounds c dom pol Good n s ->
  lookahead c dom pol Er n (fun _ => k) s = k.
Proof. intros HL HR. exact (look_const c dom pol Cl Good Er HL HR n k s). Qed.
(** Law of total covariance across resampling. *)
Theorem c110_total_covariance c dom pol Cl Good Er n d j k s :
  learns c dom Cl -> resampling_law c Cl Good Er -> (j < d)%nat -> (k < d)%nat ->
  unbiased c Cl Er (fun x => nth j x 0) -> unbiased c Cl Er (fun x => nth k x 0) -> unbiased c Cl Er (fun x => nth j x 0 * nth k x 0) ->
  full_inv s -> Cl (ls s) -> regular_rounds c dom pol Good n s ->
  let mean s' i := nth i (particle_mean d (ws s') (ls s')) 0 in
  particle_cov (ws s) (ls s) j k = lookahead c dom pol Er n (fun s' => particle_cov (ws s') (ls s') j k) s
    + lookahead c dom pol Er n (fun s' => (mean s' j - mean s j) * (mean s' k - mean s k)) s.
Proof. intros HL HR Hj Hk U1 U2 U3. exact (look_cov c dom pol Cl Good Er HL HR n d j k s U1 U2 U3 Hj Hk). Qed.
End Props.

(** The Liu-West resampler as the updater calls it, with [n] particles of [d] parameters, where every proposal is accepted. *)
Record liu_west {O E} (c : @config O E (list (R * list R))) valid postselect sqrtm cfg d n junk : Prop := {
  lk_call : rsmp c = lw_rsmp valid postselect sqrtm cfg d junk;
  lk_n : c_default_n cfg = None \/ c_default_n cfg = Some n;
  lk_maxiter : (0 < c_maxiter cfg)%nat;
  lk_finite : forall m, isfinite (snd (sqrtm m)) = true;
  lk_shape : forall m, is_matrix d m -> is_matrix d (fst (sqrtm m));
  lk_valid : postselect = true -> forall x, length x = d -> valid x = true
}.
(** The matrix square root is right on symmetric positive semidefinite matrices. *)
Definition exact_roots (sqrtm : list (list R) -> list (list R) * ext) (d : nat) : Prop := forall M, is_matrix d M ->
  (forall p q, (p < d)%nat -> (q < d)%nat -> entry M p q = entry M q p) ->
  (forall v : nat -> R, 0 <= Sum d (fun p => Sum d (fun q => v p * v q * entry M p q))) -> square_root d (fst (sqrtm M)) M.
(** Clouds of [n] particles with [d] parameters. *)
Definition sized (n d : nat) (l : list loc) : Prop := length l = n /\ forall x, In x l -> length x = d.

Lemma exact_cov sqrtm cfg d w l : exact_roots sqrtm d -> 0 <= c_comp cfg -> prob_vector w -> length w = length l ->
  square_root d (root sqrtm cfg d w l) (the_cov cfg d w l None).
Proof.
  intros HX Hc Hp Hl. apply HX; [apply the_cov_matrix| |]; unfold the_cov; destruct (Reqb _ 0); rewrite ?(proj1 (est_cov_matrix d w l)).
  - intros p q H1 H2. rewrite !entry_eye by assumption. rewrite Nat.eqb_sym. reflexivity.
  - intros p q H1 H2. unfold entry. rewrite !nth_est_cov by assumption. rewrite !cov_covar by (try assumption; apply Hp). unfold covar, expect. apply Sum_ext. intros; ring.
  - intros v. apply Sum_nonneg. intros p H1. rewrite (Sum_ext d _ (fun q => (v p * v q * c_comp cfg) * (if Nat.eqb p q then 1 else 0))).
    + rewrite (Sum_delta d p (fun q => v p * v q * c_comp cfg)) by assumption. apply Rmult_le_pos; [apply Rle_0_sqr|assumption].
    + intros q H2. rewrite entry_eye by assumption. destruct (Nat.eqb p q); ring.
  - intros v. exact (est_cov_psd d w l v Hp Hl).
Qed.

Section LiuWest.
Context {O E : Type}.
Implicit Types (c : @config O E (list (R * list R))) (s : @state O).

(** One resampling step: on average over the draws, the mean of the new cloud is the old mean; *)
Theorem c110_resampled_mean c valid postselect sqrtm cfg d n junk Eu Ez w l j :
  liu_west c valid postselect sqrtm cfg d n junk -> uniform_law Eu -> kernel_expectation d Ez ->
  prob_vector w -> length w = length l -> sized n d l -> (j < d)%nat ->
  draws Eu Ez n (fun r => match rsmp c r w l with Ok (w', l') => nth j (particle_mean d w' l') 0 | Err _ => 0 end) = nth j (particle_mean d w l) 0.
Proof.
  intros [H1 H2 H3 H4 H5 H6] HEu HEz Hp Hl HC Hj.
  pose proof (lw_law valid postselect sqrtm cfg d n junk Eu Ez HEu HEz H2 H3 H4 H5 H6 c H1) as HR.
  rewrite (LearnProofs.mean_mom d w l j Hj Hl). etransitivity; [|exact (lw_unbiased_mean valid postselect sqrtm cfg d n junk Eu Ez HEu HEz H2 H3 H4 H5 H6 c H1 j Hj w l Hp Hl HC)].
  apply (rl_ext c _ _ _ HR). intros r Hr. destruct (rl_ok c _ _ _ HR r w l Hr Hp Hl HC) as (w' & l' & -> & _ & Ll & _). exact (LearnProofs.mean_mom d w' l' j Hj Ll).
Qed.
(** its covariance is the old one times 1 - 1/n (the n draws are independent, so the mean of the new cloud itself fluctuates); a
    cloud without any spread first gets the compensation h^2 zero_cov_comp on the diagonal. *)
Theorem c110_resampled_covariance c valid postselect sqrtm cfg d n junk Eu Ez w l j k :
  liu_west c valid postselect sqrtm cfg d n junk -> exact_roots sqrtm d -> c_a cfg ^ 2 + c_h cfg ^ 2 = 1 -> 0 <= c_comp cfg ->
  uniform_law Eu -> kernel_expectation d Ez -> prob_vector w -> length w = length l -> sized n d l -> (j < d)%nat -> (k < d)%nat ->
  ((exists p q, (p < d)%nat /\ (q < d)%nat /\ particle_cov w l p q <> 0) ->
   draws Eu Ez n (fun r => match rsmp c r w l with Ok (w', l') => particle_cov w' l' j k | Err _ => 0 end) = (1 - / INR n) * particle_cov w l j k) /\
  ((forall p q, (p < d)%nat -> (q < d)%nat -> particle_cov w l p q = 0) ->
   draws Eu Ez n (fun r => match rsmp c r w l with Ok (w', l') => particle_cov w' l' j k | Err _ => 0 end)
   = if Nat.eqb j k then (1 - / INR n) * (c_h cfg ^ 2 * c_comp cfg) else 0).
Proof.
  intros [H1 H2 H3 H4 H5 H6] HX Hah Hc HEu HEz Hp Hl HC Hj Hk.
  pose proof (expected_cov valid postselect sqrtm cfg d n junk Eu Ez HEu HEz H2 H3 H4 H5 H6 c H1 (fun w l P L => exact_cov sqrtm cfg d w l HX Hc P L) Hah w l j k Hj Hk Hp Hl HC) as X.
  pose proof (fro2_zero d w l Hp (eq_sym Hl)) as Z. split.
  - intros (p & q & Hpd & Hqd & Hnz). rewrite X. rewrite Reqb_false; [ring|]. intros Q. apply Hnz. rewrite <- (nth_est_cov d) by assumption. exact (proj1 Z Q p q Hpd Hqd).
  - intros Hz. rewrite X. rewrite Reqb_true; [rewrite (Hz j k Hj Hk); destruct (Nat.eqb j k); ring|]. apply Z. intros p q Hpd Hqd. unfold entry. rewrite nth_est_cov by assumption. auto.
Qed.

(** Learning with the Liu-West resampler: the average final mean is the initial mean, whatever the compensation, [a] and [h]; *)
Theorem c110_liu_west_mean c valid postselect sqrtm cfg d n junk Eu Ez dom pol m s j :
  liu_west c valid postselect sqrtm cfg d n junk -> uniform_law Eu -> kernel_expectation d Ez -> learns c dom (sized n d) ->
  full_inv s -> sized n d (ls s) -> regular_rounds c dom pol (good_draws n d) m s -> (j < d)%nat ->
  lookahead c dom pol (draws Eu Ez n) m (fun s' => nth j (particle_mean d (ws s') (ls s')) 0) s = nth j (particle_mean d (ws s) (ls s)) 0.
Proof.
  intros [H1 H2 H3 H4 H5 H6] HEu HEz HL Hi HC Hr Hj.
  apply (look_mean c dom pol (sized n d) (good_draws n d) (draws Eu Ez n) HL); try assumption.
  - exact (lw_law valid postselect sqrtm cfg d n junk Eu Ez HEu HEz H2 H3 H4 H5 H6 c H1).
  - exact (lw_unbiased_mean valid postselect sqrtm cfg d n junk Eu Ez HEu HEz H2 H3 H4 H5 H6 c H1 j Hj).
Qed.
(** with a^2 + h^2 = 1 initial covariances split into average final covariance plus covariance of the final means (for two different
    parameters, or without compensation); *)
Theorem c110_liu_west_total_covariance c valid postselect sqrtm cfg d n junk Eu Ez dom pol m s j k :
  liu_west c valid postselect sqrtm cfg d n junk -> exact_roots sqrtm d -> c_a cfg ^ 2 + c_h cfg ^ 2 = 1 -> 0 <= c_comp cfg ->
  uniform_law Eu -> kernel_expectation d Ez -> learns c dom (sized n d) ->
  full_inv s -> sized n d (ls s) -> regular_rounds c dom pol (good_draws n d) m s -> (j < d)%nat -> (k < d)%nat -> j <> k \/ c_comp cfg = 0 ->
  let mean s' i := nth i (particle_mean d (ws s') (ls s')) 0 in
  particle_cov (ws s) (ls s) j k = lookahead c dom pol (draws Eu Ez n) m (fun s' => particle_cov (ws s') (ls s') j k) s
    + lookahead c dom pol (draws Eu Ez n) m (fun s' => (mean s' j - mean s j) * (mean s' k - mean s k)) s.
Proof.
  intros [H1 H2 H3 H4 H5 H6] HX Hah Hc HEu HEz HL Hi HC Hr Hj Hk Hx.
  apply (look_cov c dom pol (sized n d) (good_draws n d) (draws Eu Ez n) HL); try assumption.
  - exact (lw_law valid postselect sqrtm cfg d n junk Eu Ez HEu HEz H2 H3 H4 H5 H6 c H1).
  - exact (lw_unbiased_mean valid postselect sqrtm cfg d n junk Eu Ez HEu HEz H2 H3 H4 H5 H6 c H1 j Hj).
  - exact (lw_unbiased_mean valid postselect sqrtm cfg d n junk Eu Ez HEu HEz H2 H3 H4 H5 H6 c H1 k Hk).
  - exact (lw_unbiased_cross valid postselect sqrtm cfg d n junk Eu Ez HEu HEz H2 H3 H4 H5 H6 c H1 (fun w l P L => exact_cov sqrtm cfg d w l HX Hc P L) Hah j k Hj Hk Hx).
Qed.
(** and the average final variance exceeds the initial variance by at most h^2 zero_cov_comp per round. *)
Theorem c110_liu_west_variance c valid postselect sqrtm cfg d n junk Eu Ez dom pol m s j :
  liu_west c valid postselect sqrtm cfg d n junk -> exact_roots sqrtm d -> c_a cfg ^ 2 + c_h cfg ^ 2 = 1 -> 0 <= c_comp cfg ->
  uniform_law Eu -> kernel_expectation d Ez -> (forall f, (forall z, length z = d -> 0 <= f z) -> 0 <= Ez f) -> learns c dom (sized n d) ->
  full_inv s -> sized n d (ls s) -> regular_rounds c dom pol (good_draws n d) m s -> (j < d)%nat ->
  lookahead c dom pol (draws Eu Ez n) m (fun s' => particle_cov (ws s') (ls s') j j) s
  <= particle_cov (ws s) (ls s) j j + INR m * (c_h cfg ^ 2 * c_comp cfg).
Proof.
  intros [H1 H2 H3 H4 H5 H6] HX Hah Hc HEu HEz HP HL Hi HC Hr Hj.
  apply (look_var_drift c dom pol (sized n d) (good_draws n d) (draws Eu Ez n) HL); try assumption.
  - exact (lw_law valid postselect sqrtm cfg d n junk Eu Ez HEu HEz H2 H3 H4 H5 H6 c H1).
  - exact (lw_positive valid postselect sqrtm cfg d n junk Eu Ez HEu HEz H2 H3 H4 H5 H6 c H1 HP).
  - apply Rmult_le_pos; [apply pow2_ge_0|assumption].
  - exact (lw_unbiased_mean valid postselect sqrtm cfg d n junk Eu Ez HEu HEz H2 H3 H4 H5 H6 c H1 j Hj).
  - exact (lw_drift valid postselect sqrtm cfg d n junk Eu Ez HEu HEz H2 H3 H4 H5 H6 c H1 (fun w l P L => exact_cov sqrtm cfg d w l HX Hc P L) Hah j Hj Hc).
Qed.
End LiuWest.

(** The hypotheses are met: the integral over [0, 1] is a uniform law, random signs are a kernel, and a coin with two candidate
    biases is learned with two particles that are resampled whenever n_ess is below 99 percent of their number. *)
Lemma signs_positive d : forall f, (forall z, length z = d -> 0 <= f z) -> 0 <= signs d f.
Proof.
  induction d as [|d IH]; intros f Hf; cbn; [now apply Hf|].
  pose proof (IH (fun z => f (1 :: z)) ltac:(intros; apply Hf; cbn; lia)). pose proof (IH (fun z => f (-1 :: z)) ltac:(intros; apply Hf; cbn; lia)). lra.
Qed.
Definition coin_lw : lw_config := {| c_a := 3/5; c_h := 4/5; c_maxiter := 10; c_comp := 0; c_default_n := None |}.
Definition coin_root (m : list (list R)) : list (list R) * ext := ([[sqrt (entry m 0 0)]], Fin 0).
Definition coin_config : @config Z unit (list (R * list R)) :=
  {| md := {| lik := ex_shot; timestep := fun _ x _ => x; canon := fun x => x |}; prior := fun _ n => repeat [0] n;
     rsmp := lw_rsmp (fun _ => true) true coin_root coin_lw 1 (fun _ => [7]);
     rthresh := 99/100; zpolicy := PError; zthresh := 1/2; canonize := true |}.
Lemma coin_roots : exact_roots coin_root 1.
Proof.
  intros M [L1 L2] _ HP. split; [split; [reflexivity|intros r [<-|[]]; reflexivity]|]. intros p q Hp Hq. assert (p = 0%nat) by lia. assert (q = 0%nat) by lia. subst.
  rewrite Sum_S, Sum_0. cbn [coin_root fst]. change (sqrt (entry M 0 0) * sqrt (entry M 0 0) + 0 = entry M 0 0). rewrite sqrt_sqrt; [ring|].
  specialize (HP (fun _ => 1)). rewrite !Sum_S, !Sum_0 in HP. lra.
Qed.
Lemma coin_liu_west : liu_west coin_config (fun _ => true) true coin_root coin_lw 1 2 (fun _ => [7]).
Proof.
  constructor; try reflexivity; try (now left).
  - cbn. lia.
  - intros m _. split; [reflexivity|intros r [<-|[]]; reflexivity].
Qed.
Lemma coin_learns : learns coin_config (fun _ => [0%Z; 1%Z]) (sized 2 1).
Proof.
  constructor; try reflexivity.
  - intros o x e. cbn. unfold ex_shot. pose proof (bias_range x). destruct (Z.eqb o 1); lra.
  - intros l x e _ _. unfold SumL. cbn. unfold ex_shot. cbn. ring.
  - cbn. lra.
Qed.
Lemma coin_regular m : regular_rounds coin_config (fun _ => [0%Z; 1%Z]) (fun _ => tt) (good_draws 2 1) m ex_state.
Proof.
  destruct coin_liu_west as [H1 H2 H3 H4 H5 H6].
  apply (regular_rounds_bounded coin_config _ _ (sized 2 1) _ (draws riemann (signs 1) 2) coin_learns
    (lw_law (fun _ => true) true coin_root coin_lw 1 2 (fun _ => [7]) _ (signs 1) riemann_uniform (signs_kernel 1) H2 H3 H4 H5 H6 coin_config H1)).
  - intros l x e o _ _ _. cbn. unfold ex_shot. pose proof (bias_range x).
    assert (Ep : eps <= 1/32) by (unfold eps; replace (1/32) with (/ 2 ^ 5) by lra; apply Rinv_le_contravar; [apply pow_lt; lra|]; apply Rle_pow; [lra|lia]).
    destruct (Z.eqb o 1); lra.
  - split; [reflexivity|split; [repeat constructor; lra|cbn; rewrite !rsum_cons, rsum_nil; lra]].
  - split; [reflexivity|]. intros x [<-|[<-|[]]]; reflexivity.
Qed.
(** Any number of tosses leaves the average posterior mean at 1/2 and the average posterior variance at most 1/4. *)
Example c110_example m : let look := lookahead coin_config (fun _ => [0%Z; 1%Z]) (fun _ => tt) (draws riemann (signs 1) 2) m in
  look (fun s' => nth 0 (particle_mean 1 (ws s') (ls s')) 0) ex_state = 1/2 /\ look (fun s' => particle_cov (ws s') (ls s') 0 0) ex_state <= 1/4.
Proof.
  assert (F : full_inv (@ex_state Z)) by (split; [reflexivity|split; [repeat constructor; lra|cbn; rewrite !rsum_cons, rsum_nil; lra]]).
  assert (Z : sized 2 1 (ls (@ex_state Z))) by (split; [reflexivity|]; intros x [<-|[<-|[]]]; reflexivity).
  split.
  - rewrite (c110_liu_west_mean coin_config (fun _ => true) true coin_root coin_lw 1 2 (fun _ => [7]) _ (signs 1) _ _ m ex_state 0
      coin_liu_west riemann_uniform (signs_kernel 1) coin_learns F Z (coin_regular m)) by lia.
    unfold particle_mean, ex_state, col. cbn. rewrite !rdot_cons, rdot_nil_l. lra.
  - eapply Rle_trans; [apply (c110_liu_west_variance coin_config (fun _ => true) true coin_root coin_lw 1 2 (fun _ => [7]) _ (signs 1) _ _ m ex_state 0
      coin_liu_west coin_roots ltac:(cbn; lra) ltac:(cbn; lra) riemann_uniform (signs_kernel 1) (signs_positive 1) coin_learns F Z (coin_regular m)); lia|].
    cbn [coin_lw c_comp]. rewrite !Rmult_0_r. unfold particle_cov, ex_state, col. cbn [ws ls map map2 nth]. rewrite !rsum_cons, rsum_nil, !rdot_cons, rdot_nil_l. lra.
Qed.

Print Assumptions c110_averages_are_kept.
Print Assumptions c110_rounds_are_a_distribution.
Print Assumptions c110_total_covariance.
Print Assumptions c110_resampled_mean.
Print Assumptions c110_resampled_covariance.
Print Assumptions c110_liu_west_mean.
Print Assumptions c110_liu_west_total_covariance.
Print Assumptions c110_liu_west_variance.
Print Assumptions c110_example.
