(** Theorems for properties C21-C25 (Liu-West resampling). *)
From Verif Require Import Base RList Ext Sums SmcModel PartModel PartSpec SmcProofs2 PartProofs LwModel LwSpec LwProofs LwProofs2 LwProofs3 LwProofs4.

(** C21.  The number of particles: explicit argument, else default, else current number. *)
Theorem c21_shape_weights_and_calls valid postselect kernel sqrtm c d w l n_arg pm pc us junk n :
  prob_vector w -> length l = length w ->
  n = match n_arg, c_default_n c with Some k, _ => k | None, Some k => k | None, None => length l end ->
  length us = n -> Forall (fun u => 0 <= u < 1) us -> (forall m, isfinite (snd (sqrtm m)) = true) ->
  exists locs ws left calls,
    lw_call valid postselect kernel sqrtm c d w l n_arg pm pc us junk = Ok ((locs, map Fin ws), left, calls) /\
    length locs = n /\ length ws = n /\ (forall x, In x ws -> x = 1 / INR n) /\ ((0 < n)%nat -> prob_vector ws) /\
    (calls <= c_maxiter c)%nat /\ (postselect = false -> calls = 0%nat).
Proof.
  intros Hp Hl Hn Hus Hu Hf. assert (Hn' : n = the_n c l n_arg) by exact Hn.
  destruct (call_shape valid postselect kernel sqrtm c d w l n_arg pm pc us junk Hp Hl Hu (eq_trans Hus Hn') Hf)
    as (locs & left & calls & E & H1 & H2 & _ & _ & _ & H6).
  exists locs, (uniform_weights (the_n c l n_arg)), left, calls. rewrite Hn'. split; [exact E|]. split; [assumption|].
  split; [apply uniform_weights_length|]. split; [|split; [apply uniform_prob|split; assumption]].
  intros x Hx. unfold uniform_weights in Hx. apply repeat_spec in Hx. rewrite Hx; unfold Rdiv; ring.
Qed.

Theorem c21_square_root_failure valid postselect kernel sqrtm c d w l n_arg pm pc us junk :
  (forall m, isfinite (snd (sqrtm m)) = false) ->
  lw_call valid postselect kernel sqrtm c d w l n_arg pm pc us junk = Err ResamplerError.
Proof. intros H. apply call_error. apply H. Qed.

(** C22 *)
Theorem c22_leftover_exactly_the_invalid valid kernel sqrtm c d w l n_arg pm pc us junk locs ws left calls :
  prob_vector w -> length l = length w ->
  length us = match n_arg, c_default_n c with Some k, _ => k | None, Some k => k | None, None => length l end ->
  Forall (fun u => 0 <= u < 1) us -> (forall m, isfinite (snd (sqrtm m)) = true) -> (0 < c_maxiter c)%nat ->
  lw_call valid true kernel sqrtm c d w l n_arg pm pc us junk = Ok ((locs, ws), left, calls) ->
  length locs = length us /\
  (left = [] -> forall x, In x locs -> valid x = true) /\
  (forall i, (i < length locs)%nat -> (In i left <-> valid (nth i locs []) = false)) /\
  (forall i, In i left -> (i < length locs)%nat).
Proof.
  intros Hp Hl Hus Hu Hf Hm E.
  destruct (call_shape valid true kernel sqrtm c d w l n_arg pm pc us junk Hp Hl Hu Hus Hf)
    as (locs' & left' & calls' & E' & H1 & _ & H3 & H4 & _).
  rewrite E in E'. injection E' as <- -> <- <-. unfold the_n in *. rewrite <- Hus in *. rewrite H1. repeat split; auto.
  - intros Hn x Hx. apply (In_nth _ _ []) in Hx as (i & Hi & <-). rewrite H1 in Hi.
    destruct (valid (nth i locs [])) eqn:Ev; [reflexivity|]. apply (H3 eq_refl Hm i Hi) in Ev. now subst left.
  - apply H3; auto.
  - apply H3; auto.
Qed.

(** C23 *)
Theorem c23_consistent_after_any_assignments a0 xs : Forall (fun a => 0 <= a <= 1) (a0 :: xs) ->
  exists h, p_h (fold_left set_a xs (lw_new a0 None)) = Fin h /\
    (p_a (fold_left set_a xs (lw_new a0 None))) ^ 2 + h ^ 2 = 1 /\ p_a (fold_left set_a xs (lw_new a0 None)) = last xs a0.
Proof.
  intros H. destruct (lw_consistent a0 xs H) as (h & H1 & H2 & H3). exists h. split; [exact H1|]. split; [|apply lw_a].
  exact H3.
Qed.
Theorem c23_override_never_changed a0 h xs :
  p_h (fold_left set_a xs (lw_new a0 (Some h))) = Fin h /\ p_a (fold_left set_a xs (lw_new a0 (Some h))) = last xs a0.
Proof. split; [apply lw_override|apply lw_a]. Qed.

(** C24.  A draw that is kept at once is the Liu-West point of the ancestor in whose interval
    (of length equal to its weight) the uniform draw falls. *)
Theorem c24_draw valid postselect kernel sqrtm c d w l n_arg us junk :
  prob_vector w -> length l = length w -> (forall x, In x l -> length x = d) ->
  length us = match n_arg, c_default_n c with Some k, _ => k | None, Some k => k | None, None => length l end ->
  Forall (fun u => 0 <= u < 1) us -> (forall m, isfinite (snd (sqrtm m)) = true) -> (0 < c_maxiter c)%nat ->
  (forall t i, length (kernel t i) = d) ->
  let C := est_cov d w l in
  (exists p q, (p < d)%nat /\ (q < d)%nat /\ entry C p q <> 0) ->
  square_root d (fst (sqrtm C)) C ->
  let pt := fun i j => lw_point d (c_a c) (c_h c) (est_mean d w l) (fst (sqrtm C)) (nth j l []) (kernel 0%nat i) in
  exists dist left calls, lw_call valid postselect kernel sqrtm c d w l n_arg None None us junk = Ok (dist, left, calls) /\
    forall i, (i < length us)%nat -> exists j, (j < length w)%nat /\ in_slot w j (nth i us 0) /\
      ((postselect = true -> valid (pt i j) = true) -> nth i (fst dist) [] = pt i j).
Proof.
  intros Hp Hl Hd Hus Hu Hf Hm Hk C Hnz [HS _].
  pose proof (call_first valid postselect kernel sqrtm c d w l n_arg None None us junk Hp Hl Hu Hus Hf Hm Hd Hk) as H.
  rewrite (the_cov_nonzero c d w l Hp Hl Hnz) in H. apply (H HS). cbn. unfold est_mean, particle_mean. now rewrite map_length, seq_length.
Qed.

(** Precomputed moments are used instead of the estimates. *)
Theorem c24_draw_precomputed valid postselect kernel sqrtm c d w l n_arg m C us junk :
  prob_vector w -> length l = length w -> (forall x, In x l -> length x = d) ->
  length us = match n_arg, c_default_n c with Some k, _ => k | None, Some k => k | None, None => length l end ->
  Forall (fun u => 0 <= u < 1) us -> (forall m, isfinite (snd (sqrtm m)) = true) -> (0 < c_maxiter c)%nat ->
  (forall t i, length (kernel t i) = d) -> length m = d ->
  (exists r x, In r C /\ In x r /\ x <> 0) -> square_root d (fst (sqrtm C)) C ->
  let pt := fun i j => lw_point d (c_a c) (c_h c) m (fst (sqrtm C)) (nth j l []) (kernel 0%nat i) in
  exists dist left calls, lw_call valid postselect kernel sqrtm c d w l n_arg (Some m) (Some C) us junk = Ok (dist, left, calls) /\
    forall i, (i < length us)%nat -> exists j, (j < length w)%nat /\ in_slot w j (nth i us 0) /\
      ((postselect = true -> valid (pt i j) = true) -> nth i (fst dist) [] = pt i j).
Proof.
  intros Hp Hl Hd Hus Hu Hf Hm Hk Hlm Hnz [HS _].
  pose proof (call_first valid postselect kernel sqrtm c d w l n_arg (Some m) (Some C) us junk Hp Hl Hu Hus Hf Hm Hd Hk) as H.
  rewrite (the_cov_given c d w l C Hnz) in H. exact (H HS Hlm).
Qed.

Theorem c24_mean_preserved d Ez w l a h S p :
  kernel_expectation d Ez -> prob_vector w -> length l = length w -> (p < d)%nat ->
  Sum (length w) (fun j => nth j w 0 * Ez (fun z => nth p (lw_point d a h (est_mean d w l) S (nth j l []) z) 0))
  = nth p (est_mean d w l) 0.
Proof. intros HE. exact (mean_preserved d Ez HE w l a h S p). Qed.

Theorem c24_covariance_preserved d Ez w l a h S p q :
  kernel_expectation d Ez -> prob_vector w -> length l = length w -> (p < d)%nat -> (q < d)%nat ->
  square_root d S (est_cov d w l) -> a ^ 2 + h ^ 2 = 1 ->
  let m := est_mean d w l in
  Sum (length w) (fun j => nth j w 0 * Ez (fun z =>
    (nth p (lw_point d a h m S (nth j l []) z) 0 - nth p m 0) * (nth q (lw_point d a h m S (nth j l []) z) 0 - nth q m 0)))
  = entry (est_cov d w l) p q.
Proof.
  intros HE Hp Hl Hpd Hqd [_ HS] Hah m. unfold m. rewrite covariance_formula by assumption. rewrite HS by assumption.
  rewrite <- Rmult_plus_distr_r, Hah. ring.
Qed.

(** The converse in the docstring: with any other a, h a non-zero covariance entry is changed. *)
Theorem c24_covariance_preserved_only_if d Ez w l a h S p q :
  kernel_expectation d Ez -> prob_vector w -> length l = length w -> (p < d)%nat -> (q < d)%nat ->
  square_root d S (est_cov d w l) -> entry (est_cov d w l) p q <> 0 ->
  let m := est_mean d w l in
  Sum (length w) (fun j => nth j w 0 * Ez (fun z =>
    (nth p (lw_point d a h m S (nth j l []) z) 0 - nth p m 0) * (nth q (lw_point d a h m S (nth j l []) z) 0 - nth q m 0)))
  = entry (est_cov d w l) p q -> a ^ 2 + h ^ 2 = 1.
Proof.
  intros HE Hp Hl Hpd Hqd [_ HS] Hnz m H. unfold m in H. rewrite covariance_formula in H by assumption. rewrite HS in H by assumption.
  apply (Rmult_eq_reg_r (entry (est_cov d w l) p q)); [lra|assumption].
Qed.

(** A cloud with zero covariance gets h^2 zero_cov_comp on the diagonal instead: there the claim fails. *)
Theorem c24_zero_covariance_refuted :
  exists d Ez w l a h comp S, kernel_expectation d Ez /\ prob_vector w /\ length l = length w /\ a ^ 2 + h ^ 2 = 1 /\ 0 < comp /\
    (forall p q, (p < d)%nat -> (q < d)%nat -> entry (est_cov d w l) p q = 0) /\ square_root d S (eye comp d) /\
    (forall c, c_comp c = comp -> the_cov c d w l None = eye comp d) /\
    let m := est_mean d w l in
    Sum (length w) (fun j => nth j w 0 * Ez (fun z =>
      (nth 0 (lw_point d a h m S (nth j l []) z) 0 - nth 0 m 0) * (nth 0 (lw_point d a h m S (nth j l []) z) 0 - nth 0 m 0)))
    <> entry (est_cov d w l) 0 0.
Proof.
  assert (Hp : prob_vector [1]) by (split; [repeat constructor; lra|unfold rsum; simpl; lra]).
  assert (Hz : forall p q, (p < 1)%nat -> (q < 1)%nat -> entry (est_cov 1 [1] [[3]]) p q = 0).
  { intros p q Hpd Hqd. assert (p = 0%nat) by lia. assert (q = 0%nat) by lia. subst.
    unfold entry, est_cov, particle_cov, rdot, rsum, col. simpl. ring. }
  exists 1%nat, (signs 1), [1], [[3]], 0, 1, 1, [[1]].
  split; [apply signs_kernel|]. split; [exact Hp|]. split; [reflexivity|]. split; [ring|]. split; [lra|]. split; [exact Hz|].
  split. { split; [split; [reflexivity|intros r [<-|[]]; reflexivity]|]. intros p q Hpd Hqd. assert (p = 0%nat) by lia. assert (q = 0%nat) by lia. subst.
    unfold entry, eye. simpl. unfold Sum. simpl. ring. }
  split. { intros c Hc. rewrite the_cov_zero by (exact Hp || reflexivity || exact Hz). now rewrite Hc. }
  intros m. unfold m. rewrite (covariance_formula 1 (signs 1) (signs_kernel 1)) by (assumption || reflexivity || lia).
  rewrite Hz by lia. unfold Sum, entry. simpl. lra.
Qed.

(** A cloud without spread: the new particles have covariance h^2 zero_cov_comp times the identity. *)
Theorem c24_zero_covariance_value d Ez w l a h comp S p q : kernel_expectation d Ez -> prob_vector w -> length l = length w -> (p < d)%nat -> (q < d)%nat ->
  (forall p q, (p < d)%nat -> (q < d)%nat -> entry (est_cov d w l) p q = 0) -> square_root d S (eye comp d) ->
  (forall c, c_comp c = comp -> the_cov c d w l None = eye comp d) /\
  let m := est_mean d w l in
  Sum (length w) (fun j => nth j w 0 * Ez (fun z =>
    (nth p (lw_point d a h m S (nth j l []) z) 0 - nth p m 0) * (nth q (lw_point d a h m S (nth j l []) z) 0 - nth q m 0)))
  = if Nat.eqb p q then h ^ 2 * comp else 0.
Proof.
  intros HE Hp Hl Hpd Hqd Hz [_ HS]. split.
  - intros c Hc. rewrite the_cov_zero by assumption. now rewrite Hc.
  - intros m. unfold m. rewrite (covariance_formula d Ez HE) by assumption. rewrite Hz, HS by assumption. unfold entry, eye.
    rewrite (nth_indep _ [] (map (fun j => if Nat.eqb 0 j then comp else 0) (seq 0 d))) by now rewrite map_length, seq_length.
    rewrite (map_nth (fun i => map (fun j => if Nat.eqb i j then comp else 0) (seq 0 d))), seq_nth by assumption.
    rewrite (nth_indep _ 0 (if Nat.eqb p 0 then comp else 0)) by now rewrite map_length, seq_length. cbn [Nat.add].
    rewrite (map_nth (fun j => if Nat.eqb p j then comp else 0)), seq_nth by assumption. cbn [Nat.add]. destruct (Nat.eqb p q); ring.
Qed.

(** C25.  As claimed it fails: particle 1 (ancestor [1], a = 1, h = 0) is retried around particle 0's ancestor. *)
Theorem c25_own_ancestor_refuted : exists valid kernel sqrtm c d w l us junk dist calls,
  prob_vector w /\ length l = length w /\ (forall m, isfinite (snd (sqrtm m)) = true) /\ Forall (fun u => 0 <= u < 1) us /\
  lw_call valid true kernel sqrtm c d w l None None None us junk = Ok (dist, [], calls) /\
  exists i j, (i < length us)%nat /\ in_slot w j (nth i us 0) /\
    forall t k, nth i (fst dist) [] <> lw_point d (c_a c) (c_h c) (est_mean d w l) (fst (sqrtm (est_cov d w l))) (nth j l []) (kernel t k).
Proof.
  exists c25_valid, (fun _ _ => [0]), (fun m => (m, Fin 0)), c25_cfg, 1%nat, [1/2; 1/2], [[0]; [1]], [0; 1/2], (fun _ => []), ([[0]; [0]], [Fin (1/2); Fin (1/2)]), 2%nat.
  split; [split; [repeat constructor; lra|unfold rsum; simpl; lra]|]. split; [reflexivity|]. split; [reflexivity|].
  split; [repeat constructor; lra|]. split; [exact c25_witness|]. exists 1%nat, 1%nat. split; [simpl; lia|].
  split; [unfold in_slot, Sum; simpl; lra|]. intros t k H. cbn [fst nth c25_cfg c_a c_h] in H. unfold lw_point in H. simpl in H.
  injection H as H. unfold Sum in H. simpl in H. lra.
Qed.

(** What holds instead: the centre is that of the ancestor drawn for some particle of no larger index. *)
Theorem c25_centre_of_some_ancestor_partial valid postselect kernel sqrtm c d w l n_arg us junk :
  prob_vector w -> length l = length w -> (forall x, In x l -> length x = d) ->
  length us = match n_arg, c_default_n c with Some k, _ => k | None, Some k => k | None, None => length l end ->
  Forall (fun u => 0 <= u < 1) us -> (forall m, isfinite (snd (sqrtm m)) = true) ->
  (forall t i, length (kernel t i) = d) ->
  let C := est_cov d w l in
  (exists p q, (p < d)%nat /\ (q < d)%nat /\ entry C p q <> 0) -> is_matrix d (fst (sqrtm C)) ->
  exists dist left calls, lw_call valid postselect kernel sqrtm c d w l n_arg None None us junk = Ok (dist, left, calls) /\
    forall i, (i < length us)%nat -> ~ In i left -> exists k t j, (k <= i)%nat /\ (j < length w)%nat /\ in_slot w j (nth k us 0) /\
      nth i (fst dist) [] = lw_point d (c_a c) (c_h c) (est_mean d w l) (fst (sqrtm C)) (nth j l []) (kernel t k).
Proof.
  intros Hp Hl Hd Hus Hu Hf Hk C Hnz HS.
  pose proof (call_centres valid postselect kernel sqrtm c d w l n_arg us junk Hp Hl Hu Hus Hf Hd Hk) as H.
  rewrite (the_cov_nonzero c d w l Hp Hl Hnz) in H. exact (H HS).
Qed.

(** The rounds in full.  In round t the r-th of the particles still open (in order of index) is drawn around the r-th drawn ancestor with
    the r-th column of the kernel draw; it keeps its place in the queue exactly if the draw is invalid; what the last round leaves open is
    left over with its last draw; validity is checked once in every round with open particles. *)
Theorem c25_rounds valid postselect kernel sqrtm c d w l n_arg us junk anc :
  prob_vector w -> length l = length w -> (forall x, In x l -> length x = d) ->
  length us = match n_arg, c_default_n c with Some k, _ => k | None, Some k => k | None, None => length l end ->
  Forall (fun u => 0 <= u < 1) us -> (forall m, isfinite (snd (sqrtm m)) = true) ->
  (forall t i, length (kernel t i) = d) ->
  (forall r, (r < length us)%nat -> (anc r < length w)%nat /\ in_slot w (anc r) (nth r us 0)) ->
  let C := est_cov d w l in
  (exists p q, (p < d)%nat /\ (q < d)%nat /\ entry C p q <> 0) -> is_matrix d (fst (sqrtm C)) ->
  let pt := fun t r => lw_point d (c_a c) (c_h c) (est_mean d w l) (fst (sqrtm C)) (nth (anc r) l []) (kernel t r) in
  let opened := still_open (fun t r => postselect && negb (valid (pt t r))) (length us) in
  exists dist calls, lw_call valid postselect kernel sqrtm c d w l n_arg None None us junk = Ok (dist, opened (c_maxiter c), calls) /\
    calls = (if postselect then length (filter (fun t => negb (Nat.eqb (length (opened t)) 0)) (seq 0 (c_maxiter c))) else 0%nat) /\
    forall t r, (t < c_maxiter c)%nat -> (r < length (opened t))%nat -> (postselect = true -> valid (pt t r) = true) \/ S t = c_maxiter c ->
      nth (nth r (opened t) 0%nat) (fst dist) [] = pt t r.
Proof.
  intros Hp Hl Hd Hus Hu Hf Hk Ha C Hnz HS.
  pose proof (call_exact valid postselect kernel sqrtm c d w l n_arg us junk anc Hp Hl Hu Hus Hf Hd Hk) as H.
  rewrite (the_cov_nonzero c d w l Hp Hl Hnz) in H. exact (H HS Ha).
Qed.

(** Non-vacuity: a two-particle cloud with non-zero covariance, its square root, and a kernel. *)
Example c21_25_hypotheses :
  let w := [1/2; 1/2] in let l := [[0]; [2]] in
  prob_vector w /\ (forall x, In x l -> length x = 1%nat) /\ entry (est_cov 1 w l) 0 0 = 1 /\
  square_root 1 [[1]] (est_cov 1 w l) /\ kernel_expectation 1 (signs 1) /\ Forall (fun u => 0 <= u < 1) [1/4; 3/4].
Proof.
  intros w l.
  assert (E : entry (est_cov 1 w l) 0 0 = 1) by (unfold w, l, entry, est_cov, particle_cov, rdot, rsum, col; simpl; lra).
  split; [split; [repeat constructor; lra|unfold rsum; simpl; lra]|]. split; [intros x [<-|[<-|[]]]; reflexivity|]. split; [exact E|].
  split; [|split; [apply signs_kernel|repeat constructor; lra]].
  split; [split; [reflexivity|intros r [<-|[]]; reflexivity]|]. intros p q Hp Hq. assert (p = 0%nat) by lia. assert (q = 0%nat) by lia. subst p q.
  rewrite E. unfold Sum, entry. simpl. ring.
Qed.
Example c22_hypotheses : exists locs ws calls, lw_call c25_valid true (fun _ _ => [0]) (fun m => (m, Fin 0)) c25_cfg 1 [1/2; 1/2] [[0]; [1]] None None None [0; 1/2] (fun _ => [])
  = Ok ((locs, ws), [], calls).
Proof. do 3 eexists. exact c25_witness. Qed.
(** Of four particles the second and the fourth are rejected at first: they queue for round 1, where they take the first two ancestors. *)
Example c25_queue : still_open (fun t r => Nat.eqb t 0 && Nat.odd r) 4 1 = [1; 3]%nat /\ still_open (fun t r => Nat.eqb t 0 && Nat.odd r) 4 2 = [].
Proof. split; reflexivity. Qed.
Example c23_hypotheses : Forall (fun a => 0 <= a <= 1) (98/100 :: [1/2; 0]).
Proof. repeat constructor; lra. Qed.

Print Assumptions c21_shape_weights_and_calls.
Print Assumptions c21_square_root_failure.
Print Assumptions c22_leftover_exactly_the_invalid.
Print Assumptions c23_consistent_after_any_assignments.
Print Assumptions c23_override_never_changed.
Print Assumptions c24_draw.
Print Assumptions c24_draw_precomputed.
Print Assumptions c24_mean_preserved.
Print Assumptions c24_covariance_preserved.
Print Assumptions c24_covariance_preserved_only_if.
Print Assumptions c24_zero_covariance_refuted.
Print Assumptions c24_zero_covariance_value.
Print Assumptions c25_own_ancestor_refuted.
Print Assumptions c25_centre_of_some_ancestor_partial.
Print Assumptions c25_rounds.
