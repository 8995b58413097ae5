(** C122: means and covariances in double arithmetic. *)
From Flocq Require Import Core.
From Coq Require Import List ZArith Lia Lra Psatz.
From Verif Require Import Base RList Ext Sums SmcModel PartModel PartSpec FltModel FltSpec FltProofs FltProofs2 FcModel FcProofs.
Import ListNotations.

(** Error of every entry of the computed covariance matrix, for particles of any sign and any order of summation *)
Theorem c122_error t tm (w : list R) (l : list loc) m n : let N := length w in
  sums_all N t -> (forall k, sums_all N (tm k)) -> (forall i, (i < N)%nat -> 0 <= nth i w 0) ->
  (forall i k, (i < N)%nat -> double (coord l k i)) ->
  (forall i k, (i < N)%nat -> normal (Rabs (nth i w 0 * coord l k i))) ->
  (forall i, (i < N)%nat -> normal (Rabs (rnd (nth i w 0 * coord l m i) * coord l n i))) ->
  normal (Rabs (f_mean (tm m) w l m * f_mean (tm n) w l n)) ->
  let exact_cov := Sum N (fun i => nth i w 0 * coord l m i * coord l n i) - Sum N (fun i => nth i w 0 * coord l m i) * Sum N (fun i => nth i w 0 * coord l n i) in
  let K := S (Nat.max (2 + depth t) (3 + depth (tm m) + depth (tm n))) in
  Rabs (f_cov t tm w l m n - exact_cov) <=
    ((1 + uro) ^ K - 1) * (Sum N (fun i => nth i w 0 * Rabs (coord l m i) * Rabs (coord l n i))
                           + Sum N (fun i => nth i w 0 * Rabs (coord l m i)) * Sum N (fun i => nth i w 0 * Rabs (coord l n i))).
Proof.
  intros N Ht Htm Hw Hd Hn1 Hn2 Hn3 c K.
  assert (T1 : forall k i, (i < N)%nat -> near 1 (rnd (nth i w 0 * coord l k i)) (nth i w 0 * coord l k i) (nth i w 0 * Rabs (coord l k i))).
  { intros k i Hi. apply near_rnd_mul; [now apply Hn1|]. pose proof (near_refl (nth i w 0 * coord l k i)) as R0. rewrite Rabs_mult, (Rabs_pos_eq (nth i w 0)) in R0 by now apply Hw. exact R0. }
  assert (T2 : forall i, (i < N)%nat -> near 2 (rnd (rnd (nth i w 0 * coord l m i) * coord l n i)) (nth i w 0 * coord l m i * coord l n i) (nth i w 0 * Rabs (coord l m i) * Rabs (coord l n i))).
  { intros i Hi. apply near_rnd_mul; [now apply Hn2|]. apply (near_mul 1 0); [now apply T1|apply near_refl]. }
  assert (M : forall k, near (1 + depth (tm k)) (f_mean (tm k) w l k) (Sum N (fun i => nth i w 0 * coord l k i)) (Sum N (fun i => nth i w 0 * Rabs (coord l k i))) /\ double (f_mean (tm k) w l k)).
  { intros k. unfold f_mean. apply near_sum; [apply Htm|intros; apply rnd_double|intros; now apply T1]. }
  assert (Q : near (2 + depth t) (f_second t w l m n) (Sum N (fun i => nth i w 0 * coord l m i * coord l n i)) (Sum N (fun i => nth i w 0 * Rabs (coord l m i) * Rabs (coord l n i))) /\ double (f_second t w l m n)).
  { unfold f_second. apply near_sum; [assumption|intros; apply rnd_double|intros; now apply T2]. }
  destruct (M m) as [Mm _], (M n) as [Mn _], Q as [Q DQ].
  assert (P : near (3 + depth (tm m) + depth (tm n)) (rnd (f_mean (tm m) w l m * f_mean (tm n) w l n)) (Sum N (fun i => nth i w 0 * coord l m i) * Sum N (fun i => nth i w 0 * coord l n i))
      (Sum N (fun i => nth i w 0 * Rabs (coord l m i)) * Sum N (fun i => nth i w 0 * Rabs (coord l n i)))).
  { replace (3 + depth (tm m) + depth (tm n))%nat with (S ((1 + depth (tm m)) + (1 + depth (tm n))))%nat by lia. apply near_rnd_mul; [assumption|]. now apply near_mul. }
  assert (F : near K (f_cov t tm w l m n) c (Sum N (fun i => nth i w 0 * Rabs (coord l m i) * Rabs (coord l n i))
                           + Sum N (fun i => nth i w 0 * Rabs (coord l m i)) * Sum N (fun i => nth i w 0 * Rabs (coord l n i)))).
  { unfold f_cov, K. apply near_rnd_sub; [assumption|apply rnd_double|]. apply near_sub; [apply (near_mono (2 + depth t)); [lia|exact Q]|apply (near_mono (3 + depth (tm m) + depth (tm n))); [lia|exact P]]. }
  apply F.
Qed.
(** A computed variance is negative by at most the rounding error *)
Theorem c122_variance_floor t tm (w : list R) (l : list loc) m : let N := length w in
  prob_vector w -> sums_all N t -> (forall k, sums_all N (tm k)) ->
  (forall i k, (i < N)%nat -> double (coord l k i)) ->
  (forall i k, (i < N)%nat -> normal (Rabs (nth i w 0 * coord l k i))) ->
  (forall i, (i < N)%nat -> normal (Rabs (rnd (nth i w 0 * coord l m i) * coord l m i))) ->
  normal (Rabs (f_mean (tm m) w l m * f_mean (tm m) w l m)) ->
  let K := S (Nat.max (2 + depth t) (3 + depth (tm m) + depth (tm m))) in
  - (2 * ((1 + uro) ^ K - 1) * Sum N (fun i => nth i w 0 * (coord l m i * coord l m i))) <= f_cov t tm w l m m.
Proof.
  intros N Hw Ht Htm Hd Hn1 Hn2 Hn3 K. assert (Wp : forall i, (i < N)%nat -> 0 <= nth i w 0).
  { intros i Hi. destruct Hw as [H _]. rewrite Forall_forall in H. apply H. now apply nth_In. }
  pose proof (c122_error t tm w l m m Ht Htm Wp Hd Hn1 Hn2 Hn3) as B. cbv zeta in B. fold N in B. fold K in B.
  assert (W1 : Sum N (fun i => nth i w 0) = 1) by (destruct Hw as [_ H]; unfold N; now rewrite <- rsum_index).
  assert (CS : forall g, Sum N (fun i => nth i w 0 * g i) * Sum N (fun i => nth i w 0 * g i) <= Sum N (fun i => nth i w 0 * (g i * g i))).
  { intros g. set (mu := Sum N (fun i => nth i w 0 * g i)). assert (V : 0 <= Sum N (fun i => nth i w 0 * ((g i - mu) * (g i - mu)))).
    { apply Sum_nonneg. intros i Hi. apply Rmult_le_pos; [now apply Wp|apply Rle_0_sqr]. }
    rewrite (Sum_ext N _ (fun i => nth i w 0 * (g i * g i) + ((- (2 * mu)) * (nth i w 0 * g i) + (mu * mu) * nth i w 0))) in V by (intros; ring).
    rewrite !Sum_plus, !Sum_scal, W1 in V. fold mu in V. lra. }
  pose proof (CS (fun i => coord l m i)) as C1. pose proof (CS (fun i => Rabs (coord l m i))) as C2. cbv beta in C1, C2.
  assert (E1 : Sum N (fun i => nth i w 0 * (Rabs (coord l m i) * Rabs (coord l m i))) = Sum N (fun i => nth i w 0 * (coord l m i * coord l m i))).
  { apply Sum_ext. intros i _. f_equal. rewrite <- Rabs_mult. apply Rabs_pos_eq, Rle_0_sqr. }
  assert (E2 : Sum N (fun i => nth i w 0 * coord l m i * coord l m i) = Sum N (fun i => nth i w 0 * (coord l m i * coord l m i))) by (apply Sum_ext; intros; ring).
  assert (E3 : Sum N (fun i => nth i w 0 * Rabs (coord l m i) * Rabs (coord l m i)) = Sum N (fun i => nth i w 0 * (coord l m i * coord l m i))) by (rewrite <- E1; apply Sum_ext; intros; ring).
  rewrite E2, E3 in B. rewrite E1 in C2. set (M2 := Sum N (fun i => nth i w 0 * (coord l m i * coord l m i))) in *.
  apply Rabs_le_inv in B. destruct B as [B _]. pose proof (upow_ge1 K) as PK.
  assert (((1 + uro) ^ K - 1) * (M2 + Sum N (fun i => nth i w 0 * Rabs (coord l m i)) * Sum N (fun i => nth i w 0 * Rabs (coord l m i))) <= ((1 + uro) ^ K - 1) * (M2 + M2)) by (apply Rmult_le_compat_l; lra).
  lra.
Qed.
(** A single particle of weight one has covariance exactly zero *)
Theorem c122_single (x : loc) m n : double (nth m x 0) -> double (nth n x 0) -> f_cov (SLeaf 0) (fun _ => SLeaf 0) [1] [x] m n = 0.
Proof.
  intros Hm Hn. unfold f_cov, f_second, f_mean, at_. cbn [fsum nth]. rewrite !Rmult_1_l, (rnd_id (nth m x 0)), (rnd_id (nth n x 0)) by assumption. rewrite Rminus_diag_eq by reflexivity. apply rnd_0.
Qed.

(** Two particles of weight 1/2 at 1 and 1 + 3/2^52 *)
Definition two_tree := SNode (SLeaf 0) (SLeaf 1).
Definition half_weights : list R := [1/2; 1/2].
Definition near_one : list loc := [[1]; [1 + 3 / 2 ^ 52]].
Ltac rv := apply rnd_val; [reflexivity|reflexivity|vm_compute; reflexivity].
Lemma two52 : IZR (2 ^ 52) = 2 ^ 52. Proof. symmetry. exact (pow_IZR 2 52). Qed.
Lemma two51 : IZR (2 ^ 51) = 2 ^ 51. Proof. symmetry. exact (pow_IZR 2 51). Qed.
Lemma one_val : 1 = val (2 ^ 52) (-52).
Proof. unfold val. change (powerRZ 2 (-52)) with (/ 2 ^ 52). rewrite two52. field; apply pow_nonzero; lra. Qed.
Lemma xb_val : 1 + 3 / 2 ^ 52 = val (2 ^ 52 + 3) (-52).
Proof. unfold val. change (powerRZ 2 (-52)) with (/ 2 ^ 52). rewrite plus_IZR, two52. field; apply pow_nonzero; lra. Qed.
Lemma half_val : 1/2 = val (2 ^ 52) (-53).
Proof. unfold val. change (powerRZ 2 (-53)) with (/ 2 ^ 53). rewrite two52. change (2 ^ 53) with (2 * 2 ^ 52). field; apply pow_nonzero; lra. Qed.
Lemma near_one_cov : f_cov two_tree (fun _ => two_tree) half_weights near_one 0 0 = - / 2 ^ 52.
Proof.
  unfold f_cov, f_second, f_mean, at_, half_weights, near_one, two_tree. cbn [fsum nth]. rewrite xb_val, half_val, one_val. rewrite !val_mul.
  replace (rnd (val (2 ^ 52 * 2 ^ 52) (-53 + -52))) with (val (2 ^ 104) (-105)) by (symmetry; rv).
  replace (rnd (val (2 ^ 52 * (2 ^ 52 + 3)) (-53 + -52))) with (val (2 ^ 52 * (2 ^ 52 + 3)) (-105)) by (symmetry; rv).
  rewrite !val_mul, !val_add.
  replace (rnd (val (2 ^ 104 * 2 ^ 52) (-105 + -52))) with (val (2 ^ 156) (-157)) by (symmetry; rv).
  replace (rnd (val (2 ^ 52 * (2 ^ 52 + 3) * (2 ^ 52 + 3)) (-105 + -52))) with (val (2 ^ 156 + 6 * 2 ^ 104) (-157)) by (symmetry; rv).
  rewrite !val_add.
  replace (rnd (val (2 ^ 156 + (2 ^ 156 + 6 * 2 ^ 104)) (-157))) with (val (2 ^ 157 + 6 * 2 ^ 104) (-157)) by (symmetry; rv).
  replace (rnd (val (2 ^ 104 + 2 ^ 52 * (2 ^ 52 + 3)) (-105))) with (val (2 ^ 105 + 2 ^ 54) (-105)) by (symmetry; rv).
  rewrite val_mul.
  replace (rnd (val ((2 ^ 105 + 2 ^ 54) * (2 ^ 105 + 2 ^ 54)) (-105 + -105))) with (val (2 ^ 210 + 2 ^ 160) (-210)) by (symmetry; rv).
  rewrite (val_shift (2 ^ 157 + 6 * 2 ^ 104) (-157) 53) by lia. change (-157 - 53)%Z with (-210)%Z. rewrite val_sub.
  replace (val ((2 ^ 157 + 6 * 2 ^ 104) * 2 ^ 53 - (2 ^ 210 + 2 ^ 160)) (-210)) with (- / 2 ^ 52).
  - apply rnd_id. exists (-1)%Z, (-52)%Z. split; [change (powerRZ 2 (-52)) with (/ 2 ^ 52); ring|lia].
  - transitivity (val (-1) (-52)); [unfold val; change (powerRZ 2 (-52)) with (/ 2 ^ 52); ring|]. rewrite (val_shift (-1) (-52) 158) by lia. f_equal.
Qed.
(** The computed variance of two distinct particles can be negative: the code warns, the correlation matrix is NaN,
    and the Liu-West resampler adds no noise at all, because the norm is not zero and the square root is cut off *)
Theorem c122_psd_refuted : prob_vector half_weights /\ sums_all 2 two_tree /\
  Sum 2 (fun i => nth i half_weights 0 * coord near_one 0 i * coord near_one 0 i) - Sum 2 (fun i => nth i half_weights 0 * coord near_one 0 i) * Sum 2 (fun i => nth i half_weights 0 * coord near_one 0 i) > 0 /\
  let c := f_cov two_tree (fun _ => two_tree) half_weights near_one 0 0 in
  c = - / 2 ^ 52 /\ f_psd_warning1 c = true /\ f_corr (f_cov two_tree (fun _ => two_tree) half_weights near_one) 0 0 = NaN /\
  forall z, f_lw_sqrt1 z c = 0.
Proof.
  assert (P : 0 < / 2 ^ 52) by (apply Rinv_0_lt_compat, pow_lt; lra).
  split; [split; [repeat constructor; lra|unfold half_weights, rsum; cbn; lra]|]. split; [apply Permutation_refl|]. split.
  { rewrite !Sum_S, !Sum_0. unfold half_weights, near_one, coord. cbn [nth]. unfold Rdiv. set (d := / 2 ^ 52) in *. clearbody d. nra. }
  cbv zeta. rewrite near_one_cov. split; [reflexivity|]. split; [unfold f_psd_warning1; rewrite Rleb_false by lra; reflexivity|]. split.
  - unfold f_corr. cbv zeta. rewrite near_one_cov. unfold xsqrt. rewrite Rltb_true by lra. reflexivity.
  - intros z. unfold f_lw_sqrt1. rewrite Reqb_false by (rewrite Rabs_Ropp, Rabs_pos_eq; lra). now rewrite Rleb_true by lra.
Qed.
(** The computed matrix need not be symmetric *)
Definition skew_weights : list R := [3/4; 1/4].
Definition skew_locs : list loc := [[1 + / 2 ^ 52; 3/2]; [0; 0]].
Lemma x1_val : 1 + / 2 ^ 52 = val (2 ^ 52 + 1) (-52).
Proof. unfold val. change (powerRZ 2 (-52)) with (/ 2 ^ 52). rewrite plus_IZR, two52. field; apply pow_nonzero; lra. Qed.
Lemma y1_val : 3/2 = val (3 * 2 ^ 51) (-52).
Proof.
  unfold val. change (powerRZ 2 (-52)) with (/ 2 ^ 52). rewrite mult_IZR. rewrite two51.
  change (2 ^ 52) with (2 * 2 ^ 51). field; apply pow_nonzero; lra.
Qed.
Lemma w1_val : 3/4 = val (3 * 2 ^ 51) (-53).
Proof.
  unfold val. change (powerRZ 2 (-53)) with (/ 2 ^ 53). rewrite mult_IZR. rewrite two51.
  change (2 ^ 53) with (2 * (2 * 2 ^ 51)). field; apply pow_nonzero; lra.
Qed.
Theorem c122_symmetry_refuted : prob_vector skew_weights /\ sums_all 2 two_tree /\
  f_cov two_tree (fun _ => two_tree) skew_weights skew_locs 0 1 <> f_cov two_tree (fun _ => two_tree) skew_weights skew_locs 1 0.
Proof.
  split; [split; [repeat constructor; lra|unfold skew_weights, rsum; cbn; lra]|]. split; [apply Permutation_refl|].
  unfold f_cov, f_second, f_mean, at_, skew_weights, skew_locs, two_tree. cbn [fsum nth]. rewrite !Rmult_0_r, !rnd_0, !Rplus_0_r. rewrite x1_val, y1_val, w1_val, !val_mul.
  replace (rnd (val (3 * 2 ^ 51 * (2 ^ 52 + 1)) (-53 + -52))) with (val (3 * 2 ^ 103 + 2 ^ 53) (-105)) by (symmetry; rv).
  replace (rnd (val (3 * 2 ^ 51 * (3 * 2 ^ 51)) (-53 + -52))) with (val (9 * 2 ^ 102) (-105)) by (symmetry; rv).
  rewrite !val_mul.
  replace (rnd (val ((3 * 2 ^ 103 + 2 ^ 53) * (3 * 2 ^ 51)) (-105 + -52))) with (val (9 * 2 ^ 154 + 2 ^ 106) (-157)) by (symmetry; rv).
  replace (rnd (val (9 * 2 ^ 102 * (2 ^ 52 + 1)) (-105 + -52))) with (val (9 * 2 ^ 154 + 2 ^ 105) (-157)) by (symmetry; rv).
  replace (rnd (val (3 * 2 ^ 103 + 2 ^ 53) (-105))) with (val (3 * 2 ^ 103 + 2 ^ 53) (-105)) by (symmetry; rv).
  replace (rnd (val (9 * 2 ^ 102) (-105))) with (val (9 * 2 ^ 102) (-105)) by (symmetry; rv).
  replace (rnd (val (9 * 2 ^ 154 + 2 ^ 106) (-157))) with (val (9 * 2 ^ 154 + 2 ^ 106) (-157)) by (symmetry; rv).
  replace (rnd (val (9 * 2 ^ 154 + 2 ^ 105) (-157))) with (val (9 * 2 ^ 154 + 2 ^ 105) (-157)) by (symmetry; rv).
  rewrite (Rmult_comm (val (9 * 2 ^ 102) (-105))), !val_mul.
  replace (rnd (val ((3 * 2 ^ 103 + 2 ^ 53) * (9 * 2 ^ 102)) (-105 + -105))) with (val (27 * 2 ^ 205 + 2 ^ 158) (-210)) by (symmetry; rv).
  rewrite (val_shift (9 * 2 ^ 154 + 2 ^ 106) (-157) 53), (val_shift (9 * 2 ^ 154 + 2 ^ 105) (-157) 53) by lia. change (-157 - 53)%Z with (-210)%Z. rewrite !val_sub.
  match goal with |- rnd (val ?a ?e) <> rnd (val ?b ?e) => let a' := eval vm_compute in (Zr a) in let b' := eval vm_compute in (Zr b) in
    replace (rnd (val a e)) with (val a' e) by (symmetry; rv); replace (rnd (val b e)) with (val b' e) by (symmetry; rv) end.
  intros H. unfold val in H. apply Rmult_eq_reg_r in H; [|apply powerRZ_NOR; lra]. apply eq_IZR in H. discriminate.
Qed.
(** Three particles of both signs meet the conditions of the error bound *)
Example c122_example : let w := [1/2; 1/4; 1/4] in let l := [[1]; [-2]; [4]] in let t := SNode (SNode (SLeaf 0) (SLeaf 1)) (SLeaf 2) in
  prob_vector w /\ sums_all 3 t /\ (forall i, (i < 3)%nat -> double (coord l 0 i)) /\
  (forall i, (i < 3)%nat -> normal (Rabs (nth i w 0 * coord l 0 i))).
Proof.
  assert (LN : least_normal <= 1/2).
  { unfold least_normal. replace (1/2) with (/ 2 ^ 1) by field. apply Rinv_le_contravar; [apply pow_lt; lra|apply Rle_pow; [lra|lia]]. }
  cbv zeta. split; [split; [repeat constructor; lra|unfold rsum; cbn; lra]|]. split; [apply Permutation_refl|]. split.
  - intros [|[|[|i]]] Hi; [| | |lia]; unfold coord; cbn [nth].
    + exists 1%Z, 0%Z. split; [cbn; ring|lia].
    + exists (-2)%Z, 0%Z. split; [cbn; ring|lia].
    + exists 4%Z, 0%Z. split; [cbn; ring|lia].
  - intros [|[|[|i]]] Hi; [| | |lia]; unfold coord; cbn [nth]; right.
    + rewrite Rabs_pos_eq by lra. lra.
    + rewrite Rabs_left by lra. lra.
    + rewrite Rabs_pos_eq by lra. lra.
Qed.

Print Assumptions c122_error.
Print Assumptions c122_variance_floor.
Print Assumptions c122_single.
Print Assumptions c122_psd_refuted.
Print Assumptions c122_symmetry_refuted.
