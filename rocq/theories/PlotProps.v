(** Theorems for property C116 (drawn error ellipses). *)
From Verif Require Import Base RList Sums SmcModel PartModel PartSpec PartProofs PartProofs2 PlotModel PlotSpec PlotProofs.
From Coq Require Import List.

(** The patch drawn for a positive definite covariance a b / b c is exactly the set of points at Mahalanobis distance at most [nstd]
    from the centre, whichever eigenvectors (signs, order) the eigensolver returns. *)
Theorem c116_ellipse_is_mahalanobis_ball a b c e pos nstd x :
  eig_of a b c e -> 0 < a -> 0 < a * c - b ^ 2 -> 0 < nstd ->
  (inside (plot_cov_ellipse e pos nstd) x <->
   let dx := fst x - fst pos in let dy := snd x - snd pos in
   (c * dx ^ 2 - 2 * b * (dx * dy) + a * dy ^ 2) / (a * c - b ^ 2) <= nstd ^ 2).
Proof.
  intros H1 H2 H3 H4. rewrite (ellipse_set a b c) by assumption. unfold scaled_distance2. cbn zeta.
  set (q := c * _ ^ 2 - _ + _). set (t := a * c - b ^ 2) in *. split; intros H.
  - apply (Rmult_le_reg_r t); [assumption|]. unfold Rdiv. rewrite Rmult_assoc, Rinv_l by lra. lra.
  - apply (Rmult_le_compat_r t) in H; [|lra]. unfold Rdiv in H. rewrite Rmult_assoc, Rinv_l in H by lra. lra.
Qed.
(** In particular the first half axis is that of the larger variance. *)
Theorem c116_long_axis_first a b c e pos nstd : eig_of a b c e -> 0 < nstd -> 0 <= val0 e -> 0 <= val1 e ->
  e_height (plot_cov_ellipse e pos nstd) <= e_width (plot_cov_ellipse e pos nstd).
Proof.
  intros He Hs H0 H1. destruct (eigsorted_of a b c e He) as [_ HO]. cbn [plot_cov_ellipse e_height e_width].
  apply Rmult_le_compat_l; [lra|]. now apply sqrt_le_1_alt.
Qed.
(** The ellipse drawn for a posterior over rebits: drawn points lie in it exactly if the parameters lie within [n_std] of the mean,
    measured with the covariance of the two parameters drawn; the rescaling to the Bloch ball does not matter. *)
Theorem c116_rebit_ellipse e d i j w l n_std mp :
  prob_vector w -> length w = length l -> (i < d)%nat -> (j < d)%nat -> 0 < n_std ->
  let a := particle_cov w l i i in let b := particle_cov w l i j in let c := particle_cov w l j j in
  0 < a -> 0 < a * c - b ^ 2 ->
  (let '(c00, c01, c10, c11) := rebit_cov d (i, j) w l in c01 = c10 /\ eig_of c00 c01 c11 e) ->
  (inside (rebit_ellipse e d (i, j) w l n_std) (rebit_point (i, j) mp) <->
   let dx := nth i mp 0 - nth i (est_mean d w l) 0 in let dy := nth j mp 0 - nth j (est_mean d w l) 0 in
   c * dx ^ 2 - 2 * b * (dx * dy) + a * dy ^ 2 <= n_std ^ 2 * (a * c - b ^ 2)).
Proof.
  intros Hw Hl Hi Hj Hs a b c Ha Hd He. unfold rebit_cov in He. rewrite !nth_est_cov in He by assumption. fold a b c in He. destruct He as [_ He].
  unfold rebit_ellipse. rewrite (ellipse_set _ _ _ _ _ _ _ He) by nra. unfold scaled_distance2, rebit_point. cbn [fst snd]. cbn zeta.
  set (dx := nth i mp 0 - nth i (est_mean d w l) 0). set (dy := nth j mp 0 - nth j (est_mean d w l) 0).
  rewrite <- !Rmult_minus_distr_r. fold dx dy. pose proof (sqrt_sqrt 2 ltac:(lra)) as Q.
  replace (2 * c * (dx * sqrt 2) ^ 2 - 2 * (2 * b) * (dx * sqrt 2 * (dy * sqrt 2)) + 2 * a * (dy * sqrt 2) ^ 2)
    with (2 * (sqrt 2 * sqrt 2) * (c * dx ^ 2 - 2 * b * (dx * dy) + a * dy ^ 2)) by ring.
  replace (n_std ^ 2 * (2 * a * (2 * c) - (2 * b) ^ 2)) with (4 * (n_std ^ 2 * (a * c - b ^ 2))) by ring. rewrite Q. lra.
Qed.
(** Whatever the shape of the posterior, particles drawn outside the ellipse have together a weight of at most 2 / n_std^2. *)
Theorem c116_coverage e d i j w l n_std I :
  prob_vector w -> length w = length l -> (i < d)%nat -> (j < d)%nat -> 0 < n_std ->
  let a := particle_cov w l i i in let b := particle_cov w l i j in let c := particle_cov w l j j in
  0 < a -> 0 < a * c - b ^ 2 ->
  (let '(c00, c01, c10, c11) := rebit_cov d (i, j) w l in c01 = c10 /\ eig_of c00 c01 c11 e) ->
  NoDup I -> (forall k, In k I -> (k < length w)%nat /\ ~ inside (rebit_ellipse e d (i, j) w l n_std) (rebit_point (i, j) (nth k l []))) ->
  mass w I <= 2 / n_std ^ 2.
Proof.
  intros Hw Hl Hi Hj Hs a b c Ha Hd He Hn HI. destruct Hw as [Hnn Hsum].
  assert (Ea : a = covar (length w) (fun k => nth k w 0) (coord l i) (coord l i)) by now apply cov_covar.
  assert (Eb : b = covar (length w) (fun k => nth k w 0) (coord l i) (coord l j)) by now apply cov_covar.
  assert (Ec : c = covar (length w) (fun k => nth k w 0) (coord l j) (coord l j)) by now apply cov_covar.
  assert (Em : forall k, (k < d)%nat -> nth k (est_mean d w l) 0 = expect (length w) (fun m => nth m w 0) (coord l k)).
  { intros k Hk. rewrite nth_est_mean by assumption. unfold expect. rewrite rdot_col by assumption. reflexivity. }
  apply (outside_mass w l i j (conj Hnn Hsum) I (n_std ^ 2)); try assumption; rewrite <- ?Ea, <- ?Eb, <- ?Ec; try assumption; try nra.
  - apply HI.
  - intros k Hk. destruct (HI k Hk) as [_ Hout]. apply Rnot_le_lt. intros Hle. apply Hout.
    apply (c116_rebit_ellipse e d i j w l n_std (nth k l [])); try assumption; [now split|]. cbn zeta. fold a b c. rewrite !Em by assumption. exact Hle.
Qed.

(** A concrete case: variances 4 and 1, uncorrelated, eigenvalues in ascending order. *)
Example c116_example : let e := {| val0 := 1; val1 := 4; vec0 := (0, 1); vec1 := (-1, 0) |} in
  eig_of 4 0 1 e /\ e_width (plot_cov_ellipse e (0, 0) 2) = 8 /\ e_height (plot_cov_ellipse e (0, 0) 2) = 4 /\
  inside (plot_cov_ellipse e (0, 0) 2) (4, 0) /\ ~ inside (plot_cov_ellipse e (0, 0) 2) (0, 3).
Proof.
  cbn zeta. set (e := {| val0 := 1; val1 := 4; vec0 := (0, 1); vec1 := (-1, 0) |}).
  assert (He : eig_of 4 0 1 e) by (unfold eig_of, e; cbn [vec0 vec1 val0 val1]; repeat split; lra).
  assert (Hw : eigsorted e = {| val0 := 4; val1 := 1; vec0 := (-1, 0); vec1 := (0, 1) |}).
  { unfold eigsorted, e. cbn [val0 val1 vec0 vec1]. rewrite Rltb_false by lra. reflexivity. }
  assert (H2 : sqrt 4 = 2) by (replace 4 with (2 * 2) by lra; apply sqrt_square; lra).
  split; [exact He|]. unfold plot_cov_ellipse. rewrite Hw. cbn [e_width e_height val0 val1 vec0 vec1]. rewrite H2, sqrt_1.
  split; [lra|]. split; [lra|].
  split.
  - pose proof (proj2 (ellipse_set 4 0 1 e (0, 0) 2 (4, 0) He ltac:(lra) ltac:(lra) ltac:(lra))) as H.
    unfold plot_cov_ellipse in H. rewrite Hw in H. cbn [val0 val1] in H. rewrite H2, sqrt_1 in H. apply H.
    unfold scaled_distance2. cbn [fst snd]. lra.
  - intros H0. pose proof (proj1 (ellipse_set 4 0 1 e (0, 0) 2 (0, 3) He ltac:(lra) ltac:(lra) ltac:(lra))) as H.
    unfold plot_cov_ellipse in H. rewrite Hw in H. cbn [val0 val1] in H. rewrite H2, sqrt_1 in H. specialize (H H0).
    unfold scaled_distance2 in H. cbn [fst snd] in H. lra.
Qed.

Print Assumptions c116_ellipse_is_mahalanobis_ball.
Print Assumptions c116_long_axis_first.
Print Assumptions c116_rebit_ellipse.
Print Assumptions c116_coverage.
