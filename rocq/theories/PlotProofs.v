(** Proofs for C117 (drawn ellipses). *)
From Verif Require Import Base RList Sums SmcModel PartModel PartSpec PartProofs PartProofs2 PlotModel PlotSpec.
From Coq Require Import List.

Lemma atan_unit x y : x ^ 2 + y ^ 2 = 1 -> 0 < x -> cos (atan (y / x)) = x /\ sin (atan (y / x)) = y.
Proof.
  intros H Hx. assert (Hs : sqrt (1 + (y / x)²) = / x).
  { replace (1 + (y / x)²) with ((/ x)²).
    - apply sqrt_Rsqr. left. now apply Rinv_0_lt_compat.
    - unfold Rsqr. replace (/ x * / x) with ((x ^ 2 + y ^ 2) * (/ x * / x)) by (rewrite H; ring). field. lra. }
  split.
  - rewrite cos_atan, Hs. field. lra.
  - rewrite sin_atan, Hs. field. lra.
Qed.

Lemma arctan2_unit x y : x ^ 2 + y ^ 2 = 1 -> cos (arctan2 y x) = x /\ sin (arctan2 y x) = y.
Proof.
  intros H. unfold arctan2. destruct (Rltb_spec 0 x) as [Hx|Hx]; [now apply atan_unit|].
  destruct (Rltb_spec x 0) as [Hn|Hn].
  - destruct (atan_unit (- x) (- y)) as [HA HB]; [nra|lra|].
    replace (- y / - x) with (y / x) in * by (field; lra).
    destruct (Rleb_spec 0 y).
    + rewrite neg_cos, neg_sin. lra.
    + unfold Rminus. rewrite cos_plus, sin_plus, cos_neg, sin_neg, cos_PI, sin_PI. lra.
  - assert (x = 0) by lra. subst x. destruct (Rltb_spec 0 y).
    + rewrite cos_PI2, sin_PI2. nra.
    + destruct (Rltb_spec y 0); [|nra]. rewrite cos_neg, sin_neg, cos_PI2, sin_PI2. nra.
Qed.

Lemma degrees_back t : degrees t * PI / 180 = t.
Proof. unfold degrees. field. apply PI_neq0. Qed.

(** Orthonormal pairs in the plane. *)
Lemma ortho_pair p q r s : p ^ 2 + q ^ 2 = 1 -> r ^ 2 + s ^ 2 = 1 -> p * r + q * s = 0 -> r ^ 2 = q ^ 2 /\ s ^ 2 = p ^ 2 /\ r * s = - (p * q).
Proof.
  intros H1 H2 H3.
  assert (E : (r + q * (p * s - q * r)) = 0 /\ (s - p * (p * s - q * r)) = 0).
  { split.
    - replace (r + q * (p * s - q * r)) with (r * (1 - q ^ 2) + q * p * s) by ring. replace (1 - q ^ 2) with (p ^ 2) by lra.
      replace (r * p ^ 2 + q * p * s) with (p * (p * r + q * s)) by ring. rewrite H3. ring.
    - replace (s - p * (p * s - q * r)) with (s * (1 - p ^ 2) + p * q * r) by ring. replace (1 - p ^ 2) with (q ^ 2) by lra.
      replace (s * q ^ 2 + p * q * r) with (q * (p * r + q * s)) by ring. rewrite H3. ring. }
  set (k := p * s - q * r) in *. destruct E as [E1 E2]. assert (r = - (q * k)) by lra. assert (s = p * k) by lra.
  assert (k ^ 2 = 1) as Hk. { assert (k ^ 2 * (p ^ 2 + q ^ 2) = 1) as Hkk by (rewrite <- H2; rewrite H, H0; ring). rewrite H1 in Hkk. lra. }
  clearbody k. subst r s. clear - Hk. repeat split.
  - replace ((- (q * k)) ^ 2) with (q ^ 2 * k ^ 2) by ring. rewrite Hk. ring.
  - replace ((p * k) ^ 2) with (p ^ 2 * k ^ 2) by ring. rewrite Hk. ring.
  - replace (- (q * k) * (p * k)) with (- (p * q) * k ^ 2) by ring. rewrite Hk. ring.
Qed.

Lemma eigsorted_of a b c e : eig_of a b c e -> eig_of a b c (eigsorted e) /\ val1 (eigsorted e) <= val0 (eigsorted e).
Proof.
  unfold eig_of, eigsorted. destruct e as [x y [p q] [r s]]. cbn [val0 val1 vec0 vec1].
  destruct (Rltb_spec y x); cbn [Nat.eqb val0 val1 vec0 vec1]; intros (H1 & H2 & H3 & H4 & H5 & H6).
  - split; [|lra]. repeat split; auto.
  - split; [|lra]. repeat split; auto; lra.
Qed.

Lemma ellipse_set a b c e pos nstd x : eig_of a b c e -> 0 < a -> 0 < a * c - b ^ 2 -> 0 < nstd ->
  (inside (plot_cov_ellipse e pos nstd) x <-> scaled_distance2 a b c pos x <= nstd ^ 2 * (a * c - b ^ 2)).
Proof.
  intros He Ha Hdet Hs. destruct (eigsorted_of a b c e He) as [Hes _]. unfold inside, plot_cov_ellipse.
  set (g := eigsorted e) in *. clearbody g. clear e He. cbn [e_xy e_width e_height e_angle].
  rewrite degrees_back. destruct g as [la mu [p q] [r s]]. unfold eig_of in Hes. cbn [val0 val1 vec0 vec1 fst snd] in *.
  destruct Hes as (H1 & H2 & H3 & H4 & H5 & H6). destruct (ortho_pair p q r s H1 H2 H3) as (E1 & E2 & E3).
  destruct (arctan2_unit p q H1) as [-> ->]. rewrite E1 in H4. rewrite E3 in H5. rewrite E2 in H6. clear r s H2 H3 E1 E2 E3.
  assert (Hd : a * c - b ^ 2 = la * mu * (p ^ 2 + q ^ 2) ^ 2) by (rewrite H4, H5, H6; ring).
  rewrite H1 in Hd. assert (Hd' : a * c - b ^ 2 = la * mu) by lra. clear Hd.
  assert (Htr : a + c = (la + mu) * (p ^ 2 + q ^ 2)) by (rewrite H4, H6; ring). rewrite H1 in Htr.
  assert (0 < c) by nra. rewrite Hd' in *. assert (Hla : 0 < la) by nra. assert (Hmu : 0 < mu) by nra.
  pose proof (sqrt_lt_R0 la Hla) as Hsl. pose proof (sqrt_lt_R0 mu Hmu) as Hsm.
  pose proof (sqrt_sqrt la ltac:(lra)) as Ql. pose proof (sqrt_sqrt mu ltac:(lra)) as Qm.
  set (A := sqrt la) in *. set (B := sqrt mu) in *. clearbody A B.
  unfold scaled_distance2. set (dx := fst x - fst pos). set (dy := snd x - snd pos).
  assert (HF : c * dx ^ 2 - 2 * b * (dx * dy) + a * dy ^ 2 = mu * (p * dx + q * dy) ^ 2 + la * (- q * dx + p * dy) ^ 2).
  { rewrite H4, H5, H6. ring. }
  rewrite HF. split.
  - intros (u & v & Huv & X1 & X2).
    assert (D1 : dx = p * (nstd * A * u) - q * (nstd * B * v)) by (unfold dx; rewrite X1; field).
    assert (D2 : dy = q * (nstd * A * u) + p * (nstd * B * v)) by (unfold dy; rewrite X2; field).
    assert (P1 : p * dx + q * dy = nstd * A * u) by (rewrite D1, D2; transitivity ((p ^ 2 + q ^ 2) * (nstd * A * u)); [ring|rewrite H1; ring]).
    assert (P2 : - q * dx + p * dy = nstd * B * v) by (rewrite D1, D2; transitivity ((p ^ 2 + q ^ 2) * (nstd * B * v)); [ring|rewrite H1; ring]).
    rewrite P1, P2.
    replace (mu * (nstd * A * u) ^ 2 + la * (nstd * B * v) ^ 2) with (nstd ^ 2 * (mu * (A * A) * u ^ 2 + la * (B * B) * v ^ 2)) by ring.
    rewrite Ql, Qm. replace (mu * la * u ^ 2 + la * mu * v ^ 2) with (la * mu * (u ^ 2 + v ^ 2)) by ring.
    apply Rmult_le_compat_l; [nra|]. rewrite <- (Rmult_1_r (la * mu)) at 2. apply Rmult_le_compat_l; [nra|lra].
  - intros HI. exists ((p * dx + q * dy) / (nstd * A)), ((- q * dx + p * dy) / (nstd * B)).
    assert (N1 : nstd * A <> 0) by nra. assert (N2 : nstd * B <> 0) by nra. split; [|split].
    + assert (K : 0 < nstd ^ 2 * (la * mu)) by (apply Rmult_lt_0_compat; nra).
      apply (Rmult_le_reg_l (nstd ^ 2 * (la * mu))); [exact K|].
      replace (nstd ^ 2 * (la * mu) * (((p * dx + q * dy) / (nstd * A)) ^ 2 + ((- q * dx + p * dy) / (nstd * B)) ^ 2))
        with (mu * (p * dx + q * dy) ^ 2 * (la / (A * A)) + la * (- q * dx + p * dy) ^ 2 * (mu / (B * B))) by (field; split; [lra|split; lra]).
      rewrite Ql, Qm. replace (la / la) with 1 by (field; lra). replace (mu / mu) with 1 by (field; lra). lra.
    + replace (fst x) with (fst pos + dx) by (unfold dx; ring). f_equal.
      transitivity ((p ^ 2 + q ^ 2) * dx); [rewrite H1; ring|]. field. lra.
    + replace (snd x) with (snd pos + dy) by (unfold dy; ring). f_equal.
      transitivity ((p ^ 2 + q ^ 2) * dy); [rewrite H1; ring|]. field. lra.
Qed.

Section Cloud.
Variables (w : list R) (l : list loc) (i j : nat).
Hypothesis Hw : prob_vector w.
Let n := length w.
Let p := fun k => nth k w 0.
Let f := coord l i.
Let g := coord l j.
Let a := covar n p f f.
Let b := covar n p f g.
Let c := covar n p g g.
Let D := fun k => c * (f k - expect n p f) ^ 2 - 2 * b * ((f k - expect n p f) * (g k - expect n p g)) + a * (g k - expect n p g) ^ 2.

Lemma average_distance : Sum n (fun k => p k * D k) = 2 * (a * c - b ^ 2).
Proof.
  transitivity (c * a - 2 * b * b + a * c); [|ring].
  transitivity (Sum n (fun k => c * (p k * ((f k - expect n p f) * (f k - expect n p f))) - 2 * b * (p k * ((f k - expect n p f) * (g k - expect n p g)))
    + a * (p k * ((g k - expect n p g) * (g k - expect n p g))))).
  - apply Sum_ext. intros k _. unfold D. ring.
  - rewrite Sum_plus, Sum_minus, !Sum_scal. reflexivity.
Qed.

Lemma D_nonneg k : 0 <= a -> 0 <= a * c - b ^ 2 -> 0 < a -> 0 <= D k.
Proof.
  intros _ Hd Ha. unfold D. set (x := f k - expect n p f). set (y := g k - expect n p g).
  apply (Rmult_le_reg_l a); [assumption|]. rewrite Rmult_0_r.
  replace (a * (c * x ^ 2 - 2 * b * (x * y) + a * y ^ 2)) with ((a * y - b * x) ^ 2 + (a * c - b ^ 2) * x ^ 2) by ring.
  pose proof (pow2_ge_0 (a * y - b * x)). pose proof (pow2_ge_0 x). nra.
Qed.

Lemma outside_mass (I : list nat) t : 0 < a -> 0 < a * c - b ^ 2 -> 0 < t -> NoDup I -> (forall k, In k I -> (k < n)%nat) ->
  (forall k, In k I -> t * (a * c - b ^ 2) < D k) -> mass w I <= 2 / t.
Proof.
  intros Ha Hd Ht Hn Hb Ho. set (e := a * c - b ^ 2) in *.
  assert (H1 : SumL I (fun k => t * e * p k) <= SumL I (fun k => p k * D k)).
  { apply SumL_le. intros k Hk. specialize (Ho k Hk). pose proof (prob_nth_nonneg w k Hw) as Hp. unfold p. nra. }
  assert (H2 : SumL I (fun k => p k * D k) <= SumL (seq 0 n) (fun k => p k * D k)).
  { apply SumL_incl; [|assumption|].
    - intros k. pose proof (prob_nth_nonneg w k Hw). pose proof (D_nonneg k ltac:(lra) ltac:(unfold e in *; lra) Ha). unfold p. nra.
    - intros k Hk. apply in_seq. specialize (Hb k Hk). lia. }
  assert (H3 : SumL (seq 0 n) (fun k => p k * D k) = 2 * e).
  { unfold e. rewrite <- average_distance. rewrite SumL_rsum. symmetry. apply Sum_rsum. }
  rewrite SumL_scal in H1. assert (H4 : t * e * mass w I <= 2 * e) by (unfold mass; fold p; lra).
  apply (Rmult_le_reg_l (t * e)); [apply Rmult_lt_0_compat; lra|].
  replace (t * e * (2 / t)) with (2 * e) by (field; lra). exact H4.
Qed.
End Cloud.
