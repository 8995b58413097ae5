(** Metric laws of the model distances. *)
From Verif Require Import Base RList Sums TwoModel.

Lemma distance_nonneg Q a b : 0 <= distance Q a b.
Proof. unfold distance. apply rsum_map_nonneg. intros; apply Rabs_pos. Qed.
Lemma distance_sym Q a b : distance Q a b = distance Q b a.
Proof.
  unfold distance. revert a b; induction Q as [|q Q IH]; intros [|x a] [|y b]; cbn [map2 map]; rewrite ?rsum_cons; try reflexivity.
  rewrite (IH a b). f_equal. replace (q * (y - x)) with (- (q * (x - y))) by ring. now rewrite Rabs_Ropp.
Qed.
Lemma distance_triangle Q a b c : length a = length b -> length b = length c -> distance Q a c <= distance Q a b + distance Q b c.
Proof.
  unfold distance. revert a b c; induction Q as [|q Q IH]; intros [|x a] [|y b] [|z c] H1 H2; cbn [length] in *; try discriminate;
    cbn [map2 map]; rewrite ?rsum_cons, ?rsum_nil; try lra.
  specialize (IH a b c ltac:(lia) ltac:(lia)).
  assert (Rabs (q * (x - z)) <= Rabs (q * (x - y)) + Rabs (q * (y - z))); [|lra].
  replace (q * (x - z)) with (q * (x - y) + q * (y - z)) by ring. apply Rabs_triang.
Qed.
Lemma distance_zero Q a : distance Q a a = 0.
Proof.
  unfold distance. revert a; induction Q as [|q Q IH]; intros [|x a]; cbn [map2 map]; rewrite ?rsum_cons, ?rsum_nil; try reflexivity.
  rewrite IH. replace (q * (x - x)) with 0 by ring. rewrite Rabs_R0. ring.
Qed.
Lemma distance_separates Q a b : length a = length Q -> length b = length Q -> Forall (fun q => q <> 0) Q -> distance Q a b = 0 -> a = b.
Proof.
  revert a b; induction Q as [|q Q IH]; intros [|x a] [|y b] H1 H2 HQ; cbn [length] in *; try discriminate; [reflexivity|].
  intros D. unfold distance in D. cbn [map2 map] in D. rewrite rsum_cons in D. fold (distance Q a b) in D.
  pose proof (distance_nonneg Q a b). pose proof (Rabs_pos (q * (x - y))). inversion HQ as [|? ? Hq HQ']; subst.
  assert (E : Rabs (q * (x - y)) = 0) by lra. f_equal.
  - destruct (Req_dec (q * (x - y)) 0) as [E0|E0]; [|apply Rabs_no_R0 in E0; lra]. apply Rmult_integral in E0. destruct E0; [contradiction|lra].
  - apply IH; [lia|lia|assumption|lra].
Qed.

(** ** Euclidean *)
Definition sq (u : list R) := rsum (map (fun x => x ^ 2) u).
Lemma sq_nonneg u : 0 <= sq u.
Proof. unfold sq. apply rsum_map_nonneg. intros; apply pow2_ge_0. Qed.
Lemma sq_cons x u : sq (x :: u) = x ^ 2 + sq u.
Proof. unfold sq. cbn [map]. apply rsum_cons. Qed.
Lemma rdot_cons x y u v : rdot (x :: u) (y :: v) = x * y + rdot u v.
Proof. unfold rdot. cbn [map2]. apply rsum_cons. Qed.
Lemma rdot_sq_le u v : length u = length v -> (rdot u v) ^ 2 <= sq u * sq v.
Proof.
  intros Hl. assert (G : forall t, 0 <= sq u * t ^ 2 + 2 * rdot u v * t + sq v).
  { intros t. revert v Hl; induction u as [|x u IH]; intros [|y v] Hl; cbn [length] in *; try discriminate.
    - unfold sq, rdot; cbn; rewrite ?rsum_nil; lra.
    - rewrite !sq_cons, rdot_cons. specialize (IH v ltac:(lia)). assert (0 <= (x * t + y) ^ 2) by apply pow2_ge_0. nra. }
  pose proof (sq_nonneg u) as Hu. pose proof (sq_nonneg v) as Hv. destruct (Req_dec (sq u) 0) as [E|E].
  - assert (rdot u v = 0) as ->; [|rewrite E; lra].
    destruct (Req_dec (rdot u v) 0) as [E0|E0]; [assumption|exfalso].
    specialize (G (- (sq v + 1) / (2 * rdot u v))). rewrite E in G.
    replace (0 * (- (sq v + 1) / (2 * rdot u v)) ^ 2 + 2 * rdot u v * (- (sq v + 1) / (2 * rdot u v)) + sq v) with (-1) in G by (field; assumption). lra.
  - specialize (G (- rdot u v / sq u)).
    replace (sq u * (- rdot u v / sq u) ^ 2 + 2 * rdot u v * (- rdot u v / sq u) + sq v) with ((sq u * sq v - (rdot u v) ^ 2) / sq u) in G by (field; assumption).
    assert (0 <= sq u * sq v - (rdot u v) ^ 2); [|lra].
    replace (sq u * sq v - (rdot u v) ^ 2) with ((sq u * sq v - (rdot u v) ^ 2) / sq u * sq u) by (field; assumption).
    apply Rmult_le_pos; lra.
Qed.
Lemma norm_triangle u v : length u = length v -> sqrt (sq (map2 Rplus u v)) <= sqrt (sq u) + sqrt (sq v).
Proof.
  intros Hl. assert (E : sq (map2 Rplus u v) = sq u + 2 * rdot u v + sq v).
  { revert v Hl; induction u as [|x u IH]; intros [|y v] Hl; cbn [length] in *; try discriminate; [unfold sq, rdot; cbn; rewrite ?rsum_nil; lra|].
    cbn [map2]. rewrite !sq_cons, rdot_cons, IH by lia. ring. }
  pose proof (sq_nonneg u) as Hu. pose proof (sq_nonneg v) as Hv. pose proof (sqrt_pos (sq u)) as Su. pose proof (sqrt_pos (sq v)) as Sv.
  apply Rsqr_incr_0_var; [|lra]. rewrite Rsqr_sqrt by apply sq_nonneg. unfold Rsqr. rewrite E.
  assert (Hd : rdot u v <= sqrt (sq u) * sqrt (sq v)).
  { destruct (Rle_dec (rdot u v) 0) as [H|H]; [assert (0 <= sqrt (sq u) * sqrt (sq v)) by (now apply Rmult_le_pos); lra|].
    rewrite <- sqrt_mult by assumption. apply Rsqr_incr_0_var; [|apply sqrt_pos]. rewrite Rsqr_sqrt by (now apply Rmult_le_pos).
    replace (Rsqr (rdot u v)) with (rdot u v ^ 2) by (unfold Rsqr; ring). now apply rdot_sq_le. }
  pose proof (sqrt_sqrt _ Hu). pose proof (sqrt_sqrt _ Hv). nra.
Qed.
Definition scaled Q a b := map2 Rmult (map sqrt Q) (map2 Rminus a b).
Lemma rescaled_eq Q a b : rescaled_distance Q a b = sqrt (sq (scaled Q a b)).
Proof. reflexivity. Qed.
Lemma scaled_length Q a b : length a = length Q -> length b = length Q -> length (scaled Q a b) = length Q.
Proof. intros. unfold scaled. assert (G : length (map2 Rminus a b) = length Q) by (rewrite map2_length; congruence). rewrite map2_length; now rewrite map_length. Qed.
Lemma rescaled_sym Q a b : rescaled_distance Q a b = rescaled_distance Q b a.
Proof.
  rewrite !rescaled_eq. f_equal. unfold scaled. revert a b; induction Q as [|q Q IH]; intros [|x a] [|y b]; cbn [map map2]; try reflexivity.
  rewrite !sq_cons, (IH a b). ring.
Qed.
Lemma rescaled_triangle Q a b c : length a = length Q -> length b = length Q -> length c = length Q ->
  rescaled_distance Q a c <= rescaled_distance Q a b + rescaled_distance Q b c.
Proof.
  intros Ha Hb Hc. rewrite !rescaled_eq. replace (scaled Q a c) with (map2 Rplus (scaled Q a b) (scaled Q b c)).
  - apply norm_triangle. now rewrite !scaled_length.
  - unfold scaled. revert a b c Ha Hb Hc; induction Q as [|q Q IH]; intros [|x a] [|y b] [|z c] Ha Hb Hc; cbn [length map map2] in *; try discriminate; [reflexivity|].
    f_equal; [ring|]. apply IH; lia.
Qed.
Lemma rescaled_zero Q a : rescaled_distance Q a a = 0.
Proof.
  rewrite rescaled_eq. assert (E : sq (scaled Q a a) = 0); [|rewrite E; apply sqrt_0].
  unfold scaled. revert a; induction Q as [|q Q IH]; intros [|x a]; cbn [map map2]; try reflexivity. rewrite sq_cons, IH. ring.
Qed.
Lemma rescaled_separates Q a b : length a = length Q -> length b = length Q -> Forall (fun q => 0 < q) Q -> rescaled_distance Q a b = 0 -> a = b.
Proof.
  rewrite rescaled_eq. intros Ha Hb HQ D. apply sqrt_eq_0 in D; [|apply sq_nonneg]. unfold scaled in D.
  revert a b Ha Hb HQ D; induction Q as [|q Q IH]; intros [|x a] [|y b] Ha Hb HQ D; cbn [length map map2] in *; try discriminate; [reflexivity|].
  rewrite sq_cons in D. inversion HQ as [|? ? Hq HQ']; subst. pose proof (sq_nonneg (map2 Rmult (map sqrt Q) (map2 Rminus a b))).
  pose proof (pow2_ge_0 (sqrt q * (x - y))). assert (E : (sqrt q * (x - y)) ^ 2 = 0) by lra. f_equal.
  - pose proof (sqrt_lt_R0 q Hq). assert (E2 : sqrt q * (x - y) = 0) by nra. apply Rmult_integral in E2. destruct E2; lra.
  - apply IH; [lia|lia|assumption|lra].
Qed.
