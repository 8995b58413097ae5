(** Entropy of every probability vector; the total variance reported for clusters. *)
From Verif Require Import Base RList Ext SmcModel SmcSpec PartModel PartSpec PartProofs.

Lemma entropy_shannon_all w : prob_vector w -> est_entropy w = - Sum (length w) (fun i => nth i w 0 * ln (nth i w 0)).
Proof.
  intros [Hp _]. rewrite (entropy_Sum w Hp). f_equal.
  transitivity (rsum (map (fun x => x * ln x) w)).
  - apply rsum_map_ext. intros x Hx. rewrite Forall_forall in Hp. specialize (Hp x Hx). destruct (Rltb_spec 0 x); [reflexivity|]. replace x with 0 by lra. ring.
  - rewrite Sum_rsum. rewrite <- (map_map (fun i => nth i w 0) (fun x => x * ln x)), map_nth_seq. reflexivity.
Qed.

Lemma select_scaled V idx labels : forall f : list R, length f = length labels ->
  rsum (select (map (fun z => Z.eqb z idx) labels) (map2 (fun z x => V z * x) labels f)) = V idx * rsum (select (map (fun z => Z.eqb z idx) labels) f).
Proof.
  induction labels as [|z labels IH]; intros [|x f] H; try discriminate; cbn [map map2 select]; [rewrite rsum_nil; ring|].
  destruct (Z.eqb_spec z idx) as [->|]; rewrite ?rsum_cons, IH by (simpl in H; lia); ring.
Qed.

Lemma rsum_weighted_labels V labels f start n : length f = length labels ->
  (forall z, In z labels -> (start <= z < start + Z.of_nat n)%Z) ->
  rsum (map (fun k => V (start + Z.of_nat k)%Z * rsum (select (map (fun z => Z.eqb z (start + Z.of_nat k)) labels) f)) (seq 0 n))
  = rsum (map2 (fun z x => V z * x) labels f).
Proof.
  intros Hf Hz. rewrite <- (rsum_select_labels labels (map2 (fun z x => V z * x) labels f)) with (start := start) (n := n).
  - apply rsum_map_ext. intros k _. symmetry. now apply select_scaled.
  - now apply map2_length.
  - assumption.
Qed.

Lemma select_rdot m : forall w l j, length w = length m -> length l = length m ->
  rdot (select m w) (col j (select m l)) = rsum (select m (map2 (fun a x => a * nth j x 0) w l)).
Proof.
  unfold rdot, col. induction m as [|b m IH]; intros [|a w] [|x l] j Hw Hl; try discriminate; [reflexivity|].
  simpl in Hw, Hl. cbn [select map2]. destruct b; cbn [map map2]; rewrite ?rsum_cons, IH by lia; reflexivity.
Qed.

Lemma select_second m : forall w (l : list loc) p q, length w = length m -> length l = length m ->
  rsum (map2 (fun a x => a * nth p x 0 * nth q x 0) (select m w) (select m l)) = rsum (select m (map2 (fun a x => a * nth p x 0 * nth q x 0) w l)).
Proof.
  induction m as [|b m IH]; intros [|a w] [|x l] p q Hw Hl; try discriminate; [reflexivity|].
  simpl in Hw, Hl. cbn [select map2]. destruct b; cbn [map map2]; rewrite ?rsum_cons, IH by lia; reflexivity.
Qed.

Lemma select_label_weight idx labels : forall w : list R, length w = length labels ->
  rsum (select (map (fun z => Z.eqb z idx) labels) w) = Sum (length w) (fun k => if Z.eqb (nth k labels 0%Z) idx then nth k w 0 else 0).
Proof.
  intros w H. transitivity (rsum (map2 (fun z x => if Z.eqb z idx then x else 0) labels w)).
  - revert w H. induction labels as [|z labels IH]; intros [|x w] H; try discriminate; [reflexivity|]. cbn [map select map2]. rewrite rsum_cons, <- IH by (simpl in H; lia).
    destruct (Z.eqb z idx); rewrite ?rsum_cons; ring.
  - rewrite (rsum_map2_index _ _ _ 0%Z 0) by (symmetry; assumption). now rewrite H.
Qed.

Lemma cluster_covs_exact labels w l m n : length w = length labels -> length l = length labels -> labels_ge labels -> dbscan_labels labels ->
  let q i := nth i w 0 * Sum (length w) (fun k => if Z.eqb (nth k labels 0%Z) (nth i labels 0%Z) then nth k w 0 else 0) in
  exists a b, est_cluster_covs labels w l m n = Ok (a, b, a + b) /\
    a + b = Sum (length w) (fun i => q i * coord l m i * coord l n i) - Sum (length w) (fun i => q i * coord l m i) * Sum (length w) (fun i => q i * coord l n i).
Proof.
  intros Hw Hl Hge Hdb q. destruct (clusters_ok labels w false) as (start & N & E & H). specialize (H Hge Hdb).
  unfold est_cluster_covs, est_cluster_moments. rewrite E. cbn [bind]. do 2 eexists. split; [reflexivity|].
  rewrite !map_map. cbn [m_weight m_mean m_cov fst snd].
  set (mask := fun k => map (fun z => Z.eqb z (start + Z.of_nat k)) labels).
  set (V := fun z => rsum (select (map (fun y => Z.eqb y z) labels) w)).
  assert (Lm : forall k, length w = length (mask k) /\ length l = length (mask k)) by (intros; unfold mask; rewrite map_length; auto).
  rewrite map2_map_l, map2_map_r, map2_same. cbn [m_mean fst snd].
  assert (M : forall j, rdot (map (fun k => rsum (select (mask k) w)) (seq 0 N)) (map (fun k => rdot (select (mask k) w) (col j (select (mask k) l))) (seq 0 N))
    = Sum (length w) (fun i => q i * coord l j i)).
  { intros j. unfold rdot at 1. rewrite map2_map_l, map2_map_r, map2_same.
    rewrite (rsum_map_ext _ (fun k => V (start + Z.of_nat k)%Z * rsum (select (mask k) (map2 (fun a x => a * nth j x 0) w l)))).
    2:{ intros k _. rewrite select_rdot by apply Lm. reflexivity. }
    unfold mask. rewrite rsum_weighted_labels; [|now rewrite map2_length by lia|assumption].
    rewrite (rsum_map2_index _ _ _ 0%Z 0) by now rewrite map2_length by lia. rewrite <- Hw. apply Sum_ext. intros i Hi.
    rewrite (nth_map2 _ _ _ _ 0 [] 0) by lia. unfold V. rewrite select_label_weight by assumption. unfold q, coord. ring. }
  fold mask. rewrite !M.
  set (S2 := Sum (length w) (fun i => q i * coord l m i * coord l n i)).
  cut (rsum (map (fun k => rsum (select (mask k) w) * particle_cov (select (mask k) w) (select (mask k) l) m n) (seq 0 N)) +
       rsum (map (fun k => rsum (select (mask k) w) * rdot (select (mask k) w) (col m (select (mask k) l)) * rdot (select (mask k) w) (col n (select (mask k) l))) (seq 0 N)) = S2).
  { intros X. rewrite <- X. unfold mask. ring. }
  rewrite <- rsum_map_plus.
  rewrite (rsum_map_ext _ (fun k => V (start + Z.of_nat k)%Z * rsum (select (mask k) (map2 (fun a x => a * nth m x 0 * nth n x 0) w l)))).
  2:{ intros k _. unfold particle_cov. rewrite select_second by apply Lm. unfold V. fold (mask k). ring. }
  unfold mask. rewrite rsum_weighted_labels; [|now rewrite map2_length by lia|assumption].
  rewrite (rsum_map2_index _ _ _ 0%Z 0) by now rewrite map2_length by lia. rewrite <- Hw. apply Sum_ext. intros i Hi.
  rewrite (nth_map2 _ _ _ _ 0 [] 0) by lia. unfold V. rewrite select_label_weight by assumption. unfold q, coord. ring.
Qed.
