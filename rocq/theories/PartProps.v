(** Theorems for properties C15-C20 (particle distributions). *)
From Verif Require Import Base RList Ext Sums SmcModel PartModel PartSpec SmcProofs2 PartProofs PartProofs3.

(** C15 *)
Theorem c15_constructor_normalises l w : (exists x, In x w /\ x <> 0) ->
  exists w', pd_init None (Some l) (Some w) = Ok (l, map Fin w') /\ prob_vector w' /\ length w' = length w /\
    exists k, 0 < k /\ forall i, nth i w' 0 = k * Rabs (nth i w 0).
Proof. exact (pd_init_ok l w). Qed.

Theorem c15_both_rejected d l w : pd_init (Some d) (Some l) (Some w) = Err ValueError.
Proof. reflexivity. Qed.

Theorem c15_only_dimension d : pd_init (Some d) None None = Ok ([repeat 0 d], [Fin 1]).
Proof. reflexivity. Qed.

(** C16 *)
Theorem c16_particle_returned_exactly_on_its_interval w u j :
  prob_vector w -> 0 <= u < 1 -> (j < length w)%nat -> (sample_index w u = j <-> in_slot w j u).
Proof. exact (sample_index_slot w u j). Qed.

Theorem c16_intervals_cover_and_are_disjoint w u : prob_vector w -> 0 <= u < 1 ->
  exists j, (j < length w)%nat /\ in_slot w j u /\ (forall i, (i < length w)%nat -> in_slot w i u -> i = j).
Proof.
  intros H Hu. destruct (slots_cover w u H Hu) as (j & Hj & Hs). exists j. split; [assumption|]. split; [assumption|].
  intros i Hi Hsi. now apply (slots_disjoint w u i j).
Qed.

Theorem c16_sample w l us : prob_vector w -> length l = length w -> Forall (fun u => 0 <= u < 1) us ->
  exists js, pd_sample w l us = Ok (map (fun j => nth j l []) js) /\ length js = length us /\
    Forall2 (fun j u => (j < length w)%nat /\ in_slot w j u /\ 0 < nth j w 0) js us.
Proof.
  intros H Hl Hus. pose proof (prob_vector_nonempty w H) as Hn.
  assert (Hne : w <> []) by (destruct w; [simpl in Hn; lia|discriminate]).
  exists (map (sample_index w) us). rewrite pd_sample_ok by assumption. rewrite map_map, map_length.
  split; [reflexivity|]. split; [reflexivity|]. induction Hus as [|u us Hu Hus IH]; [constructor|]. cbn [map]. constructor; [|assumption].
  split; [now apply sample_index_range|]. split; [|now apply sample_positive].
  apply sample_index_slot; [assumption|assumption|now apply sample_index_range|reflexivity].
Qed.

(** Even if rounding makes the weights miss one, a draw never falls outside the cloud. *)
Theorem c16_sample_total w l us : w <> [] -> length l = length w ->
  exists rows, pd_sample w l us = Ok rows /\ length rows = length us /\ forall r, In r rows -> In r l.
Proof.
  intros Hw Hl. eexists. split; [now apply pd_sample_ok|]. rewrite map_length. split; [reflexivity|].
  intros r Hr. apply in_map_iff in Hr as (u & <- & _). apply nth_In. rewrite Hl. now apply sample_index_range.
Qed.

(** C17 *)
Theorem c17_mean_is_weighted_average d w l j : length w = length l -> (j < d)%nat ->
  nth j (est_mean d w l) 0 = expect (length w) (fun i => nth i w 0) (coord l j).
Proof. intros H Hj. rewrite nth_est_mean by assumption. now apply rdot_col. Qed.

Theorem c17_mean_within_range d w l j lo hi : prob_vector w -> length w = length l -> (j < d)%nat ->
  (forall i, (i < length l)%nat -> lo <= coord l j i <= hi) -> lo <= nth j (est_mean d w l) 0 <= hi.
Proof. exact (mean_range d w l j lo hi). Qed.

Theorem c17_covariance_is_mean_outer_deviation d w l m n : prob_vector w -> length w = length l -> (m < d)%nat -> (n < d)%nat ->
  nth n (nth m (est_cov d w l) []) 0 = covar (length w) (fun i => nth i w 0) (coord l m) (coord l n).
Proof. intros [_ Hs] Hl Hm Hn. rewrite nth_est_cov by assumption. now apply cov_covar. Qed.

Theorem c17_covariance_symmetric d w l m n : prob_vector w -> length w = length l -> (m < d)%nat -> (n < d)%nat ->
  nth n (nth m (est_cov d w l) []) 0 = nth m (nth n (est_cov d w l) []) 0.
Proof. intros [_ Hs] Hl Hm Hn. rewrite !nth_est_cov by assumption. rewrite !cov_covar by assumption. apply covar_sym. Qed.

Theorem c17_covariance_positive_semidefinite d w l (v : nat -> R) : prob_vector w -> length w = length l ->
  0 <= Sum d (fun m => Sum d (fun n => v m * v n * nth n (nth m (est_cov d w l) []) 0)).
Proof. exact (est_cov_psd d w l v). Qed.

Theorem c17_correlations d w l m n : prob_vector w -> length w = length l -> (m < d)%nat -> (n < d)%nat ->
  0 < nth m (nth m (est_cov d w l) []) 0 -> 0 < nth n (nth n (est_cov d w l) []) 0 ->
  exists r, nth n (nth m (est_corr d w l) []) NaN = Fin r /\ -1 <= r <= 1 /\ (m = n -> r = 1) /\
    r * (sqrt (nth m (nth m (est_cov d w l) []) 0) * sqrt (nth n (nth n (est_cov d w l) []) 0)) = nth n (nth m (est_cov d w l) []) 0.
Proof. exact (est_corr_ok d w l m n). Qed.

(** Moving every particle by x |-> a_j x_j + b_j in each coordinate. *)
Theorem c17_affine_equivariance d w l (a b : nat -> R) m n : prob_vector w -> length w = length l -> (m < d)%nat -> (n < d)%nat ->
  let l' := map (fun x => map (fun j => a j * nth j x 0 + b j) (seq 0 d)) l in
  nth m (est_mean d w l') 0 = a m * nth m (est_mean d w l) 0 + b m /\
  nth n (nth m (est_cov d w l') []) 0 = a m * a n * nth n (nth m (est_cov d w l) []) 0.
Proof. exact (affine_moments d w l a b m n). Qed.

Theorem c17_meanfn_identity d w l : est_meanfn d (fun x => x) w l = est_mean d w l.
Proof. reflexivity. Qed.
Theorem c17_meanfn k (f : list R -> list R) w l j : length w = length l -> (j < k)%nat ->
  nth j (est_meanfn k (map f) w l) 0 = expect (length w) (fun i => nth i w 0) (fun i => nth j (f (nth i l [])) 0).
Proof. exact (meanfn_ok k f w l j). Qed.

(** C18 *)
Theorem c18_credible_region asc slice w l level :
  prob_vector w -> length l = length w -> argsorts asc w -> 0 <= level < 1 ->
  exists I i J,
    est_credible_region asc slice w l level =
      Ok (map (fun k => slice (nth k l [])) (I ++ [i]), map (fun k => slice (nth k l [])) J) /\
    Permutation ((I ++ [i]) ++ J) (seq 0 (length w)) /\
    level <= mass w (I ++ [i]) /\
    (forall a b, In a (I ++ [i]) -> In b J -> nth b w 0 <= nth a w 0) /\
    (forall a, In a I -> nth i w 0 <= nth a w 0) /\ mass w I <= level.
Proof. intros H1 H2 H3 [H4 H5]. now apply credible_region. Qed.

(** At level one (the whole mass) the code always fails. *)
Theorem c18_level_one_refuted asc slice w l :
  prob_vector w -> length l = length w -> argsorts asc w ->
  est_credible_region asc slice w l 1 = Err IndexError.
Proof. intros H1 H2 H3. apply credible_region_fails; auto; lra. Qed.

(** C19 *)
Theorem c19_entropy_bounds w : prob_vector w -> 0 <= est_entropy w <= ln (INR (length w)).
Proof. exact (entropy_bounds w). Qed.
Theorem c19_entropy_uniform n : (0 < n)%nat -> est_entropy (uniform_weights n) = ln (INR n).
Proof. exact (entropy_uniform n). Qed.
Theorem c19_zero_weights_contribute_nothing w :
  est_entropy (filter (fun x => negb (Reqb x 0)) w) = est_entropy w.
Proof. exact (entropy_zero_ignored w). Qed.
Theorem c19_entropy_is_shannon w : prob_vector w -> est_entropy w = - Sum (length w) (fun i => nth i w 0 * ln (nth i w 0)).
Proof. exact (entropy_shannon_all w). Qed.

(** C20 *)
Theorem c20_clusters_partition labels w weighted : length w = length labels -> labels_ge labels -> dbscan_labels labels ->
  exists cs, particle_clusters labels (Some w) weighted = Ok cs /\
    (forall i, (i < length labels)%nat -> length (filter (fun p => nth i (snd p) false) cs) = 1%nat) /\
    (forall p i, In p cs -> (i < length labels)%nat -> nth i (snd p) false = true -> nth i labels 0%Z = fst p) /\
    rsum (map (fun p => rsum (select (snd p) w)) cs) = rsum w.
Proof. exact (clusters_partition labels w weighted). Qed.

(** The law of total variance holds for a single cluster only ... *)
Theorem c20_total_variance_single_cluster_partial labels w l m n :
  prob_vector w -> length w = length labels -> length l = length labels -> (forall z, In z labels -> z = 0%Z) ->
  exists a b, est_cluster_covs labels w l m n = Ok (a, b, particle_cov w l m n) /\ b = 0.
Proof. exact (single_cluster_covs labels w l m n). Qed.
(** ... and fails for two. *)
(** The exact total reported: a covariance-like form in which every weight is multiplied by the weight of its cluster. *)
Theorem c20_reported_total labels w l m n : length w = length labels -> length l = length labels -> labels_ge labels -> dbscan_labels labels ->
  let q i := nth i w 0 * Sum (length w) (fun k => if Z.eqb (nth k labels 0%Z) (nth i labels 0%Z) then nth k w 0 else 0) in
  exists a b, est_cluster_covs labels w l m n = Ok (a, b, a + b) /\
    a + b = Sum (length w) (fun i => q i * coord l m i * coord l n i) - Sum (length w) (fun i => q i * coord l m i) * Sum (length w) (fun i => q i * coord l n i).
Proof. exact (cluster_covs_exact labels w l m n). Qed.

Theorem c20_total_variance_refuted : exists labels w l a b t,
  prob_vector w /\ length w = length labels /\ length l = length labels /\ labels_ge labels /\ dbscan_labels labels /\
  est_cluster_covs labels w l 0 0 = Ok (a, b, t) /\ t <> particle_cov w l 0 0.
Proof. exact total_variance_wrong. Qed.

(** ** Non-vacuity *)
Example ex_w : prob_vector [1/2; 0; 1/2].
Proof. split; [repeat constructor; lra|unfold rsum; cbn; lra]. Qed.
Example ex_c15 : exists x, In x [2; 0; -3] /\ x <> 0.
Proof. exists 2. split; [now left|lra]. Qed.
Example ex_c16 : in_slot [1/2; 0; 1/2] 2 (1/2) /\ sample_index [1/2; 0; 1/2] (1/2) = 2%nat.
Proof.
  assert (in_slot [1/2; 0; 1/2] 2 (1/2)) by (unfold in_slot, Sum; cbn; lra). split; [assumption|].
  apply c16_particle_returned_exactly_on_its_interval; [apply ex_w|lra|simpl; lia|assumption].
Qed.
Example ex_c17 : 0 < nth 0 (nth 0 (est_cov 1 [1/2; 0; 1/2] [[0]; [7]; [1]]) []) 0.
Proof. cbn. unfold particle_cov, rdot, rsum, col. cbn. lra. Qed.
Example ex_c18 : argsorts [1; 0; 2]%nat [1/2; 0; 1/2].
Proof.
  split; [cbn; apply perm_swap|]. intros a b [H1 H2]. simpl in H2.
  destruct a as [|[|[|a]]]; destruct b as [|[|[|b]]]; try lia; cbn; lra.
Qed.
Example ex_c20 : labels_ge [1; -1; 0; 1]%Z /\ dbscan_labels [1; -1; 0; 1]%Z.
Proof.
  split; [intros z [<-|[<-|[<-|[<-|[]]]]]; lia|]. exists 2%nat. intros z Hz. cbn.
  split; [intros [<-|[<-|[<-|[<-|[]]]]]; lia|intros; lia].
Qed.

Print Assumptions c15_constructor_normalises.
Print Assumptions c15_both_rejected.
Print Assumptions c15_only_dimension.
Print Assumptions c16_particle_returned_exactly_on_its_interval.
Print Assumptions c16_intervals_cover_and_are_disjoint.
Print Assumptions c16_sample.
Print Assumptions c16_sample_total.
Print Assumptions c17_mean_is_weighted_average.
Print Assumptions c17_mean_within_range.
Print Assumptions c17_covariance_is_mean_outer_deviation.
Print Assumptions c17_covariance_symmetric.
Print Assumptions c17_covariance_positive_semidefinite.
Print Assumptions c17_correlations.
Print Assumptions c17_affine_equivariance.
Print Assumptions c17_meanfn_identity.
Print Assumptions c17_meanfn.
Print Assumptions c18_credible_region.
Print Assumptions c18_level_one_refuted.
Print Assumptions c19_entropy_bounds.
Print Assumptions c19_entropy_uniform.
Print Assumptions c19_zero_weights_contribute_nothing.
Print Assumptions c19_entropy_is_shannon.
Print Assumptions c20_clusters_partition.
Print Assumptions c20_total_variance_single_cluster_partial.
Print Assumptions c20_total_variance_refuted.
Print Assumptions c20_reported_total.
