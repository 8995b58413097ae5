(** C77-C82: reading out a particle distribution. *)
From Verif Require Import Base RList Ext Sums SmcModel PartModel PartSpec PartProofs LinProofs RoModel RoSpec RoProofs RoProofs2.

(** ** C77 *)
Theorem c77_distance_value d l Q q i j : (forall k, (k < d)%nat -> 0 <= nth k Q 0) ->
  rescaled_distance d (Updater l Q) q i j = wdist d (fun k => nth k Q 0) (nth i l []) (nth j (side_locs q) []).
Proof. exact (dist_value d l Q q i j). Qed.
Theorem c77_metric_laws d (l : list loc) Q : (forall k, (k < d)%nat -> 0 < nth k Q 0) ->
  let D := rescaled_distance d (Updater l Q) (Locs l) in
  (forall i j, 0 <= D i j) /\ (forall i j, D i j = D j i) /\
  (forall i j, D i j = 0 <-> forall k, (k < d)%nat -> nth k (nth i l []) 0 = nth k (nth j l []) 0) /\
  (forall i j k, D i k <= D i j + D j k).
Proof.
  intros HQ D. assert (HQ0 : forall k, (k < d)%nat -> 0 <= nth k Q 0) by (intros; left; auto).
  assert (E : forall i j, D i j = wdist d (fun k => nth k Q 0) (nth i l []) (nth j l [])) by (intros; unfold D; now rewrite dist_value).
  refine (conj _ (conj _ (conj _ _))).
  - intros. rewrite E. apply sqrt_pos.
  - intros. rewrite !E. apply wdist_sym.
  - intros. rewrite E. now apply wdist_zero.
  - intros. rewrite !E. now apply wdist_triangle.
Qed.
(** Across two updaters of the same model *)
Theorem c77_two_updaters d (l l' : list loc) Q i j : (forall k, (k < d)%nat -> 0 <= nth k Q 0) ->
  rescaled_distance d (Updater l Q) (Updater l' Q) i j = rescaled_distance d (Updater l' Q) (Updater l Q) j i.
Proof. intro H. rewrite !dist_value by assumption. apply wdist_sym. Qed.
(** The scale is lost when the model comes with the second argument *)
Theorem c77_second_argument_refuted : exists d l l' Q i j,
  (forall k, (k < d)%nat -> 0 < nth k Q 0) /\
  rescaled_distance d (Locs l) (Updater l' Q) i j <> wdist d (fun k => nth k Q 0) (nth i l []) (nth j l' []).
Proof.
  exists 1%nat, [[0]], [[1]], [4], 0%nat, 0%nat. split; [intros [|k] Hk; cbn; lra || lia|].
  rewrite dist_noupd by discriminate. cbn [side_locs nth]. unfold wdist. rewrite !Sum_S, !Sum_0. cbn [nth].
  replace (1 * ((0 - 1) * (0 - 1)) + 0) with (1 * 1) by ring. replace (4 * ((0 - 1) * (0 - 1)) + 0) with (2 * 2) by ring. rewrite !sqrt_square by lra. lra.
Qed.
Example c77_example : (forall k, (k < 2)%nat -> 0 < nth k [1; 4] 0) /\ rescaled_distance 2 (Updater [[0; 0]; [3; 2]] [1; 4]) (Locs [[0; 0]; [3; 2]]) 0 1 = 5.
Proof.
  split; [intros [|[|k]] Hk; cbn; lra || lia|]. rewrite dist_value by (intros [|[|k]] Hk; cbn; lra || lia). unfold wdist. rewrite !Sum_S, !Sum_0. cbn [nth side_locs].
  replace (1 * ((0 - 3) * (0 - 3)) + (4 * ((0 - 2) * (0 - 2)) + 0)) with (5 * 5) by ring. apply sqrt_square. lra.
Qed.

(** ** C78.  With q_i the kernel density estimate of the other distribution, the code differs from the
    divergence by an explicit term that vanishes for bandwidth one. *)
Theorem c78_kl_partial d K delta p other w v : Forall (fun x => 0 < x) w -> rsum w = 1 -> 0 < delta ->
  let q i := kde K delta (length v) (fun j => nth j v 0) (rescaled_distance d p other i) in
  (forall i, (i < length w)%nat -> 0 < q i) ->
  kl_divergence d K delta p w other v =
    Fin (Sum (length w) (fun i => nth i w 0 * ln (nth i w 0 / q i))
         + ((1 - 1 / delta) * Sum (length w) (fun i => nth i w 0 * ln (delta * q i)) - ln delta)).
Proof. intros Hw Hs Hd q Hq. exact (kl_true d K delta p other w v Hw Hd Hq Hs). Qed.
Theorem c78_unit_bandwidth d K p other w v : Forall (fun x => 0 < x) w -> rsum w = 1 ->
  let q i := kde K 1 (length v) (fun j => nth j v 0) (rescaled_distance d p other i) in
  (forall i, (i < length w)%nat -> 0 < q i) ->
  kl_divergence d K 1 p w other v = Fin (Sum (length w) (fun i => nth i w 0 * ln (nth i w 0 / q i))).
Proof.
  intros Hw Hs q Hq. assert (H1 : 0 < 1) by lra. rewrite (kl_true d K 1 p other w v Hw H1 Hq Hs). f_equal. rewrite ln_1.
  replace (1 - 1 / 1) with 0 by field. match goal with |- ?a + (0 * ?b - 0) = ?c => change (a + (0 * b - 0) = a) end. ring.
Qed.
(** A particle where the kernel density vanishes makes the estimate infinite *)
Theorem c78_disjoint_support d K delta p other w v : Forall (fun x => 0 < x) w -> 0 < delta ->
  let q i := kde K delta (length v) (fun j => nth j v 0) (rescaled_distance d p other i) in
  (forall i, (i < length w)%nat -> 0 <= q i) -> (exists i, (i < length w)%nat /\ q i = 0) ->
  kl_divergence d K delta p w other v = PInf.
Proof. intros Hw Hd q Hq He. exact (kl_inf d K delta p other w v Hw Hd Hq He). Qed.
(** The default bandwidth 1/100 with the default Gaussian kernel and a single common particle *)
Theorem c78_bandwidth_refuted :
  let K := fun x => norm_pdf x 0 1 in
  let p := Locs [[0]] in
  let q i := kde K (1/100) 1 (fun j => nth j [1] 0) (rescaled_distance 1 p p i) in
  (forall i, (i < 1)%nat -> 0 < q i) /\
  kl_divergence 1 K (1/100) p [1] p [1] <> Fin (Sum 1 (fun i => nth i [1] 0 * ln (nth i [1] 0 / q i))).
Proof.
  assert (E9 : forall t, 1 / 100 * (100 * t) = t) by (intro; field). assert (E8 : 1 / 100 = / 100) by field. assert (E7 : 1 - 1 / / 100 = -99) by field.
  assert (L1 : 0 < ln 100) by (rewrite <- ln_1; apply ln_increasing; lra).
  intros K p q. set (s := sqrt (2 * PI)). assert (Hs : 1 < s).
  { unfold s. rewrite <- sqrt_1. apply sqrt_lt_1; pose proof PI2_1; unfold PI2 in *; lra. }
  assert (HD : rescaled_distance 1 p p 0 0 = 0).
  { unfold p. rewrite dist_noupd by discriminate. unfold wdist. rewrite Sum_S, Sum_0. cbn [side_locs nth]. replace (1 * ((0 - 0) * (0 - 0)) + 0) with 0 by ring. apply sqrt_0. }
  assert (HK : K 0 = / s). { unfold K, norm_pdf. replace (- ((0 - 0) / 1 * ((0 - 0) / 1)) / 2) with 0 by field. rewrite exp_0. fold s. field. lra. }
  assert (Hq0 : q 0%nat = 100 * / s).
  { unfold q, kde. rewrite Sum_S, Sum_0. rewrite HD. cbn [nth]. replace (0 / (1 / 100)) with 0 by field. rewrite HK. field. lra. }
  assert (Hi : 0 < / s) by (apply Rinv_0_lt_compat; lra).
  assert (Hq : forall i, (i < length [1])%nat -> 0 < q i) by (intros [|i] H; [rewrite Hq0; lra|cbn in H; lia]).
  split; [exact Hq|].
  assert (F1 : Forall (fun x => 0 < x) [1]) by (constructor; [lra|constructor]). assert (F2 : rsum [1] = 1) by (unfold rsum; cbn; lra). assert (F3 : 0 < 1 / 100) by lra.
  assert (E : kl_divergence 1 K (1/100) p [1] p [1] = Fin (Sum 1 (fun i => nth i [1] 0 * ln (nth i [1] 0 / q i)) + ((1 - 1 / (1/100)) * Sum 1 (fun i => nth i [1] 0 * ln (1/100 * q i)) - ln (1/100)))) by exact (kl_true 1 K (1/100) p p [1] [1] F1 F3 Hq F2).
  rewrite E. clear E. intro H. injection H as H. rewrite !(Sum_S 0), !Sum_0 in H. cbn [nth] in H.
  rewrite Hq0 in H. clearbody s. clear -H Hs E7 E8 E9 L1. rewrite E9 in H. rewrite ln_Rinv in H by lra.
  rewrite E8, E7 in H. rewrite ln_Rinv in H by lra.
  assert (0 < ln s) by (rewrite <- ln_1; apply ln_increasing; lra). lra.
Qed.

(** ** C79.  [F] is the interpolated distribution function; argsort is any sorting permutation. *)
Theorem c79_marginal_partial s w (l : list loc) idx n rmin rmax a b :
  prob_vector w -> length l = length w -> argsorts s (col idx l) -> (2 <= n)%nat ->
  endpoint rmin (is_min (length w) (coord l idx)) a -> endpoint rmax (is_max (length w) (coord l idx)) b -> a < b ->
  (forall i, (i < length w)%nat -> coord l idx i <= b + (b - a)) ->
  exists ps pr F, posterior_marginal s w l idx n rmin rmax = Ok (ps, map Fin pr) /\ length ps = n /\ length pr = n /\
    (forall i, (i < n)%nat -> nth i ps 0 = a + INR i * ((b - a) / INR (n - 1))) /\
    (forall i, (i < n)%nat -> 0 <= nth i pr 0) /\
    trapz ((b - a) / INR (n - 1)) pr = F b - F a /\
    (forall x y, x <= y <= b -> F x <= F y) /\
    (forall i, (i < length w)%nat -> coord l idx i <= b -> F (coord l idx i) = cdf w l idx (coord l idx i)) /\
    (forall x, (forall i, (i < length w)%nat -> x < coord l idx i) -> F x = 0) /\
    (forall x, (forall i, (i < length w)%nat -> coord l idx i <= x) -> x <= b -> F x = 1).
Proof. exact (marginal s w l idx n rmin rmax a b). Qed.
(** A requested range that strictly contains the particles carries the whole posterior *)
Theorem c79_normalised s w (l : list loc) idx n a b :
  prob_vector w -> length l = length w -> argsorts s (col idx l) -> (2 <= n)%nat -> a < b ->
  (forall i, (i < length w)%nat -> a < coord l idx i <= b) ->
  exists ps pr, posterior_marginal s w l idx n (Some a) (Some b) = Ok (ps, map Fin pr) /\
    Forall (fun x => 0 <= x) pr /\ trapz ((b - a) / INR (n - 1)) pr = 1.
Proof.
  intros Hw Hl Hs Hn Hab H.
  destruct (marginal s w l idx n (Some a) (Some b) a b Hw Hl Hs Hn eq_refl eq_refl Hab) as (ps & pr & F & E & _ & Hlen & _ & Hp & Ht & _ & _ & H0 & H1).
  { intros i Hi. specialize (H i Hi). lra. }
  exists ps, pr. split; [exact E|]. split.
  - apply Forall_forall. intros x Hx. apply (In_nth _ _ 0) in Hx. destruct Hx as (i & Hi & <-). apply Hp. lia.
  - rewrite Ht, (H0 a) by (intros i Hi; apply H; assumption). rewrite (H1 b); [lra|intros i Hi; apply H; assumption|lra].
Qed.
(** With the default range the weight at the smallest location is lost *)
Theorem c79_default_range_loses_minimum s w (l : list loc) idx n a b :
  prob_vector w -> length l = length w -> argsorts s (col idx l) -> (2 <= n)%nat ->
  is_min (length w) (coord l idx) a -> is_max (length w) (coord l idx) b -> a < b ->
  exists ps pr, posterior_marginal s w l idx n None None = Ok (ps, map Fin pr) /\
    trapz ((b - a) / INR (n - 1)) pr = 1 - Sum (length w) (fun i => if Reqb (coord l idx i) a then nth i w 0 else 0).
Proof.
  intros Hw Hl Hs Hn Ha Hb Hab.
  destruct (marginal s w l idx n None None a b Hw Hl Hs Hn Ha Hb Hab) as (ps & pr & F & E & _ & _ & _ & _ & Ht & _ & Hk & _ & H1).
  { intros i Hi. pose proof (proj2 Hb i Hi). lra. }
  exists ps, pr. split; [exact E|]. rewrite Ht. rewrite (H1 b); [|intros i Hi; apply (proj2 Hb i Hi)|lra]. f_equal.
  destruct Ha as [(i0 & Hi0 & E0) Hmin]. rewrite <- E0, Hk by (try assumption; lra). unfold cdf. apply Sum_ext. intros i Hi.
  change (nth idx (nth i l []) 0) with (coord l idx i). specialize (Hmin i Hi).
  destruct (Rleb_spec (coord l idx i) (coord l idx i0)), (Reqb_spec (coord l idx i) (coord l idx i0)); try reflexivity; exfalso; lra.
Qed.
Theorem c79_default_range_refuted : exists s w l n ps pr,
  prob_vector w /\ length l = length w /\ argsorts s (col 0 l) /\ posterior_marginal s w l 0 n None None = Ok (ps, map Fin pr) /\
  nth 0 ps 0 = 0 /\ nth (n - 1) ps 0 = 1 /\ (forall i, (i < length w)%nat -> 0 <= coord l 0 i <= 1) /\ trapz ((1 - 0) / INR (n - 1)) pr = 1/2.
Proof.
  assert (Hw : prob_vector [1/2; 1/2]) by (split; [repeat constructor; lra|unfold rsum; cbn; lra]).
  assert (Hs : argsorts [0%nat; 1%nat] (col 0 [[0]; [1]])).
  { split; [cbn; apply Permutation_refl|]. cbn. intros [|[|x]] [|[|y]] H; cbn; lra || lia. }
  assert (Hmin : is_min (length [1/2; 1/2]) (coord [[0]; [1]] 0) 0) by (split; [exists 0%nat; cbn; split; [lia|reflexivity]|intros [|[|i]] Hi; cbn in *; lra || lia]).
  assert (Hmax : is_max (length [1/2; 1/2]) (coord [[0]; [1]] 0) 1) by (split; [exists 1%nat; cbn; split; [lia|reflexivity]|intros [|[|i]] Hi; cbn in *; lra || lia]).
  destruct (c79_default_range_loses_minimum [0%nat; 1%nat] [1/2; 1/2] [[0]; [1]] 0 2 0 1 Hw eq_refl Hs ltac:(lia) Hmin Hmax ltac:(lra)) as (ps & pr & E & Ht).
  destruct (marginal [0%nat; 1%nat] [1/2; 1/2] [[0]; [1]] 0 2 None None 0 1 Hw eq_refl Hs ltac:(lia) Hmin Hmax ltac:(lra)) as (ps' & pr' & F & E' & _ & _ & Hp & _).
  { intros i Hi. pose proof (proj2 Hmax i Hi). lra. }
  rewrite E in E'. injection E' as <- _.
  exists [0%nat; 1%nat], [1/2; 1/2], [[0]; [1]], 2%nat, ps, pr. refine (conj Hw (conj eq_refl (conj Hs (conj E (conj _ (conj _ (conj _ _))))))).
  - rewrite Hp by lia. cbn [INR]. ring.
  - rewrite Hp by lia. cbn [Nat.sub INR]. field.
  - intros [|[|i]] Hi; cbn in *; lra || lia.
  - rewrite Ht. cbn [length]. rewrite !Sum_S, Sum_0. unfold coord. cbn [nth]. rewrite Reqb_true by reflexivity. rewrite Reqb_false by lra. lra.
Qed.
(** Coinciding particles: every value is NaN *)
Theorem c79_coinciding_particles_nan s (w : list R) (l : list loc) idx n c : (0 < length w)%nat -> length l = length w -> argsorts s (col idx l) -> (2 <= n)%nat ->
  (forall i, (i < length w)%nat -> coord l idx i = c) ->
  exists ps pr, posterior_marginal s w l idx n None None = Ok (ps, pr) /\ Forall (eq NaN) pr /\ length pr = n.
Proof. exact (marginal_nan s w l idx n c). Qed.
Theorem c79_resolution_one s w (l : list loc) idx n rmin rmax : (n < 2)%nat -> exists e, posterior_marginal s w l idx n rmin rmax = Err e.
Proof.
  intro H. unfold posterior_marginal. destruct (map _ s); [now eexists|]. destruct (Nat.ltb_spec n 2); [now eexists|lia].
Qed.
Example c79_example : prob_vector [1/4; 3/4] /\ argsorts [1%nat; 0%nat] (col 0 [[2]; [1]]) /\ (forall i, (i < 2)%nat -> 0 < coord [[2]; [1]] 0 i <= 3).
Proof.
  refine (conj _ (conj _ _)).
  - split; [repeat constructor; lra|unfold rsum; cbn; lra].
  - split; [cbn; constructor|]. intros [|[|x]] [|[|y]] H; cbn in *; lra || lia.
  - intros [|[|i]] Hi; cbn; lra || lia.
Qed.

(** ** C80 *)
Theorem c80_mesh_value w (l : list loc) i1 i2 r1 r2 s a b : s <> 0 -> (a < r2)%nat -> (b < r1)%nat ->
  let '(p1s, p2s, pr) := posterior_mesh w l i1 i2 r1 r2 s in
  pr a b = gauss_kde2 s w l i1 i2 (p1s 0%nat ((a * r1 + b) / r2)%nat) (p2s ((a * r1 + b) mod r2)%nat 0%nat).
Proof. exact (mesh_value w l i1 i2 r1 r2 s a b). Qed.
(** On a square mesh the density is the transpose of the documented one; the diagonal is right *)
Theorem c80_square_mesh_partial w (l : list loc) i1 i2 n s : s <> 0 ->
  let '(p1s, p2s, pr) := posterior_mesh w l i1 i2 n n s in
  (forall a b, (a < n)%nat -> (b < n)%nat -> pr a b = gauss_kde2 s w l i1 i2 (p1s b a) (p2s b a)) /\
  (forall a, (a < n)%nat -> pr a a = gauss_kde2 s w l i1 i2 (p1s a a) (p2s a a)).
Proof.
  intro Hs. destruct (posterior_mesh w l i1 i2 n n s) as [[p1s p2s] pr] eqn:E.
  assert (G : forall a b, (a < n)%nat -> (b < n)%nat -> pr a b = gauss_kde2 s w l i1 i2 (p1s b a) (p2s b a)).
  { intros a b Ha Hb. pose proof (mesh_square w l i1 i2 n s a b Hs Ha Hb) as H. rewrite E in H. exact H. }
  split; [exact G|]. intros a Ha. now apply G.
Qed.
Theorem c80_mesh_refuted : exists a b, (a < 2)%nat /\ (b < 2)%nat /\
  let '(p1s, p2s, pr) := posterior_mesh [1/4; 3/4] [[0; 0]; [1; 2]] 0 1 2 2 1 in
  pr a b <> gauss_kde2 1 [1/4; 3/4] [[0; 0]; [1; 2]] 0 1 (p1s a b) (p2s a b).
Proof. exact mesh_wrong. Qed.

(** ** C81 *)
Theorem c81_metric_in_unit_interval labels w (l : list loc) m : prob_vector w -> length w = length labels -> length l = length labels ->
  labels_ge labels -> dbscan_labels labels ->
  exists within between, est_cluster_covs labels w l m m = Ok (within, between, within + between) /\ 0 <= within /\ 0 <= between /\
    (0 < within + between -> exists r, est_cluster_metric labels w l m = Ok (Fin r) /\ r * (within + between) = between /\ 0 <= r <= 1) /\
    (within + between = 0 -> est_cluster_metric labels w l m = Ok NaN).
Proof.
  intros Hw H1 H2 H3 H4. destruct (cluster_covs_nonneg labels w l m Hw H1 H2 H3 H4) as (a & b & E & Ha & Hb). exists a, b.
  destruct (cluster_metric labels w l m a b E Ha Hb) as [G1 G2]. now refine (conj E (conj Ha (conj Hb (conj G1 G2)))).
Qed.
(** All the variance is between the two one-particle clusters, yet the metric is one third *)
Theorem c81_explained_share_refuted :
  let labels := [0%Z; 1%Z] in let w := [1/2; 1/2] in let l := [[0]; [1]] in
  prob_vector w /\ labels_ge labels /\ dbscan_labels labels /\ particle_cov w l 0 0 = 1/4 /\
  (forall i, (i < 2)%nat -> forall k, (k < 2)%nat -> nth i labels 0%Z = nth k labels 0%Z -> nth i l [] = nth k l []) /\
  est_cluster_metric labels w l 0 = Ok (Fin (1/3)).
Proof.
  intros labels w l. refine (conj _ (conj _ (conj _ (conj _ (conj _ _))))).
  - split; [repeat constructor; lra|unfold rsum; cbn; lra].
  - intros z [<-|[<-|[]]]; lia.
  - exists 2%nat. intros z Hz. cbn. split; [intros [<-|[<-|[]]]; lia|intros; lia].
  - unfold particle_cov, rdot, rsum, w, l. cbn. lra.
  - intros [|[|i]] Hi [|[|k]] Hk; cbn; try reflexivity; try discriminate; lia.
  - unfold est_cluster_metric, est_cluster_covs, est_cluster_moments.
    assert (particle_clusters labels (Some w) false = Ok [(0%Z, [true; false]); (1%Z, [false; true])]) as -> by reflexivity.
    cbn [bind map snd select w l map2 m_weight m_mean m_cov]. unfold particle_cov, rdot, rsum. cbn [map2 col map fold_right nth].
    rewrite xdiv_Fin by lra. f_equal. f_equal. field.
Qed.
(** No variance: silently NaN *)
Theorem c81_no_variance_nan : est_cluster_metric [0%Z; 0%Z] [1/2; 1/2] [[1]; [1]] 0 = Ok NaN.
Proof.
  destruct (cluster_covs_nonneg [0%Z; 0%Z] [1/2; 1/2] [[1]; [1]] 0) as (a & b & E & Ha & Hb); try reflexivity.
  - split; [repeat constructor; lra|unfold rsum; cbn; lra].
  - intros z [<-|[<-|[]]]; lia.
  - exists 1%nat. intros z Hz. cbn. split; [intros [<-|[<-|[]]]; lia|intros; lia].
  - destruct (cluster_metric _ _ _ _ a b E Ha Hb) as [_ G]. apply G.
    destruct (single_cluster_covs [0%Z; 0%Z] [1/2; 1/2] [[1]; [1]] 0 0) as (a' & b' & E' & _); try reflexivity.
    + split; [repeat constructor; lra|unfold rsum; cbn; lra].
    + intros z [<-|[<-|[]]]; reflexivity.
    + rewrite E in E'. injection E' as _ _ ->. unfold particle_cov, rdot, rsum. cbn. lra.
Qed.

(** ** C82 *)
Theorem c82_value D w p i j : 0 < nth i w 0 -> 0 < nth j w 0 -> (0 < length w)%nat ->
  weighted_pairwise_distance D w p i j = Fin (D i j / Rpower (nth i w 0 * nth j w 0 * (INR (length w) * INR (length w))) p).
Proof. exact (wpd_value D w p i j). Qed.
Theorem c82_symmetric D w p i j : (forall a b, D a b = D b a) -> weighted_pairwise_distance D w p i j = weighted_pairwise_distance D w p j i.
Proof. exact (wpd_sym D w p i j). Qed.
Theorem c82_uniform D w p i j : (i < length w)%nat -> (j < length w)%nat -> (forall k, (k < length w)%nat -> nth k w 0 = / INR (length w)) ->
  weighted_pairwise_distance D w p i j = Fin (D i j).
Proof. exact (wpd_uniform D w p i j). Qed.
Theorem c82_decreasing D w w' p i j r r' : 0 < p -> 0 < D i j -> length w = length w' -> (0 < length w)%nat ->
  0 < nth i w 0 -> 0 < nth j w 0 -> 0 < nth i w' 0 -> 0 < nth j w' 0 -> nth i w 0 * nth j w 0 < nth i w' 0 * nth j w' 0 ->
  weighted_pairwise_distance D w p i j = Fin r -> weighted_pairwise_distance D w' p i j = Fin r' -> 0 < r' < r.
Proof. exact (wpd_decreasing D w w' p i j r r'). Qed.
(** A particle of weight zero is infinitely far from others and at distance NaN from itself *)
Theorem c82_zero_weight D w p i j : 0 < p -> nth i w 0 = 0 ->
  (0 < D i j -> weighted_pairwise_distance D w p i j = PInf) /\ (D i j = 0 -> weighted_pairwise_distance D w p i j = NaN).
Proof. exact (wpd_zero D w p i j). Qed.
(** With the power zero the weights do not matter, not even if they are zero. *)
Theorem c82_power_zero D w i j : (0 < length w)%nat -> 0 <= nth i w 0 -> 0 <= nth j w 0 -> weighted_pairwise_distance D w 0 i j = Fin (D i j).
Proof.
  intros Hn Hi Hj. unfold weighted_pairwise_distance, np_pow. set (x := nth i w 0 * nth j w 0 * _).
  assert (X : (if Reqb x 0 then if Rltb 0 0 then Fin 0 else if Reqb 0 0 then Fin 1 else PInf else Fin (Rpower x 0)) = Fin 1).
  { destruct (Reqb_spec x 0) as [Z|Z]; [rewrite Rltb_false by lra; now rewrite (Reqb_true 0 0)|]. f_equal. apply Rpower_O.
    assert (0 <= x) by (unfold x; repeat apply Rmult_le_pos; try assumption; apply pos_INR). lra. }
  rewrite X. unfold xdiv. rewrite ?Reqb_false by lra. f_equal. field.
Qed.
Example c82_example : let w := [1/4; 3/4] in let D := fun i j : nat => if Nat.eqb i j then 0 else 1 in
  weighted_pairwise_distance D w 1 0 1 = Fin (4/3) /\ (forall a b, D a b = D b a).
Proof.
  intros w D. split.
  - rewrite wpd_value by (cbn; lra || lia). cbn [w nth length INR D Nat.eqb]. rewrite Rpower_1 by lra. f_equal. field.
  - intros a b. unfold D. now rewrite Nat.eqb_sym.
Qed.

Print Assumptions c77_distance_value.
Print Assumptions c77_metric_laws.
Print Assumptions c77_two_updaters.
Print Assumptions c77_second_argument_refuted.
Print Assumptions c78_kl_partial.
Print Assumptions c78_unit_bandwidth.
Print Assumptions c78_disjoint_support.
Print Assumptions c78_bandwidth_refuted.
Print Assumptions c79_marginal_partial.
Print Assumptions c79_normalised.
Print Assumptions c79_default_range_loses_minimum.
Print Assumptions c79_default_range_refuted.
Print Assumptions c79_coinciding_particles_nan.
Print Assumptions c79_resolution_one.
Print Assumptions c80_mesh_value.
Print Assumptions c80_square_mesh_partial.
Print Assumptions c80_mesh_refuted.
Print Assumptions c81_metric_in_unit_interval.
Print Assumptions c81_explained_share_refuted.
Print Assumptions c81_no_variance_nan.
Print Assumptions c82_value.
Print Assumptions c82_symmetric.
Print Assumptions c82_uniform.
Print Assumptions c82_decreasing.
Print Assumptions c82_zero_weight.
Print Assumptions c82_power_zero.
