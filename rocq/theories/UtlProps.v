(** C139: the helpers for particle statistics agree with ParticleDistribution. *)
From Coq Require Import Reals List Arith Bool Lia Lra.
From Verif Require Import Base RList Sums SmcModel PartModel PartSpec PartProofs UtlModel.
Import ListNotations.
Open Scope R_scope.

(** The table of a list of locations with [d] parameters *)
Definition table (d : nat) (l : list (list R)) : arr := Tab (length l) d (fun i j => nth j (nth i l []) 0).
(** Two arrays with the same shape and entries *)
Definition same (a b : arr) : Prop :=
  match a, b with
  | Vec v, Vec u => v = u
  | Tab n k f, Tab n' k' g => n = n' /\ k = k' /\ forall i j, (i < n)%nat -> (j < k)%nat -> f i j = g i j
  | _, _ => False
  end.

Lemma nth_map_seq {A} (f : nat -> A) k d i : (i < k)%nat -> nth i (map f (seq 0 k)) d = f i.
Proof. intros H. rewrite (nth_indep _ d (f 0%nat)) by (now rewrite map_length, seq_length). now rewrite map_nth, seq_nth. Qed.
Lemma broadcast_same n : broadcast n n = Some n.
Proof. unfold broadcast. now rewrite Nat.eqb_refl. Qed.
Lemma at_axis_lt n i : (i < n)%nat -> at_axis n i = i.
Proof. unfold at_axis. destruct (Nat.eqb_spec n 1); lia. Qed.

(** ** The mean of a function *)
Theorem c139_mean w n k f : length w = n -> exists m, meanfn w (Tab n k f) = Ok m /\ length m = k /\
  forall j, (j < k)%nat -> nth j m 0 = Sum n (fun i => nth i w 0 * f i j).
Proof.
  intros L. unfold meanfn. rewrite L, broadcast_same. eexists. split; [reflexivity|]. split; [now rewrite map_length, seq_length|].
  intros j Hj. rewrite nth_map_seq by assumption. apply Sum_ext. intros i Hi. now rewrite at_axis_lt.
Qed.
(** With or without a function it is the mean of ParticleDistribution. *)
Theorem c139_same_mean d w l : length w = length l -> particle_meanfn w (table d l) None = Ok (est_mean d w l).
Proof.
  intros L. unfold particle_meanfn. cbn [bind]. unfold table, meanfn. rewrite L, broadcast_same. f_equal. unfold est_mean, particle_mean.
  apply map_ext_in. intros j _. unfold rdot. rewrite (rsum_map2_index _ _ _ 0 0) by (unfold col; now rewrite map_length). rewrite L. apply Sum_ext. intros i Hi.
  rewrite at_axis_lt by assumption. f_equal. unfold col. rewrite (nth_indep (map (fun r => nth j r 0) l) 0 (nth j [] 0)) by (now rewrite map_length). now rewrite (map_nth (fun r => nth j r 0)).
Qed.
Theorem c139_same_meanfn k fn w l g locs : length (fn l) = length w -> g locs = Ok (table k (fn l)) ->
  particle_meanfn w locs (Some g) = Ok (est_meanfn k fn w l).
Proof.
  intros L G. pose proof (c139_same_mean k w (fn l) (eq_sym L)) as H. unfold particle_meanfn in *. rewrite G. cbn [bind] in *. exact H.
Qed.
(** Which shapes are refused: one axis, and tables whose number of rows differs from the number of weights unless one of them is one. *)
Theorem c139_refused w a : meanfn w a = Err ValueError <-> match a with Vec _ => True | Tab n _ _ => n <> length w /\ n <> 1%nat /\ length w <> 1%nat end.
Proof.
  destruct a as [v|n k f]; cbn [meanfn]; [tauto|]. unfold broadcast.
  destruct (Nat.eqb_spec (length w) n), (Nat.eqb_spec (length w) 1), (Nat.eqb_spec n 1); split; try discriminate; try reflexivity; intros; lia.
Qed.
(** A single weight is given to every row; a single row is given every weight: neither is an error. *)
Theorem c139_stretched_refuted w n k f : (1 < n)%nat -> 
  meanfn [w] (Tab n k f) = Ok (map (fun j => w * Sum n (fun i => f i j)) (seq 0 k)) /\
  forall ws, length ws = n -> meanfn ws (Tab 1 k f) = Ok (map (fun j => rsum ws * f 0%nat j) (seq 0 k)).
Proof.
  intros Hn. split.
  - unfold meanfn, broadcast. cbn [length]. destruct (Nat.eqb_spec 1 n); [lia|]. cbn [Nat.eqb]. f_equal. apply map_ext_in. intros j _. rewrite <- Sum_scal. apply Sum_ext.
    intros i Hi. rewrite (at_axis_lt n) by assumption. reflexivity.
  - intros ws L. unfold meanfn, broadcast. rewrite L. destruct (Nat.eqb_spec n 1); [lia|]. cbn [Nat.eqb]. f_equal. apply map_ext_in. intros j _.
    rewrite rsum_index, L, <- Sum_scal_r. apply Sum_ext. intros i Hi. now rewrite (at_axis_lt n) by assumption.
Qed.

(** ** The covariance matrix *)
Theorem c139_same_covariance eig d w l : length w = length l -> exists c b, particle_covariance_mtx eig w (table d l) = Ok (c, b) /\
  same c (Tab d d (particle_cov w l)) /\ same c (Tab d d (fun m n => nth n (nth m (est_cov d w l) []) 0)).
Proof.
  intros L. unfold particle_covariance_mtx. rewrite c139_same_mean by assumption. cbn [bind table]. rewrite L, broadcast_same. eexists _, _. split; [reflexivity|].
  assert (Q : forall i j, (i < d)%nat -> (j < d)%nat -> Sum (length l) (fun i0 => nth (at_axis (length l) i0) w 0 * nth i (nth (at_axis (length l) i0) l []) 0 * nth j (nth (at_axis (length l) i0) l []) 0) -
    nth i (est_mean d w l) 0 * nth j (est_mean d w l) 0 = particle_cov w l i j).
  { intros i j Hi Hj. unfold particle_cov. rewrite (rsum_map2_index _ _ _ 0 []) by assumption. rewrite L. unfold est_mean, particle_mean. rewrite !nth_map_seq by assumption. f_equal.
    apply Sum_ext. intros k Hk. now rewrite at_axis_lt. }
  split; (split; [reflexivity|]; split; [reflexivity|]); intros i j Hi Hj; rewrite Q by assumption; [reflexivity|].
  unfold est_cov. rewrite (nth_map_seq (fun m => map (fun n => particle_cov w l m n) (seq 0 d)) d [] i) by assumption. now rewrite nth_map_seq.
Qed.
(** [x] is an eigenvalue of the matrix [a] with [d] rows. *)
Definition eigenvalue (d : nat) (a : nat -> nat -> R) (x : R) : Prop :=
  exists v, (exists i, (i < d)%nat /\ v i <> 0) /\ forall i, (i < d)%nat -> Sum d (fun j => a i j * v j) = x * v i.
Lemma eigenvalue_nonneg d a x : (forall v, 0 <= Sum d (fun m => Sum d (fun n => v m * a m n * v n))) -> eigenvalue d a x -> 0 <= x.
Proof.
  intros P (v & (i & Hi & Ni) & E). specialize (P v).
  assert (Q : Sum d (fun m => Sum d (fun n => v m * a m n * v n)) = x * Sum d (fun m => v m * v m)).
  { rewrite <- Sum_scal. apply Sum_ext. intros m Hm. rewrite (Sum_ext _ _ (fun n => v m * (a m n * v n))) by (intros; ring). rewrite Sum_scal, E by assumption. ring. }
  rewrite Q in P. assert (0 < Sum d (fun m => v m * v m)).
  { clear - Hi Ni. revert v i Hi Ni. induction d as [|d IH]; intros v i Hi Ni; [lia|]. rewrite Sum_S. destruct i as [|i].
    - assert (0 < v 0%nat * v 0%nat) by nra. assert (0 <= Sum d (fun i => v (S i) * v (S i))) by (apply Sum_nonneg; intros; nra). lra.
    - specialize (IH (fun k => v (S k)) i ltac:(lia) Ni). cbv beta in IH. nra. }
  nra.
Qed.
(** With probability weights no eigenvalue is negative, so that the warning is not given. *)
Theorem c139_no_warning eig d w l : prob_vector w -> length w = length l -> (forall n a x, In x (eig n a) -> eigenvalue n a x) ->
  exists c, particle_covariance_mtx eig w (table d l) = Ok (c, false).
Proof.
  intros P L H. destruct (c139_same_covariance eig d w l L) as (c & b & E & _ & S2). exists c. rewrite E. do 2 f_equal.
  unfold particle_covariance_mtx in E. rewrite c139_same_mean in E by assumption. cbn [bind table] in E. rewrite L, broadcast_same in E. injection E as <- <-.
  apply negb_false_iff, forallb_forall. intros x I. destruct (Rleb_spec 0 x) as [|N]; [reflexivity|]. exfalso. apply H in I. destruct S2 as (_ & _ & S2).
  assert (0 <= x); [|lra]. eapply eigenvalue_nonneg; [|exact I]. intros v.
  pose proof (est_cov_psd d w l v P L) as Q. erewrite Sum_ext; [exact Q|]. intros m Hm. apply Sum_ext. intros n Hn. cbv beta. rewrite S2 by assumption. ring.
Qed.
(** The warning is given if the matrix has a negative eigenvalue; weights that do not add up to one can cause it without any numerical error. *)
Theorem c139_warning_refuted eig : (forall n a x, In x (eig n a) <-> eigenvalue n a x) ->
  exists c, particle_covariance_mtx eig [1; 1] (table 1 [[1]; [1]]) = Ok (c, true).
Proof.
  intros H. unfold particle_covariance_mtx, table, particle_meanfn. cbn [bind meanfn length broadcast Nat.eqb]. cbn [map seq nth Sum]. eexists. f_equal. f_equal.
  apply negb_true_iff. match goal with |- forallb _ (eig 1%nat ?a) = false => assert (I : In (-2) (eig 1%nat a)) end.
  { apply H. exists (fun _ => 1). split; [exists 0%nat; split; [lia|lra]|]. intros i Hi. rewrite Sum_S, Sum_0. destruct i; [|lia].
    rewrite !Sum_S, !Sum_0. unfold at_axis. cbn. lra. }
  destruct (forallb _ _) eqn:F; [|reflexivity]. exfalso. rewrite forallb_forall in F. apply F in I. cbv beta in I. destruct (Rleb_spec 0 (-2)) as [X|X]; [lra|discriminate].
Qed.

(** ** Outer products *)
Theorem c139_outer v : same (outer_product (Vec v)) (Tab (length v) (length v) (fun i j => nth i v 0 * nth j v 0)) /\
  same (outer_product (Tab (length v) 1 (fun i _ => nth i v 0))) (outer_product (Vec v)).
Proof. split; (split; [reflexivity|]; split; [reflexivity|]); intros i j Hi Hj; [reflexivity|]. rewrite Sum_S, Sum_0. ring. Qed.
(** A row gives its squared length instead of the outer product. *)
Theorem c139_outer_row_refuted v : same (outer_product (Tab 1 (length v) (fun _ j => nth j v 0))) (Tab 1 1 (fun _ _ => Sum (length v) (fun k => nth k v 0 ^ 2))).
Proof. split; [reflexivity|]. split; [reflexivity|]. intros i j Hi Hj. apply Sum_ext. intros. ring. Qed.
(** Every outer product is a symmetric matrix without negative directions, and the outer products of a table's columns add up to its own. *)
Theorem c139_outer_positive a : exists n f, outer_product a = Tab n n f /\ (forall i j, f i j = f j i) /\
  (forall v, 0 <= Sum n (fun i => Sum n (fun j => v i * f i j * v j))) /\
  match a with Tab n' k g => n = n' /\ forall i j, (i < n)%nat -> (j < n)%nat -> f i j = Sum k (fun l => nth i (map (fun r => g r l) (seq 0 n)) 0 * nth j (map (fun r => g r l) (seq 0 n)) 0) | Vec u => n = length u end.
Proof.
  assert (P : forall n k (g : nat -> nat -> R) v, 0 <= Sum n (fun i => Sum n (fun j => v i * Sum k (fun l => g i l * g j l) * v j))).
  { intros n k g v. rewrite (Sum_ext _ _ (fun i => Sum k (fun l => v i * g i l * Sum n (fun j => g j l * v j)))).
    - rewrite Sum_swap. apply Sum_nonneg. intros l Hl. rewrite Sum_scal_r. rewrite (Sum_ext _ _ (fun i => g i l * v i)) by (intros; ring). apply Rle_0_sqr.
    - intros i Hi. rewrite (Sum_ext _ _ (fun j => Sum k (fun l => v i * g i l * (g j l * v j)))).
      + rewrite Sum_swap. apply Sum_ext. intros l Hl. now rewrite Sum_scal.
      + intros j Hj. rewrite <- Sum_scal, <- Sum_scal_r. apply Sum_ext. intros. ring. }
  destruct a as [u|n k g]; eexists _, _; (split; [reflexivity|]).
  - split; [intros; ring|]. split; [|reflexivity]. intros v. pose proof (P (length u) 1%nat (fun i _ => nth i u 0) v) as Q. erewrite Sum_ext; [exact Q|].
    intros i Hi. apply Sum_ext. intros j Hj. cbv beta. rewrite Sum_S, Sum_0. ring.
  - split; [intros i j; apply Sum_ext; intros; ring|]. split; [apply P|]. split; [reflexivity|]. intros i j Hi Hj. apply Sum_ext. intros l Hl. now rewrite !nth_map_seq.
Qed.

Example c139_case : particle_meanfn [1/4; 3/4] (table 2 [[0; 1]; [4; 5]]) None = Ok [3; 4] /\ prob_vector [1/4; 3/4] /\
  meanfn [1/2] (Tab 2 1 (fun _ _ => 1)) = Ok [1] /\ meanfn [1/2; 1/4; 1/4] (Tab 2 1 (fun _ _ => 1)) = Err ValueError.
Proof.
  split; [|split; [|split]].
  - unfold particle_meanfn, table, meanfn, broadcast, at_axis. cbn. unfold Sum. cbn. f_equal. f_equal; [lra|]. f_equal. lra.
  - split; [repeat constructor; lra|]. unfold rsum. cbn. lra.
  - unfold meanfn, broadcast, at_axis. cbn. unfold Sum. cbn. do 2 f_equal. lra.
  - reflexivity.
Qed.

Print Assumptions c139_mean.
Print Assumptions c139_same_mean.
Print Assumptions c139_same_meanfn.
Print Assumptions c139_refused.
Print Assumptions c139_stretched_refuted.
Print Assumptions c139_same_covariance.
Print Assumptions c139_no_warning.
Print Assumptions c139_warning_refuted.
Print Assumptions c139_outer.
Print Assumptions c139_outer_row_refuted.
Print Assumptions c139_outer_positive.
