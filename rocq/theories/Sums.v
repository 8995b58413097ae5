(** Finite sums and products over indices or lists, and probability vectors: vocabulary used
    in specifications, with its elementary lemmas.  Nothing here refers to the modelled code. *)
From Verif Require Import Base RList.

(** Sum of [f 0 .. f (n-1)]. *)
Definition Sum (n : nat) (f : nat -> R) : R := fold_right (fun i acc => f i + acc) 0 (seq 0 n).
(** Product of [f 0 .. f (n-1)]. *)
Definition Prod (n : nat) (f : nat -> R) : R := fold_right (fun i acc => f i * acc) 1 (seq 0 n).

Definition prob_vector (w : list R) : Prop := Forall (fun x => 0 <= x) w /\ rsum w = 1.

(** Sum over a list of outcomes. *)
Definition SumL {A} (l : list A) (f : A -> R) : R := fold_right (fun a acc => f a + acc) 0 l.

(** ** Sums over indices *)
Lemma Sum_rsum n f : Sum n f = rsum (map f (seq 0 n)).
Proof. unfold Sum, rsum. generalize (seq 0 n). intros l; induction l as [|i l IH]; simpl; [reflexivity|]. now rewrite IH. Qed.
Lemma Prod_rprod n f : Prod n f = rprod (map f (seq 0 n)).
Proof. unfold Prod, rprod. generalize (seq 0 n). intros l; induction l as [|i l IH]; simpl; [reflexivity|]. now rewrite IH. Qed.
Lemma Sum_ext n f g : (forall i, (i < n)%nat -> f i = g i) -> Sum n f = Sum n g.
Proof. intros H. rewrite !Sum_rsum. apply rsum_map_ext. intros i Hi. apply in_seq in Hi. apply H; lia. Qed.
Lemma Prod_ext n f g : (forall i, (i < n)%nat -> f i = g i) -> Prod n f = Prod n g.
Proof.
  intros H. rewrite !Prod_rprod. f_equal. apply map_ext_in. intros i Hi. apply in_seq in Hi. apply H; lia.
Qed.
Lemma Sum_scal n c f : Sum n (fun i => c * f i) = c * Sum n f.
Proof. rewrite !Sum_rsum. apply rsum_map_scal. Qed.
Lemma Sum_nonneg n f : (forall i, (i < n)%nat -> 0 <= f i) -> 0 <= Sum n f.
Proof. intros H. rewrite Sum_rsum. apply rsum_map_nonneg. intros i Hi. apply in_seq in Hi. apply H; lia. Qed.
Lemma Sum_swap n m f : Sum n (fun i => Sum m (fun j => f i j)) = Sum m (fun j => Sum n (fun i => f i j)).
Proof.
  rewrite (Sum_ext n _ (fun i => rsum (map (fun j => f i j) (seq 0 m)))) by (intros; apply Sum_rsum).
  rewrite (Sum_ext m _ (fun j => rsum (map (fun i => f i j) (seq 0 n)))) by (intros; apply Sum_rsum).
  rewrite !Sum_rsum. apply rsum_swap.
Qed.
Lemma Sum_0 f : Sum 0 f = 0. Proof. reflexivity. Qed.
Lemma Sum_S n f : Sum (S n) f = f 0%nat + Sum n (fun i => f (S i)).
Proof. rewrite !Sum_rsum. cbn [seq map]. rewrite rsum_cons. f_equal. now rewrite <- seq_shift, map_map. Qed.
Lemma Prod_S n f : Prod (S n) f = f 0%nat * Prod n (fun i => f (S i)).
Proof. rewrite !Prod_rprod. cbn [seq map]. rewrite rprod_cons. f_equal. now rewrite <- seq_shift, map_map. Qed.

Lemma map_nth_seq {A} (l : list A) d : map (fun i => nth i l d) (seq 0 (length l)) = l.
Proof.
  induction l as [|x l IH]; [reflexivity|]. cbn [length seq map nth]. f_equal.
  rewrite <- seq_shift, map_map. exact IH.
Qed.

Lemma rsum_index l : rsum l = Sum (length l) (fun i => nth i l 0).
Proof. rewrite Sum_rsum, map_nth_seq. reflexivity. Qed.

Lemma map2_index {A B C} (f : A -> B -> C) l m da db : length l = length m ->
  map2 f l m = map (fun i => f (nth i l da) (nth i m db)) (seq 0 (length l)).
Proof.
  revert m; induction l as [|x l IH]; intros [|y m] H; simpl in *; try congruence.
  f_equal. rewrite <- seq_shift, map_map. apply IH. congruence.
Qed.

Lemma rsum_map2_index {A B} (f : A -> B -> R) l m da db : length l = length m ->
  rsum (map2 f l m) = Sum (length l) (fun i => f (nth i l da) (nth i m db)).
Proof. intros H. now rewrite Sum_rsum, <- map2_index. Qed.

Lemma prob_vector_nonempty w : prob_vector w -> (0 < length w)%nat.
Proof. intros [_ H]. destruct w; [rewrite rsum_nil in H; lra|simpl; lia]. Qed.

Lemma uniform_prob n : (0 < n)%nat -> prob_vector (uniform_weights n).
Proof. intros H; split; [apply uniform_weights_nonneg|now apply uniform_weights_sum]. Qed.

Lemma SumL_rsum {A} (l : list A) f : SumL l f = rsum (map f l).
Proof. unfold SumL, rsum. induction l as [|a l IH]; simpl; [reflexivity|]. now rewrite IH. Qed.
Lemma SumL_app {A} (l m : list A) f : SumL (l ++ m) f = SumL l f + SumL m f.
Proof. rewrite !SumL_rsum, map_app, rsum_app. reflexivity. Qed.
Lemma SumL_ext {A} (l : list A) f g : (forall a, In a l -> f a = g a) -> SumL l f = SumL l g.
Proof. intros H. rewrite !SumL_rsum. now apply rsum_map_ext. Qed.

Lemma Sum_plus n f g : Sum n (fun i => f i + g i) = Sum n f + Sum n g.
Proof. rewrite !Sum_rsum. apply rsum_map_plus. Qed.
Lemma Sum_minus n f g : Sum n (fun i => f i - g i) = Sum n f - Sum n g.
Proof. rewrite !Sum_rsum. apply rsum_map_minus. Qed.
Lemma Sum_le n f g : (forall i, (i < n)%nat -> f i <= g i) -> Sum n f <= Sum n g.
Proof. intros H. rewrite !Sum_rsum. apply rsum_le. intros i Hi. apply in_seq in Hi. apply H; lia. Qed.
Lemma Sum_zero n f : (forall i, (i < n)%nat -> f i = 0) -> Sum n f = 0.
Proof. intros H. rewrite (Sum_ext n f (fun _ => 0)) by assumption. rewrite Sum_rsum. apply rsum_map_zero. Qed.
Lemma Sum_scal_r n c f : Sum n (fun i => f i * c) = Sum n f * c.
Proof. rewrite !Sum_rsum. apply rsum_map_scal_r. Qed.
Lemma SumL_Sum_swap {A} (l : list A) n (f : A -> nat -> R) :
  SumL l (fun a => Sum n (f a)) = Sum n (fun i => SumL l (fun a => f a i)).
Proof.
  rewrite SumL_rsum. rewrite (rsum_map_ext _ (fun a => rsum (map (f a) (seq 0 n)))) by (intros; apply Sum_rsum).
  rewrite rsum_swap, Sum_rsum. apply rsum_map_ext. intros i _. now rewrite SumL_rsum.
Qed.
Lemma SumL_le {A} (l : list A) f g : (forall a, In a l -> f a <= g a) -> SumL l f <= SumL l g.
Proof. intros H. rewrite !SumL_rsum. now apply rsum_le. Qed.
Lemma SumL_nonneg {A} (l : list A) f : (forall a, In a l -> 0 <= f a) -> 0 <= SumL l f.
Proof. intros H. rewrite SumL_rsum. now apply rsum_map_nonneg. Qed.
Lemma SumL_scal {A} (l : list A) c f : SumL l (fun a => c * f a) = c * SumL l f.
Proof. rewrite !SumL_rsum. apply rsum_map_scal. Qed.

