(** Specification vocabulary for weighted particle clouds. *)
From Verif Require Import Base Sums.

(** Expectation of [f] under weights [p] on indices 0..n-1. *)
Definition expect (n : nat) (p f : nat -> R) : R := Sum n (fun i => p i * f i).
(** Covariance of [f] and [g] under weights [p]. *)
Definition covar (n : nat) (p f g : nat -> R) : R :=
  expect n p (fun i => (f i - expect n p f) * (g i - expect n p g)).
(** Entry [j] of particle [i]. *)
Definition coord (l : list (list R)) (j i : nat) : R := nth j (nth i l []) 0.

(** [u] lies in the [j]-th of the consecutive half-open intervals with lengths [w]. *)
Definition in_slot (w : list R) (j : nat) (u : R) : Prop :=
  Sum j (fun i => nth i w 0) <= u < Sum j (fun i => nth i w 0) + nth j w 0.

(** Total weight of a set of indices. *)
Definition mass (w : list R) (I : list nat) : R := SumL I (fun i => nth i w 0).

(** [asc] lists all indices of [w] in order of non-decreasing weight. *)
Definition argsorts (asc : list nat) (w : list R) : Prop :=
  Permutation asc (seq 0 (length w)) /\
  forall a b, (a <= b < length w)%nat -> nth (nth a asc 0%nat) w 0 <= nth (nth b asc 0%nat) w 0.

(** The labels 0..k-1 all occur, and apart from them only -1 (noise) may occur. *)
Definition dbscan_labels (labels : list Z) : Prop :=
  exists k : nat, forall z, (0 <= z)%Z -> (In z labels <-> (z < Z.of_nat k)%Z) .
Definition labels_ge (labels : list Z) : Prop := forall z, In z labels -> (-1 <= z)%Z.
