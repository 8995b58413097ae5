(** Vocabulary for the volume statements of C74; independent of RegModel.v. *)
From Verif Require Import Base Sums LinAlg.

(** What is left of a matrix after eliminating its first row and column *)
Definition schur (X : rmat) : rmat := fun i j => X (S i) (S j) - X (S i) 0%nat * X 0%nat (S j) / X 0%nat 0%nat.
(** Determinant by elimination: the product of the pivots, for a matrix whose pivots do not vanish *)
Fixpoint pdet (n : nat) (X : rmat) : R := match n with O => 1 | S m => X 0%nat 0%nat * pdet m (schur X) end.
(** Symmetric and positive definite in dimension n *)
Definition posdef (n : nat) (X : rmat) : Prop :=
  meq n X (rtr X) /\ forall v, (exists i, (i < n)%nat /\ v i <> 0) -> 0 < rquad n X v.
(** The square of the volume of the ellipsoid (x - c)^T B (x - c) <= 1, in units of the unit ball's, is 1 / det B. *)
Definition volume2 (d : nat) (B : rmat) : R := / pdet d B.
