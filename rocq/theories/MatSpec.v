(** Vocabulary for C108 and C109; independent of MatModel.v. *)
From Verif Require Import Base Sums Cplx LinAlg.

(** Contract of scipy's eigh for a Hermitian matrix: real eigenvalues w, columns of v orthonormal and complete. *)
Definition eigh_of (d : nat) (A : mat) (w : nat -> R) (v : mat) : Prop :=
  (forall i k, (i < d)%nat -> (k < d)%nat -> csum d (fun j => cmul (A i j) (v j k)) = cmul (rc (w k)) (v i k))
  /\ (forall k l, (k < d)%nat -> (l < d)%nat -> csum d (fun i => cmul (conj (v i k)) (v i l)) = delta k l)
  /\ (forall i j, (i < d)%nat -> (j < d)%nat -> csum d (fun k => cmul (v i k) (conj (v j k))) = delta i j).
(** Squared Frobenius distance *)
Definition dist_fro2 (d : nat) (A B : mat) : R := Sum d (fun i => Sum d (fun j => cabs2 (csub (A i j) (B i j)))).

(** G is continuous on [a, b] and has derivative f inside *)
Definition antiderivative_on (f : R -> R) (a b : R) (G : R -> R) : Prop :=
  (forall x, a <= x <= b -> continuity_pt G x) /\ (forall x, a < x < b -> derivable_pt_lim G x (f x)).
(** The integral of f over [a, b] is I: there is an antiderivative, and all of them grow by I. *)
Definition integral_is (f : R -> R) (a b I : R) : Prop :=
  (exists G, antiderivative_on f a b G) /\ forall G, antiderivative_on f a b G -> G b - G a = I.
(** Matrix without its first row and column *)
Definition minor (B : rmat) : rmat := fun i j => B (S i) (S j).
(** First coordinate h, then y *)
Definition vcons (h : R) (y : vec) : vec := fun i => match i with O => h | S i => y i end.
