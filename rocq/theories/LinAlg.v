(** Real vectors and matrices as index functions with explicit dimensions, used for the
    NumPy linear algebra in utils.py.  No property of the code is stated here. *)
From Verif Require Import Base Sums.

Definition vec := nat -> R.
Definition rmat := nat -> nat -> R.

Definition kd (i j : nat) : R := if Nat.eqb i j then 1 else 0.
(** [np.dot] of an (m, n) matrix with an (n, k) matrix *)
Definition rmul (n : nat) (X Y : rmat) : rmat := fun i j => Sum n (fun k => X i k * Y k j).
(** [np.dot] of an (m, n) matrix with a vector of length n *)
Definition rmv (n : nat) (X : rmat) (v : vec) : vec := fun i => Sum n (fun k => X i k * v k).
Definition rdotv (n : nat) (v w : vec) : R := Sum n (fun k => v k * w k).
Definition rtr (X : rmat) : rmat := fun i j => X j i.
Definition rdiag (u : vec) : rmat := fun i j => if Nat.eqb i j then u i else 0.
(** [einsum('j,jl,l', y, A, y)] *)
Definition rquad (n : nat) (X : rmat) (y : vec) : R := Sum n (fun j => Sum n (fun l => y j * X j l * y l)).
(** [np.outer] *)
Definition router (v w : vec) : rmat := fun i j => v i * w j.

(** Two matrices agree on their first n rows and columns *)
Definition meq (n : nat) (X Y : rmat) : Prop := forall i j, (i < n)%nat -> (j < n)%nat -> X i j = Y i j.
(** Two-sided inverse *)
Definition is_inv (n : nat) (X Y : rmat) : Prop := meq n (rmul n X Y) kd /\ meq n (rmul n Y X) kd.

(** Contract of [la.inv] / [np.linalg.inv] in dimension n: it returns the inverse exactly when there
    is one, and raises LinAlgError ([None] here) otherwise. *)
Definition inverts (inv : nat -> rmat -> option rmat) (n : nat) : Prop :=
  forall X, (forall Y, inv n X = Some Y -> is_inv n X Y) /\
            ((exists Y, is_inv n X Y) -> exists Y, inv n X = Some Y).

(** First index of a largest entry ([np.argmax]) *)
Fixpoint argmaxf (n : nat) (f : nat -> R) : nat :=
  match n with
  | O => O
  | S n' => let k := argmaxf n' f in if Rltb (f k) (f n') then n' else k
  end.
