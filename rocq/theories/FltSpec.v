(** Vocabulary for rounding errors. *)
From Flocq Require Import Core.
From Coq Require Import List ZArith Permutation.
From Verif Require Import Base Sums FltModel.
Import ListNotations.

(** The doubles (without infinities and NaN): m 2^e with |m| < 2^53, e >= -1074. *)
Definition double (x : R) : Prop := exists (m e : Z), x = IZR m * powerRZ 2 e /\ (Z.abs m < 2 ^ 53)%Z /\ (-1074 <= e)%Z.
(** Unit roundoff. *)
Definition uro : R := / 2 ^ 53.
(** The least positive normal double; smaller results lose precision. *)
Definition least_normal : R := / 2 ^ 1022.
(** [x] agrees with [y] up to a factor between (1+u)^-k and (1+u)^k: at most about k units in the last place. *)
Definition close (k : nat) (x y : R) : Prop := y <= x * (1 + uro) ^ k /\ x <= y * (1 + uro) ^ k.

Fixpoint leaves (t : stree) : list nat := match t with SLeaf i => [i] | SNode l r => leaves l ++ leaves r end.
Fixpoint depth (t : stree) : nat := match t with SLeaf _ => 0 | SNode l r => S (Nat.max (depth l) (depth r)) end.
(** [t] adds up the entries 0..n-1, each once. *)
Definition sums_all (n : nat) (t : stree) : Prop := Permutation (leaves t) (seq 0 n).

(** Fraction of the [D] equally spaced numbers k/D that satisfy [P]: the chance that [np.random.random()] satisfies it, for D = 2^53. *)
Definition chance (D : nat) (P : R -> bool) : R := INR (length (filter P (map (fun k => INR k / INR D) (seq 0 D)))) / INR D.

(** A product or quotient does not underflow. *)
Definition normal (x : R) : Prop := x = 0 \/ least_normal <= x.
