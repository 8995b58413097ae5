(** Vocabulary for the rounding errors of whole runs of the updater. *)
From Coq Require Import List ZArith.
From Verif Require Import Base Sums SmcModel SmcSpec FltModel FltSpec.
Import ListNotations.

(** Half of the least positive double: the largest error of an underflowing result. *)
Definition half_least : R := / 2 ^ 1075.

Section Spec.
Context {O E RND : Type}.
(** No product and no quotient of the run underflows and no normalisation is below machine epsilon. *)
Fixpoint no_underflow (c : @config O E RND) (rs : nat -> RND) (ts : nat -> stree) (idx : nat) (w : list R) (l : list loc) (data : list (O * E)) : Prop :=
  match data with
  | [] => True
  | (o, e) :: data' =>
      let L := L_row c l o e in let N := f_norm (ts idx) w L in
      eps <= N /\ (forall i, (i < length w)%nat -> normal (nth i w 0 * nth i L 0) /\ normal (nth i (f_hyp w L) 0 / N)) /\
      no_underflow c rs ts (S idx) (f_weights (ts idx) w L) (timestep (md c) (rs idx) l e) data'
  end.
End Spec.
