(** Specification vocabulary for arrays aligned at the right. *)
From Verif Require Import Base RList.
From Coq Require Import List.

(** [idx] is a position inside an array with axes of lengths [s]. *)
Definition in_range (s idx : list nat) : Prop := Forall2 lt idx s.
(** Axis [r] of the array, counting axes from the right; missing axes count as length one. *)
Definition axis_from_right (s : list nat) (r : nat) : nat := nth r (rev s) 1%nat.
(** The same position counting axes from the right and, along each axis, from the end. *)
Definition aligned_right (s idx s' idx' : list nat) : Prop :=
  forall r, (r < length s)%nat -> (r < length s')%nat ->
    (nth r (rev s) 0 - nth r (rev idx) 0 = nth r (rev s') 0 - nth r (rev idx') 0)%nat.
