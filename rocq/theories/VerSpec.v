(** Vocabulary for C134: dotted version numbers and their order. *)
From Coq Require Import String NArith Decimal DecimalString.
From Verif Require Import Base.
Open Scope string_scope.
Open Scope list_scope.
(** 3.10.1 is before 3.11: components are compared as numbers, from the left; a proper beginning comes first *)
Inductive before : list N -> list N -> Prop :=
| before_longer y b : before [] (y :: b)
| before_number x y a b : (x < y)%N -> before (x :: a) (y :: b)
| before_later x a b : before a b -> before (x :: a) (x :: b).
(** Decimal digits that read as [n]; leading zeros are allowed *)
Definition writes (s : string) (n : N) : Prop := exists d, d <> Nil /\ s = NilEmpty.string_of_uint d /\ N.of_uint d = n.
Fixpoint join (l : list string) : string :=
  match l with [] => "" | [s] => s | s :: r => s ++ "." ++ join r end.
(** [s] is a version number with the components [v] *)
Definition dotted (s : string) (v : list N) : Prop := v <> [] /\ exists ss, Forall2 writes ss v /\ s = join ss.
