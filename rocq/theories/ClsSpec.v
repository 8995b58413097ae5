(** Vocabulary for the properties of class definitions. *)
From Coq Require Import String List Bool.
From Verif Require Import Base ClsModel.
Import ListNotations.

(** [Sub l m]: [l] arises from [m] by leaving out elements. *)
Inductive Sub {X} : list X -> list X -> Prop :=
| Sub_nil m : Sub [] m
| Sub_skip x l m : Sub l m -> Sub l (x :: m)
| Sub_take x l m : Sub l m -> Sub (x :: l) (x :: m).
(** The class itself, its bases, their bases, ... *)
Inductive ancestor (prog : list stmt) : string -> string -> Prop :=
| anc_self c : ancestor prog c c
| anc_base s b d : In s prog -> In b (bases_of s) -> ancestor prog b d -> ancestor prog (s_name s) d.
(** The body binds the name, to an abstract attribute or to an ordinary one. *)
Definition binds (s : stmt) (x : string) (abstract : bool) : Prop :=
  exists l r, s_body s = l ++ (x, abstract) :: r /\ ~ In x (map fst r).
Definition silent (s : stmt) (x : string) : Prop := ~ In x (map fst (s_body s)).
(** The first class along an order that binds the name, and how. *)
Definition decided (e : env) (order : list string) (x : string) (abstract : bool) : Prop :=
  exists before c after o, order = before ++ c :: after /\ In o e /\ name_of o = c /\ binds (o_stmt o) x abstract /\
    (forall o', In o' e -> In (name_of o') before -> silent (o_stmt o') x).
(** Classes with the ordinary metaclass declare nothing abstract (otherwise the declaration has no effect). *)
Definition plain_classes_complete (e : env) : Prop :=
  forall o x b, In o e -> o_abc o = false -> binds (o_stmt o) x b -> b = false.
(** One order that agrees with the orders of all bases and with the order in which the bases are listed. *)
Definition consistent (orders : list (list string)) (order : list string) : Prop :=
  NoDup order /\ forall l, In l orders -> Sub l order.
