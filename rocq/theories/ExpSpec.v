(** Vocabulary for ExpProps.v. *)
From Coq Require Import String.
From Verif Require Import Base StackModel ExpModel.
Open Scope string_scope.
Open Scope list_scope.

(** The value that a row gives to a name. *)
Definition value_of {V} (dflt : V) (names : list string) (row : list V) (f : string) : V :=
  match find (fun p => String.eqb (fst p) f) (combine names row) with Some p => snd p | None => dflt end.
Definition width (d : dtype) : nat := match d with DStr _ => 1%nat | DList fs => length fs end.
(** A row of an array of dtype [d] as an experiment: named values, or one value that answers to every name. *)
Definition experiment {V} (dflt : V) (d : dtype) (row : list V) (f : string) : V :=
  match d with DStr _ => hd dflt row | DList fs => value_of dflt (names_of fs) row f end.

(** What the documentation of each model says its likelihood depends on. *)
Definition wanted {V} (zero : V) (k : known) (get : string -> V) : list V :=
  match k with
  | SimpleInversion => [get "t"; get "w_"]
  | SimplePrecession => [get "x"; zero]
  | UnknownT2 => [get "t"]
  | Coin | NDie => []
  | NoisyCoin => [get "alpha"; get "beta"]
  | RB true => [get "reference"; get "m"]
  | RB false => [get "m"]
  | Tomography _ | DiffusiveTomography _ => [get "meas"]
  | AccPrecession => [get "x"]
  end.

(** Models that the constructors accept. *)
Inductive buildable {E} (nm : E -> nat) : model E -> Prop :=
| bl_base b : buildable nm (MBase b)
| bl_poisoned u : buildable nm u -> buildable nm (MDerived Poisoned u)
| bl_mle u : buildable nm u -> buildable nm (MDerived MLE u)
| bl_walk u n m : buildable nm u -> new_random_walk u n = Ok m -> buildable nm m
| bl_gauss_walk u srw diag : buildable nm u -> buildable nm (MDerived (GaussRW srw diag) u)
| bl_parallel u t : buildable nm u -> buildable nm (MDerived (Parallel t) u)
| bl_binomial u m : buildable nm u -> new_binomial nm u = Ok m -> buildable nm m
| bl_differentiable u d m : buildable nm u -> new_differentiable_binomial nm d u = Ok m -> buildable nm m
| bl_hyper u m : buildable nm u -> new_gauss_hyper nm u = Ok m -> buildable nm m
| bl_multinomial u m : buildable nm u -> new_multinomial u = Ok m -> buildable nm m.

Fixpoint binomials {E} (m : model E) : nat :=
  match m with MBase _ => 0 | MDerived Binomial u => S (binomials u) | MDerived _ u => binomials u end.
Fixpoint multinomials {E} (m : model E) : nat :=
  match m with MBase _ => 0 | MDerived (Multinomial _) u => S (multinomials u) | MDerived _ u => multinomials u end.
(** The fields of a record array that each likelihood looks up. *)
Definition used (k : known) : list string :=
  match k with
  | SimpleInversion => ["t"; "w_"]
  | SimplePrecession | UnknownT2 => ["t"]
  | Coin | NDie | AccPrecession => []
  | NoisyCoin => ["alpha"; "beta"]
  | RB true => ["reference"; "m"]
  | RB false => ["m"]
  | Tomography _ | DiffusiveTomography _ => ["meas"]
  end.
