(** Model of the enumerations (src/qinfer/_lib/enum.py:19-23) and of those that the library defines (derived_models.py:146,
    expdesign.py:74).

    Simplifications: dictionaries keep the order of insertion (Python 3.7 and later); values are of any type with decidable equality, in
    place of Python's comparison by hash and ==; the attributes that every class has (such as __name__) are left out. *)
From Coq Require Import String List Bool Arith ZArith.
From Verif Require Import Base.
Import ListNotations.
Close Scope R_scope.
Open Scope string_scope.
Open Scope list_scope.

Section Dictionaries.
  Context {K V : Type} (eqb : K -> K -> bool).
  Definition dict := list (K * V).
  (** [d[k] = v]: an existing key keeps its place. *)
  Fixpoint put (d : dict) (k : K) (v : V) : dict :=
    match d with
    | [] => [(k, v)]
    | (k', v') :: r => if eqb k' k then (k', v) :: r else (k', v') :: put r k v
    end.
  Definition find_key (d : dict) (k : K) : option V := option_map snd (find (fun p => eqb (fst p) k) d).
  (** [dict(items)] *)
  Definition dict_of (items : list (K * V)) : dict := fold_left (fun d p => put d (fst p) (snd p)) items [].
End Dictionaries.
Arguments dict : clear implicits.

(** What an attribute of the enumeration holds: a value, or the dictionary from values to names. *)
Inductive attribute {V : Type} := Value (v : V) | Reverse (d : dict V string).
Arguments attribute : clear implicits.

(** enum.py:19-23 [enum] of positional names [sequential] and keyword arguments [named]; [ordinal] makes the integers of [range] values. The result holds the attributes of the
    class that [type] creates. *)
Definition enum {V} (eqv : V -> V -> bool) (ordinal : nat -> V) (sequential : list string) (named : list (string * V)) : dict string (attribute V) :=
  let numbered := combine sequential (map ordinal (seq 0 (length sequential))) in
  let enums := fold_left (fun d p => put String.eqb d (fst p) (snd p)) named (dict_of String.eqb numbered) in
  let reverse := dict_of eqv (map (fun p => (snd p, fst p)) enums) in
  put String.eqb (map (fun p => (fst p, Value (snd p))) enums) "reverse_mapping" (Reverse reverse).
Definition get_attribute {V} (e : dict string (attribute V)) (name : string) : option (attribute V) := find_key String.eqb e name.
(** [v in E.reverse_mapping] and [E.reverse_mapping[v]] *)
Definition name_of_value {V} (eqv : V -> V -> bool) (e : dict string (attribute V)) (v : V) : option string :=
  match get_attribute e "reverse_mapping" with Some (Reverse d) => find_key eqv d v | _ => None end.

(** derived_models.py:146 and expdesign.py:74 *)
Definition PoisonModes := enum Z.eqb Z.of_nat ["ALE"; "MLE"] [].
Definition OptimizationAlgorithms := enum Z.eqb Z.of_nat ["NULL"; "CG"; "NCG"; "NELDER_MEAD"] [].
