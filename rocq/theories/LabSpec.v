(** Vocabulary for labels, written without reference to how they are made. *)
From Coq Require Import String Ascii NArith ZArith.
From Verif Require Import Base Cplx TomoModel.
From Coq Require Import List.
Close Scope string_scope.
Open Scope list_scope.

(** The number with the given digits, most significant first, in the mixed radix [ns]. *)
Fixpoint pos (ns is : list nat) : nat :=
  match ns, is with
  | _ :: ns', i :: is' => (i * fold_right Nat.mul 1%nat ns' + pos ns' is')%nat
  | _, _ => 0%nat
  end.
(** [w] does not occur in [s]. *)
Definition lacks (w s : string) : Prop := forall u v, s <> (u ++ w ++ v)%string.
Definition no_brace (s : string) : Prop := lacks "{" s /\ lacks "}" s.
(** The product of one entry of one element of each factor. *)
Fixpoint entry_product (bs : list basis) (is rs cs : list nat) : C :=
  match bs, is, rs, cs with
  | b :: bs', i :: is', r :: rs', c :: cs' => cmul (bnth b i r c) (entry_product bs' is' rs' cs')
  | _, _, _, _ => c1
  end.
