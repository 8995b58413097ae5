(** Vocabulary for C133: information gained and announced along a data record. *)
From Verif Require Import Base Ext SmcModel SmcSpec RiskModel RiskSpec.
From Coq Require Import List.

Section Ig.
Context {O E RND : Type}.
Implicit Types (c : @config O E RND) (s : @state O).
(** Sum, over the experiments of a record, of the mutual information between particle and outcome just before the experiment *)
Fixpoint gained c (rs : nat -> RND) (dom : E -> list O) (idx : nat) s (data : list (O * E)) : R :=
  match data with
  | [] => 0
  | (o, e) :: data' => mutual_information c s (dom e) e + gained c rs dom (S idx) (fst (update c (rs idx) s o e false)) data'
  end.
(** Sum of what expected_information_gain reports when it is called before each experiment *)
Fixpoint announced c (rs : nat -> RND) (dom : E -> list O) (idx : nat) s (data : list (O * E)) : ext :=
  match data with
  | [] => Fin 0
  | (o, e) :: data' => xadd (eig1 c (ws s) (ls s) (dom e) e) (announced c rs dom (S idx) (fst (update c (rs idx) s o e false)) data')
  end.
End Ig.
