(** Specification vocabulary for stacks of derived models. *)
From Verif Require Import Base StackModel.

(** Number of likelihood evaluations / simulated data requested by a list of calls. *)
Definition requested_calls (l : list call) : nat :=
  fold_right (fun c a => match c with CLike o m e => o * m * e + a | CSim _ _ _ => a end)%nat 0%nat l.
Definition requested_sims (l : list call) : nat :=
  fold_right (fun c a => match c with CLike _ _ _ => a | CSim m e r => m * e * r + a end)%nat 0%nat l.
(** The same when every call is taken to ask for one repetition. *)
Definition requested_sims_once (l : list call) : nat :=
  fold_right (fun c a => match c with CLike _ _ _ => a | CSim m e r => m * e + a end)%nat 0%nat l.
