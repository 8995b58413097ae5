(** C150: adaptive experimental plans, statistics of their outcomes and the information they collect *)
From Verif Require Import Base RList Sums TwoModel.
From Coq Require Import List.

(** Stop, or perform an experiment and go on according to its outcome. *)
Inductive plan (E : Type) := Stop | Ask (e : E) (next : nat -> plan E).
Arguments Stop {E}. Arguments Ask {E} e next.

Section Plan.
Context {E : Type}.
Variable nout : E -> nat.
(** [L e o t]: likelihood of outcome [o] when the parameters have moved by [t] in the chosen direction *)
Variable L : E -> nat -> R -> R.
(** Mean of a statistic of the outcomes *)
Fixpoint expected (p : plan E) (T : list nat -> R) (t : R) : R :=
  match p with Stop => T [] | Ask e next => Sum (nout e) (fun o => L e o t * expected (next o) (fun h => T (o :: h)) t) end.
Definition variance (p : plan E) (T : list nat -> R) : R := expected p (fun h => (T h - expected p T 0) ^ 2) 0.
(** Every experiment that the plan may reach *)
Fixpoint always (Q : E -> Prop) (p : plan E) : Prop :=
  match p with Stop => True | Ask e next => Q e /\ forall o, (o < nout e)%nat -> always Q (next o) end.

(** [d] parameters moving in the direction [v]; [score e i o] as the model reports it *)
Variables (d : nat) (v : nat -> R) (score : E -> nat -> nat -> R).
(** Likelihoods are probabilities, and the score is the derivative of their logarithm (multiplied out). *)
Definition honest (e : E) : Prop :=
  (forall o, (o < nout e)%nat -> 0 <= L e o 0) /\ (forall t, Sum (nout e) (fun o => L e o t) = 1) /\
  forall o, (o < nout e)%nat -> derivable_pt_lim (L e o) 0 (L e o 0 * Sum d (fun i => v i * score e i o)).
(** Information about the direction reported by fisher_information *)
Definition dir_info (e : E) : R := Sum d (fun i => Sum d (fun j => v i * fisher (nout e) (fun o => L e o 0) (score e) i j * v j)).
(** Total along a path of outcomes of something that each experiment contributes *)
Fixpoint along (g : E -> R) (p : plan E) (h : list nat) : R :=
  match p, h with Ask e next, o :: h => g e + along g (next o) h | _, _ => 0 end.
(** Information collected on average *)
Definition information (p : plan E) : R := expected p (along dir_info p) 0.
End Plan.
(** A fixed list of experiments *)
Fixpoint script {E} (es : list E) : plan E := match es with [] => Stop | e :: es => Ask e (fun _ => script es) end.
