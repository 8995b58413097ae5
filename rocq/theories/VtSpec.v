(** C151: parameters of one model drawn from a prior density on an interval *)
From Coq Require Import Lra.
From Coquelicot Require Import Coquelicot.
From Verif Require Import Base RList Sums TwoModel CrSpec.
From Coq Require Import List.
Open Scope R_scope.

(** A continuously differentiable function on [a, b]; [g] is its grad_log_pdf inside. *)
Definition smooth_density (a b : R) (f f' g : R -> R) : Prop :=
  a < b /\ (forall x, a <= x <= b -> 0 <= f x) /\ (forall x, a <= x <= b -> is_derive f x (f' x) /\ continuous f' x) /\
  (forall x, a < x < b -> f' x = f x * g x) /\ ex_RInt (fun x => f x * g x ^ 2) a b.
(** A prior density that vanishes at both ends *)
Definition smooth_prior (a b : R) (f f' g : R -> R) : Prop := smooth_density a b f f' g /\ f a = 0 /\ f b = 0 /\ RInt f a b = 1.
Section Prior.
Context {E : Type}.
Variable nout : E -> nat.
(** [L e o x], [score x e i o]: likelihood and score at parameter [x]; one parameter, [i = 0] *)
Variables (L : E -> nat -> R -> R) (score : R -> E -> nat -> nat -> R).
(** Probabilities, positive on the interval, with the score the derivative of their logarithm and continuous *)
Definition smooth_model (a b : R) (e : E) : Prop :=
  (forall x, Sum (nout e) (fun o => L e o x) = 1) /\
  forall o x, (o < nout e)%nat -> a <= x <= b -> 0 < L e o x /\ is_derive (L e o) x (L e o x * score x e 0%nat o) /\ continuous (fun x => score x e 0%nat o) x.
(** The likelihoods seen from parameter [x] *)
Definition moved (x : R) (e : E) (o : nat) (t : R) : R := L e o (x + t).
(** Information collected by a plan at parameter [x] *)
Definition information_at (p : plan E) (x : R) : R := information nout (moved x) 1 (fun _ => 1) (score x) p.
(** Mean squared error of a statistic at parameter [x] *)
Definition squared_error (p : plan E) (T : list nat -> R) (x : R) : R := expected nout L p (fun h => (T h - x) ^ 2) x.
End Prior.
