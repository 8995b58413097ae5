(** Expectation values, as vocabulary for statements about what samplers produce.  An expectation over draws [w : W] is a
    linear functional on random variables, one on constants; that is all the theorems use, so they hold for the distribution
    NumPy draws from as soon as the moments of its variates are the stated ones.  [mean_of] is a concrete instance. *)
From Verif Require Import Base RList Sums.

Record expectation {W} (Ex : (W -> R) -> R) : Prop := {
  ex_one : Ex (fun _ => 1) = 1;
  ex_add : forall f g, Ex (fun w => f w + g w) = Ex f + Ex g;
  ex_scal : forall c f, Ex (fun w => c * f w) = c * Ex f;
  ex_ext : forall f g, (forall w, f w = g w) -> Ex f = Ex g }.

(** Variance and covariance of random variables *)
Definition Cov {W} (Ex : (W -> R) -> R) (f g : W -> R) : R := Ex (fun w => (f w - Ex f) * (g w - Ex g)).
Definition Var {W} (Ex : (W -> R) -> R) (f : W -> R) : R := Cov Ex f f.

(** [n] uncorrelated variates of mean zero and variance one (for instance independent standard normal ones) *)
Definition standardised {W} (Ex : (W -> R) -> R) (n : nat) (z : nat -> W -> R) : Prop :=
  (forall i, (i < n)%nat -> Ex (z i) = 0) /\
  (forall i j, (i < n)%nat -> (j < n)%nat -> Ex (fun w => z i w * z j w) = if Nat.eqb i j then 1 else 0).
(** [n] uncorrelated variates with the first two moments of the uniform distribution on [0, 1] *)
Definition uniform_moments {W} (Ex : (W -> R) -> R) (n : nat) (u : nat -> W -> R) : Prop :=
  (forall i, (i < n)%nat -> Ex (u i) = 1 / 2) /\
  (forall i j, (i < n)%nat -> (j < n)%nat -> Ex (fun w => u i w * u j w) = if Nat.eqb i j then 1 / 3 else 1 / 4).

(** Average over a non-empty list of equally likely draws *)
Definition mean_of {W} (ws : list W) (f : W -> R) : R := rsum (map f ws) / INR (length ws).
