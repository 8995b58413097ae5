(** Specification vocabulary for Liu-West resampling. *)
From Verif Require Import Base Sums SmcModel.

(** [Ez] is the expectation of a random vector of dimension [d] with zero mean and identity
    covariance: a linear functional on functions of the vector. *)
Record kernel_expectation (d : nat) (Ez : (list R -> R) -> R) : Prop := {
  ez_ext : forall f g, (forall z, length z = d -> f z = g z) -> Ez f = Ez g;
  ez_plus : forall f g, Ez (fun z => f z + g z) = Ez f + Ez g;
  ez_scal : forall k f, Ez (fun z => k * f z) = k * Ez f;
  ez_one : Ez (fun _ => 1) = 1;
  ez_mean : forall p, (p < d)%nat -> Ez (fun z => nth p z 0) = 0;
  ez_cov : forall p q, (p < d)%nat -> (q < d)%nat -> Ez (fun z => nth p z 0 * nth q z 0) = if Nat.eqb p q then 1 else 0
}.

Definition entry (M : list (list R)) (p q : nat) : R := nth q (nth p M []) 0.
Definition is_matrix (d : nat) (M : list (list R)) : Prop := length M = d /\ forall r, In r M -> length r = d.
(** [S] is a square root of [C]: S S^T = C. *)
Definition square_root (d : nat) (S C : list (list R)) : Prop :=
  is_matrix d S /\ forall p q, (p < d)%nat -> (q < d)%nat -> Sum d (fun k => entry S p k * entry S q k) = entry C p q.

(** A new particle with ancestor location [x] and standardised displacement [z]: coordinate [p] is
    a x_p + (1-a) m_p + h (S z)_p. *)
Definition lw_point (d : nat) (a h : R) (m : list R) (S : list (list R)) (x z : list R) : list R :=
  map (fun p => a * nth p x 0 + (1 - a) * nth p m 0 + h * Sum d (fun k => entry S p k * nth k z 0)) (seq 0 d).

(** The particles still without a place after [t] rounds, in increasing order: [n] of them at first, and after each round those whose
    draw was rejected.  [rej t r] says that the draw for the [r]-th of the open particles of round [t] is rejected. *)
Fixpoint still_open (rej : nat -> nat -> bool) (n t : nat) : list nat :=
  match t with
  | 0%nat => seq 0 n
  | S t' => select (map (rej t') (seq 0 (length (still_open rej n t')))) (still_open rej n t')
  end.
