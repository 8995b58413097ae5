(** C156: what the randomized benchmarking model describes.  Quantum operations on [d] levels, independent of the model's formulas *)
From Verif Require Import Base Sums Cplx.
From Coq Require Import List.

(** Depolarizing noise: the state is kept with strength [p], otherwise replaced by the completely mixed one *)
Definition depolarize (d : nat) (p : R) (M : mat) : mat := mplus (mscal (rc p) M) (mscal (cmul (rc ((1 - p) / INR d)) (mtrace d M)) meye).
(** A gate: [U M U^dagger] *)
Definition gate (d : nat) (U M : mat) : mat := fun i j => csum d (fun a => csum d (fun b => cmul (cmul (U i a) (M a b)) (conj (U j b)))).
Definition dagger (U : mat) : mat := fun i j => conj (U j i).
Definition unitary (d : nat) (U : mat) : Prop := forall i j, (i < d)%nat -> (j < d)%nat ->
  csum d (fun k => cmul (U i k) (conj (U j k))) = delta i j /\ csum d (fun k => cmul (conj (U k i)) (U k j)) = delta i j.
(** A benchmarking sequence: gates with noise after each of them, and in the end all gates undone *)
Fixpoint benchmark (d : nat) (p : R) (gates : list mat) (M : mat) : mat :=
  match gates with [] => M | U :: gates => gate d (dagger U) (benchmark d p gates (depolarize d p (gate d U M))) end.
(** Interleaved: another gate with its own noise of strength [q] after each gate, undone as well *)
Fixpoint interleaved (d : nat) (q p : R) (C : mat) (gates : list mat) (M : mat) : mat :=
  match gates with [] => M | U :: gates => gate d (dagger U) (gate d (dagger C) (interleaved d q p C gates (depolarize d q (gate d C (depolarize d p (gate d U M)))))) end.
(** Errors of preparation and measurement: any operation with Kraus operators [Ks]; probability of the effect [Q] *)
Definition operation (d : nat) (Ks : list mat) (M : mat) : mat := fun i j => csumL Ks (fun K => gate d K M i j).
Definition measured (d : nat) (Q : mat) (Ks : list mat) (M : mat) : R := re (mtrace d (mmul d Q (operation d Ks M))).
(** The fitting parameters as the documentation defines them (rb.py:99-103) *)
Definition scale (d : nat) (Q : mat) (Ks : list mat) (rho : mat) : R := measured d Q Ks (mplus rho (mscal (rc (- / INR d)) meye)).
Definition offset (d : nat) (Q : mat) (Ks : list mat) : R := measured d Q Ks (mscal (rc (/ INR d)) meye).
(** The projector on a pure state *)
Definition pure (v : nat -> C) : mat := fun i j => cmul (v i) (conj (v j)).
