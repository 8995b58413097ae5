(** C152: invariance of the law of random matrices and rows *)
From Verif Require Import Base RList Ext Sums Cplx TomoModel StateModel DistModel MomSpec.

(** A gate acting on the two rows of [z] *)
Definition act (u z : mat) : mat := fun i l => cadd (cmul (u i 0%nat) (z 0%nat l)) (cmul (u i 1%nat) (z 1%nat l)).
Definition gate (a b c d : C) : mat := fun i j => match i, j with O, O => a | O, _ => b | _, O => c | _, _ => d end.
Definition gate_x : mat := gate c0 c1 c1 c0.
Definition gate_z : mat := gate c1 c0 c0 (mkC (-1) 0).
Definition gate_s : mat := gate c1 c0 c0 ci.
Definition gate_h : mat := gate (mkC (/ sqrt 2) 0) (mkC (/ sqrt 2) 0) (mkC (/ sqrt 2) 0) (mkC (- / sqrt 2) 0).
(** The law of z z^dagger (k columns) stays the same when the gate is applied; true of independent complex normal entries and any unitary. *)
Definition invariant {W} (Ex : (W -> R) -> R) (k : nat) (z : W -> mat) (u : mat) : Prop :=
  forall F : C -> C -> C -> C -> R, let G m := let g := gram_c k m in F (g 0%nat 0%nat) (g 0%nat 1%nat) (g 1%nat 0%nat) (g 1%nat 1%nat) in
  Ex (fun w => G (act u (z w))) = Ex (fun w => G (z w)).
(** Entry [i] of a sampled row *)
Definition entry_of (row : res (list ext)) (i : nat) : R := match row with Ok l => match nth i l NaN with Fin x => x | _ => 0 end | Err _ => 0 end.
(** Rows of [d] entries whose law does not change when two entries are exchanged *)
Definition swapped (i j a : nat) : nat := if Nat.eqb a i then j else if Nat.eqb a j then i else a.
Definition swap (i j : nat) (l : list R) : list R := map (fun a => nth (swapped i j a) l 0) (seq 0 (length l)).
Definition exchangeable {W} (Ex : (W -> R) -> R) (d : nat) (row : W -> list R) : Prop :=
  (forall w, length (row w) = d) /\ forall i j (F : list R -> R), (i < d)%nat -> (j < d)%nat -> Ex (fun w => F (swap i j (row w))) = Ex (fun w => F (row w)).
