(** Specification vocabulary for simulated data. *)
From Verif Require Import Base Sums SimModel.

(** The outcome reported for repetition [r], model [i], experiment [j]. *)
Definition outcome_at (o : sim_out) (r i j : nat) : option Z :=
  match o with
  | Scalar z => match r, i, j with 0%nat, 0%nat, 0%nat => Some z | _, _, _ => None end
  | Tensor t => match nth_error t r with
                | Some a => match nth_error a i with Some b => nth_error b j | None => None end
                | None => None
                end
  end.
(** Total probability of the outcomes smaller than [d]. *)
Definition mass_below (pr : Z -> R) (d : Z) : R := Sum (Z.to_nat d) (fun k => pr (Z.of_nat k)).
(** Non-negative on 0..n-1 with total one. *)
Definition outcome_distribution (n : Z) (pr : Z -> R) : Prop :=
  (forall d, (0 <= d < n)%Z -> 0 <= pr d) /\ mass_below pr n = 1.
