(** Specification vocabulary for the derived models: shot-by-shot records, their probabilities and their counts. *)
From Verif Require Import Base Sums.

(** All records of [n] shots with outcomes 0..k-1. *)
Fixpoint strings (k n : nat) : list (list nat) :=
  match n with
  | O => [[]]
  | S m => flat_map (fun i => map (cons i) (strings k m)) (seq 0 k)
  end.
(** Probability of a record when shots are independent and outcome [i] has probability [p i]. *)
Fixpoint record_prob (p : nat -> R) (s : list nat) : R := match s with [] => 1 | i :: s' => p i * record_prob p s' end.
(** How often each outcome occurs. *)
Definition counts (k : nat) (s : list nat) : list nat := map (fun i => count_occ Nat.eq_dec s i) (seq 0 k).
(** Total probability of the records with counts [v]. *)
Definition count_mass (k n : nat) (p : nat -> R) (v : list nat) : R :=
  SumL (filter (fun s => if list_eq_dec Nat.eq_dec (counts k s) v then true else false) (strings k n)) (record_prob p).
(** Total probability of the two-outcome records with [k] ones. *)
Definition ones_mass (n : nat) (p : nat -> R) (k : nat) : R :=
  SumL (filter (fun s => Nat.eqb (count_occ Nat.eq_dec s 1%nat) k) (strings 2 n)) (record_prob p).

(** Density of the normal distribution with mean [m] and variance [v]. *)
Definition normal_density (m v x : R) : R := / sqrt (2 * PI * v) * exp (- (x - m) ^ 2 / (2 * v)).

(** [entry L a b c]: the entry of a three-index array. *)
Definition entry {V} (L : list (list (list V))) (a b c : nat) : option V :=
  match nth_error L a with
  | Some x => match nth_error x b with Some y => nth_error y c | None => None end
  | None => None
  end.

(** Parameter [i] of the result of a timestep is that of [x]. *)
Definition unchanged_outside (idxs : list nat) (x y : list R) : Prop :=
  length y = length x /\ forall j, ~ In j idxs -> nth j y 0 = nth j x 0.
