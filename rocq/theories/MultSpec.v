(** Specification vocabulary for sampled counts: elements of arrays by index, and the probability that a program
    drawing binomial variates returns a given value. *)
From Coq Require Import List.
From Verif Require Import Base Sums DomModel DerModel MultModel.

(** [i] is an index into an array of shape [s]. *)
Definition index (s i : list nat) : Prop := Forall2 lt i s.
(** The element at index [i]. *)
Definition at_ {A} (a : nd A) (i : list nat) : A := elt a (ravel (shp a) i).

(** The binomial distribution. *)
Definition binom_mass (n : nat) (p : R) (k : nat) : R := INR (binom n k) * p ^ k * (1 - p) ^ (n - k).
(** Probability that the program returns [v]. *)
Fixpoint chance (t : tree (list nat)) (v : list nat) : R :=
  match t with
  | Ret w => if list_eq_dec Nat.eq_dec w v then 1 else 0
  | Bin n p k => Sum (S n) (fun j => binom_mass n p j * chance (k j) v)
  end.
(** The source never returns more successes than trials. *)
Definition binomial_source (b : nat -> nat -> R -> nat) : Prop := forall i n p, (b i n p <= n)%nat.

(** The counts reported for repetition [r], model [m], experiment [e]. *)
Definition counts_at (o : sim_counts) (r m e : nat) : option (list nat) :=
  match o with
  | OneCount v => match r, m, e with 0%nat, 0%nat, 0%nat => Some v | _, _, _ => None end
  | Counts a => match shp a with
                | [nr; nm; ne] => if Nat.ltb r nr && Nat.ltb m nm && Nat.ltb e ne then Some (at_ a [r; m; e]) else None
                | _ => None
                end
  end.
(** The outcome reported for repetition [r], model [m], experiment [e]. *)
Definition reading_at (o : R + list (list (list R))) (r m e : nat) : option R :=
  match o with
  | inl x => match r, m, e with 0%nat, 0%nat, 0%nat => Some x | _, _, _ => None end
  | inr t => match nth_error t r with
             | Some a => match nth_error a m with Some b => nth_error b e | None => None end
             | None => None
             end
  end.

(** The distribution an array of probabilities gives at index [i]: the numbers along its first axis. *)
Definition distribution (p : nd R) (i : list nat) : list R := map (fun side => at_ p (side :: i)) (seq 0 (hd 0%nat (shp p))).
(** What NumPy accepts: all but the last probability sum to at most one, up to rounding. *)
Definition accepted (ps : list R) : Prop := rsum (removelast ps) <= 1 + / 10 ^ 12.
