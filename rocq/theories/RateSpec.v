(** Vocabulary for C118: averages over data that one of the particles generates.  Independent of the helpers of SmcModel. *)
From Verif Require Import Base Ext SmcModel SmcSpec LearnSpec.
From Coq Require Import List.

Section Rate.
Context {O E RND : Type}.
Implicit Types (c : @config O E RND) (s : @state O).

(** Average of [f] over the records, when the data are drawn from the likelihood of particle [t]; [f] may depend on the record. *)
Definition generated c (rs : nat -> RND) s (t : nat) (recs : list (list (O * E))) (f : list (O * E) -> R) : R :=
  SumL recs (fun data => path_lik c rs 0 data (ls s) t * f data).
Definition indicator (b : bool) : R := if b then 1 else 0.
(** Overlap (Bhattacharyya coefficient) of the outcome distributions of two locations. *)
Definition overlap c (dom : E -> list O) (x y : loc) (e : E) : R := SumL (dom e) (fun o => sqrt (lik (md c) o x e * lik (md c) o y e)).
(** The weight of particle [t] after some initial segment of the data, including none and all of them, is at most [h]. *)
Definition dips c rs (idx : nat) s (t : nat) (h : R) (data : list (O * E)) : bool :=
  existsb (fun k => Rleb (wt (run c s (updates rs idx (firstn k data))) t) h) (seq 0 (S (length data))).
(** Squared distance (of the square roots) between the outcome distribution that the cloud predicts for the next experiment and the one of
    particle [t]. *)
Definition gap c (dom : E -> list O) s (t : nat) (e : E) : R := SumL (dom e) (fun o => (sqrt (lik (md c) o (at_ s t) e) - sqrt (evidence c s o e)) ^ 2).
(** The sum of these distances over all the experiments of a record, and how many of them are at least [h]. *)
Fixpoint gaps c rs dom (idx : nat) s (t : nat) (data : list (O * E)) : R :=
  match data with
  | [] => 0
  | (o, e) :: data' => gap c dom s t e + gaps c rs dom (S idx) (fst (update c (rs idx) s o e false)) t data'
  end.
Fixpoint surprises c rs dom (idx : nat) s (t : nat) (h : R) (data : list (O * E)) : nat :=
  match data with
  | [] => 0
  | (o, e) :: data' => (if Rle_dec h (gap c dom s t e) then 1 else 0) + surprises c rs dom (S idx) (fst (update c (rs idx) s o e false)) t h data'
  end.
(** Weighted squared distance between the mean estimate and a location, the loss used in performance tests. *)
Definition quadratic_loss (d : nat) (Q : nat -> R) s (x : loc) : R :=
  Sum d (fun j => Q j * (nth j (particle_mean d (ws s) (ls s)) 0 - nth j x 0) ^ 2).
End Rate.
