(** Vocabulary for C104 and C105: adaptive experiments, data records, frequencies.  Independent of the helpers of SmcModel. *)
From Verif Require Import Base Ext SmcModel SmcSpec.
From Coq Require Import List.

Section Learn.
Context {O E RND : Type}.
Implicit Types (c : @config O E RND) (s : @state O).

(** All data records of [n] further experiments, when the next experiment is chosen by [pol] from the outcomes seen so far and
    experiment [e] has the outcomes [dom e]. *)
Fixpoint records (dom : E -> list O) (pol : list O -> E) (n : nat) (hist : list O) : list (list (O * E)) :=
  match n with
  | 0%nat => [[]]
  | S n' => flat_map (fun o => map (cons (o, pol hist)) (records dom pol n' (hist ++ [o]))) (dom (pol hist))
  end.

(** Probability of a data record under the particle cloud: the mixture over particles of the product of likelihoods. *)
Definition predictive c (rs : nat -> RND) s (data : list (O * E)) : R :=
  Sum (n_particles s) (fun i => wt s i * path_lik c rs 0 data (ls s) i).

(** Average over all data records, weighted with their probability. *)
Definition averaged c rs s (recs : list (list (O * E))) (f : @state O -> R) : R :=
  SumL recs (fun data => predictive c rs s data * f (run c s (updates rs 0 data))).

(** The fraction of the first [n] data that equal [p]. *)
Definition freq {A} (dec : forall a b : A, {a = b} + {a <> b}) (d : nat -> A) (p : A) (n : nat) : R :=
  INR (count_occ dec (map d (seq 0 n)) p) / INR n.

(** Convergence of a real sequence. *)
Definition tends (u : nat -> R) (l : R) : Prop := forall h, 0 < h -> exists N, forall n, (N <= n)%nat -> Rabs (u n - l) < h.
End Learn.
