(** Vocabulary for C144: clouds that represent a Beta distribution over the bias of a coin. *)
From Verif Require Import Base Sums SmcModel SmcSpec DistSpec DomModel DerSpec.

(** The bias of particle [i], and mixed moments of the biases *)
Definition bias_of {O} (s : @state O) (i : nat) : R := nth 0 (at_ s i) 0.
Definition mixed {O} (s : @state O) (i j : nat) : R := Sum (n_particles s) (fun k => wt s k * bias_of s k ^ i * (1 - bias_of s k) ^ j).
(** The first [D] moments of the biases are those of Beta(a, b): E[p^k] = a (a+1) ... (a+k-1) / ((a+b) (a+b+1) ... (a+b+k-1)). *)
Definition beta_moments {O} (D : nat) (a b : R) (s : @state O) : Prop :=
  forall k, (k <= D)%nat -> Sum (n_particles s) (fun i => wt s i * bias_of s i ^ k) = rising a k / rising (a + b) k.
(** Numbers of zeros (heads) among outcomes *)
Definition heads {E} (data : list (Z * E)) : nat := length (filter (fun d => Z.eqb (fst d) 0) data).
Definition tails {E} (data : list (Z * E)) : nat := length (filter (fun d => negb (Z.eqb (fst d) 0)) data).
(** The beta-binomial distribution: probability of [k] ones among [n] *)
Definition beta_binomial (n : nat) (a b : R) (k : nat) : R := INR (binom n k) * (rising a (n - k) * rising b k / rising (a + b) n).
(** The likelihood of a count of ones for a coin whose zeros have probability p *)
Definition coin_counts {E RND} (c : @config nat (E * nat) RND) (s : @state nat) (e : E) (n : nat) : Prop :=
  forall k x, (k <= n)%nat -> In x (ls s) -> lik (md c) k x (e, n) = INR (binom n k) * (1 - nth 0 x 0) ^ k * nth 0 x 0 ^ (n - k).
(** Numbers of zeros and of ones behind count data *)
Fixpoint zeros_in {E} (data : list (nat * (E * nat))) : nat := match data with [] => 0%nat | (k, (_, n)) :: data' => (n - k + zeros_in data')%nat end.
Fixpoint ones_in {E} (data : list (nat * (E * nat))) : nat := match data with [] => 0%nat | (k, _) :: data' => (k + ones_in data')%nat end.
