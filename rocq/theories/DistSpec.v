(** Vocabulary for the statements about distributions. *)
From Verif Require Import Base Ext Sums DomModel DistModel.

(** What NumPy and SciPy promise about their own draws. *)
Record good_draws (r : draws) : Prop := {
  gd_unif : forall i j, 0 <= unif r i j < 1;
  gd_row : forall k i, length (rawrow r k i) = k;
  gd_counts : forall n weights, length (counts r n weights) = length weights /\ (weights <> [] -> fold_right Nat.add 0%nat (counts r n weights) = n);
  gd_shuffled : forall n, Permutation (shuffled r n) (seq 0 n)
}.
Definition good_source (w : source) : Prop := forall p, good_draws (w p).

(** Distributions assembled as documented: no empty product or mixture, one weight per component, components of equal
    dimension, a square covariance, no DiscreteUniformDistribution. *)
Fixpoint documented (d : dist) : Prop :=
  match d with
  | Uniform _ | Constant _ | Scalar _ | Slanted _ _ | Rows _ => True
  | MVNormal m root => length root = length m /\ Forall (fun r => length r = length m) root
  | DiscreteUniform _ => False
  | Postselected d _ _ | ConstrainedSum d _ => documented d
  | Product l => l <> [] /\ (fix all l := match l with [] => True | d :: l' => documented d /\ all l' end) l
  | Mixture weights l _ => l <> [] /\ length weights = length l /\
      (fix all l' := match l' with [] => True | d :: l'' => documented d /\ n_rvs d = n_rvs (hd (Uniform []) l) /\ all l'' end) l
  end.
Fixpoint has_postselection (d : dist) : bool :=
  match d with
  | Postselected _ _ _ => true
  | ConstrainedSum d _ => has_postselection d
  | Product l | Mixture _ l _ => existsb has_postselection l
  | _ => false
  end.

(** The indices still without a valid proposal before round [r], when [p r i] is proposed for index [i] in round [r]. *)
Definition pending (valid : list ext -> bool) (p : nat -> nat -> list ext) (n r : nat) : list nat :=
  filter (fun i => forallb (fun q => negb (valid (p q i))) (seq 0 r)) (seq 0 n).
(** [draw] was asked, in rounds 0 to r-1, for exactly the pending rows and answered with the proposals. *)
Definition proposals (draw : nat -> nat -> res (list (list ext))) valid p n r : Prop :=
  forall q, (q < r)%nat -> pending valid p n q <> [] -> draw q (length (pending valid p n q)) = Ok (map (p q) (pending valid p n q)).

(** Rising factorial a (a+1) ... (a+k-1). *)
Fixpoint rising (a : R) (k : nat) : R := match k with O => 1 | S k' => a * rising (a + 1) k' end.
(** The k-th moments of the beta(a, b) and gamma(a, rate b) distributions. *)
Definition beta_moment (a b : R) (k : nat) : R := rising a k / rising (a + b) k.
Definition gamma_moment (a b : R) (k : nat) : R := rising a k / b ^ k.
(** The beta-binomial probability of [k] successes in [n] trials: C(n,k) B(a+k, b+n-k) / B(a,b), written with rising factorials. *)
Definition betabin_pmf (n : nat) (a b : R) (k : nat) : R := INR (binom n k) * (rising a k * rising b (n - k) / rising (a + b) n).
