(** Specification of Bayes risk and mutual information, in terms of finite sums only. *)
From Verif Require Import Base SmcModel SmcSpec.

(** Variance of the numbers [f 0 .. f (n-1)] under weights [p]. *)
Definition variance (n : nat) (p f : nat -> R) : R :=
  Sum n (fun i => p i * (f i - Sum n (fun k => p k * f k)) ^ 2).


Section RS.
Context {O E RND : Type}.
Variable c : @config O E RND.

(** Posterior weight of particle [i] after outcome [o] of experiment [e]. *)
Definition posterior (s : @state O) (o : O) (e : E) (i : nat) : R :=
  bayes (n_particles s) (wt s) (fun i => lik (md c) o (at_ s i) e) i.

(** Trace of the scale matrix times the covariance of the cloud under weights [p]. *)
Definition loss (Q : list R) (s : @state O) (p : nat -> R) : R :=
  Sum (length Q) (fun j => nth j Q 0 * variance (n_particles s) p (fun i => nth j (at_ s i) 0)).

(** Expectation over outcomes of the posterior loss (outcomes of probability zero contribute zero). *)
Definition expected_posterior_loss (Q : list R) (s : @state O) (os : list O) (e : E) : R :=
  SumL os (fun o => evidence c s o e * loss Q s (posterior s o e)).

(** Mutual information between particle index and outcome (for positive joint probabilities). *)
Definition mutual_information (s : @state O) (os : list O) (e : E) : R :=
  SumL os (fun o => Sum (n_particles s) (fun i =>
    let joint := wt s i * lik (md c) o (at_ s i) e in
    joint * ln (joint / (wt s i * evidence c s o e)))).

Definition entropy (s : @state O) : R := - Sum (n_particles s) (fun i => wt s i * ln (wt s i)).
End RS.
