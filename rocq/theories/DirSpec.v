(** Vocabulary for C147: clouds that represent a Dirichlet distribution over the face probabilities of a die. *)
From Verif Require Import Base Sums SmcModel SmcSpec DistSpec DerModel DerSpec CountProofs.

(** The product of the [j]-th entries to the powers [m j] *)
Definition monomial (K : nat) (x : loc) (m : nat -> nat) : R := Prod K (fun j => nth j x 0 ^ m j).
Definition size (K : nat) (m : nat -> nat) : nat := nat_sum (map m (seq 0 K)).
(** E[p_0^{m_0} ... p_{K-1}^{m_{K-1}}] for p distributed as Dirichlet(al_0, ..., al_{K-1}) *)
Definition dirichlet_moment (K : nat) (al : nat -> R) (m : nat -> nat) : R :=
  Prod K (fun j => rising (al j) (m j)) / rising (Sum K al) (size K m).
Definition dirichlet_moments {O} (K D : nat) (al : nat -> R) (s : @state O) : Prop :=
  forall m, (size K m <= D)%nat -> Sum (n_particles s) (fun i => wt s i * monomial K (at_ s i) m) = dirichlet_moment K al m.
(** How often face [j] came up *)
Definition rolled {E} (data : list (nat * E)) (j : nat) : nat := count_occ Nat.eq_dec (map fst data) j.
Definition plus_counts (al : nat -> R) (m : nat -> nat) : nat -> R := fun j => al j + INR (m j).
(** The Dirichlet-multinomial probability of the counts [v] *)
Definition dirichlet_multinomial (K : nat) (al : nat -> R) (v : list nat) : R := orderings v * dirichlet_moment K al (fun j => nth j v 0%nat).
(** Face totals over several count vectors *)
Fixpoint totals (vs : list (list nat)) (j : nat) : nat := match vs with [] => 0%nat | v :: vs' => (nth j v 0 + totals vs' j)%nat end.
(** None of the count vectors had a predictive probability below machine epsilon *)
Fixpoint all_likely (K : nat) (al : nat -> R) (vs : list (list nat)) : Prop :=
  match vs with [] => True | v :: vs' => eps <= dirichlet_multinomial K al v /\ all_likely K (plus_counts al (fun j => nth j v 0%nat)) vs' end.
