(** Vocabulary for C145: likelihoods that keep some particles and rule out the others (DecimationModel, tests/test_smc.py:55-79). *)
From Verif Require Import Base Sums Ext SmcModel SmcSpec.

Section Dec.
Context {O E RND : Type}.
Notation state := (@state O).
Notation config := (@config O E RND).

Definition card (n : nat) (P : nat -> bool) : nat := length (filter P (seq 0 n)).
(** All the weight lies evenly on the particles in [P] *)
Definition spread (P : nat -> bool) (s : state) : Prop :=
  (0 < card (n_particles s) P)%nat /\ forall i, (i < n_particles s)%nat -> wt s i = if P i then / INR (card (n_particles s) P) else 0.
(** The likelihood of outcome [o] is [v] on the particles in [K] and zero on the others *)
Definition keeps (c : config) (s : state) (o : O) (e : E) (K : nat -> bool) (v : R) : Prop :=
  forall i, (i < n_particles s)%nat -> lik (md c) o (at_ s i) e = if K i then v else 0.
(** Particles in [K] that still carry weight *)
Definition survivors (s : state) (K : nat -> bool) : nat := card (n_particles s) (fun i => Rltb 0 (wt s i) && K i).
(** A history of such updates and of resamplings: [ms] lists the numbers of survivors of the updates, [k] counts the resamplings
    that were asked for or that fell due. *)
Inductive decimation (c : config) : state -> list op -> list nat -> nat -> Prop :=
| dec_nil s : decimation c s [] [] 0
| dec_update s r o e check K v xs ms k : keeps c s o e K v -> (0 < survivors s K)%nat -> eps <= evidence c s o e ->
    decimation c (fst (step c s (OUpdate r o e check))) xs ms k ->
    decimation c s (OUpdate r o e check :: xs) (survivors s K :: ms)
      ((if check && Rltb (INR (survivors s K)) (INR (n_particles s) * rthresh c) then 1 else 0) + k)
| dec_resample s r xs ms k : decimation c (fst (step c s (OResample r))) xs ms k -> decimation c s (OResample r :: xs) ms (S k).
(** A resampler that, given a normalised cloud of [n] particles and random numbers in [Good n], succeeds and gives back equal weights for as many particles *)
Definition uniform_resampler (c : config) (Good : nat -> RND -> Prop) : Prop :=
  forall r w l, Good (length l) r -> prob_vector w -> length w = length l -> exists l', rsmp c r w l = Ok (uniform_weights (length l), l') /\ length l' = length l.
(** The random numbers of a call are in [Good] *)
Definition drawn (Good : RND -> Prop) (x : @op O E RND) : Prop := match x with OUpdate r _ _ _ | OResample r => Good r | _ => True end.
(** Updates known in advance: datum, particles kept, value *)
Definition all_kept (P : nat -> bool) (ks : list (O * E * (nat -> bool) * R)) (i : nat) : bool := P i && forallb (fun k => snd (fst k) i) ks.
End Dec.
