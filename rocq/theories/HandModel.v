(** An updater as the prior of another updater.  [SMCUpdater] is a [ParticleDistribution] (smc.py 97), so [SMCUpdater(model, n, prior)] accepts an updater
    for [prior] (smc.py 123-178) and draws its particles with [prior.sample(n=n)] (smc.py 316), which is [ParticleDistribution.sample]
    (distributions.py 320-333). *)
From Coq Require Import List.
From Verif Require Import Base RList SmcModel PartModel.
Import ListNotations.

(** [c] is the configuration of an updater whose prior is the updater [s]; [r i] is the [i]-th uniform number drawn (distributions.py 329-333). *)
Definition hands_on {O O' E} (s : @state O') (c : @config O E (nat -> R)) : Prop :=
  forall r n, pd_sample (ws s) (ls s) (map r (seq 0 n)) = Ok (prior c r n).
(** Such a prior as a function. *)
Definition posterior_prior {O'} (s : @state O') (r : nat -> R) (n : nat) : list loc :=
  match pd_sample (ws s) (ls s) (map r (seq 0 n)) with Ok l => l | Err _ => [] end.
(** Average over [n] independent uniform numbers, where [Eu] averages over one. *)
Fixpoint uniforms (Eu : (R -> R) -> R) (n : nat) (f : list R -> R) : R :=
  match n with
  | 0%nat => f []
  | S n' => Eu (fun u => uniforms Eu n' (fun us => f (u :: us)))
  end.
Definition numbers (us : list R) (i : nat) : R := nth i us 0%R.
Definition over (Eu : (R -> R) -> R) (n : nat) (F : (nat -> R) -> R) : R := uniforms Eu n (fun us => F (numbers us)).
