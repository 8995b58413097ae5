(** Vocabulary for C148: the distribution a cloud represents. *)
From Verif Require Import Base Sums SmcModel SmcSpec.

Definition average {O} (s : @state O) (f : loc -> R) : R := Sum (n_particles s) (fun i => wt s i * f (at_ s i)).
(** [s'] represents the distribution of [g x] for [x] distributed as [s] says *)
Definition pushed {O O'} (g : loc -> loc) (s : @state O) (s' : @state O') : Prop := forall f, average s' f = average s (fun x => f (g x)).
Definition same_distribution {O O'} (s : @state O) (s' : @state O') : Prop := forall f, average s' f = average s f.
