(** Specification vocabulary for mixtures: laws of shuffles, and sources of randomness with given counts and shuffle. *)
From Verif Require Import Base Ext Sums DerSpec SmcModel LwModel DistModel.
From Coq Require Import List.

(** [E f] is the average of [f] over a uniformly random order of [n] things: it only looks at orders, is linear, and does not change
    when the things are relabelled. *)
Record uniform_shuffle (n : nat) (E : (list nat -> R) -> R) : Prop := {
  us_ext : forall f g, (forall o, Permutation o (seq 0 n) -> f o = g o) -> E f = E g;
  us_plus : forall f g, E (fun o => f o + g o) = E f + E g;
  us_scal : forall k f, E (fun o => k * f o) = k * E f;
  us_one : E (fun _ => 1) = 1;
  us_relabel : forall t f, Permutation t (seq 0 n) -> E (fun o => f (map (fun i => nth i t 0%nat) o)) = E f
}.
(** The source that answers multinomial draws with the counts of the record [s] (outcomes 0..k-1) and shuffles in the order [o]. *)
Definition source_of (w : source) (k : nat) (s o : list nat) : source := fun p =>
  {| unif := unif (w p); gauss := gauss (w p); raw := raw (w p); rawrow := rawrow (w p); bits := bits (w p);
     DistModel.counts := fun _ _ => DerSpec.counts k s; shuffled := fun _ => o |}.
