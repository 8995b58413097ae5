(** Vocabulary for C123: a cloud drawn from the prior against the exact posterior.  Independent of the helpers of SmcModel. *)
From Verif Require Import Base Ext SmcModel SmcSpec LearnSpec RateSpec ReSpec.
From Coq Require Import List.

Section Conv.
Context {O E RND : Type}.
Implicit Types (c : @config O E RND) (s : @state O).

(** Likelihood of a data record at location [x], and where [x] ends up, when [mv r e] moves a particle after experiment [e]. *)
Fixpoint record_lik c (mv : RND -> E -> loc -> loc) (rs : nat -> RND) (idx : nat) (data : list (O * E)) (x : loc) : R :=
  match data with
  | [] => 1
  | (o, e) :: data' => lik (md c) o x e * record_lik c mv rs (S idx) data' (mv (rs idx) e x)
  end.
Fixpoint final (mv : RND -> E -> loc -> loc) (rs : nat -> RND) (idx : nat) (data : list (O * E)) (x : loc) : loc :=
  match data with
  | [] => x
  | (o, e) :: data' => final mv rs (S idx) data' (mv (rs idx) e x)
  end.

(** [Er] averages over the random numbers of the prior, [Ep] over one location of the prior.  Both are used on bounded functions only;
    the prior gives [n] locations in [V], each with law [Ep], any two of them independent.  (Integration against a probability measure
    extends to all bounded functions as such a functional.) *)
Definition bounded (V : loc -> Prop) (g : loc -> R) : Prop := exists b, forall x, V x -> Rabs (g x) <= b.
Definition limited c (V : loc -> Prop) (n : nat) (F : RND -> R) : Prop := exists b, forall r, Forall V (prior c r n) -> Rabs (F r) <= b.
Record sampling c (V : loc -> Prop) (n : nat) (Ep : (loc -> R) -> R) (Er : (RND -> R) -> R) : Prop := {
  sl_le : forall F G, limited c V n F -> limited c V n G -> (forall r, Forall V (prior c r n) -> F r <= G r) -> Er F <= Er G;
  sl_plus : forall F G, limited c V n F -> limited c V n G -> Er (fun r => F r + G r) = Er F + Er G;
  sl_scal : forall k F, limited c V n F -> Er (fun r => k * F r) = k * Er F;
  sl_one : Er (fun _ => 1) = 1;
  sl_each : forall i g, (i < n)%nat -> bounded V g -> Er (fun r => g (nth i (prior c r n) [])) = Ep g;
  sl_pairs : forall i j g h, (i < n)%nat -> (j < n)%nat -> i <> j -> bounded V g -> bounded V h ->
    Er (fun r => g (nth i (prior c r n) []) * h (nth j (prior c r n) [])) = Ep g * Ep h
}.

(** The updater as constructed with [n] particles (smc.py 123-178), and the chance of an event over the draws from the prior. *)
Definition fresh c (n : nat) (r : RND) : @state O :=
  match init c r n false with Ok s => s | Err _ => {| ws := []; ls := []; drec := []; nrec := []; mness := NaN; rcnt := 0; jr := false; calls := 0 |} end.
Definition chance (Er : (RND -> R) -> R) (b : RND -> bool) : R := Er (fun r => indicator (b r)).

(** Exact probability of the first [k] data, and the exact posterior average of [f] given all of them. *)
Definition exact_evidence c mv rs (Ep : (loc -> R) -> R) (data : list (O * E)) (k : nat) : R := Ep (record_lik c mv rs 0 (firstn k data)).
Definition exact_average c mv rs (Ep : (loc -> R) -> R) (data : list (O * E)) (f : loc -> R) : R :=
  Ep (fun x => record_lik c mv rs 0 data x * f (final mv rs 0 data x)) / Ep (record_lik c mv rs 0 data).

(** The setting: particles move one by one within [V], likelihoods are bounded on [V], and the exact probability of each datum given the
    earlier ones is at least twice machine epsilon. *)
Record from_prior c mv rs (V : loc -> Prop) (Ep : (loc -> R) -> R) (data : list (O * E)) : Prop := {
  fp_config : good_config c; fp_threshold : zthresh c < 1;
  fp_canon : canonize c = true -> forall l, canon (md c) l = l;
  fp_moves : forall r l e, timestep (md c) r l e = map (mv r e) l;
  fp_stays : forall r e x, V x -> V (mv r e x);
  fp_lik : forall o e, exists b, forall x, V x -> lik (md c) o x e <= b;
  fp_likely : forall k, (k < length data)%nat -> 2 * eps * exact_evidence c mv rs Ep data k <= exact_evidence c mv rs Ep data (S k)
}.
(** Mean of the squared likelihood of the first [k] data relative to the squared evidence: one plus the relative variance. *)
Definition spread c mv rs (Ep : (loc -> R) -> R) (data : list (O * E)) (k : nat) : R :=
  Ep (fun x => record_lik c mv rs 0 (firstn k data) x ^ 2) / exact_evidence c mv rs Ep data k ^ 2.
End Conv.

(** Independent draws from a prior on the locations [xs] with probabilities [ps]. *)
Fixpoint independent (xs : list loc) (ps : list R) (n : nat) (f : list loc -> R) : R :=
  match n with
  | 0%nat => f []
  | S n' => Sum (length xs) (fun k => nth k ps 0 * independent xs ps n' (fun l => f (nth k xs [] :: l)))
  end.
