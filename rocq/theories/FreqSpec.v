(** Vocabulary for how often an updater resamples. *)
From Verif Require Import Base SmcModel SmcSpec.

Section F.
Context {O E RND : Type}.
Implicit Types (c : @config O E RND) (s : @state O).
(** [c] with another resample threshold. *)
Definition with_thresh c (t : R) : config :=
  {| md := md c; prior := prior c; rsmp := rsmp c; rthresh := t; zpolicy := zpolicy c; zthresh := zthresh c; canonize := canonize c |}.
(** Calls that do not resample by themselves; and those that moreover keep the number of particles. *)
Definition unforced (x : @op O E RND) : Prop := match x with OResample _ => False | _ => True end.
Definition steady (x : @op O E RND) : Prop := match x with OResample _ | OReset _ _ _ _ => False | _ => True end.
(** One call of [update] per datum, each with the resampling check. *)
Definition learn (rs : nat -> RND) (idx : nat) (data : list (O * E)) : list op :=
  map (fun p => OUpdate (rs (fst p)) (fst (snd p)) (snd (snd p)) true) (combine (seq idx (length data)) data).
(** Every datum is predicted with probability at least machine epsilon when it comes. *)
Fixpoint expected_data c (rs : nat -> RND) (idx : nat) (data : list (O * E)) s : Prop :=
  match data with
  | [] => True
  | (o, e) :: data' => eps <= evidence c s o e /\ expected_data c rs (S idx) data' (fst (update c (rs idx) s o e true))
  end.
(** What is assumed of model and prior: likelihoods are non-negative, and arrays keep their lengths. *)
Record sound_model c : Prop := {
  sm_lik : forall o x e, 0 <= lik (md c) o x e;
  sm_prior : forall r n, length (prior c r n) = n;
  sm_canon : forall l, length (canon (md c) l) = length l;
  sm_step : forall r l e, length (timestep (md c) r l e) = length l
}.
(** A resampler that returns normalised clouds when given one. *)
Definition sound_resampler c : Prop := forall r w l w' l', prob_vector w -> length w = length l -> rsmp c r w l = Ok (w', l') -> prob_vector w' /\ length l' = length w'.
(** A resampler that, for draws in [Good], returns as many particles, of equal weight, within [V], as Liu and West's does. *)
Definition even_resampler c (Good : RND -> Prop) (V : loc -> Prop) (n : nat) : Prop :=
  forall r w l, Good r -> prob_vector w -> length w = length l -> length l = n -> Forall V l ->
  exists l', rsmp c r w l = Ok (uniform_weights n, l') /\ length l' = n /\ Forall V (if canonize c then canon (md c) l' else l').
End F.
