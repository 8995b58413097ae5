(** Vocabulary for C131: studies in which the truth is drawn from the cloud, and what is reported at their end.  Independent of the helpers of
    SmcModel. *)
From Verif Require Import Base Ext SmcModel SmcSpec LearnSpec RateSpec.
From Coq Require Import List.

(** Weighted squared distance between an estimate and a location *)
Definition squared_error (d : nat) (Q : nat -> R) (estimate x : loc) : R := Sum d (fun j => Q j * (nth j estimate 0 - nth j x 0) ^ 2).
(** Is the location among those listed? *)
Definition among (x : loc) (l : list loc) : R := if in_dec (list_eq_dec Req_EM_T) x l then 1 else 0.

Section Cal.
Context {O E RND : Type}.
Implicit Types (c : @config O E RND) (s : @state O).

(** All data records of a study: the next experiment is chosen by [pol] from the outcomes seen so far, and the study ends when [stop] says so
    (it may look at all outcomes so far), at the latest after [n] experiments. *)
Fixpoint sessions (stop : list O -> bool) (dom : E -> list O) (pol : list O -> E) (n : nat) (hist : list O) : list (list (O * E)) :=
  match n with
  | 0%nat => [[]]
  | S n' => if stop hist then [[]] else flat_map (fun o => map (cons (o, pol hist)) (sessions stop dom pol n' (hist ++ [o]))) (dom (pol hist))
  end.
(** Average of [f] when the truth is drawn from the cloud by weight, and the data from the likelihood of the truth *)
Definition drawn c (rs : nat -> RND) s (recs : list (list (O * E))) (f : nat -> list (O * E) -> R) : R :=
  Sum (n_particles s) (fun t => wt s t * generated c rs s t recs (f t)).
(** The updater after a record *)
Definition final c (rs : nat -> RND) s (data : list (O * E)) : @state O := run c s (updates rs 0 data).
(** The setting: particles stay in a set [V] of locations at which the likelihoods of an experiment add up to one; on records that the cloud
    can produce, no update runs into the zero-weight rules. *)
Record study c rs stop dom (V : loc -> Prop) pol n s : Prop := {
  st_config : good_config c; st_threshold : zthresh c < 1; st_state : full_inv s; st_valid : Forall V (ls s);
  st_normal : forall x e, V x -> SumL (dom e) (fun o => lik (md c) o x e) = 1;
  st_step : forall r l e, Forall V l -> Forall V (timestep (md c) r l e);
  st_regular : forall data, In data (sessions stop dom pol n []) -> predictive c rs s data = 0 \/ regular c rs 0 data s
}.
End Cal.
