(** Small specification vocabulary for the SMC updater, independent of the helper functions
    of SmcModel.v: finite sums over indices, Bayes' rule, probability vectors, histories. *)
From Verif Require Export Sums.
From Verif Require Import Base Ext SmcModel.

(** Bayes' rule for [n] hypotheses with prior [p] and likelihood [L]. *)
Definition bayes (n : nat) (p L : nat -> R) (i : nat) : R := p i * L i / Sum n (fun j => p j * L j).

Section Spec.
Context {O E RND : Type}.
Notation state := (@state O).
Notation config := (@config O E RND).
Notation op := (@op O E RND).

Definition wt (s : state) (i : nat) : R := nth i (ws s) 0.
Definition at_ (s : state) (i : nat) : loc := nth i (ls s) [].

(** Probability of outcome [o] of experiment [e] under the current particle cloud. *)
Definition evidence (c : config) (s : state) (o : O) (e : E) : R :=
  Sum (n_particles s) (fun i => wt s i * lik (md c) o (at_ s i) e).

(** What the updater relies on from its model, prior and resampler. *)
Record good_config (c : config) : Prop := {
  lik_nonneg : forall o x e, 0 <= lik (md c) o x e;
  prior_len : forall r n, length (prior c r n) = n;
  canon_len : forall l, length (canon (md c) l) = length l;
  step_len : forall r l e, length (timestep (md c) r l e) = length l;
  rsmp_ok : forall r w l w' l', rsmp c r w l = Ok (w', l') -> Forall (fun x => 0 <= x) w' /\ length l' = length w' /\ (l <> [] -> prob_vector w')
}.

(** The calls of a history that do not ask for an empty cloud. *)
Definition op_ok (x : op) : Prop :=
  match x with OReset _ (Some 0%nat) _ _ => False | _ => True end.

(** The sequence of single calls a batch stands for: each datum in turn, and the resample
    check exactly after the positions that are multiples of the interval. *)
Definition batch_plan (rs : nat -> RND) (k : Z) (idx : nat) (data : list (O * E)) : list op :=
  flat_map (fun p : nat * (O * E) =>
    OUpdate (rs (fst p)) (fst (snd p)) (snd (snd p)) false ::
    (if Znumtheory.Zdivide_dec k (Z.of_nat (fst p) + 1) then [OCheck (rs (fst p))] else []))
  (combine (seq idx (length data)) data).

(** Perform calls in order, stopping at the first exception. *)
Fixpoint run_until_exn (c : config) (s : state) (xs : list op) : state * option exn :=
  match xs with
  | [] => (s, None)
  | x :: xs' => match step c s x with
                | (s', None) => run_until_exn c s' xs'
                | (s', Some e) => (s', Some e)
                end
  end.

(** [expands xs ms]: [ms] is the history [xs] with every batch replaced by those of its
    single calls that were executed (an initial segment of its plan). *)
Inductive expands : list op -> list op -> Prop :=
| ex_nil : expands [] []
| ex_single x xs ms : (forall rs os es k, x <> OBatch rs os es k) -> expands xs ms -> expands (x :: xs) (x :: ms)
| ex_batch rs os es k xs ms rest pre :
    batch_plan rs k 0 (combine os es) = pre ++ rest ->
    expands xs ms -> expands (OBatch rs os es k :: xs) (pre ++ ms).

(** Outcomes handed to [update] in a history of single calls. *)
Fixpoint outcomes_of (xs : list op) : list O :=
  match xs with
  | [] => []
  | OUpdate _ o _ _ :: xs' => o :: outcomes_of xs'
  | _ :: xs' => outcomes_of xs'
  end.

(** An update is applied unless its total new weight is at or below the threshold and the
    policy is to skip or to raise.  [tot] is the total of the new weights. *)
Definition applied (c : config) (tot : R) : Prop :=
  zthresh c < tot \/ zpolicy c = PIgnore \/ zpolicy c = PWarn \/ zpolicy c = PReset.

Implicit Types (c : config) (s : state).

(** Policies under which an update with vanishing weight is not performed. *)
Definition strict_policy c : Prop := zpolicy c = PError \/ zpolicy c = PSkip \/ zpolicy c = POther.

(** Total of the weights an update would install, for non-negative weights and likelihoods:
    the evidence itself if it is below machine epsilon (no renormalisation), one otherwise. *)
Definition new_total c s (o : O) (e : E) : R :=
  if Rlt_dec (evidence c s o e) eps then evidence c s o e else 1.

Definition no_batch (x : op) : Prop := match x with OBatch _ _ _ _ => False | _ => True end.

(** Normalizations of the applied updates of a history of single calls, in order. *)
Fixpoint applied_norms c s (xs : list op) : list R -> Prop :=
  match xs with
  | [] => fun Ns => Ns = []
  | x :: xs' => fun Ns =>
      match x with
      | OUpdate r o e ck =>
          (length (ws s) = length (ls s) /\ applied c (new_total c s o e) /\
           exists Ns', Ns = evidence c s o e :: Ns' /\ applied_norms c (fst (step c s x)) xs' Ns') \/
          ((length (ws s) <> length (ls s) \/ ~ applied c (new_total c s o e)) /\
           applied_norms c (fst (step c s x)) xs' Ns)
      | _ => applied_norms c (fst (step c s x)) xs' Ns
      end
  end.

(** States differing at most in the model's call counter. *)
Definition same_but_calls (s s' : state) : Prop :=
  ws s' = ws s /\ ls s' = ls s /\ drec s' = drec s /\ nrec s' = nrec s /\ mness s' = mness s /\
  rcnt s' = rcnt s /\ jr s' = jr s.

(** A run of plain updates (no resample check). *)
Definition updates (rs : nat -> RND) (idx : nat) (data : list (O * E)) : list op :=
  map (fun p => OUpdate (rs (fst p)) (fst (snd p)) (snd (snd p)) false) (combine (seq idx (length data)) data).

(** Every update of the run has evidence at least [eps] (no zero-weight event). *)
Fixpoint regular c (rs : nat -> RND) (idx : nat) (data : list (O * E)) s : Prop :=
  match data with
  | [] => True
  | (o, e) :: data' => eps <= evidence c s o e /\
      regular c rs (S idx) data' (fst (update c (rs idx) s o e false))
  end.

(** Product of the likelihoods of all data along the path of particle [i]. *)
Fixpoint path_lik c (rs : nat -> RND) (idx : nat) (data : list (O * E)) (l : list loc) (i : nat) : R :=
  match data with
  | [] => 1
  | (o, e) :: data' => lik (md c) o (nth i l []) e *
      path_lik c rs (S idx) data' (timestep (md c) (rs idx) l e) i
  end.

(** One weight per particle, forming a probability vector. *)
Definition full_inv s : Prop := length (ws s) = length (ls s) /\ prob_vector (ws s).

(** [c] with another zero-weight policy. *)
Definition with_policy c (p : policy) : config :=
  {| md := md c; prior := prior c; rsmp := rsmp c; rthresh := rthresh c; zpolicy := p;
     zthresh := zthresh c; canonize := canonize c |}.

(** The cloud with particle [p i] in position [i]. *)
Definition permute {A} (p : list nat) (l : list A) (d : A) : list A := map (fun i => nth i l d) p.
Definition permute_state p s : state :=
  {| ws := permute p (ws s) 0; ls := permute p (ls s) []; drec := drec s; nrec := nrec s; mness := mness s;
     rcnt := rcnt s; jr := jr s; calls := calls s |}.

(** Whether a single call resamples when made in state [s]. *)
Definition ess_low c s : bool := xltb (n_ess (ws s)) (Fin (INR (n_particles s) * rthresh c)).
Definition resamples c s (x : op) : Prop :=
  match x with
  | OResample _ => True
  | OCheck _ => ess_low c s = true
  | OUpdate r o e true => length (ws s) = length (ls s) /\ applied c (new_total c s o e) /\ ess_low c (fst (update c r s o e false)) = true
  | _ => False
  end.
(** [resample_total c s xs k]: exactly [k] of the single calls [xs], made in order, resample. *)
Inductive resample_total c : state -> list op -> nat -> Prop :=
| rt_nil s : resample_total c s [] 0
| rt_yes s x xs k : resamples c s x -> resample_total c (fst (step c s x)) xs k -> resample_total c s (x :: xs) (S k)
| rt_no s x xs k : ~ resamples c s x -> resample_total c (fst (step c s x)) xs k -> resample_total c s (x :: xs) k.
End Spec.
