(** Theorems for properties C83 (canonical particles) and C84 (likelihood call counter). *)
From Verif Require Import Base RList Ext SmcModel SmcSpec SmcProofs SmcDemo.

Section Props.
Context {O E RND : Type}.
Notation state := (@state O).
Notation config := (@config O E RND).
Notation op := (@op O E RND).
Implicit Types (c : config) (s : state).

(** ** C83.  [P] is any description of the canonical form. *)
Definition all_rows (P : loc -> Prop) (l : list loc) : Prop := forall x, In x l -> P x.
Definition no_partial_reset (x : op) : Prop := match x with OReset _ _ (Some _) _ => False | _ => True end.

Section On.
Variable c : config.
Variable P : loc -> Prop.
Hypothesis Hon : canonize c = true.
Hypothesis Hcan : forall l, all_rows P (canon (md c) l).
Hypothesis Hstep : forall r l e, all_rows P l -> all_rows P (timestep (md c) r l e).

Lemma resample_rows r s : all_rows P (ls s) -> all_rows P (ls (fst (resample c r s))).
Proof. intro H. unfold resample. destruct (rsmp c r (ws s) (ls s)) as [[w' l']|x]; cbn [fst ls]; [rewrite Hon; apply Hcan|exact H]. Qed.
Lemma maybe_rows r s : all_rows P (ls s) -> all_rows P (ls (fst (maybe_resample c r s))).
Proof. intro H. unfold maybe_resample. destruct (xltb _ _); [now apply resample_rows|exact H]. Qed.
Lemma install_rows r s w N e ck : all_rows P (ls s) -> all_rows P (ls (fst (install c r s w N e ck))).
Proof. intro H. unfold install. destruct ck; [apply maybe_rows; cbn [ls]; now apply Hstep|cbn [fst ls]; now apply Hstep]. Qed.
Lemma reset_rows r s np rw : all_rows P (ls (fst (reset c r s np None rw))).
Proof. unfold reset. destruct np; cbn [fst ls]; rewrite Hon; apply Hcan. Qed.
Lemma update_rows r s o e ck : all_rows P (ls s) -> all_rows P (ls (fst (update c r s o e ck))).
Proof.
  intro H. rewrite update_unfold. destruct (Nat.eqb _ _); [|exact H]. cbv zeta. destruct (Rleb _ _); [|now apply install_rows].
  destruct (zpolicy c); try exact H; try (now apply install_rows). apply install_rows, reset_rows.
Qed.
Lemma step_rows s x : no_batch x -> no_partial_reset x -> all_rows P (ls s) -> all_rows P (ls (fst (step c s x))).
Proof.
  intros Hb Hr H. destruct x as [r o e ck|rs os es k|r|r|r np only rw|os es]; cbn [step].
  - now apply update_rows.
  - destruct Hb.
  - now apply resample_rows.
  - now apply maybe_rows.
  - destruct only; [destruct Hr|]. apply reset_rows.
  - unfold hypothetical_update. destruct (negb _); exact H.
Qed.
Lemma run_rows xs : Forall no_batch xs -> Forall no_partial_reset xs -> forall s, all_rows P (ls s) -> all_rows P (ls (run c s xs)).
Proof.
  induction xs as [|x xs IH]; intros Hb Hr s H; [exact H|]. inversion Hb; inversion Hr; subst. unfold run. cbn [fold_left]. apply IH; try assumption. now apply step_rows.
Qed.
End On.

Lemma expands_no_partial (xs ms : list op) : expands xs ms -> Forall no_partial_reset xs -> Forall no_partial_reset ms.
Proof.
  induction 1 as [|x xs ms Hx _ IH|rs os es k xs ms rest pre Hp _ IH]; intro H.
  - constructor.
  - inversion H; subst. constructor; auto.
  - inversion H; subst. apply Forall_app. split; [|auto].
    assert (Hall : Forall no_partial_reset (pre ++ rest)).
    { rewrite <- Hp. unfold batch_plan. apply Forall_forall. intros y Hy. apply in_flat_map in Hy. destruct Hy as (p & _ & Hy).
      destruct Hy as [<-|Hy]; [exact I|]. destruct (Znumtheory.Zdivide_dec _ _); [destruct Hy as [<-|[]]; exact I|destruct Hy]. }
    apply Forall_app in Hall. tauto.
Qed.

(** With the flag on, the cloud is canonical after construction and after every history of
    operations other than partial resets, provided time steps keep it so. *)
Theorem c83_always_canonical c (P : loc -> Prop) r n s0 xs :
  canonize c = true -> (forall l x, In x (canon (md c) l) -> P x) ->
  (forall r l e, (forall x, In x l -> P x) -> forall x, In x (timestep (md c) r l e) -> P x) ->
  init c r n false = Ok s0 -> Forall no_partial_reset xs ->
  (forall x, In x (ls s0) -> P x) /\ (forall x, In x (ls (run c s0 xs)) -> P x).
Proof.
  intros Hon Hc Ht E0 Hxs. assert (H0 : all_rows P (ls s0)).
  { unfold init in E0. match type of E0 with Ok ?a = _ => assert (E1 : s0 = a) by congruence end. rewrite E1. apply (reset_rows c P Hon Hc). }
  split; [exact H0|]. destruct (expand_exists c xs s0) as (ms & Hms & ->).
  apply (run_rows c P Hon Hc Ht ms); [now apply (expands_no_batch xs)|now apply (expands_no_partial xs)|exact H0].
Qed.
(** A successful resampling alone re-establishes it, whatever happened before. *)
Theorem c83_resample_canonical c (P : loc -> Prop) r s :
  canonize c = true -> (forall l x, In x (canon (md c) l) -> P x) ->
  snd (resample c r s) = None -> forall x, In x (ls (fst (resample c r s))) -> P x.
Proof.
  intros Hon Hc. unfold resample. destruct (rsmp c r (ws s) (ls s)) as [[w' l']|y]; cbn [fst snd ls]; [|discriminate].
  intros _ x. rewrite Hon. apply Hc.
Qed.

(** With the flag off, the model's canonicalize is never used: replacing it changes nothing. *)
Definition with_canon (f : list loc -> list loc) c : config :=
  {| md := {| lik := lik (md c); timestep := timestep (md c); canon := f |}; prior := prior c; rsmp := rsmp c;
     rthresh := rthresh c; zpolicy := zpolicy c; zthresh := zthresh c; canonize := canonize c |}.
Lemma off_reset c f r s np only rw : canonize c = false -> reset (with_canon f c) r s np only rw = reset c r s np only rw.
Proof. intro H. unfold reset. cbn [with_canon canonize prior]. rewrite H. reflexivity. Qed.
Lemma off_resample c f r s : canonize c = false -> resample (with_canon f c) r s = resample c r s.
Proof. intro H. unfold resample. cbn [with_canon canonize rsmp]. rewrite H. reflexivity. Qed.
Lemma off_maybe c f r s : canonize c = false -> maybe_resample (with_canon f c) r s = maybe_resample c r s.
Proof. intro H. unfold maybe_resample. now rewrite (off_resample c f r s H). Qed.
Lemma off_update c f r s o e ck : canonize c = false -> update (with_canon f c) r s o e ck = update c r s o e ck.
Proof.
  intro H. assert (Hi : forall s w N, install (with_canon f c) r s w N e ck = install c r s w N e ck).
  { intros. unfold install. rewrite (off_maybe c f r _ H). reflexivity. }
  rewrite !update_unfold. destruct (Nat.eqb _ _); [|reflexivity]. cbv zeta. rewrite (off_reset c f r _ None None true H), !Hi.
  reflexivity.
Qed.
Lemma off_batch c f rs k : canonize c = false -> forall data idx s, batch_loop (with_canon f c) rs k idx data s = batch_loop c rs k idx data s.
Proof.
  intro H. induction data as [|[o e] data IH]; intros idx s; [reflexivity|]. cbn [batch_loop]. rewrite (off_update c f (rs idx) s o e false H).
  destruct (update c (rs idx) s o e false) as [s1 [x|]]; [reflexivity|]. destruct (Z.eqb k 0); [reflexivity|].
  rewrite (off_maybe c f (rs idx) s1 H). destruct (Z.eqb _ 0); [|apply IH]. destruct (maybe_resample c (rs idx) s1) as [s2 [x|]]; [reflexivity|apply IH].
Qed.
Theorem c83_flag_off c f r n xs : canonize c = false ->
  init (with_canon f c) r n false = init c r n false /\
  forall s, run (with_canon f c) s xs = run c s xs.
Proof.
  intro H. split; [unfold init; now rewrite (off_reset c f _ _ _ _ _ H)|]. induction xs as [|x xs IH]; intro s; [reflexivity|].
  unfold run in *. cbn [fold_left]. rewrite IH. f_equal. f_equal. destruct x as [r' o e ck|rs os es k|r'|r'|r' np only rw|os es]; cbn [step].
  - now apply off_update.
  - unfold batch_update. destruct (Nat.eqb _ _); [|reflexivity]. now apply off_batch.
  - now apply off_resample.
  - now apply off_maybe.
  - now apply off_reset.
  - reflexivity.
Qed.

(** ** C84.  Likelihood evaluations a single call asks for. *)
Definition evaluations s (x : op) : nat :=
  match x with
  | OUpdate _ _ _ _ => length (ls s)
  | OHyp os es => (length os * length (ls s) * length es)%nat
  | _ => 0%nat
  end.
Fixpoint total_evaluations c s (xs : list op) : nat :=
  match xs with [] => 0%nat | x :: xs' => (evaluations s x + total_evaluations c (fst (step c s x)) xs')%nat end.

Lemma resample_calls c r s : calls (fst (resample c r s)) = calls s.
Proof. unfold resample. destruct (rsmp c r (ws s) (ls s)) as [[w' l']|x]; reflexivity. Qed.
Lemma maybe_calls c r s : calls (fst (maybe_resample c r s)) = calls s.
Proof. unfold maybe_resample. destruct (xltb _ _); [apply resample_calls|reflexivity]. Qed.
Lemma install_calls c r s w N e ck : calls (fst (install c r s w N e ck)) = calls s.
Proof. unfold install. destruct ck; [now rewrite maybe_calls|reflexivity]. Qed.
Lemma update_calls c r s o e ck : calls (fst (update c r s o e ck)) = (calls s + length (ls s))%nat.
Proof.
  rewrite update_unfold. destruct (Nat.eqb _ _); [|reflexivity]. cbv zeta. destruct (Rleb _ _); [|now rewrite install_calls].
  destruct (zpolicy c); try reflexivity; now rewrite install_calls.
Qed.
Lemma step_calls c s x : no_batch x -> calls (fst (step c s x)) = (calls s + evaluations s x)%nat.
Proof.
  intro Hb. destruct x as [r o e ck|rs os es k|r|r|r np only rw|os es]; cbn [step evaluations].
  - apply update_calls.
  - destruct Hb.
  - rewrite resample_calls. lia.
  - rewrite maybe_calls. lia.
  - unfold reset. destruct np, only; cbn [fst calls]; lia.
  - unfold hypothetical_update. destruct (negb _); reflexivity.
Qed.
Theorem c84_single_call c s (x : op) : no_batch x -> calls (fst (step c s x)) = (calls s + evaluations s x)%nat.
Proof. exact (step_calls c s x). Qed.
Theorem c84_history c s (xs : list op) :
  exists ms, expands xs ms /\ run c s xs = run c s ms /\ calls (run c s xs) = (calls s + total_evaluations c s ms)%nat.
Proof.
  destruct (expand_exists c xs s) as (ms & Hms & Hr). exists ms. split; [assumption|]. split; [assumption|]. rewrite Hr.
  pose proof (expands_no_batch xs ms Hms) as Hb. clear -Hb. revert s. induction Hb as [|x ms Hx _ IH]; intro s; [cbn; lia|].
  unfold run in *. cbn [fold_left total_evaluations]. rewrite IH, step_calls by assumption. lia.
Qed.
(** Predictions are charged like updates: asking for m outcomes and k experiments costs m k times the particles. *)
Theorem c84_prediction c s os es :
  calls (fst (hypothetical_update c s os es)) = (calls s + length os * length es * n_particles s)%nat.
Proof. unfold hypothetical_update, n_particles. destruct (negb _); cbn [fst add_calls calls]; lia. Qed.
End Props.

(** A model on one parameter whose canonical form is non-negative *)
Definition abs_rows (l : list loc) : list loc := map (map Rabs) l.
Example c83_example : (forall l x, In x (abs_rows l) -> Forall (fun t => 0 <= t) x) /\ abs_rows [[-1; 2]] = [[1; 2]].
Proof.
  split.
  - intros l x Hx. unfold abs_rows in Hx. apply in_map_iff in Hx. destruct Hx as (y & <- & _). apply Forall_forall. intros t Ht. apply in_map_iff in Ht. destruct Ht as (u & <- & _). apply Rabs_pos.
  - unfold abs_rows. cbn. rewrite (Rabs_left (-1)), (Rabs_right 2) by lra. repeat f_equal. lra.
Qed.
Definition abs_demo : @config nat unit unit :=
  {| md := {| lik := demo_lik; timestep := fun _ l _ => abs_rows l; canon := abs_rows |}; prior := fun _ n => map (fun i => [- INR i]) (seq 0 n);
     rsmp := fun _ w l => Ok (uniform_weights (length l), l); rthresh := 1/2; zpolicy := PError; zthresh := 10 * eps; canonize := true |}.
Example c83_example_run : exists s0, init abs_demo tt 2%nat false = Ok s0 /\ Forall (fun x => Forall (fun t => 0 <= t) x) (ls (run abs_demo s0 [OUpdate tt 0%nat tt true; OResample tt; OReset tt None None true])).
Proof.
  eexists. split; [reflexivity|]. apply Forall_forall. eapply (c83_always_canonical abs_demo (Forall (fun t => 0 <= t)) tt 2).
  - reflexivity.
  - apply c83_example.
  - intros r l e _. apply c83_example.
  - reflexivity.
  - repeat constructor.
Qed.
Example c84_example : calls (run (demo PError) demo_state [OUpdate tt 0%nat tt false; OHyp [0%nat; 1%nat] [tt]]) = (calls demo_state + 2 + 4)%nat.
Proof.
  destruct (c84_history (demo PError) demo_state [OUpdate tt 0%nat tt false]) as (ms & _ & _ & _).
  cbn [run fold_left]. change (run (demo PError) demo_state [OUpdate tt 0%nat tt false; OHyp [0%nat; 1%nat] [tt]]) with
    (fst (step (demo PError) (fst (step (demo PError) demo_state (OUpdate tt 0%nat tt false))) (OHyp [0%nat; 1%nat] [tt]))).
  rewrite c84_single_call by exact I. rewrite c84_single_call by exact I. cbn [evaluations length].
  assert (length (ls (fst (step (demo PError) demo_state (OUpdate tt 0%nat tt false)))) = 2%nat) as ->; [|reflexivity].
  cbn [step]. rewrite update_unfold. cbn [Nat.eqb length ws ls demo_state]. cbv zeta. destruct (Rleb _ _); reflexivity.
Qed.

Print Assumptions c83_always_canonical.
Print Assumptions c83_resample_canonical.
Print Assumptions c83_flag_off.
Print Assumptions c84_single_call.
Print Assumptions c84_history.
Print Assumptions c84_prediction.
