(** Theorems for properties C01-C14.  Each is followed by its assumptions and by an example
    showing that a concrete non-trivial updater meets the hypotheses. *)
From Verif Require Import Base RList Ext SmcModel SmcSpec RiskModel RiskSpec
  SmcProofs SmcProofs2 SmcProofs3 RiskProofs RiskProofs2 SmcDemo.

Section Props.
Context {O E RND : Type}.
Notation state := (@state O).
Notation config := (@config O E RND).
Notation op := (@op O E RND).
Implicit Types (c : config) (s : state).

(** C01.  Unless the evidence of the datum is below machine epsilon, an update installs
    Bayes' rule, moves locations only by the model's time step, and with the resample check
    on it differs only by that check. *)
Theorem c01_update_is_bayes_rule c r s o e :
  length (ws s) = length (ls s) -> Forall (fun x => 0 <= x) (ws s) ->
  (forall o x e, 0 <= lik (md c) o x e) -> zthresh c < 1 -> eps <= evidence c s o e ->
  exists s', update c r s o e false = (s', None) /\
    length (ws s') = length (ws s) /\
    (forall i, (i < n_particles s)%nat ->
       wt s' i = bayes (n_particles s) (wt s) (fun i => lik (md c) o (at_ s i) e) i) /\
    ls s' = timestep (md c) r (ls s) e /\
    update c r s o e true = maybe_resample c r s'.
Proof. exact (c01_lem c r s o e). Qed.

(** A new updater: uniform weights over a sample of the prior, canonicalised if asked for, and empty records; only two conflicting
    ways of naming a resampler are refused. *)
Theorem c02_new_updater c r n : init c r n true = Err ValueError /\
  exists s0, init c r n false = Ok s0 /\ ws s0 = repeat (1 / INR n) n /\ ls s0 = (if canonize c then canon (md c) (prior c r n) else prior c r n) /\
    drec s0 = [] /\ nrec s0 = [] /\ mness s0 = Fin (INR n) /\ rcnt s0 = 0%nat /\ jr s0 = false.
Proof. split; [reflexivity|]. eexists. split; [reflexivity|]. cbn. repeat split; try reflexivity. unfold uniform_weights. f_equal. unfold Rdiv. now rewrite Rmult_1_l. Qed.

(** C02, for the policies 'error' and 'skip' (and unknown ones). *)
Theorem c02_weights_stay_probability c r n s0 (xs : list op) :
  good_config c -> eps <= zthresh c -> strict_policy c ->
  (0 < n)%nat -> init c r n false = Ok s0 -> Forall op_ok xs ->
  prob_vector (ws (run c s0 xs)).
Proof. exact (c02_lem c r n s0 xs). Qed.

(** C03 *)
Theorem c03_hypothetical_update_changes_nothing c s os es :
  same_but_calls s (fst (hypothetical_update c s os es)).
Proof. exact (hyp_same c s os es). Qed.

Theorem c03_arrays_agree_with_single_calls c s os es h :
  snd (hypothetical_update c s os es) = Ok h ->
  forall i j o e, nth_error os i = Some o -> nth_error es j = Some e ->
  exists h1 W N, snd (hypothetical_update c s [o] [e]) = Ok h1 /\
    h_weights h1 = [[W]] /\ h_norm h1 = [[N]] /\
    nth j (nth i (h_weights h) []) [] = W /\ nth j (nth i (h_norm h) []) 0 = N.
Proof. exact (hyp_entries c s os es h). Qed.

Theorem c03_prediction_is_what_update_installs c r s o e W N h :
  snd (hypothetical_update c s [o] [e]) = Ok h -> h_weights h = [[W]] -> h_norm h = [[N]] ->
  Forall (fun x => 0 <= x) W -> zthresh c < rsum W ->
  forall s', fst (update c r s o e false) = s' ->
  ws s' = W /\ nrec s' = nrec s ++ [N] /\ snd (update c r s o e false) = None.
Proof. exact (hyp_predicts c r s o e W N h). Qed.

(** C04: any history, with each batch replaced by the single calls it executed. *)
Theorem c04_records_tell_the_history c (xs : list op) s :
  good_config c -> Forall (fun x => 0 <= x) (ws s) ->
  exists ms Ns, expands xs ms /\ run c s xs = run c s ms /\
    drec (run c s xs) = drec s ++ outcomes_of ms /\
    applied_norms c s ms Ns /\ nrec (run c s xs) = nrec s ++ Ns.
Proof. exact (c04_lem c xs s). Qed.

(** C05 *)
Theorem c05_log_total_likelihood_is_log_evidence c rs data s :
  good_config c -> zthresh c < 1 -> full_inv s -> nrec s = [] -> regular c rs 0 data s ->
  exists x, log_total_likelihood (run c s (updates rs 0 data)) = Fin x /\
    exp x = Sum (n_particles s) (fun i => wt s i * path_lik c rs 0 data (ls s) i).
Proof. exact (c05_lem c rs data s). Qed.

(** C06 *)
Theorem c06_data_order_irrelevant c rs rs' data data' s :
  good_config c -> zthresh c < 1 -> full_inv s ->
  (forall r l e, timestep (md c) r l e = l) -> Permutation data data' ->
  regular c rs 0 data s -> regular c rs' 0 data' s ->
  ws (run c s (updates rs 0 data)) = ws (run c s (updates rs' 0 data')) /\
  ls (run c s (updates rs 0 data)) = ls (run c s (updates rs' 0 data')).
Proof. exact (c06_lem c rs rs' data data' s). Qed.

(** C07 *)
Theorem c07_batch_length_mismatch c rs s os es k :
  length es <> length os -> batch_update c rs s os es k = (s, Some ValueError).
Proof. intros H. unfold batch_update. destruct (Nat.eqb_spec (length es) (length os)); [contradiction|reflexivity]. Qed.

Theorem c07_batch_is_one_by_one c rs s os es k :
  length es = length os -> k <> 0%Z ->
  batch_update c rs s os es k = run_until_exn c s (batch_plan rs k 0 (combine os es)).
Proof. intros H Hk. unfold batch_update. rewrite H, Nat.eqb_refl. exact (batch_loop_plan c rs k _ Hk 0%nat s). Qed.

(** C08 *)
Theorem c08_error_and_skip_leave_posterior c r s o e check :
  good_config c -> length (ws s) = length (ls s) -> Forall (fun x => 0 <= x) (ws s) ->
  new_total c s o e <= zthresh c ->
  zpolicy c <> PIgnore -> zpolicy c <> PWarn -> zpolicy c <> PReset ->
  let s' := fst (update c r s o e check) in
  ws s' = ws s /\ ls s' = ls s /\ nrec s' = nrec s /\ mness s' = mness s /\ rcnt s' = rcnt s /\
  drec s' = drec s ++ [o] /\
  snd (update c r s o e check) =
    match zpolicy c with PError => Some RuntimeError | PSkip => None | _ => Some ValueError end.
Proof. exact (c08_error_skip c r s o e check). Qed.

Theorem c08_ignore_and_warn_carry_on c r s o e check p :
  length (ws s) = length (ls s) -> (p = PIgnore \/ p = PWarn) -> zpolicy c = p ->
  exists s1, update c r s o e check = (if check then maybe_resample c r s1 else (s1, None)) /\
    nrec s1 = nrec s ++ [evidence c s o e] /\ ls s1 = timestep (md c) r (ls s) e /\
    (good_config c -> Forall (fun x => 0 <= x) (ws s) -> rsum (ws s1) = new_total c s o e).
Proof. exact (c08_ignore_warn c r s o e check p). Qed.

Theorem c08_policy_has_no_influence_above_threshold c p q r s o e check :
  good_config c -> length (ws s) = length (ls s) -> Forall (fun x => 0 <= x) (ws s) ->
  zthresh c < new_total c s o e ->
  update (with_policy c p) r s o e check = update (with_policy c q) r s o e check.
Proof. exact (c08_above c p q r s o e check). Qed.

(** What 'reset' really does: fresh prior locations, but the vanishing weights are written
    over the uniform ones that reset installed. *)
Theorem c08_reset_policy_partial c r s o e :
  good_config c -> length (ws s) = length (ls s) -> Forall (fun x => 0 <= x) (ws s) ->
  zpolicy c = PReset -> new_total c s o e <= zthresh c ->
  let s' := fst (update c r s o e false) in
  ls s' = timestep (md c) r (if canonize c then canon (md c) (prior c r (n_particles s)) else prior c r (n_particles s)) e /\
  nrec s' = nrec s ++ [evidence c s o e] /\
  rsum (ws s') = new_total c s o e /\
  (forall i, (i < n_particles s)%nat -> evidence c s o e < eps -> wt s' i = wt s i * lik (md c) o (at_ s i) e).
Proof. exact (c08_reset_actual c r s o e). Qed.

(** C09 *)
Theorem c09_n_ess_bounds w : prob_vector w ->
  exists x, n_ess w = Fin x /\ 1 <= x <= INR (length w) /\
    (x = INR (length w) <-> forall y, In y w -> y = / INR (length w)) /\
    (x = 1 <-> exists i, (i < length w)%nat /\ nth i w 0 = 1 /\ forall j, j <> i -> nth j w 0 = 0).
Proof. exact (c09_bounds w). Qed.

Theorem c09_min_n_ess_never_increases c (xs : list op) s :
  mness s <> NaN -> mness (run c s xs) <> NaN /\ xle (mness (run c s xs)) (mness s).
Proof. exact (run_mness c xs s). Qed.

Theorem c09_min_n_ess_bounds_observed c r s o e check :
  good_config c -> Forall (fun x => 0 <= x) (ws s) ->
  mness s <> NaN -> length (ws s) = length (ls s) -> applied c (new_total c s o e) ->
  xle (mness (fst (update c r s o e check))) (n_ess (ws (fst (update c r s o e false)))).
Proof.
  intros G Hw Hn Hlen Ha. rewrite <- new_weights_total in Ha by (auto; apply (lik_nonneg c G)).
  destruct (update_mness_seen c r s o e check Hn Hlen Ha) as [-> H]. exact H.
Qed.

(** C10 *)
Theorem c10_resample_iff_ess_low c r s o e :
  good_config c -> length (ws s) = length (ls s) -> Forall (fun x => 0 <= x) (ws s) ->
  applied c (new_total c s o e) ->
  let s1 := fst (update c r s o e false) in
  let s2 := fst (update c r s o e true) in
  (ess_low c s1 = true -> update c r s o e true = resample c r s1 /\ rcnt s2 = S (rcnt s) /\ jr s2 = true) /\
  (ess_low c s1 = false -> update c r s o e true = (s1, None) /\ rcnt s2 = rcnt s /\ jr s2 = false).
Proof. exact (c10_update c r s o e). Qed.

Theorem c10_resample_count_is_exact c (xs : list op) s :
  good_config c -> Forall (fun x => 0 <= x) (ws s) ->
  exists ms k, expands xs ms /\ run c s xs = run c s ms /\ resample_total c s ms k /\
    rcnt (run c s xs) = (rcnt s + k)%nat.
Proof. exact (c10_history c xs s). Qed.

Theorem c10_just_resampled_flag c s (x : op) :
  good_config c -> Forall (fun x => 0 <= x) (ws s) -> no_batch x ->
  match x with
  | OUpdate _ _ _ _ | OResample _ => jr (fst (step c s x)) = true <-> resamples c s x
  | OCheck _ => jr (fst (step c s x)) = true <-> jr s = true \/ resamples c s x
  | _ => jr (fst (step c s x)) = jr s
  end.
Proof. exact (c10_flag c s x). Qed.

(** C11 *)
Theorem c11_reset_from_prior c r s np rw :
  let n := match np with Some n => n | None => n_particles s end in
  let s' := fst (reset c r s np None rw) in
  snd (reset c r s np None rw) = None /\
  ws s' = (if rw then repeat (/ INR n) n else ws s) /\
  ls s' = (if canonize c then canon (md c) (prior c r n) else prior c r n) /\
  drec s' = drec s /\ nrec s' = nrec s /\ rcnt s' = rcnt s.
Proof. exact (c11_full c r s np rw). Qed.

Theorem c11_reset_only_params c r s sel rw d :
  good_config c -> NoDup sel -> (forall j, In j sel -> (j < d)%nat) ->
  (forall row, In row (ls s) -> length row = d) ->
  (forall m, (forall row, In row m -> length row = length sel) ->
     forall row, In row (canon (md c) m) -> length row = length sel) ->
  let s' := fst (reset c r s None (Some sel) rw) in
  let fresh := map (fun row => map (fun j => nth j row 0) sel) (prior c r (n_particles s)) in
  length (ls s') = length (ls s) /\
  ws s' = (if rw then repeat (/ INR (n_particles s)) (n_particles s) else ws s) /\
  (forall i j, (i < n_particles s)%nat -> ~ In j sel -> nth j (at_ s' i) 0 = nth j (at_ s i) 0) /\
  (forall i k, (i < n_particles s)%nat -> (k < length sel)%nat ->
     nth (nth k sel 0%nat) (at_ s' i) 0
     = nth k (nth i (if canonize c then canon (md c) fresh else fresh) []) 0).
Proof. exact (c11_only c r s sel rw d). Qed.

Theorem c11_reset_both_rejected c r s n sel rw : reset c r s (Some n) (Some sel) rw = (s, Some ValueError).
Proof. reflexivity. Qed.

(** C12 *)
Theorem c12_update_commutes_with_permutation c p s r o e :
  length (ws s) = length (ls s) -> Permutation p (seq 0 (length (ls s))) -> zpolicy c <> PReset ->
  (forall l e, length l = length (ls s) -> timestep (md c) r (permute p l []) e = permute p (timestep (md c) r l e) []) ->
  update c r (permute_state p s) o e false =
  (permute_state p (fst (update c r s o e false)), snd (update c r s o e false)).
Proof. intros H1 H2. exact (update_perm c p s H1 H2 r o e). Qed.

Theorem c12_estimates_invariant c Q p s os e :
  length (ws s) = length (ls s) -> Permutation p (seq 0 (length (ls s))) ->
  let s' := permute_state p s in
  n_ess (ws s') = n_ess (ws s) /\
  (forall o e, norm_scale c (ws s') (ls s') o e = norm_scale c (ws s) (ls s) o e) /\
  (forall d, particle_mean d (ws s') (ls s') = particle_mean d (ws s) (ls s)) /\
  (forall m n, particle_cov (ws s') (ls s') m n = particle_cov (ws s) (ls s) m n) /\
  bayes_risk1 c Q (ws s') (ls s') os e = bayes_risk1 c Q (ws s) (ls s) os e.
Proof.
  intros H1 H2. split; [|split; [|split; [|split]]]; cbn [permute_state ws ls].
  - apply n_ess_perm. now rewrite H1.
  - intros. now apply norm_scale_perm.
  - intros. now apply mean_perm.
  - intros. now apply cov_perm.
  - now apply bayes_risk_perm.
Qed.

(** C13 *)
Theorem c13_bayes_risk_is_expected_posterior_loss c Q s os e o_last :
  length (ws s) = length (ls s) -> prob_vector (ws s) -> (forall o x e, 0 <= lik (md c) o x e) ->
  os = removelast os ++ [o_last] ->
  (forall i, (i < n_particles s)%nat -> SumL os (fun o => lik (md c) o (at_ s i) e) = 1) ->
  (forall o, In o (removelast os) -> evidence c s o e = 0 \/ eps <= evidence c s o e) ->
  0 < evidence c s o_last e ->
  bayes_risk1 c Q (ws s) (ls s) os e = Fin (expected_posterior_loss c Q s os e).
Proof. exact (c13_value c Q s os e o_last). Qed.

Theorem c13_expected_loss_bounds c Q s os e :
  Forall (fun x => 0 <= x) Q -> length (ws s) = length (ls s) -> prob_vector (ws s) ->
  (forall o x e, 0 <= lik (md c) o x e) ->
  (forall i, (i < n_particles s)%nat -> SumL os (fun o => lik (md c) o (at_ s i) e) = 1) ->
  0 <= expected_posterior_loss c Q s os e <= loss Q s (wt s).
Proof. exact (c13_bounds c Q s os e). Qed.

(** The claim fails whenever the last outcome is impossible: the result is NaN. *)
Theorem c13_last_outcome_impossible_refuted c Q s os e o_last :
  length (ws s) = length (ls s) -> prob_vector (ws s) -> (forall o x e, 0 <= lik (md c) o x e) ->
  os = removelast os ++ [o_last] ->
  (forall i, (i < n_particles s)%nat -> SumL os (fun o => lik (md c) o (at_ s i) e) = 1) ->
  evidence c s o_last e = 0 ->
  bayes_risk1 c Q (ws s) (ls s) os e = NaN /\ eig1 c (ws s) (ls s) os e = NaN.
Proof. exact (c13_nan c Q s os e o_last). Qed.

(** Arrays of experiments, one outcome list per experiment or a common one. *)
Theorem c13_array_of_experiments c Q dom const s es :
  es <> [] -> (const = true -> forall e e', In e es -> In e' es -> dom e = dom e') ->
  bayes_risk c Q dom const s es = Ok (map (fun e => bayes_risk1 c Q (ws s) (ls s) (dom e) e) es).
Proof.
  intros Hne Hc. unfold bayes_risk, per_experiment. destruct es as [|e0 es]; [contradiction|].
  destruct const.
  - rewrite andb_false_r. f_equal. apply map_ext_in. intros e He. now rewrite (Hc eq_refl e0 e (or_introl eq_refl) He).
  - destruct es as [|e1 es]; [reflexivity|]. reflexivity.
Qed.

(** C14 *)
Theorem c14_information_gain_is_mutual_information c s os e o_last :
  length (ws s) = length (ls s) -> Forall (fun x => 0 < x) (ws s) -> prob_vector (ws s) ->
  (forall o x, In o os -> In x (ls s) -> 0 < lik (md c) o x e) ->
  os = removelast os ++ [o_last] ->
  (forall i, (i < n_particles s)%nat -> SumL os (fun o => lik (md c) o (at_ s i) e) = 1) ->
  (forall o, In o (removelast os) -> eps <= evidence c s o e) ->
  eig1 c (ws s) (ls s) os e = Fin (mutual_information c s os e).
Proof. exact (c14_value c s os e o_last). Qed.

Theorem c14_mutual_information_bounds c s os e :
  length (ws s) = length (ls s) -> Forall (fun x => 0 < x) (ws s) -> prob_vector (ws s) ->
  (forall o x, In o os -> In x (ls s) -> 0 < lik (md c) o x e) ->
  (forall i, (i < n_particles s)%nat -> SumL os (fun o => lik (md c) o (at_ s i) e) = 1) ->
  0 <= mutual_information c s os e <= entropy s.
Proof. exact (c14_bounds c s os e). Qed.

(** A single particle that rules out a single (non-final) outcome makes the result NaN. *)
Theorem c14_zero_probability_refuted c s os e o i :
  length (ws s) = length (ls s) -> Forall (fun x => 0 <= x) (ws s) ->
  In o (removelast os) -> (i < n_particles s)%nat ->
  wt s i * lik (md c) o (at_ s i) e = 0 ->
  eig1 c (ws s) (ls s) os e = NaN.
Proof. exact (c14_nan c s os e o i). Qed.

(** The last outcome is no exception, so the number is the mutual information exactly when every particle has a positive weight and
    allows every outcome, and NaN otherwise. *)
Theorem c14_information_or_nan c s os e o_last :
  length (ws s) = length (ls s) -> prob_vector (ws s) -> (forall o x e, 0 <= lik (md c) o x e) ->
  os = removelast os ++ [o_last] ->
  (forall i, (i < n_particles s)%nat -> SumL os (fun o => lik (md c) o (at_ s i) e) = 1) ->
  (forall o, In o (removelast os) -> eps <= evidence c s o e) ->
  ((forall o i, In o os -> (i < n_particles s)%nat -> 0 < wt s i * lik (md c) o (at_ s i) e) /\ eig1 c (ws s) (ls s) os e = Fin (mutual_information c s os e)) \/
  ((exists o i, In o os /\ (i < n_particles s)%nat /\ wt s i * lik (md c) o (at_ s i) e = 0) /\ eig1 c (ws s) (ls s) os e = NaN).
Proof. exact (c14_dichotomy c s os e o_last). Qed.
End Props.

(** Refutations by witness: policies under which C02 and C08 fail. *)
Theorem c02_permissive_policies_refuted :
  forall p, p = PIgnore \/ p = PWarn \/ p = PReset ->
  exists (c : @config nat unit unit) s0 xs,
    zpolicy c = p /\ good_config c /\ eps <= zthresh c /\ init c tt 2 false = Ok s0 /\ Forall op_ok xs /\
    ~ prob_vector (ws (run c s0 xs)).
Proof. exact c02_permissive_policies_refuted_lem. Qed.

(** With a threshold below machine epsilon even 'error' lets an un-normalised vector through. *)
Theorem c02_small_threshold_refuted :
  exists (c : @config nat unit unit) s0 xs,
    zpolicy c = PError /\ good_config c /\ 0 <= zthresh c < eps /\ init c tt 2 false = Ok s0 /\ Forall op_ok xs /\
    ~ prob_vector (ws (run c s0 xs)).
Proof. exact c02_small_threshold_refuted_lem. Qed.

(** After the 'reset' policy fires, the weights are not the uniform ones of a fresh prior cloud. *)
Theorem c08_reset_policy_refuted :
  exists (c : @config nat unit unit) s o,
    zpolicy c = PReset /\ good_config c /\ full_inv s /\ new_total c s o tt <= zthresh c /\
    ws (fst (update c tt s o tt false)) <> uniform_weights (n_particles s).
Proof. exact c08_reset_policy_refuted_lem. Qed.

(** [just_resampled] stays set when the posterior is thrown away by reset(), so it does not
    tell whether the latest operation resampled. *)
Theorem c10_flag_after_reset_refuted :
  exists (c : @config nat unit unit) s,
    jr (run c s [OResample tt; OReset tt None None true]) = true.
Proof. exact c10_flag_after_reset_refuted_lem. Qed.

(** ** Non-vacuity *)
Example ex_c01 : exists s', update (demo PError) tt demo_state 0%nat tt false = (s', None) /\ wt s' 0 = 1/4 /\ wt s' 1 = 3/4.
Proof.
  destruct (c01_update_is_bayes_rule (demo PError) tt demo_state 0%nat tt) as (s' & H1 & _ & H2 & _).
  - reflexivity.
  - apply demo_inv.
  - apply (lik_nonneg _ (demo_good PError)).
  - cbn. pose proof eps_small_half. lra.
  - rewrite demo_evidence0. pose proof eps_small_half. lra.
  - exists s'. split; [exact H1|]. rewrite !H2 by (cbn; lia). unfold bayes, Sum, wt, at_, demo_state; cbn.
    rewrite Reqb_true by reflexivity. rewrite Reqb_false by lra. split; field.
Qed.

Example ex_c02 : prob_vector (ws (run (demo PError) demo_state
  [OUpdate tt 0%nat tt true; OUpdate tt 2%nat tt true; OBatch (fun _ => tt) [0;1;0]%nat [tt;tt;tt] 2; OResample tt; OReset tt (Some 5%nat) None true])).
Proof.
  apply (c02_weights_stay_probability (demo PError) tt 2 demo_state).
  - apply demo_good.
  - cbn. pose proof eps_pos. lra.
  - left; reflexivity.
  - lia.
  - apply demo_init.
  - repeat constructor.
Qed.

Example ex_c05_c06_regular : regular (demo PError) (fun _ => tt) 0 [(0%nat, tt); (1%nat, tt)] demo_state.
Proof.
  cbn [regular]. pose proof eps_small_half as He. split; [rewrite demo_evidence0; lra|].
  split; [|exact I].
  destruct (c01_update_is_bayes_rule (demo PError) tt demo_state 0%nat tt) as (s' & H1 & H0 & H2 & H3 & _).
  - reflexivity.
  - apply demo_inv.
  - apply (lik_nonneg _ (demo_good PError)).
  - cbn. lra.
  - rewrite demo_evidence0. lra.
  - rewrite H1. cbn [fst]. unfold evidence, n_particles, at_. rewrite H3. unfold Sum. cbn [demo md demo_model timestep demo_state ls length seq fold_right].
    rewrite !H2 by (cbn; lia). unfold bayes, Sum, wt, at_, demo_state; cbn.
    rewrite Reqb_true by reflexivity. rewrite Reqb_false by lra. lra.
Qed.

Example ex_c08 : new_total (demo PSkip) demo_state 2%nat tt <= zthresh (demo PSkip).
Proof.
  unfold new_total. rewrite demo_evidence2. pose proof eps_pos. destruct (Rlt_dec 0 eps); cbn; lra.
Qed.

Example ex_c12 : Permutation [1;0]%nat (seq 0 (length (ls demo_state))).
Proof. cbn. apply perm_swap. Qed.

Example ex_c13_c14 : lik_normalised (demo PError) demo_state [0;1]%nat tt /\ 0 < evidence (demo PError) demo_state 1%nat tt /\
  (forall o x, In o [0;1]%nat -> In x (ls demo_state) -> 0 < lik (md (demo PError)) o x tt).
Proof.
  split; [apply demo_norm|]. split.
  - unfold evidence, Sum, wt, at_, demo_state; cbn. rewrite Reqb_true by reflexivity. rewrite Reqb_false by lra. lra.
  - intros o x Ho _. cbn. unfold demo_lik. destruct Ho as [<-|[<-|[]]]; destruct (Reqb _ _); lra.
Qed.

Example ex_c13_refuted : lik_normalised (demo PError) demo_state [0;1;2]%nat tt /\ evidence (demo PError) demo_state 2%nat tt = 0.
Proof.
  split; [|apply demo_evidence2]. intros i Hi. unfold SumL. cbn. unfold demo_lik. destruct (Reqb _ _); lra.
Qed.

Print Assumptions c01_update_is_bayes_rule.
Print Assumptions c02_weights_stay_probability.
Print Assumptions c03_hypothetical_update_changes_nothing.
Print Assumptions c03_arrays_agree_with_single_calls.
Print Assumptions c03_prediction_is_what_update_installs.
Print Assumptions c04_records_tell_the_history.
Print Assumptions c05_log_total_likelihood_is_log_evidence.
Print Assumptions c06_data_order_irrelevant.
Print Assumptions c07_batch_length_mismatch.
Print Assumptions c07_batch_is_one_by_one.
Print Assumptions c08_error_and_skip_leave_posterior.
Print Assumptions c08_ignore_and_warn_carry_on.
Print Assumptions c08_policy_has_no_influence_above_threshold.
Print Assumptions c08_reset_policy_partial.
Print Assumptions c09_n_ess_bounds.
Print Assumptions c09_min_n_ess_never_increases.
Print Assumptions c09_min_n_ess_bounds_observed.
Print Assumptions c10_resample_iff_ess_low.
Print Assumptions c10_resample_count_is_exact.
Print Assumptions c10_just_resampled_flag.
Print Assumptions c11_reset_from_prior.
Print Assumptions c11_reset_only_params.
Print Assumptions c11_reset_both_rejected.
Print Assumptions c12_update_commutes_with_permutation.
Print Assumptions c12_estimates_invariant.
Print Assumptions c13_bayes_risk_is_expected_posterior_loss.
Print Assumptions c13_expected_loss_bounds.
Print Assumptions c13_last_outcome_impossible_refuted.
Print Assumptions c13_array_of_experiments.
Print Assumptions c14_information_gain_is_mutual_information.
Print Assumptions c14_mutual_information_bounds.
Print Assumptions c14_zero_probability_refuted.
Print Assumptions c14_information_or_nan.
Print Assumptions c02_permissive_policies_refuted.
Print Assumptions c02_small_threshold_refuted.
Print Assumptions c08_reset_policy_refuted.
Print Assumptions c10_flag_after_reset_refuted.
Print Assumptions c02_new_updater.
