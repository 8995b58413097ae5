(** C131: reports are calibrated and estimates are the best possible, on average over the prior and the data.  The truth is drawn from the
    cloud by weight, the data from its likelihood; experiments may be chosen adaptively and the study may end at any time that depends on
    the data; nothing is resampled. *)
From Verif Require Import Base RList Ext Sums SmcModel SmcSpec SmcProofs RiskModel RiskSpec CountProofs CountProps DerProofs LinProofs PartModel PartSpec PartProofs PartProps PartProps2 LearnSpec LearnProofs RateSpec RateProofs RateProps CalSpec CalProofs.
From Verif Require SmcProps.
From Coq Require Import List.

Section Props.
Context {O E RND : Type}.
Implicit Types (c : @config O E RND) (s : @state O).

(** The records and truths are distributed with total probability one. *)
Theorem c131_total c rs stop dom V pol n s : study c rs stop dom V pol n s -> drawn c rs s (sessions stop dom pol n []) (fun _ _ => 1) = 1.
Proof.
  intros HS. rewrite (drawn_predictive c rs dom V pol stop n s HS). rewrite (SumL_ext _ _ (predictive c rs s)); [exact (study_total c rs dom V pol stop n s HS)|].
  intros data Hin. destruct (Req_EM_T (predictive c rs s data) 0) as [Z|Z]; [rewrite Z; ring|]. destruct (possible_facts c rs dom V pol stop n s HS data Hin Z) as [F1 F2].
  rewrite (Sum_ext _ _ (fun t => wt (final c rs s data) t)) by (intros; ring). rewrite <- F2, full_inv_Sum by assumption. ring.
Qed.
(** Any region that always holds more than [level] of the final weight contains the truth with more than that probability. *)
Theorem c131_any_region c rs stop dom V pol n s level (region : list (O * E) -> nat -> bool) : study c rs stop dom V pol n s ->
  (forall data, In data (sessions stop dom pol n []) -> predictive c rs s data <> 0 -> level < Sum (n_particles s) (fun t => wt (final c rs s data) t * indicator (region data t))) ->
  level < drawn c rs s (sessions stop dom pol n []) (fun t data => indicator (region data t)).
Proof. intros HS H. rewrite (drawn_predictive c rs dom V pol stop n s HS). apply (SumL_strict c rs dom V pol stop n s HS). exact H. Qed.
(** The credible region reported at the end contains the truth with at least the announced probability; [sort] is any sorting of weights, [slice]
    any selection of parameters. *)
Theorem c131_credible_region c rs stop dom V pol n s sort slice level : study c rs stop dom V pol n s -> 0 <= level < 1 -> (forall w, prob_vector w -> argsorts (sort w) w) ->
  let report data := est_credible_region (sort (ws (final c rs s data))) slice (ws (final c rs s data)) (ls (final c rs s data)) level in
  (forall data, In data (sessions stop dom pol n []) -> predictive c rs s data <> 0 -> exists r, report data = Ok r) /\
  level < drawn c rs s (sessions stop dom pol n []) (fun t data => match report data with Ok (inside, _) => among (slice (at_ (final c rs s data) t)) inside | Err _ => 0 end).
Proof.
  intros HS Hl Hs report.
  assert (X : forall data, In data (sessions stop dom pol n []) -> predictive c rs s data <> 0 -> exists inside outside, report data = Ok (inside, outside)).
  { intros data Hin Hp. destruct (possible_facts c rs dom V pol stop n s HS data Hin Hp) as [[F0 F1] F2].
    destruct (c18_credible_region (sort (ws (final c rs s data))) slice _ _ level F1 (eq_sym F0) (Hs _ F1) Hl) as (I & i & J & E1 & _). unfold report. rewrite E1. eauto. }
  split; [intros data Hin Hp; destruct (X data Hin Hp) as (a & b & ->); eauto|].
  rewrite (drawn_predictive c rs dom V pol stop n s HS). apply (SumL_strict c rs dom V pol stop n s HS). intros data Hin Hp.
  destruct (X data Hin Hp) as (inside & outside & Er). rewrite Er. destruct (possible_facts c rs dom V pol stop n s HS data Hin Hp) as [F F2]. pose proof F as [F0 F1].
  destruct (c112_smallest _ slice _ _ level inside outside F1 (eq_sym F0) (Hs _ F1) Hl Er) as (I & -> & HN & HI & Hm & _).
  apply Rlt_le_trans with (1 := Hm). unfold mass. apply SumL_NoDup_le; [assumption| | |].
  - intros i Hi. specialize (HI i Hi). rewrite F0 in HI. unfold n_particles in F2. unfold n_particles. lia.
  - intros i Hi. unfold among. destruct (in_dec _ _ _) as [_|No]; [unfold wt; lra|]. elim No. apply in_map_iff. exists i. now split.
  - intros i Hi. apply Rmult_le_pos; [apply (wt_range _ i F)|]. unfold among. destruct (in_dec _ _ _); lra.
Qed.
(** Weights are honest probabilities: on any set of records on which particle [i] ends with a weight between [a] and [b], it is the truth
    with a conditional probability between [a] and [b]. *)
Theorem c131_weights_are_calibrated c rs stop dom V pol n s i (P : list (O * E) -> bool) a b : study c rs stop dom V pol n s -> (i < n_particles s)%nat ->
  (forall data, In data (sessions stop dom pol n []) -> predictive c rs s data <> 0 -> P data = true -> a <= wt (final c rs s data) i <= b) ->
  let happens := drawn c rs s (sessions stop dom pol n []) (fun _ data => indicator (P data)) in
  let true_as_well := drawn c rs s (sessions stop dom pol n []) (fun t data => indicator (P data && Nat.eqb t i)) in
  a * happens <= true_as_well <= b * happens.
Proof.
  intros HS Hi HP happens true_as_well.
  assert (H1 : happens = SumL (sessions stop dom pol n []) (fun data => predictive c rs s data * indicator (P data))).
  { unfold happens. rewrite (drawn_predictive c rs dom V pol stop n s HS). apply SumL_ext. intros data Hin. destruct (Req_EM_T (predictive c rs s data) 0) as [Z|Z]; [rewrite Z; ring|].
    destruct (possible_facts c rs dom V pol stop n s HS data Hin Z) as [F1 F2]. rewrite Sum_scal_r, <- F2, full_inv_Sum by assumption. ring. }
  assert (H2 : true_as_well = SumL (sessions stop dom pol n []) (fun data => predictive c rs s data * (wt (final c rs s data) i * indicator (P data)))).
  { unfold true_as_well. rewrite (drawn_predictive c rs dom V pol stop n s HS). apply SumL_ext. intros data Hin. f_equal.
    rewrite (Sum_single _ i) by (first [assumption | intros k _ Hk; rewrite (proj2 (Nat.eqb_neq k i) Hk), andb_false_r; unfold indicator; ring]). now rewrite Nat.eqb_refl, andb_true_r. }
  rewrite H1, H2, <- !SumL_scal. split; apply SumL_le; intros data Hin; (destruct (Req_EM_T (predictive c rs s data) 0) as [Z|Z]; [rewrite Z; lra|]); pose proof (predictive_nonneg c rs dom V pol stop n s HS data) as Pn;
    (destruct (P data) eqn:Ep; unfold indicator; [|lra]); specialize (HP data Hin Z Ep); nra.
Qed.
(** The expected error of any estimate is the expected final variance plus the expected squared distance from the posterior mean. *)
Theorem c131_error_of_an_estimate c rs stop dom V pol n s d Q (estimate : list (O * E) -> loc) : study c rs stop dom V pol n s ->
  drawn c rs s (sessions stop dom pol n []) (fun t data => squared_error d Q (estimate data) (at_ (final c rs s data) t)) =
  averaged c rs s (sessions stop dom pol n []) (fun s' => Sum d (fun j => Q j * particle_cov (ws s') (ls s') j j)) +
  SumL (sessions stop dom pol n []) (fun data => predictive c rs s data * squared_error d Q (estimate data) (particle_mean d (ws (final c rs s data)) (ls (final c rs s data)))).
Proof. intros HS. exact (drawn_error c rs dom V pol stop n s HS d Q estimate). Qed.
Lemma squared_error_self d Q x : squared_error d Q x x = 0.
Proof. unfold squared_error. apply Sum_zero. intros; ring. Qed.
Lemma squared_error_nonneg d Q x y : (forall j, 0 <= Q j) -> 0 <= squared_error d Q x y.
Proof. intros H. apply Sum_nonneg. intros j _. apply Rmult_le_pos; [apply H|apply pow2_ge_0]. Qed.
(** So no estimate whatever beats the posterior mean, whose expected error is the expected final variance; *)
Theorem c131_mean_is_best c rs stop dom V pol n s d Q (estimate : list (O * E) -> loc) : study c rs stop dom V pol n s -> (forall j, 0 <= Q j) ->
  let mean data := particle_mean d (ws (final c rs s data)) (ls (final c rs s data)) in
  drawn c rs s (sessions stop dom pol n []) (fun t data => squared_error d Q (mean data) (at_ (final c rs s data) t)) =
    averaged c rs s (sessions stop dom pol n []) (fun s' => Sum d (fun j => Q j * particle_cov (ws s') (ls s') j j)) /\
  drawn c rs s (sessions stop dom pol n []) (fun t data => squared_error d Q (mean data) (at_ (final c rs s data) t)) <=
  drawn c rs s (sessions stop dom pol n []) (fun t data => squared_error d Q (estimate data) (at_ (final c rs s data) t)).
Proof.
  intros HS HQ mean. rewrite !(c131_error_of_an_estimate c rs stop dom V pol n s d Q _ HS).
  assert (Z : SumL (sessions stop dom pol n []) (fun data => predictive c rs s data * squared_error d Q (mean data) (particle_mean d (ws (final c rs s data)) (ls (final c rs s data)))) = 0).
  { rewrite (SumL_ext _ _ (fun _ => 0 * 0)) by (intros data _; unfold mean; rewrite squared_error_self; ring). rewrite SumL_scal. ring. }
  rewrite Z. split; [lra|]. apply Rplus_le_compat_l. apply SumL_nonneg. intros data _. apply Rmult_le_pos; [exact (predictive_nonneg c rs dom V pol stop n s HS data)|now apply squared_error_nonneg].
Qed.
(** and an estimate that does as well agrees with it on every possible record, in every parameter that counts. *)
Theorem c131_only_the_mean_is_best c rs stop dom V pol n s d Q (estimate : list (O * E) -> loc) : study c rs stop dom V pol n s -> (forall j, 0 <= Q j) ->
  let mean data := particle_mean d (ws (final c rs s data)) (ls (final c rs s data)) in
  drawn c rs s (sessions stop dom pol n []) (fun t data => squared_error d Q (estimate data) (at_ (final c rs s data) t)) <=
  drawn c rs s (sessions stop dom pol n []) (fun t data => squared_error d Q (mean data) (at_ (final c rs s data) t)) ->
  forall data j, In data (sessions stop dom pol n []) -> predictive c rs s data <> 0 -> (j < d)%nat -> 0 < Q j -> nth j (estimate data) 0 = nth j (mean data) 0.
Proof.
  intros HS HQ mean Hle data j Hin Hp Hj Hq. destruct (c131_mean_is_best c rs stop dom V pol n s d Q estimate HS HQ) as [E1 _]. cbv zeta in E1. change (fun (t : nat) (data : list (O * E)) => squared_error d Q (particle_mean d (ws (final c rs s data)) (ls (final c rs s data))) (at_ (final c rs s data) t)) with (fun t data => squared_error d Q (mean data) (at_ (final c rs s data) t)) in E1. rewrite E1 in Hle.
  rewrite (c131_error_of_an_estimate c rs stop dom V pol n s d Q _ HS) in Hle.
  destruct (Req_EM_T (nth j (estimate data) 0) (nth j (mean data) 0)) as [D|D]; [exact D|exfalso].
  assert (Pn : forall a, 0 <= predictive c rs s a) by (intros; exact (predictive_nonneg c rs dom V pol stop n s HS _)).
  assert (Sj : 0 < squared_error d Q (estimate data) (mean data)).
  { unfold squared_error. apply Rlt_le_trans with (Q j * (nth j (estimate data) 0 - nth j (mean data) 0) ^ 2).
    - apply Rmult_lt_0_compat; [assumption|]. assert (nth j (estimate data) 0 - nth j (mean data) 0 <> 0) by lra. rewrite <- Rsqr_pow2. now apply Rsqr_pos_lt.
    - apply Rle_trans with (SumL [j] (fun k => Q k * (nth k (estimate data) 0 - nth k (mean data) 0) ^ 2)); [unfold SumL; cbn [fold_right]; lra|].
      apply SumL_NoDup_le; [constructor; [easy|constructor]|intros k [<-|[]]; assumption|intros; lra|]. intros k _. apply Rmult_le_pos; [apply HQ|apply pow2_ge_0]. }
  assert (0 < SumL (sessions stop dom pol n []) (fun data => predictive c rs s data * squared_error d Q (estimate data) (mean data))); [|unfold mean in *; lra].
  apply Rle_lt_trans with (SumL (sessions stop dom pol n []) (fun _ : list (O * E) => 0)); [rewrite (SumL_ext _ _ (fun _ => 0 * 0)) by (intros; ring); rewrite SumL_scal; lra|].
  apply (SumL_lt _ _ _ data Hin); [apply Rmult_lt_0_compat; [specialize (Pn data); lra|assumption]|]. intros a _. apply Rmult_le_pos; [apply Pn|now apply squared_error_nonneg].
Qed.
(** More data never hurt: a study that goes on at least as long ends with an expected error that is not larger (for resting particles). *)
Theorem c131_longer_studies_are_better c rs stop stop' dom V pol n n' s d Q : study c rs stop dom V pol n s -> study c rs stop' dom V pol n' s ->
  (forall r l e, timestep (md c) r l e = l) -> (forall hist, stop' hist = true -> stop hist = true) -> (n <= n')%nat -> (forall j, 0 <= Q j) ->
  let mean data := particle_mean d (ws (final c rs s data)) (ls (final c rs s data)) in
  drawn c rs s (sessions stop' dom pol n' []) (fun t data => squared_error d Q (mean data) (at_ s t)) <=
  drawn c rs s (sessions stop dom pol n []) (fun t data => squared_error d Q (mean data) (at_ s t)).
Proof.
  intros HS HS' Hst Hl Hn HQ mean.
  assert (E1 : drawn c rs s (sessions stop dom pol n []) (fun t data => squared_error d Q (mean data) (at_ s t)) =
               drawn c rs s (sessions stop' dom pol n' []) (fun t data => squared_error d Q (mean (cut stop n [] data)) (at_ s t))).
  { unfold drawn. apply Sum_ext. intros t Hlt. f_equal. unfold generated. symmetry.
    apply (cut_average c rs dom V pol stop stop' Hl (fun data => squared_error d Q (mean data) (at_ s t)) (step_len c (st_config _ _ _ _ _ _ _ _ HS)) (st_normal _ _ _ _ _ _ _ _ HS) (st_step _ _ _ _ _ _ _ _ HS) n' n [] [] 0%nat (ls s) t Hn (st_valid _ _ _ _ _ _ _ _ HS) Hlt). }
  rewrite E1. pose proof (proj2 (c131_mean_is_best c rs stop' dom V pol n' s d Q (fun data => mean (cut stop n [] data)) HS' HQ)) as B. cbn beta in B.
  assert (X : forall est, drawn c rs s (sessions stop' dom pol n' []) (fun t data => squared_error d Q (est data) (at_ (final c rs s data) t)) = drawn c rs s (sessions stop' dom pol n' []) (fun t data => squared_error d Q (est data) (at_ s t))).
  { intros est. rewrite !(drawn_predictive c rs dom V pol stop' n' s HS'). apply SumL_ext. intros data Hin. destruct (st_regular _ _ _ _ _ _ _ _ HS' data Hin) as [Z|Z]; [rewrite Z; ring|]. f_equal. apply Sum_ext. intros t _. do 2 f_equal.
    unfold at_, final. now rewrite (run_static_ls c rs data Hst (st_config _ _ _ _ _ _ _ _ HS') (st_threshold _ _ _ _ _ _ _ _ HS') 0%nat s (st_state _ _ _ _ _ _ _ _ HS') Z). }
  rewrite !X in B. exact B.
Qed.

(** ** Choosing the next experiment *)
(** Expected error of an estimate that depends on the outcome of one more experiment *)
Definition next_error c (Q : list R) s (os : list O) (e : E) (estimate : O -> loc) : R :=
  Sum (n_particles s) (fun t => wt s t * SumL os (fun o => lik (md c) o (at_ s t) e * squared_error (length Q) (fun j => nth j Q 0) (estimate o) (at_ s t))).
Lemma nth_map_seq0 (f : nat -> R) m j : (j < m)%nat -> nth j (map f (seq 0 m)) 0 = f j.
Proof. intros H. rewrite (nth_indep (map f (seq 0 m)) 0 (f 0%nat)) by (now rewrite map_length, seq_length). rewrite (map_nth f), seq_nth by assumption. reflexivity. Qed.
Lemma next_error_split c Q s os e estimate : full_inv s -> (forall o x e, 0 <= lik (md c) o x e) ->
  next_error c Q s os e estimate = expected_posterior_loss c Q s os e +
    SumL os (fun o => evidence c s o e * squared_error (length Q) (fun j => nth j Q 0) (estimate o) (map (fun j => Sum (n_particles s) (fun i => posterior c s o e i * nth j (at_ s i) 0)) (seq 0 (length Q)))).
Proof.
  intros Hinv Hlik. unfold next_error, expected_posterior_loss. rewrite <- SumL_plus'.
  rewrite (Sum_ext _ _ (fun t => SumL os (fun o => wt s t * (lik (md c) o (at_ s t) e * squared_error (length Q) (fun j => nth j Q 0) (estimate o) (at_ s t))))) by (intros; now rewrite SumL_scal).
  rewrite <- SumL_Sum_swap. apply SumL_ext. intros o _. rewrite <- Rmult_plus_distr_l. unfold evidence.
  set (L := fun i => wt s i * lik (md c) o (at_ s i) e). set (Z := Sum (n_particles s) L). change (Sum (n_particles s) (fun i => wt s i * lik (md c) o (at_ s i) e)) with Z.
  assert (Ln : forall i, 0 <= L i) by (intros i; unfold L; apply Rmult_le_pos; [apply (wt_range s i Hinv)|apply Hlik]).
  destruct (Req_EM_T Z 0) as [Z0|Z0].
  { rewrite Z0, Rmult_0_l. apply Sum_zero. intros t Hlt. pose proof (Sum_zero_each _ _ t (fun j _ => Ln j) Z0 Hlt) as W. unfold L in W. cbn beta in W. rewrite <- Rmult_assoc, W. ring. }
  set (p := fun i => posterior c s o e i). assert (Pp : forall i, L i = Z * p i) by (intros i; assert (Eb : p i = L i / Z) by reflexivity; rewrite Eb; field; assumption).
  assert (P1 : Sum (n_particles s) p = 1). { apply (Rmult_eq_reg_l Z); [|assumption]. rewrite <- Sum_scal, <- (Sum_ext _ _ _ (fun i _ => Pp i)). unfold Z. ring. }
  rewrite (Sum_ext _ _ (fun t => Z * Sum (length Q) (fun j => nth j Q 0 * (p t * (nth j (estimate o) 0 - nth j (at_ s t) 0) ^ 2)))).
  2:{ intros t _. rewrite <- Rmult_assoc. fold (L t). change (wt s t * lik (md c) o (at_ s t) e) with (L t). rewrite Pp, Rmult_assoc. f_equal. unfold squared_error. rewrite <- Sum_scal. apply Sum_ext. intros; ring. }
  rewrite Sum_scal. f_equal. rewrite Sum_swap. unfold loss, squared_error. rewrite <- Sum_plus. apply Sum_ext. intros j Hj. rewrite Sum_scal, <- Rmult_plus_distr_l. f_equal.
  rewrite split_error by assumption. unfold variance. fold p.
  rewrite (Sum_ext _ (fun i => p i * (nth j (at_ s i) 0 - Sum (n_particles s) (fun k => p k * nth j (at_ s k) 0)) ^ 2) (fun i => p i * (Sum (n_particles s) (fun k => p k * nth j (at_ s k) 0) - nth j (at_ s i) 0) ^ 2)) by (intros; ring).
  rewrite split_error by assumption. rewrite nth_map_seq0 by assumption. fold p. ring.
Qed.
Lemma evidence_nonneg' c s o e : full_inv s -> (forall o x e, 0 <= lik (md c) o x e) -> 0 <= evidence c s o e.
Proof. intros Hinv Hl. unfold evidence. apply Sum_nonneg. intros i _. apply Rmult_le_pos; [apply (wt_range s i Hinv)|apply Hl]. Qed.
(** bayes_risk(e) is the least expected error that can be had after experiment [e], *)
Theorem c131_risk_is_least_error c Q s os e o_last r : full_inv s -> (forall o x e, 0 <= lik (md c) o x e) -> Forall (fun x => 0 <= x) Q ->
  os = removelast os ++ [o_last] -> (forall i, (i < n_particles s)%nat -> SumL os (fun o => lik (md c) o (at_ s i) e) = 1) ->
  (forall o, In o (removelast os) -> evidence c s o e = 0 \/ eps <= evidence c s o e) -> 0 < evidence c s o_last e ->
  bayes_risk1 c Q (ws s) (ls s) os e = Fin r ->
  (exists best, next_error c Q s os e best = r) /\ forall estimate, r <= next_error c Q s os e estimate.
Proof.
  intros Hinv Hl HQ Hos Hn He Hlast HR. rewrite (SmcProps.c13_bayes_risk_is_expected_posterior_loss c Q s os e o_last (proj1 Hinv) (proj2 Hinv) Hl Hos Hn He Hlast) in HR. injection HR as <-. split.
  - exists (fun o => map (fun j => Sum (n_particles s) (fun i => posterior c s o e i * nth j (at_ s i) 0)) (seq 0 (length Q))). rewrite next_error_split by assumption.
    rewrite (SumL_ext _ _ (fun _ => 0 * 0)) by (intros o _; rewrite squared_error_self; ring). rewrite SumL_scal. ring.
  - intros estimate. rewrite next_error_split by assumption. match goal with |- ?a <= ?a + ?b => assert (0 <= b); [|lra] end. apply SumL_nonneg. intros o _. apply Rmult_le_pos; [now apply evidence_nonneg'|].
    apply Sum_nonneg. intros j Hj. apply Rmult_le_pos; [|apply pow2_ge_0]. rewrite Forall_forall in HQ. apply HQ. now apply nth_In.
Qed.
(** so the experiment of least risk allows an estimate at least as good as any estimate after the other experiment. *)
Theorem c131_least_risk_experiment c Q s os1 os2 e1 e2 last1 last2 r1 r2 : full_inv s -> (forall o x e, 0 <= lik (md c) o x e) -> Forall (fun x => 0 <= x) Q ->
  os1 = removelast os1 ++ [last1] -> os2 = removelast os2 ++ [last2] ->
  (forall i, (i < n_particles s)%nat -> SumL os1 (fun o => lik (md c) o (at_ s i) e1) = 1 /\ SumL os2 (fun o => lik (md c) o (at_ s i) e2) = 1) ->
  (forall o, In o (removelast os1) -> evidence c s o e1 = 0 \/ eps <= evidence c s o e1) -> (forall o, In o (removelast os2) -> evidence c s o e2 = 0 \/ eps <= evidence c s o e2) ->
  0 < evidence c s last1 e1 -> 0 < evidence c s last2 e2 ->
  bayes_risk1 c Q (ws s) (ls s) os1 e1 = Fin r1 -> bayes_risk1 c Q (ws s) (ls s) os2 e2 = Fin r2 -> r1 <= r2 ->
  exists best, forall estimate, next_error c Q s os1 e1 best <= next_error c Q s os2 e2 estimate.
Proof.
  intros Hinv Hl HQ O1 O2 Hn H1 H2 L1 L2 R1 R2 Hr.
  destruct (c131_risk_is_least_error c Q s os1 e1 last1 r1 Hinv Hl HQ O1 (fun i Hi => proj1 (Hn i Hi)) H1 L1 R1) as [(best & <-) _].
  destruct (c131_risk_is_least_error c Q s os2 e2 last2 r2 Hinv Hl HQ O2 (fun i Hi => proj2 (Hn i Hi)) H2 L2 R2) as [_ B].
  exists best. intros estimate. specialize (B estimate). lra.
Qed.
End Props.

(** The hypotheses are met: two coins, any number of tosses, stopping at the first head. *)
Lemma coin_study stop pol n : study (ex_config coin) (fun _ => tt) stop (fun _ => [0%Z; 1%Z]) (fun _ => True) pol n ex_state.
Proof.
  assert (Ep : eps <= 1/32). { unfold eps. replace (1/32) with (/ 2 ^ 5) by lra. apply Rinv_le_contravar; [apply pow_lt; lra|]. apply Rle_pow; [lra|lia]. }
  assert (G : good_config (ex_config coin)) by (apply ex_good; intros o x e; pose proof (coin_low o x e); lra).
  assert (F : full_inv (@ex_state Z)) by (split; [reflexivity|split; [repeat constructor; lra|cbn; rewrite !rsum_cons, rsum_nil; lra]]).
  constructor; try assumption; try (cbn; lra); try (cbn; lia).
  - now repeat constructor.
  - intros x e _. unfold SumL. cbn. unfold coin. destruct x as [|a [|b x]]; try lra. destruct (Rltb a (1/2)); cbn; lra.
  - intros r l e H. exact H.
  - intros data _. right. apply regular_bounded; [assumption|cbn; lra| |assumption]. intros o e x _. cbn. pose proof (coin_low o x e). lra.
Qed.
Definition first_head (hist : list Z) : bool := existsb (Z.eqb 1) hist.
Example c131_example_sessions : sessions first_head (fun _ : unit => [0%Z; 1%Z]) (fun _ => tt) 2 [] = [[(0%Z, tt); (0%Z, tt)]; [(0%Z, tt); (1%Z, tt)]; [(1%Z, tt)]].
Proof. reflexivity. Qed.
Example c131_example n sort : (forall w, prob_vector w -> argsorts (sort w) w) ->
  9/10 < drawn (ex_config coin) (fun _ => tt) ex_state (sessions first_head (fun _ => [0%Z; 1%Z]) (fun _ => tt) n [])
    (fun t data => let s' := final (ex_config coin) (fun _ => tt) ex_state data in
       match est_credible_region (sort (ws s')) (fun x => x) (ws s') (ls s') (9/10) with Ok (inside, _) => among (at_ s' t) inside | Err _ => 0 end).
Proof. intros Hs. exact (proj2 (c131_credible_region _ _ _ _ _ _ n _ sort (fun x => x) (9/10) (coin_study first_head _ n) ltac:(lra) Hs)). Qed.
(** Estimates after zero and after one toss. *)
Example c131_example_error : let err n := drawn (ex_config coin) (fun _ => tt) ex_state (sessions (fun _ => false) (fun _ => [0%Z; 1%Z]) (fun _ => tt) n [])
    (fun t data => let s' := final (ex_config coin) (fun _ => tt) ex_state data in squared_error 1 (fun _ => 1) (particle_mean 1 (ws s') (ls s')) (at_ (@ex_state Z) t)) in
  err 1%nat <= err 0%nat /\ err 0%nat = 1/4.
Proof.
  intros err. split; [apply (c131_longer_studies_are_better (ex_config coin) (fun _ => tt) (fun _ => false) (fun _ => false) (fun _ => [0%Z; 1%Z]) (fun _ => True) (fun _ => tt) 0 1 ex_state 1 (fun _ => 1) (coin_study _ (fun _ => tt) 0) (coin_study _ (fun _ => tt) 1)); try reflexivity; try (intros; lra); try lia; intros; assumption|].
  unfold err, drawn, generated, squared_error. cbn [sessions]. unfold SumL. cbn [fold_right]. unfold final. cbn. unfold wt, at_, ex_state. cbn. unfold particle_mean, rdot, Sum. cbn. rewrite ?rsum_cons, ?rsum_nil. lra.
Qed.
Print Assumptions c131_total.
Print Assumptions c131_any_region.
Print Assumptions c131_credible_region.
Print Assumptions c131_weights_are_calibrated.
Print Assumptions c131_error_of_an_estimate.
Print Assumptions c131_mean_is_best.
Print Assumptions c131_only_the_mean_is_best.
Print Assumptions c131_longer_studies_are_better.
Print Assumptions c131_risk_is_least_error.
Print Assumptions c131_least_risk_experiment.
