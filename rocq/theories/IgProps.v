(** C133: the information that is announced is gained, on average, and no design gains it faster than the number of outcomes allows.  The
    setting is that of C131: the truth is drawn from the cloud, the data from its likelihood, experiments and the end of the study are
    chosen adaptively, nothing is resampled. *)
From Verif Require Import Base RList Ext Sums SmcModel SmcSpec SmcProofs PartModel PartProofs RiskModel RiskSpec RiskProofs CountProofs CountProps DerProofs LinProofs LearnSpec LearnProofs RateSpec RateProofs RateProps CalSpec CalProofs CalProps IgSpec IgProofs.
From Coq Require Import List.

Section Props.
Context {O E RND : Type}.
Implicit Types (c : @config O E RND) (s : @state O).

(** One experiment: the entropy expected afterwards is the entropy now minus the mutual information. *)
Theorem c133_one_experiment c s os e : good_config c -> full_inv s -> (forall i, (i < n_particles s)%nat -> SumL os (fun o => lik (md c) o (at_ s i) e) = 1) ->
  SumL os (fun o => evidence c s o e * est_entropy (map (posterior c s o e) (seq 0 (n_particles s)))) = est_entropy (ws s) - mutual_information c s os e.
Proof.
  intros G Hinv Hn. rewrite entropy_state by assumption. rewrite <- (step_entropy c G s os e Hinv Hn).
  enough (X : SumL os (fun o => evidence c s o e * est_entropy (map (posterior c s o e) (seq 0 (n_particles s)))) =
              SumL os (fun o => evidence c s o e * - Sum (n_particles s) (fun i => posterior c s o e i * ln (posterior c s o e i)))) by lra.
  apply SumL_ext. intros o _. f_equal. rewrite entropy_plain.
  - rewrite map_length, seq_length. f_equal. apply Sum_ext. intros i Hi. rewrite (nth_indep _ 0 (posterior c s o e 0%nat)) by (rewrite map_length, seq_length; lia). rewrite map_nth, seq_nth by assumption. reflexivity.
  - apply Forall_map. apply Forall_forall. intros i _. unfold posterior, bayes, Rdiv. pose proof (ev_nonneg c G s o e Hinv) as P. unfold evidence in P.
    apply Rmult_le_pos; [apply Rmult_le_pos; [apply (wt_range s i Hinv)|apply (lik_nonneg c G)]|]. destruct P as [P|P]; [left; now apply Rinv_0_lt_compat|rewrite <- P, Rinv_0; lra].
Qed.
(** The mutual information is between zero and the logarithm of the number of outcomes, *)
Theorem c133_information_range c s os e : good_config c -> full_inv s -> (forall i, (i < n_particles s)%nat -> SumL os (fun o => lik (md c) o (at_ s i) e) = 1) ->
  0 <= mutual_information c s os e <= ln (INR (length os)).
Proof. intros G Hinv Hn. split; [now apply information_nonneg|now apply information_outcomes]. Qed.
(** and zero exactly if no possible outcome changes a weight. *)
Theorem c133_useless_experiments c s os e : good_config c -> full_inv s -> (forall i, (i < n_particles s)%nat -> SumL os (fun o => lik (md c) o (at_ s i) e) = 1) ->
  mutual_information c s os e = 0 <-> (forall o i, In o os -> evidence c s o e <> 0 -> (i < n_particles s)%nat -> posterior c s o e i = wt s i).
Proof.
  intros G Hinv Hn. split; intros H.
  - intros o i Ho He Hi. unfold posterior, bayes. fold (evidence c s o e). destruct (wt_range s i Hinv) as [[W|W] _].
    + rewrite (information_zero c G s os e Hinv Hn H o i Ho Hi W). field. exact He.
    + rewrite <- W. unfold Rdiv. ring.
  - unfold mutual_information. rewrite (SumL_ext _ _ (fun _ => 0 * 0)); [rewrite SumL_scal; ring|]. intros o Ho. cbv zeta. rewrite Rmult_0_l. apply Sum_zero. intros i Hi.
    destruct (Req_EM_T (wt s i * lik (md c) o (at_ s i) e) 0) as [Z|Z]; [rewrite Z; ring|]. destruct (joint_pos c G s o e i Hinv Z) as [W L].
    assert (P : evidence c s o e <> 0) by (intros X; apply Z; now apply joint_zero). specialize (H o i Ho P Hi). unfold posterior, bayes in H. fold (evidence c s o e) in H.
    replace (wt s i * lik (md c) o (at_ s i) e / (wt s i * evidence c s o e)) with 1; [rewrite ln_1; ring|].
    replace (wt s i * lik (md c) o (at_ s i) e / (wt s i * evidence c s o e)) with (wt s i * lik (md c) o (at_ s i) e / evidence c s o e / wt s i) by (field; split; lra). rewrite H. field. lra.
Qed.

(** A whole study: the final entropy and the information gained along the record add up, on average, to the entropy at the start. *)
Theorem c133_chain_rule c rs stop dom V pol n s : study c rs stop dom V pol n s ->
  averaged c rs s (sessions stop dom pol n []) (fun s' => est_entropy (ws s')) +
  SumL (sessions stop dom pol n []) (fun data => predictive c rs s data * gained c rs dom 0 s data) = est_entropy (ws s).
Proof.
  intros HS. pose proof (st_config _ _ _ _ _ _ _ _ HS) as G. pose proof (st_state _ _ _ _ _ _ _ _ HS) as Hinv. rewrite (entropy_state s Hinv).
  rewrite <- (chain c rs dom V pol G (st_threshold _ _ _ _ _ _ _ _ HS) (st_normal _ _ _ _ _ _ _ _ HS) (st_step _ _ _ _ _ _ _ _ HS) stop n [] 0%nat s Hinv (st_valid _ _ _ _ _ _ _ _ HS) (st_regular _ _ _ _ _ _ _ _ HS)).
  unfold averaged. rewrite <- SumL_plus'. apply SumL_ext. intros data Hin. change (pred_at c rs 0 s data) with (predictive c rs s data).
  destruct (Req_EM_T (predictive c rs s data) 0) as [Z|Z]; [rewrite Z; ring|]. destruct (possible_facts c rs dom V pol stop n s HS data Hin Z) as [F1 _]. unfold final in F1. rewrite (entropy_state _ F1). ring.
Qed.
(** With likelihoods bounded away from zero, expected_information_gain reports just that: the entropy at the end is, on average, the entropy
    at the start minus the sum of the reports. *)
Theorem c133_announced_is_gained c rs stop dom V pol n s : study c rs stop dom V pol n s -> Forall (fun x => 0 < x) (ws s) ->
  (forall o x e, V x -> In o (dom e) -> eps <= lik (md c) o x e) ->
  exists reported : list (O * E) -> R, (forall data, In data (sessions stop dom pol n []) -> announced c rs dom 0 s data = Fin (reported data)) /\
    averaged c rs s (sessions stop dom pol n []) (fun s' => est_entropy (ws s')) = est_entropy (ws s) - SumL (sessions stop dom pol n []) (fun data => predictive c rs s data * reported data).
Proof.
  intros HS Hw HL. pose proof (st_config _ _ _ _ _ _ _ _ HS) as G. exists (gained c rs dom 0 s). split; [|pose proof (c133_chain_rule c rs stop dom V pol n s HS); lra].
  pose proof (st_state _ _ _ _ _ _ _ _ HS) as Hinv. pose proof (st_valid _ _ _ _ _ _ _ _ HS) as HV. pose proof (st_step _ _ _ _ _ _ _ _ HS) as Hst. pose proof (st_normal _ _ _ _ _ _ _ _ HS) as Hn. pose proof (st_threshold _ _ _ _ _ _ _ _ HS) as Ht.
  clear HS. generalize (@nil O) as hist. generalize 0%nat as idx. revert s Hinv HV Hw. induction n as [|n IH]; intros s Hinv HV Hw idx hist data Hin; cbn [sessions] in Hin.
  { destruct Hin as [<-|[]]. reflexivity. }
  destruct (stop hist); [destruct Hin as [<-|[]]; reflexivity|]. apply in_flat_map in Hin. destruct Hin as (o & Ho & Hin). apply in_map_iff in Hin. destruct Hin as (data' & <- & Hin). cbn [announced gained].
  set (e := pol hist) in *. assert (Hev : forall o, In o (dom e) -> eps <= evidence c s o e).
  { intros o' Ho'. pose proof (full_inv_Sum s Hinv) as S1. unfold evidence. rewrite <- (Rmult_1_r eps), <- S1, <- Sum_scal. apply Sum_le. intros i Hi. rewrite Rmult_comm.
    apply Rmult_le_compat_l; [apply (wt_range s i Hinv)|]. apply HL; [|exact Ho']. rewrite Forall_forall in HV. apply HV. apply nth_In. exact Hi. }
  pose proof eps_pos as EP. destruct (after_update c rs G Ht s idx o e Hinv (Hev o Ho)) as (I1 & I2 & I3 & I4). cbv zeta in *.
  rewrite (c14_value c s (dom e) e (last (dom e) o)).
  - rewrite (IH (fst (update c (rs idx) s o e false)) I1) with (hist := hist ++ [o]); [reflexivity|rewrite I3; now apply Hst| |exact Hin].
    apply Forall_forall. intros x Hx. apply (In_nth _ _ 0) in Hx. destruct Hx as (i & Hi & <-). destruct I1 as [L1 _]. rewrite L1 in Hi. unfold n_particles in I2. fold (wt (fst (update c (rs idx) s o e false)) i). rewrite I4 by (unfold n_particles; lia).
    unfold posterior, bayes. fold (evidence c s o e). specialize (Hev o Ho). apply Rdiv_lt_0_compat; [|lra]. apply Rmult_lt_0_compat.
    + rewrite Forall_forall in Hw. apply Hw. apply nth_In. destruct Hinv as [L0 _]. lia.
    + apply Rlt_le_trans with eps; [exact EP|]. apply HL; [|exact Ho]. rewrite Forall_forall in HV. apply HV. apply nth_In. lia.
  - exact (proj1 Hinv).
  - exact Hw.
  - exact (proj2 Hinv).
  - intros o' x Ho' Hx. apply Rlt_le_trans with eps; [exact EP|]. apply HL; [|exact Ho']. rewrite Forall_forall in HV. now apply HV.
  - apply app_removelast_last. intros X. rewrite X in Ho. destruct Ho.
  - intros i Hi. apply Hn. rewrite Forall_forall in HV. apply HV. apply nth_In. exact Hi.
  - intros o' Ho'. apply Hev. rewrite (app_removelast_last o (l := dom e)) by (intros X; rewrite X in Ho; destruct Ho). apply in_or_app. now left.
Qed.

(** Data do not increase the entropy, on average; *)
Theorem c133_entropy_falls_on_average c rs stop dom V pol n s : study c rs stop dom V pol n s ->
  averaged c rs s (sessions stop dom pol n []) (fun s' => est_entropy (ws s')) <= est_entropy (ws s).
Proof.
  intros HS. pose proof (c133_chain_rule c rs stop dom V pol n s HS) as H. enough (0 <= SumL (sessions stop dom pol n []) (fun data => predictive c rs s data * gained c rs dom 0 s data)) by lra.
  apply SumL_nonneg. intros data Hin. destruct (st_regular _ _ _ _ _ _ _ _ HS data Hin) as [Z|Z]; [rewrite Z; lra|]. apply Rmult_le_pos; [now apply (predictive_nonneg c rs dom V pol stop n s HS)|].
  pose proof (st_config _ _ _ _ _ _ _ _ HS) as G. pose proof (st_normal _ _ _ _ _ _ _ _ HS) as Hn. pose proof (st_step _ _ _ _ _ _ _ _ HS) as Hst. pose proof (st_threshold _ _ _ _ _ _ _ _ HS) as Ht.
  pose proof (st_state _ _ _ _ _ _ _ _ HS) as Hinv. pose proof (st_valid _ _ _ _ _ _ _ _ HS) as HV. clear - Z Hinv HV G Hn Hst Ht. revert Z Hinv HV. generalize 0%nat as idx. revert s. induction data as [|[o e] data IH]; intros s idx Z Hinv HV; cbn [gained]; [lra|].
  destruct Z as [He Z]. destruct (after_update c rs G Ht s idx o e Hinv He) as (I1 & I2 & I3 & I4). cbv zeta in *. specialize (IH _ _ Z I1). rewrite I3 in IH. specialize (IH (Hst _ _ _ HV)).
  pose proof (information_nonneg c G s (dom e) e Hinv (normal_at c dom V Hn s e HV)). lra.
Qed.
(** nor decrease it by more than the logarithm of the number of outcomes per experiment, however experiments are chosen. *)
Theorem c133_speed_limit c rs stop dom V pol n s K : study c rs stop dom V pol n s -> (forall e, (length (dom e) <= K)%nat) -> (0 < K)%nat ->
  est_entropy (ws s) - INR n * ln (INR K) <= averaged c rs s (sessions stop dom pol n []) (fun s' => est_entropy (ws s')).
Proof.
  intros HS HK K0. pose proof (c133_chain_rule c rs stop dom V pol n s HS) as H. enough (SumL (sessions stop dom pol n []) (fun data => predictive c rs s data * gained c rs dom 0 s data) <= INR n * ln (INR K)) by lra.
  rewrite <- (Rmult_1_r (INR n * ln (INR K))), <- (study_total c rs dom V pol stop n s HS), <- SumL_scal. apply SumL_le. intros data Hin.
  assert (LK : 0 <= ln (INR K)). { rewrite <- ln_1. assert (B : 1 <= INR K) by (apply (le_INR 1); lia). destruct B as [B|B]; [left; apply ln_increasing; lra|rewrite <- B; lra]. }
  assert (LE : (length data <= n)%nat).
  { revert Hin. clear. generalize (@nil O) as hist. revert data. induction n as [|n IH]; intros data hist Hin; cbn [sessions] in Hin; [destruct Hin as [<-|[]]; cbn; lia|].
    destruct (stop hist); [destruct Hin as [<-|[]]; cbn; lia|]. apply in_flat_map in Hin. destruct Hin as (o & _ & Hin). apply in_map_iff in Hin. destruct Hin as (data' & <- & Hin). specialize (IH _ _ Hin). cbn [length]. lia. }
  destruct (st_regular _ _ _ _ _ _ _ _ HS data Hin) as [Z|Z]; [rewrite Z; lra|]. rewrite (Rmult_comm (INR n * _)). apply Rmult_le_compat_l; [now apply (predictive_nonneg c rs dom V pol stop n s HS)|].
  apply Rle_trans with (INR (length data) * ln (INR K)); [|apply Rmult_le_compat_r; [exact LK|now apply le_INR]].
  pose proof (st_config _ _ _ _ _ _ _ _ HS) as G. pose proof (st_normal _ _ _ _ _ _ _ _ HS) as Hn. pose proof (st_step _ _ _ _ _ _ _ _ HS) as Hst. pose proof (st_threshold _ _ _ _ _ _ _ _ HS) as Ht.
  pose proof (st_state _ _ _ _ _ _ _ _ HS) as Hinv. pose proof (st_valid _ _ _ _ _ _ _ _ HS) as HV. clear - Z Hinv HV G Hn Hst Ht HK LK K0. revert Z Hinv HV. generalize 0%nat as idx. revert s. induction data as [|[o e] data IH]; intros s idx Z Hinv HV; cbn [gained]; [cbn; lra|].
  destruct Z as [He Z]. destruct (after_update c rs G Ht s idx o e Hinv He) as (I1 & I2 & I3 & I4). cbv zeta in *. specialize (IH _ _ Z I1). rewrite I3 in IH. specialize (IH (Hst _ _ _ HV)).
  pose proof (information_outcomes c G s (dom e) e Hinv (normal_at c dom V Hn s e HV)) as B. cbn [length]. rewrite S_INR.
  assert (B' : ln (INR (length (dom e))) <= ln (INR K)).
  { destruct (length (dom e)) as [|k] eqn:X; [|assert (Y : INR (S k) <= INR K) by (apply le_INR; rewrite <- X; apply HK); destruct Y as [Y|Y]; [left; apply ln_increasing; [apply lt_0_INR; lia|exact Y]|rewrite Y; lra]].
    assert (L0 : ln 0 = 0) by (unfold ln; destruct (Rlt_dec 0 0); [exfalso; lra|reflexivity]). cbn [INR]. rewrite L0. exact LK. }
  lra.
Qed.

(** Identifying the truth: a guess computed from the record is right with probability at most (number of records) x (largest initial weight), *)
Theorem c133_guessing c rs stop dom V pol n s (guess : list (O * E) -> nat) top : study c rs stop dom V pol n s -> (forall i, wt s i <= top) ->
  drawn c rs s (sessions stop dom pol n []) (fun t data => indicator (Nat.eqb (guess data) t)) <= INR (length (sessions stop dom pol n [])) * top.
Proof.
  intros HS Hm. pose proof (st_config _ _ _ _ _ _ _ _ HS) as G. pose proof (st_state _ _ _ _ _ _ _ _ HS) as Hinv.
  unfold drawn, generated. rewrite (Sum_ext _ _ (fun t => SumL (sessions stop dom pol n []) (fun data => wt s t * (path_lik c rs 0 data (ls s) t * indicator (Nat.eqb (guess data) t))))) by (intros; now rewrite SumL_scal).
  rewrite <- SumL_Sum_swap. apply Rle_trans with (SumL (sessions stop dom pol n []) (fun _ => top * 1)).
  2:{ rewrite SumL_scal. right. rewrite Rmult_comm. f_equal. clear. induction (sessions stop dom pol n []) as [|d l IH]; [reflexivity|]. change (SumL (d :: l) (fun _ => 1)) with (1 + SumL l (fun _ : list (O * E) => 1)). cbn [length]. rewrite IH, S_INR. lra. }
  assert (T0 : 0 <= top). { apply Rle_trans with (2 := Hm 0%nat). apply (wt_range s 0%nat Hinv). }
  apply SumL_le. intros data Hin. destruct (Nat.lt_ge_cases (guess data) (n_particles s)) as [Hg|Hg].
  - rewrite (Sum_single _ (guess data)); [|exact Hg|intros k _ Hk; destruct (Nat.eqb_spec (guess data) k); [congruence|]; unfold indicator; ring]. rewrite Nat.eqb_refl. unfold indicator.
    assert (P1 : path_lik c rs 0 data (ls s) (guess data) <= 1).
    { rewrite <- (sessions_total c rs dom V pol stop n (step_len c G) (st_normal _ _ _ _ _ _ _ _ HS) (st_step _ _ _ _ _ _ _ _ HS) [] 0%nat (ls s) (guess data) (st_valid _ _ _ _ _ _ _ _ HS) Hg).
      destruct (in_split data _ Hin) as (a & b & ->). rewrite SumL_app. change (SumL (data :: b) (fun d => path_lik c rs 0 d (ls s) (guess data))) with (path_lik c rs 0 data (ls s) (guess data) + SumL b (fun d => path_lik c rs 0 d (ls s) (guess data))).
      assert (0 <= SumL a (fun d => path_lik c rs 0 d (ls s) (guess data))) by (apply SumL_nonneg; intros; now apply path_nonneg). assert (0 <= SumL b (fun d => path_lik c rs 0 d (ls s) (guess data))) by (apply SumL_nonneg; intros; now apply path_nonneg). lra. }
    pose proof (path_nonneg c rs data G 0%nat (ls s) (guess data)) as P0. rewrite Rmult_1_r. apply Rmult_le_compat; [apply (wt_range s _ Hinv)|exact P0|apply Hm|exact P1].
  - rewrite (Sum_zero _ _); [lra|]. intros t Hlt. destruct (Nat.eqb_spec (guess data) t); [lia|]. unfold indicator. ring.
Qed.
(** so with at most [K] outcomes per experiment, telling [N] equally weighted particles apart with probability [p] takes [n] experiments with
    [p N <= K^n]. *)
Theorem c133_experiments_needed c rs stop dom V pol n s (guess : list (O * E) -> nat) K p : study c rs stop dom V pol n s -> (forall e, (length (dom e) <= K)%nat) -> (0 < K)%nat ->
  (forall i, (i < n_particles s)%nat -> wt s i = 1 / INR (n_particles s)) -> p <= drawn c rs s (sessions stop dom pol n []) (fun t data => indicator (Nat.eqb (guess data) t)) -> p * INR (n_particles s) <= INR K ^ n.
Proof.
  intros HS HK K0 Hw Hp. pose proof (st_state _ _ _ _ _ _ _ _ HS) as Hinv.
  assert (N0 : (0 < n_particles s)%nat). { destruct (n_particles s) eqn:X; [|lia]. exfalso. pose proof (full_inv_Sum s Hinv) as Y. rewrite X in Y. rewrite Sum_0 in Y. lra. }
  assert (N1 : 0 < INR (n_particles s)) by now apply lt_0_INR.
  assert (Hm : forall i, wt s i <= 1 / INR (n_particles s)).
  { intros i. destruct (Nat.lt_ge_cases i (n_particles s)) as [Hi|Hi]; [rewrite Hw by assumption; lra|]. unfold wt. rewrite nth_overflow; [left; apply Rdiv_lt_0_compat; lra|]. destruct Hinv as [L _]. unfold n_particles in Hi. lia. }
  pose proof (c133_guessing c rs stop dom V pol n s guess _ HS Hm) as B.
  assert (C : INR (length (sessions stop dom pol n [])) <= INR K ^ n).
  { rewrite <- pow_INR. apply le_INR. generalize (@nil O) as hist. clear - HK K0. induction n as [|n IH]; intros hist; cbn [sessions]; [cbn; lia|].
    assert (K1 : (1 <= K ^ S n)%nat) by (pose proof (Nat.pow_nonzero K (S n)); lia). destruct (stop hist); [exact K1|]. rewrite Nat.pow_succ_r'.
    apply Nat.le_trans with (length (dom (pol hist)) * K ^ n)%nat; [|apply Nat.mul_le_mono_r, HK]. generalize (pol hist) as e. intros e. induction (dom e) as [|o l IHl]; [cbn; lia|]. cbn [flat_map length]. rewrite app_length, map_length. specialize (IH (hist ++ [o])). lia. }
  apply Rle_trans with (INR (length (sessions stop dom pol n []))); [|exact C]. apply (Rmult_le_reg_r (1 / INR (n_particles s))); [apply Rdiv_lt_0_compat; lra|].
  replace (p * INR (n_particles s) * (1 / INR (n_particles s))) with p by (field; lra). lra.
Qed.
End Props.

(** A single outcome can increase the entropy: a surprise. *)
Definition sure : @state Z := {| ws := [5/6; 1/6]; ls := [[0]; [1]]; drec := []; nrec := []; mness := PInf; rcnt := 0; jr := false; calls := 0 |}.
Theorem c133_surprises_refuted : exists (c : @config Z unit unit) s o, good_config c /\ full_inv s /\ eps <= evidence c s o tt /\
  est_entropy (ws s) < est_entropy (ws (fst (update c tt s o tt false))).
Proof.
  exists (ex_config coin), sure, 1%Z.
  assert (G : good_config (ex_config coin)) by (apply ex_good; intros o x e; pose proof (coin_low o x e); lra).
  assert (F : full_inv sure) by (split; [reflexivity|split; [repeat constructor; lra|cbn; rewrite !rsum_cons, rsum_nil; lra]]).
  assert (Ep : eps <= 1/32). { unfold eps. replace (1/32) with (/ 2 ^ 5) by lra. apply Rinv_le_contravar; [apply pow_lt; lra|]. apply Rle_pow; [lra|lia]. }
  assert (Ev : evidence (ex_config coin) sure 1%Z tt = 1/6).
  { unfold evidence, n_particles, wt, at_, sure. cbn [ls ws length]. rewrite !Sum_S, Sum_0. cbn [nth md lik ex_config]. unfold coin. rewrite Rltb_true by lra. rewrite Rltb_false by lra. cbn. lra. }
  assert (He : eps <= evidence (ex_config coin) sure 1%Z tt) by (rewrite Ev; lra). split; [exact G|]. split; [exact F|]. split; [exact He|].
  destruct (after_update (ex_config coin) (fun _ => tt) G ltac:(cbn; lra) sure 0%nat 1%Z tt F He) as (I1 & I2 & _ & I4). cbv zeta in *.
  rewrite (entropy_state _ I1), (entropy_state _ F). unfold entropy. rewrite I2. rewrite (Sum_ext _ (fun i => wt (fst (update (ex_config coin) tt sure 1%Z tt false)) i * _) (fun _ => 1/2 * ln (1/2))).
  - change (n_particles sure) with 2%nat. rewrite !Sum_S, !Sum_0. unfold wt, sure. cbn [ws nth].
    pose proof (term_gibbs_strict (5/6) (1/2) ltac:(lra) ltac:(lra) ltac:(lra)). pose proof (term_gibbs (1/6) (1/2) ltac:(lra) ltac:(lra)). lra.
  - intros i Hi. assert (X : wt (fst (update (ex_config coin) tt sure 1%Z tt false)) i = 1/2); [|now rewrite X]. rewrite I4 by assumption. unfold posterior, bayes. fold (evidence (ex_config coin) sure 1%Z tt). rewrite Ev.
    change (n_particles sure) with 2%nat in Hi. unfold wt, at_, sure. cbn [ls ws md lik ex_config]. unfold coin.
    destruct i as [|[|i]]; [cbn [nth]; rewrite Rltb_true by lra; cbn; lra|cbn [nth]; rewrite Rltb_false by lra; cbn; lra|lia].
Qed.

(** The hypotheses are met by the two coins of C131. *)
Example c133_example n pol stop : exists reported : list (Z * unit) -> R,
  (forall data, In data (sessions stop (fun _ => [0%Z; 1%Z]) pol n []) -> announced (ex_config coin) (fun _ => tt) (fun _ => [0%Z; 1%Z]) 0 ex_state data = Fin (reported data)) /\
  averaged (ex_config coin) (fun _ => tt) ex_state (sessions stop (fun _ => [0%Z; 1%Z]) pol n []) (fun s' => est_entropy (ws s')) =
  est_entropy [1/2; 1/2] - SumL (sessions stop (fun _ => [0%Z; 1%Z]) pol n []) (fun data => predictive (ex_config coin) (fun _ => tt) ex_state data * reported data).
Proof.
  apply (c133_announced_is_gained (ex_config coin) (fun _ => tt) stop (fun _ => [0%Z; 1%Z]) (fun _ => True) pol n ex_state (coin_study stop pol n)).
  - cbn. repeat constructor; lra.
  - intros o x e _ _. cbn. pose proof (coin_low o x e). assert (Ep : eps <= 1/32). { unfold eps. replace (1/32) with (/ 2 ^ 5) by lra. apply Rinv_le_contravar; [apply pow_lt; lra|]. apply Rle_pow; [lra|lia]. } lra.
Qed.
(** Two experiments with two outcomes cannot tell five particles apart for certain (here: any number of particles above four). *)
Example c133_example_needed (c : @config Z unit unit) rs stop V pol s guess : study c rs stop (fun _ => [0%Z; 1%Z]) V pol 2 s -> (forall i, (i < n_particles s)%nat -> wt s i = 1 / INR (n_particles s)) ->
  (5 <= n_particles s)%nat -> drawn c rs s (sessions stop (fun _ => [0%Z; 1%Z]) pol 2 []) (fun t data => indicator (Nat.eqb (guess data) t)) < 1.
Proof.
  intros HS Hw H5. apply Rnot_le_lt. intros H. pose proof (c133_experiments_needed c rs stop _ V pol 2 s guess 2 1 HS ltac:(intros; cbn; lia) ltac:(lia) Hw H) as B.
  assert (C : 5 <= INR (n_particles s)) by (replace 5 with (INR 5) by (cbn; lra); now apply le_INR). cbn in B. lra.
Qed.
(** A coin toss that every particle predicts alike is useless, the toss of the two different coins is not. *)
Example c133_example_useful : 0 < mutual_information (ex_config coin) (@ex_state Z) [0%Z; 1%Z] tt.
Proof.
  assert (G : good_config (ex_config coin)) by (apply ex_good; intros o x e; pose proof (coin_low o x e); lra).
  pose proof (coin_study (fun _ => false) (fun _ => tt) 0) as HS. pose proof (st_state _ _ _ _ _ _ _ _ HS) as Hinv.
  assert (Hn : forall i, (i < n_particles (@ex_state Z))%nat -> SumL [0%Z; 1%Z] (fun o => lik (md (ex_config coin)) o (at_ (@ex_state Z) i) tt) = 1) by (intros i Hi; exact (st_normal _ _ _ _ _ _ _ _ HS _ tt I)).
  destruct (proj1 (c133_information_range (ex_config coin) ex_state [0%Z; 1%Z] tt G Hinv Hn)) as [X|X]; [exact X|exfalso]. symmetry in X.
  pose proof (information_zero (ex_config coin) G ex_state [0%Z; 1%Z] tt Hinv Hn X 1%Z) as Z.
  pose proof (Z 0%nat ltac:(cbn; tauto) ltac:(cbn; lia) ltac:(cbn; lra)) as Z0. pose proof (Z 1%nat ltac:(cbn; tauto) ltac:(cbn; lia) ltac:(cbn; lra)) as Z1. rewrite <- Z1 in Z0.
  cbn in Z0. unfold coin in Z0. rewrite Rltb_true in Z0 by lra. rewrite Rltb_false in Z0 by lra. cbn in Z0. lra.
Qed.

Print Assumptions c133_one_experiment.
Print Assumptions c133_information_range.
Print Assumptions c133_useless_experiments.
Print Assumptions c133_chain_rule.
Print Assumptions c133_announced_is_gained.
Print Assumptions c133_entropy_falls_on_average.
Print Assumptions c133_speed_limit.
Print Assumptions c133_guessing.
Print Assumptions c133_experiments_needed.
Print Assumptions c133_surprises_refuted.
