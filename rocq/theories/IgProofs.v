(** Proofs for C133. *)
From Verif Require Import Base RList Ext Sums SmcModel SmcSpec SmcProofs PartModel PartProofs RiskModel RiskSpec RiskProofs DerProofs LinProofs LearnSpec LearnProofs RateSpec RateProofs CalSpec CalProofs IgSpec.
From Coq Require Import List.

Lemma entropy_plain w : Forall (fun x => 0 <= x) w -> est_entropy w = - Sum (length w) (fun i => nth i w 0 * ln (nth i w 0)).
Proof.
  intros Hw. rewrite (entropy_Sum w Hw). f_equal. transitivity (rsum (map (fun x => x * ln x) w)).
  - apply rsum_map_ext. intros x Hx. rewrite Forall_forall in Hw. destruct (Rltb 0 x) eqn:X; [reflexivity|]. specialize (Hw x Hx). unfold Rltb in X. destruct (Rlt_dec 0 x); [discriminate|].
    replace x with 0 by lra. ring.
  - rewrite Sum_rsum. rewrite <- (map_map (fun i => nth i w 0) (fun x => x * ln x)), map_nth_seq. reflexivity.
Qed.
Lemma ln_quot a b : 0 < a -> 0 < b -> ln (a / b) = ln a - ln b.
Proof. intros Ha Hb. unfold Rdiv. rewrite ln_mult, ln_Rinv; [ring|assumption|assumption|now apply Rinv_0_lt_compat]. Qed.
Lemma SumL_rearrange {A} (l : list A) (f g h : A -> R) : (forall a, In a l -> f a + g a = h a) -> SumL l f + SumL l g = SumL l h.
Proof. intros H. rewrite <- SumL_plus'. now apply SumL_ext. Qed.

Section Ig.
Context {O E RND : Type}.
Variables (c : @config O E RND) (rs : nat -> RND) (dom : E -> list O) (V : loc -> Prop) (pol : list O -> E).
Hypothesis G : good_config c.
Hypothesis Ht : zthresh c < 1.
Implicit Types s : @state O.
Let Lnn := lik_nonneg c G.

Lemma entropy_state s : full_inv s -> est_entropy (ws s) = entropy s.
Proof. intros [H1 [H2 _]]. rewrite entropy_plain by assumption. unfold entropy, n_particles, wt. now rewrite H1. Qed.

Lemma ev_nonneg s o e : full_inv s -> 0 <= evidence c s o e.
Proof. intros Hinv. unfold evidence. apply Sum_nonneg. intros i _. apply Rmult_le_pos; [apply (wt_range s i Hinv)|apply Lnn]. Qed.
Lemma joint_zero s o e i : full_inv s -> evidence c s o e = 0 -> (i < n_particles s)%nat -> wt s i * lik (md c) o (at_ s i) e = 0.
Proof.
  intros Hinv H Hi. apply (Sum_zero_each (n_particles s) (fun i => wt s i * lik (md c) o (at_ s i) e) i); [|exact H|exact Hi].
  intros j _. apply Rmult_le_pos; [apply (wt_range s j Hinv)|apply Lnn].
Qed.
Lemma joint_pos s o e i : full_inv s -> wt s i * lik (md c) o (at_ s i) e <> 0 -> 0 < wt s i /\ 0 < lik (md c) o (at_ s i) e.
Proof.
  intros Hinv H. pose proof (wt_range s i Hinv) as [W _]. pose proof (Lnn o (at_ s i) e) as L. split; apply Rnot_le_lt; intros X; apply H.
  - replace (wt s i) with 0 by lra. ring.
  - replace (lik (md c) o (at_ s i) e) with 0 by lra. ring.
Qed.

(** The entropy expected after one experiment *)
Lemma step_entropy s os e : full_inv s -> (forall i, (i < n_particles s)%nat -> SumL os (fun o => lik (md c) o (at_ s i) e) = 1) ->
  SumL os (fun o => evidence c s o e * - Sum (n_particles s) (fun i => posterior c s o e i * ln (posterior c s o e i))) + mutual_information c s os e = entropy s.
Proof.
  intros Hinv Hn. unfold mutual_information. erewrite SumL_rearrange with (h := fun o => Sum (n_particles s) (fun i => (- (wt s i * ln (wt s i))) * lik (md c) o (at_ s i) e)).
  - rewrite SumL_Sum_swap. unfold entropy. rewrite <- Sum_opp. apply Sum_ext. intros i Hi. rewrite SumL_scal, Hn by assumption. ring.
  - intros o _. cbv zeta. rewrite <- Sum_opp, <- Sum_scal, <- Sum_plus. apply Sum_ext. intros i Hi. unfold posterior, bayes. fold (evidence c s o e).
    destruct (Req_EM_T (wt s i * lik (md c) o (at_ s i) e) 0) as [Z|Z].
    { unfold Rdiv at 1. rewrite !Z. replace (0 / evidence c s o e) with 0 by (unfold Rdiv; ring).
      replace (- (wt s i * ln (wt s i)) * lik (md c) o (at_ s i) e) with (- (wt s i * lik (md c) o (at_ s i) e) * ln (wt s i)) by ring. rewrite Z. ring. }
    destruct (joint_pos s o e i Hinv Z) as [W L].
    assert (P : 0 < evidence c s o e). { destruct (ev_nonneg s o e Hinv) as [X|X]; [exact X|]. exfalso. apply Z. apply joint_zero; auto. }
    rewrite !ln_quot by (first [assumption | now apply Rmult_lt_0_compat]). rewrite !ln_mult by assumption. field. lra.
Qed.
(** Information is not negative, *)
Lemma information_nonneg s os e : full_inv s -> (forall i, (i < n_particles s)%nat -> SumL os (fun o => lik (md c) o (at_ s i) e) = 1) -> 0 <= mutual_information c s os e.
Proof.
  intros Hinv Hn. pose proof (full_inv_Sum s Hinv) as HS1. unfold mutual_information.
  apply Rle_trans with (SumL os (fun o => Sum (n_particles s) (fun i => wt s i * lik (md c) o (at_ s i) e - wt s i * evidence c s o e))).
  - right. symmetry. rewrite (SumL_ext _ _ (fun o => 0 * 0)); [rewrite SumL_scal; ring|]. intros o Ho. rewrite Sum_minus. fold (evidence c s o e). rewrite Sum_scal_r, HS1. ring.
  - apply SumL_le. intros o _. apply Sum_le. intros i Hi. cbv zeta. pose proof (ev_nonneg s o e Hinv) as P0. pose proof (wt_range s i Hinv) as [W0 _].
    destruct (Req_EM_T (wt s i * lik (md c) o (at_ s i) e) 0) as [Z|Z]; [rewrite Z; assert (0 <= wt s i * evidence c s o e) by (now apply Rmult_le_pos); lra|].
    destruct (joint_pos s o e i Hinv Z) as [W L]. assert (P : 0 < evidence c s o e). { destruct P0 as [X|X]; [exact X|]. exfalso. apply Z. apply joint_zero; auto. }
    rewrite ln_quot by (now apply Rmult_lt_0_compat). apply term_gibbs; now apply Rmult_lt_0_compat.
Qed.
(** it vanishes only if no particle of positive weight distinguishes itself, *)
Lemma information_zero s os e : full_inv s -> (forall i, (i < n_particles s)%nat -> SumL os (fun o => lik (md c) o (at_ s i) e) = 1) ->
  mutual_information c s os e = 0 -> forall o i, In o os -> (i < n_particles s)%nat -> 0 < wt s i -> lik (md c) o (at_ s i) e = evidence c s o e.
Proof.
  intros Hinv Hn H0 o0 i0 Ho Hi0 Hw. pose proof (full_inv_Sum s Hinv) as HS1.
  destruct (Req_EM_T (lik (md c) o0 (at_ s i0) e) (evidence c s o0 e)) as [D|D]; [exact D|exfalso].
  assert (T : forall o i, (i < n_particles s)%nat -> wt s i * lik (md c) o (at_ s i) e - wt s i * evidence c s o e <=
    (wt s i * lik (md c) o (at_ s i) e) * ln (wt s i * lik (md c) o (at_ s i) e / (wt s i * evidence c s o e))).
  { intros o i Hi. pose proof (ev_nonneg s o e Hinv) as P0. pose proof (wt_range s i Hinv) as [W0 _].
    destruct (Req_EM_T (wt s i * lik (md c) o (at_ s i) e) 0) as [Z|Z]; [rewrite Z; assert (0 <= wt s i * evidence c s o e) by (now apply Rmult_le_pos); lra|].
    destruct (joint_pos s o e i Hinv Z) as [W L]. assert (P : 0 < evidence c s o e). { destruct P0 as [X|X]; [exact X|]. exfalso. apply Z. apply joint_zero; auto. }
    rewrite ln_quot by (now apply Rmult_lt_0_compat). apply term_gibbs; now apply Rmult_lt_0_compat. }
  assert (Z : SumL os (fun o => Sum (n_particles s) (fun i => wt s i * lik (md c) o (at_ s i) e - wt s i * evidence c s o e)) = 0).
  { rewrite (SumL_ext _ _ (fun o => 0 * 0)); [rewrite SumL_scal; ring|]. intros o _. rewrite Sum_minus. fold (evidence c s o e). rewrite Sum_scal_r, HS1. ring. }
  assert (X : SumL os (fun o => Sum (n_particles s) (fun i => wt s i * lik (md c) o (at_ s i) e - wt s i * evidence c s o e)) < mutual_information c s os e); [|lra].
  unfold mutual_information. apply (SumL_lt _ _ _ o0 Ho); [|intros o _; apply Sum_le; intros i Hi; now apply T].
  rewrite <- !SumL_seq. apply (SumL_lt _ _ _ i0); [apply in_seq; lia| |intros i Hi; apply T; apply in_seq in Hi; lia]. cbv zeta.
  pose proof (ev_nonneg s o0 e Hinv) as P0. pose proof (Lnn o0 (at_ s i0) e) as L0.
  destruct (Req_EM_T (wt s i0 * lik (md c) o0 (at_ s i0) e) 0) as [Q|Q].
  - rewrite Q. assert (lik (md c) o0 (at_ s i0) e = 0) by (apply Rmult_integral in Q; destruct Q; [lra|assumption]). assert (0 < evidence c s o0 e) by lra.
    assert (0 < wt s i0 * evidence c s o0 e) by now apply Rmult_lt_0_compat. lra.
  - destruct (joint_pos s o0 e i0 Hinv Q) as [W L]. assert (P : 0 < evidence c s o0 e). { destruct P0 as [Y|Y]; [exact Y|]. exfalso. apply Q. apply joint_zero; auto. }
    rewrite ln_quot by (now apply Rmult_lt_0_compat). apply term_gibbs_strict; [now apply Rmult_lt_0_compat|now apply Rmult_lt_0_compat|].
    intros Y. apply D. apply (Rmult_eq_reg_l (wt s i0)); [exact Y|lra].
Qed.
(** and is at most the logarithm of the number of outcomes. *)
Lemma information_outcomes s os e : full_inv s -> (forall i, (i < n_particles s)%nat -> SumL os (fun o => lik (md c) o (at_ s i) e) = 1) -> mutual_information c s os e <= ln (INR (length os)).
Proof.
  intros Hinv Hn. pose proof (full_inv_Sum s Hinv) as HS1.
  assert (PV : prob_vector (map (fun o => evidence c s o e) os)).
  { split; [apply Forall_map; apply Forall_forall; intros o _; now apply ev_nonneg|]. rewrite <- SumL_rsum. unfold evidence. rewrite SumL_Sum_swap. rewrite <- HS1. apply Sum_ext. intros i Hi. rewrite SumL_scal, Hn by assumption. ring. }
  destruct (entropy_bounds _ PV) as [_ Hb]. rewrite map_length in Hb. apply Rle_trans with (2 := Hb). rewrite entropy_Sum by apply PV. rewrite map_map.
  apply Rle_trans with (SumL os (fun o => - (evidence c s o e * ln (evidence c s o e)))).
  2:{ right. rewrite (SumL_ext _ _ (fun o => -1 * (if Rltb 0 (evidence c s o e) then evidence c s o e * ln (evidence c s o e) else 0))); [rewrite SumL_scal, SumL_rsum; ring|].
      intros o _. destruct (Rltb 0 (evidence c s o e)) eqn:X; [ring|]. unfold Rltb in X. destruct (Rlt_dec 0 (evidence c s o e)); [discriminate|]. pose proof (ev_nonneg s o e Hinv). replace (evidence c s o e) with 0 by lra. ring. }
  unfold mutual_information. apply SumL_le. intros o Ho. cbv zeta. unfold evidence at 2. 
  replace (- (Sum (n_particles s) (fun i => wt s i * lik (md c) o (at_ s i) e) * ln (evidence c s o e))) with (Sum (n_particles s) (fun i => (- ln (evidence c s o e)) * (wt s i * lik (md c) o (at_ s i) e))) by (rewrite Sum_scal; ring).
  apply Sum_le. intros i Hi. destruct (Req_EM_T (wt s i * lik (md c) o (at_ s i) e) 0) as [Z|Z]; [rewrite !Z; lra|].
  destruct (joint_pos s o e i Hinv Z) as [W L]. assert (P : 0 < evidence c s o e). { destruct (ev_nonneg s o e Hinv) as [X|X]; [exact X|]. exfalso. apply Z. apply joint_zero; auto. }
  rewrite ln_quot by (now apply Rmult_lt_0_compat). rewrite !ln_mult by assumption.
  assert (L1 : ln (lik (md c) o (at_ s i) e) <= 0).
  { rewrite <- ln_1. assert (B : lik (md c) o (at_ s i) e <= 1). { rewrite <- (Hn i Hi). destruct (in_split o os Ho) as (a & b & ->). rewrite SumL_app.
      assert (0 <= SumL a (fun o => lik (md c) o (at_ s i) e)) by (apply SumL_nonneg; intros; apply Lnn). assert (0 <= SumL b (fun o => lik (md c) o (at_ s i) e)) by (apply SumL_nonneg; intros; apply Lnn).
      change (SumL (o :: b) (fun o => lik (md c) o (at_ s i) e)) with (lik (md c) o (at_ s i) e + SumL b (fun o => lik (md c) o (at_ s i) e)). lra. }
    destruct B as [B|B]; [left; now apply ln_increasing|rewrite B; lra]. }
  assert (0 < wt s i * lik (md c) o (at_ s i) e) by now apply Rmult_lt_0_compat. nra.
Qed.

(** ** Whole sessions *)
Definition pred_at (idx : nat) s (data : list (O * E)) : R := Sum (n_particles s) (fun i => wt s i * path_lik c rs idx data (ls s) i).
Hypothesis Hdom : forall x e, V x -> SumL (dom e) (fun o => lik (md c) o x e) = 1.
Hypothesis Hstep : forall r l e, Forall V l -> Forall V (timestep (md c) r l e).

Lemma pred_at_nonneg idx s data : full_inv s -> 0 <= pred_at idx s data.
Proof. intros Hinv. unfold pred_at. apply Sum_nonneg. intros i Hi. apply Rmult_le_pos; [apply (wt_range s i Hinv)|now apply path_nonneg]. Qed.
Lemma pred_at_total stop n hist idx s : full_inv s -> Forall V (ls s) -> SumL (sessions stop dom pol n hist) (pred_at idx s) = 1.
Proof.
  intros Hinv HV. unfold pred_at. rewrite SumL_Sum_swap. rewrite <- (full_inv_Sum s Hinv). apply Sum_ext. intros i Hi.
  rewrite SumL_scal, (sessions_total c rs dom V pol stop n (step_len c G) Hdom Hstep); [ring|exact HV|exact Hi].
Qed.
Lemma normal_at s e : Forall V (ls s) -> forall i, (i < n_particles s)%nat -> SumL (dom e) (fun o => lik (md c) o (at_ s i) e) = 1.
Proof. intros HV i Hi. apply Hdom. rewrite Forall_forall in HV. apply HV. apply nth_In. exact Hi. Qed.

Lemma after_update s idx o e : full_inv s -> eps <= evidence c s o e ->
  let s' := fst (update c (rs idx) s o e false) in
  full_inv s' /\ n_particles s' = n_particles s /\ ls s' = timestep (md c) (rs idx) (ls s) e /\ forall i, (i < n_particles s)%nat -> wt s' i = posterior c s o e i.
Proof.
  intros Hinv He s'. split; [now apply update_regular_inv|]. unfold s'. destruct Hinv as [Hlen [Hw Hs]].
  rewrite update_regular by (auto; apply (lik_nonneg c G)). rewrite install_nocheck. unfold n_particles, wt. cbn [fst ws ls recorded]. split; [apply (step_len c G)|]. split; [reflexivity|].
  intros i Hi. now rewrite norm_row_nth by assumption.
Qed.
Lemma pred_cons_zero s idx o e data : full_inv s -> evidence c s o e = 0 -> pred_at idx s ((o, e) :: data) = 0.
Proof.
  intros Hinv H. unfold pred_at. apply Sum_zero. intros i Hi. cbn [path_lik]. fold (at_ s i). rewrite <- Rmult_assoc, (joint_zero s o e i Hinv H Hi). ring.
Qed.
Lemma pred_cons s idx o e data : full_inv s -> eps <= evidence c s o e ->
  pred_at idx s ((o, e) :: data) = evidence c s o e * pred_at (S idx) (fst (update c (rs idx) s o e false)) data.
Proof.
  intros Hinv He. destruct (after_update s idx o e Hinv He) as (_ & I2 & I3 & I4). cbv zeta in *. unfold pred_at. rewrite <- Sum_scal, I2. apply Sum_ext. intros i Hi.
  rewrite I4, I3 by assumption. cbn [path_lik]. unfold posterior, bayes. fold (at_ s i). fold (evidence c s o e). pose proof eps_pos. field. lra.
Qed.

Lemma chain stop n : forall hist idx s, full_inv s -> Forall V (ls s) ->
  (forall data, In data (sessions stop dom pol n hist) -> pred_at idx s data = 0 \/ regular c rs idx data s) ->
  SumL (sessions stop dom pol n hist) (fun data => pred_at idx s data * (entropy (run c s (updates rs idx data)) + gained c rs dom idx s data)) = entropy s.
Proof.
  induction n as [|n IH]; intros hist idx s Hinv HV Hr.
  - cbn [sessions]. unfold SumL. cbn. unfold pred_at. cbn [path_lik]. rewrite (Sum_ext _ _ (wt s)) by (intros; ring). rewrite (full_inv_Sum s Hinv). unfold run, updates. cbn. ring.
  - cbn [sessions] in *. destruct (stop hist) eqn:Es.
    { unfold SumL. cbn. unfold pred_at. cbn [path_lik]. rewrite (Sum_ext _ _ (wt s)) by (intros; ring). rewrite (full_inv_Sum s Hinv). unfold run, updates. cbn. ring. }
    rewrite SumL_flat_map. set (e := pol hist) in *. rewrite <- (step_entropy s (dom e) e Hinv (normal_at s e HV)).
    set (M := mutual_information c s (dom e) e).
    assert (TM : M = SumL (dom e) (fun o => evidence c s o e * M)).
    { rewrite (SumL_ext _ _ (fun o => M * evidence c s o e)) by (intros; ring). rewrite SumL_scal. unfold evidence. rewrite SumL_Sum_swap.
      rewrite (Sum_ext _ _ (wt s)); [rewrite (full_inv_Sum s Hinv); ring|]. intros i Hi. rewrite SumL_scal, (normal_at s e HV i Hi). ring. }
    rewrite TM at 1. rewrite <- SumL_plus'. apply SumL_ext. intros o Ho. rewrite SumL_map.
    destruct (Req_EM_T (evidence c s o e) 0) as [Z|Z].
    { rewrite Z. rewrite (SumL_ext _ _ (fun _ => 0 * 0)); [rewrite SumL_scal; ring|]. intros data _. rewrite pred_cons_zero by assumption. ring. }
    (* some continuation is possible, so the update is regular *)
    assert (He : eps <= evidence c s o e).
    { assert (T1 : SumL (sessions stop dom pol n (hist ++ [o])) (fun data => pred_at idx s ((o, e) :: data) / evidence c s o e) = 1).
      { rewrite (SumL_ext _ _ (fun data => / evidence c s o e * Sum (n_particles s) (fun i => wt s i * lik (md c) o (at_ s i) e * path_lik c rs (S idx) data (timestep (md c) (rs idx) (ls s) e) i))).
        - rewrite SumL_scal, SumL_Sum_swap. rewrite (Sum_ext _ _ (fun i => wt s i * lik (md c) o (at_ s i) e)); [fold (evidence c s o e); field; assumption|].
          intros i Hi. rewrite SumL_scal, (sessions_total c rs dom V pol stop n (step_len c G) Hdom Hstep); [ring|now apply Hstep|rewrite (step_len c G); exact Hi].
        - intros data _. unfold pred_at, Rdiv. rewrite Rmult_comm. f_equal. apply Sum_ext. intros i Hi. cbn [path_lik]. fold (at_ s i). ring. }
      destruct (SumL_pos_ex _ _ T1) as (data & Hd & Hn0). destruct (Hr ((o, e) :: data)) as [Q|Q].
      - apply in_flat_map. exists o. split; [exact Ho|]. now apply in_map.
      - exfalso. apply Hn0. rewrite Q. unfold Rdiv. ring.
      - exact (proj1 Q). }
    destruct (after_update s idx o e Hinv He) as (I1 & I2 & I3 & I4). cbv zeta in *. set (s' := fst (update c (rs idx) s o e false)) in *.
    rewrite (SumL_ext _ _ (fun data => evidence c s o e * (pred_at (S idx) s' data * (entropy (run c s' (updates rs (S idx) data)) + gained c rs dom (S idx) s' data) + M * pred_at (S idx) s' data))).
    2:{ intros data _. rewrite pred_cons by assumption. fold s'. rewrite run_updates_cons. fold s'. cbn [gained]. fold s' M. ring. }
    assert (HV' : Forall V (ls s')) by (rewrite I3; now apply Hstep).
    rewrite SumL_scal, SumL_plus', SumL_scal, (pred_at_total stop n (hist ++ [o]) (S idx) s' I1 HV').
    rewrite (IH (hist ++ [o]) (S idx) s' I1 HV').
    + unfold entropy at 1. rewrite I2. rewrite (Sum_ext _ (fun i => wt s' i * ln (wt s' i)) (fun i => posterior c s o e i * ln (posterior c s o e i))) by (intros i Hi; now rewrite I4). ring.
    + intros data Hd. destruct (Hr ((o, e) :: data)) as [Q|Q]; [apply in_flat_map; exists o; split; [exact Ho|now apply in_map]| |].
      * left. rewrite pred_cons in Q by assumption. fold s' in Q. apply Rmult_integral in Q. destruct Q; [contradiction|assumption].
      * right. exact (proj2 Q).
Qed.
End Ig.
