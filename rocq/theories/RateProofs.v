(** Proofs for C118. *)
From Verif Require Import Base RList Ext Sums SmcModel SmcSpec SmcProofs DerProofs LearnSpec LearnProofs RateSpec.
From Coq Require Import List.

Lemma SumL_pos_ex {A} (l : list A) f : SumL l f = 1 -> exists a, In a l /\ f a <> 0.
Proof.
  induction l as [|x l IH]; intros H; [unfold SumL in H; cbn in H; lra|].
  assert (C1 : SumL (x :: l) f = f x + SumL l f) by reflexivity. destruct (Req_EM_T (f x) 0) as [Z|Z]; [|exists x; split; [now left|assumption]].
  destruct IH as (a & Ha & Hf); [lra|]. exists a. split; [now right|assumption].
Qed.

Section A.
Context {O E RND : Type}.
Variables (c : @config O E RND) (rs : nat -> RND) (dom : E -> list O) (V : loc -> Prop).
Hypothesis (G : good_config c) (Ht : zthresh c < 1).
Hypothesis (Hdom : forall x e, V x -> SumL (dom e) (fun o => lik (md c) o x e) = 1).
Hypothesis (Hstep : forall r l e, Forall V l -> Forall V (timestep (md c) r l e)).

Definition tame pol n hist idx (s : @state O) t := forall data, In data (records dom pol n hist) -> path_lik c rs idx data (ls s) t = 0 \/ regular c rs idx data s.

Lemma evidence_total s e : full_inv s -> Forall V (ls s) -> SumL (dom e) (fun o => evidence c s o e) = 1.
Proof.
  intros Hinv HV. unfold evidence. rewrite SumL_Sum_swap, <- (full_inv_Sum s Hinv). apply Sum_ext. intros i Hi. rewrite SumL_scal, Hdom; [ring|].
  rewrite Forall_forall in HV. now apply HV, nth_In.
Qed.
Lemma update_ls r s o e : full_inv s -> eps <= evidence c s o e -> ls (fst (update c r s o e false)) = timestep (md c) r (ls s) e.
Proof. intros [HL [Hw _]] He. rewrite update_regular by (auto; apply (lik_nonneg c G)). now rewrite install_nocheck. Qed.
Lemma update_wt idx s o e t : full_inv s -> eps <= evidence c s o e -> (t < n_particles s)%nat ->
  evidence c s o e * wt (fst (update c (rs idx) s o e false)) t = wt s t * lik (md c) o (at_ s t) e.
Proof.
  intros Hinv He Hlt. destruct (run_regular c rs G Ht [(o, e)] idx s Hinv (conj He I)) as (_ & _ & Ns & _ & HP & H5).
  pose proof (predictive_recorded c (fun k => rs (idx + k)%nat) s [(o, e)] G Ht Hinv) as P. 
  assert (R1 : regular c (fun k => rs (idx + k)%nat) 0 [(o, e)] s) by (split; [exact He|exact I]).
  destruct (P R1) as (_ & _ & _ & _ & P5). specialize (P5 t Hlt). unfold predictive in P5. cbn [path_lik] in P5.
  cbn [updates length seq combine map run fold_left fst snd step] in P5. rewrite Nat.add_0_r in P5.
  rewrite (Sum_ext _ _ (fun i => wt s i * lik (md c) o (at_ s i) e)) in P5 by (intros; unfold at_; ring).
  unfold evidence. unfold at_ in *. rewrite Rmult_1_r in P5. exact P5.
Qed.

Lemma tame_step pol n hist idx s t o : Forall V (ls s) -> full_inv s -> (t < n_particles s)%nat ->
  tame pol (S n) hist idx s t -> In o (dom (pol hist)) -> lik (md c) o (at_ s t) (pol hist) <> 0 ->
  eps <= evidence c s o (pol hist) /\ tame pol n (hist ++ [o]) (S idx) (fst (update c (rs idx) s o (pol hist) false)) t.
Proof.
  intros HV Hinv Hlt Hr Ho Hl.
  assert (K : forall data, In data (records dom pol n (hist ++ [o])) -> path_lik c rs (S idx) data (timestep (md c) (rs idx) (ls s) (pol hist)) t = 0 \/
    (eps <= evidence c s o (pol hist) /\ regular c rs (S idx) data (fst (update c (rs idx) s o (pol hist) false)))).
  { intros data Hd. destruct (Hr ((o, pol hist) :: data)) as [Z|Z].
    - cbn [records]. apply in_flat_map. exists o. split; [assumption|]. now apply in_map.
    - left. cbn [path_lik] in Z. apply Rmult_integral in Z. destruct Z as [Z|Z]; [now elim Hl|assumption].
    - right. exact Z. }
  assert (Ev : eps <= evidence c s o (pol hist)).
  { destruct (SumL_pos_ex _ _ (path_total c rs dom V (step_len c G) Hdom Hstep pol n (hist ++ [o]) (S idx) (timestep (md c) (rs idx) (ls s) (pol hist)) t
      (Hstep _ _ _ HV) ltac:(rewrite (step_len c G); exact Hlt))) as (data & Hd & Hz). destruct (K data Hd) as [Z|[Z _]]; [now elim Hz|exact Z]. }
  split; [exact Ev|]. intros data Hd. rewrite update_ls by assumption. destruct (K data Hd) as [Z|[_ Z]]; [now left|now right].
Qed.

(** Maximal inequality. *)
Lemma dips_cons idx s t h o e data : dips c rs idx s t h ((o, e) :: data) =
  Rleb (wt s t) h || dips c rs (S idx) (fst (update c (rs idx) s o e false)) t h data.
Proof.
  unfold dips. change (seq 0 (S (length ((o, e) :: data)))) with (0%nat :: seq 1 (S (length data))). rewrite <- seq_shift.
  set (l := seq 0 (S (length data))). cbn [existsb]. f_equal.
  clearbody l. induction l as [|k l IH]; [reflexivity|]. cbn [map existsb]. rewrite IH. reflexivity.
Qed.
Lemma dips_top idx s t h data : wt s t <= h -> dips c rs idx s t h data = true.
Proof. intros H. unfold dips. cbn [seq existsb firstn]. replace (Rleb _ h) with true; [reflexivity|]. symmetry. apply Rleb_true. exact H. Qed.
Lemma ville pol t h n : 0 <= h -> forall hist idx s, Forall V (ls s) -> full_inv s -> (t < n_particles s)%nat -> tame pol n hist idx s t -> 0 < wt s t ->
  wt s t * SumL (records dom pol n hist) (fun data => path_lik c rs idx data (ls s) t * indicator (dips c rs idx s t h data)) <= h.
Proof.
  intros Hh. induction n as [|n IH]; intros hist idx s HV Hinv Hlt Hr Hw.
  - cbn [records]. unfold SumL. cbn [fold_right path_lik]. unfold dips. cbn [length seq existsb firstn orb].
    change (run c s (updates rs idx [])) with s. destruct (Rleb_spec (wt s t) h); cbn [orb indicator]; lra.
  - destruct (Rle_lt_dec (wt s t) h) as [Hle|Hgt].
    + rewrite (SumL_ext _ _ (fun data => path_lik c rs idx data (ls s) t)) by (intros data _; rewrite (dips_top _ _ _ _ _ Hle); cbn [indicator]; ring).
      rewrite (path_total c rs dom V (step_len c G) Hdom Hstep) by assumption. lra.
    + cbn [records]. rewrite SumL_flat_map, <- SumL_scal.
      apply Rle_trans with (SumL (dom (pol hist)) (fun o => h * evidence c s o (pol hist))); [|rewrite SumL_scal, evidence_total by assumption; lra].
      apply SumL_le. intros o Ho. rewrite SumL_map.
      rewrite (SumL_ext _ _ (fun data => lik (md c) o (at_ s t) (pol hist) * (path_lik c rs (S idx) data (timestep (md c) (rs idx) (ls s) (pol hist)) t
        * indicator (dips c rs (S idx) (fst (update c (rs idx) s o (pol hist) false)) t h data)))).
      2:{ intros data _. cbn [path_lik]. rewrite dips_cons, Rleb_false by assumption. cbn [orb]. unfold at_. ring. }
      rewrite SumL_scal.
      assert (Ev0 : 0 <= evidence c s o (pol hist)).
      { apply Sum_nonneg. intros i _. apply Rmult_le_pos; [apply (wt_range s i Hinv)|apply (lik_nonneg c G)]. }
      destruct (Req_EM_T (lik (md c) o (at_ s t) (pol hist)) 0) as [Z|Z]; [rewrite Z; nra|].
      destruct (tame_step pol n hist idx s t o HV Hinv Hlt Hr Ho Z) as [Ev Tm]. pose proof eps_pos as Ep.
      pose proof (update_wt idx s o (pol hist) t Hinv Ev Hlt) as W. pose proof (lik_nonneg c G o (at_ s t) (pol hist)) as L0.
      pose proof (update_regular_inv c (rs idx) s o (pol hist) G Ht Hinv Ev) as I2. pose proof (update_ls (rs idx) s o (pol hist) Hinv Ev) as LS.
      set (s' := fst (update c (rs idx) s o (pol hist) false)) in *.
      assert (Lp : 0 < lik (md c) o (at_ s t) (pol hist)) by lra.
      assert (Wp : 0 < wt s' t). { assert (0 < wt s t * lik (md c) o (at_ s t) (pol hist)) by now apply Rmult_lt_0_compat. pose proof (wt_range s' t I2). nra. }
      specialize (IH (hist ++ [o]) (S idx) s'). rewrite LS in IH. specialize (IH (Hstep _ _ _ HV) I2).
      assert (Hlt' : (t < n_particles s')%nat) by (unfold n_particles in *; rewrite LS, (step_len c G); exact Hlt).
      specialize (IH Hlt' Tm Wp). set (X := SumL _ _) in *. rewrite <- Rmult_assoc, <- W, Rmult_assoc, (Rmult_comm h). now apply Rmult_le_compat_l.
Qed.

(** Predictions. *)
Lemma gap_le_divergence (l : list O) (p r : O -> R) : (forall o, In o l -> 0 <= p o) -> (forall o, In o l -> 0 <= r o) -> (forall o, In o l -> p o <> 0 -> 0 < r o) ->
  SumL l p = 1 -> SumL l r = 1 -> SumL l (fun o => (sqrt (p o) - sqrt (r o)) ^ 2) <= SumL l (fun o => p o * (ln (p o) - ln (r o))).
Proof.
  intros Hp Hq Hpq Sp Sr.
  apply Rle_trans with (SumL l (fun o => p o * (ln (p o) - ln (r o)) + (r o - p o))).
  2:{ rewrite !SumL_rsum, rsum_map_plus, <- !SumL_rsum, SumL_minus, Sp, Sr. lra. }
  apply SumL_le. intros o Ho. specialize (Hp o Ho). specialize (Hq o Ho). specialize (Hpq o Ho).
  replace ((sqrt (p o) - sqrt (r o)) ^ 2) with (sqrt (p o) * sqrt (p o) + sqrt (r o) * sqrt (r o) - 2 * (sqrt (p o) * sqrt (r o))) by ring.
  rewrite !sqrt_sqrt by assumption. destruct (Req_EM_T (p o) 0) as [Z|Z]; [rewrite Z, sqrt_0; lra|]. specialize (Hpq Z). assert (P0 : 0 < p o) by lra.
  pose proof (sqrt_lt_R0 _ P0) as Q1. pose proof (sqrt_lt_R0 _ Hpq) as Q2. pose proof (sqrt_sqrt (p o) Hp) as E1. pose proof (sqrt_sqrt (r o) Hq) as E2.
  set (a := sqrt (p o)) in *. set (b := sqrt (r o)) in *. rewrite <- E1, <- E2. rewrite !ln_mult by assumption.
  pose proof (ln_le_minus1' (b / a) ltac:(now apply Rdiv_lt_0_compat)) as H. unfold Rdiv in H. rewrite ln_mult, ln_Rinv in H by (try assumption; now apply Rinv_0_lt_compat).
  apply (Rmult_le_compat_l (a * a)) in H; [|nra]. replace (a * a * (b * / a - 1)) with (a * b - a * a) in H by (field; lra). lra.
Qed.
Lemma merging pol t n : forall hist idx s, Forall V (ls s) -> full_inv s -> (t < n_particles s)%nat -> tame pol n hist idx s t -> 0 < wt s t ->
  SumL (records dom pol n hist) (fun data => path_lik c rs idx data (ls s) t * gaps c rs dom idx s t data) <= - ln (wt s t).
Proof.
  induction n as [|n IH]; intros hist idx s HV Hinv Hlt Hr Hw.
  - cbn [records]. unfold SumL. cbn [fold_right path_lik gaps]. pose proof (wt_range s t Hinv) as W.
    assert (ln (wt s t) <= 0). { rewrite <- ln_1. destruct (Rle_lt_or_eq_dec _ _ (proj2 W)) as [H|H]; [now apply Rlt_le, ln_increasing|rewrite H; lra]. } lra.
  - cbn [records]. rewrite SumL_flat_map. set (e := pol hist) in *. set (p := fun o => lik (md c) o (at_ s t) e). set (r := fun o => evidence c s o e).
    assert (Vt : V (at_ s t)) by (rewrite Forall_forall in HV; now apply HV, nth_In).
    assert (Sp : SumL (dom e) p = 1) by now apply Hdom. assert (Sr : SumL (dom e) r = 1) by now apply evidence_total.
    assert (Hp : forall o, In o (dom e) -> 0 <= p o) by (intros; apply (lik_nonneg c G)).
    assert (Hq : forall o, In o (dom e) -> 0 <= r o) by (intros; apply Sum_nonneg; intros i _; apply Rmult_le_pos; [apply (wt_range s i Hinv)|apply (lik_nonneg c G)]).
    pose proof eps_pos as Ep.
    assert (Hpq : forall o, In o (dom e) -> p o <> 0 -> 0 < r o) by (intros o Ho Z; destruct (tame_step pol n hist idx s t o HV Hinv Hlt Hr Ho Z) as [Ev _]; unfold r; fold e in Ev; lra).
    apply Rle_trans with (SumL (dom e) (fun o => p o * gap c dom s t e + p o * (- ln (wt s t) + (- ln (p o) + ln (r o))))).
    + apply SumL_le. intros o Ho. rewrite SumL_map.
      rewrite (SumL_ext _ _ (fun data => p o * (gap c dom s t e * path_lik c rs (S idx) data (timestep (md c) (rs idx) (ls s) e) t
         + path_lik c rs (S idx) data (timestep (md c) (rs idx) (ls s) e) t * gaps c rs dom (S idx) (fst (update c (rs idx) s o e false)) t data)))
        by (intros; cbn [path_lik gaps]; unfold p, at_; ring).
      rewrite SumL_scal. destruct (Req_EM_T (p o) 0) as [Z|Z]; [rewrite Z; lra|].
      destruct (tame_step pol n hist idx s t o HV Hinv Hlt Hr Ho Z) as [Ev Tm]. fold e in Ev, Tm.
      rewrite !SumL_rsum, rsum_map_plus, <- !SumL_rsum, SumL_scal.
      rewrite (path_total c rs dom V (step_len c G) Hdom Hstep) by first [now apply Hstep | rewrite (step_len c G); exact Hlt]. rewrite <- Rmult_plus_distr_l.
      pose proof (update_wt idx s o e t Hinv Ev Hlt) as W. pose proof (update_regular_inv c (rs idx) s o e G Ht Hinv Ev) as I2. pose proof (update_ls (rs idx) s o e Hinv Ev) as LS.
      set (s' := fst (update c (rs idx) s o e false)) in *. specialize (Hp o Ho). pose proof (Hpq o Ho Z) as Rp. assert (Pp : 0 < p o) by lra.
      change (lik (md c) o (at_ s t) e) with (p o) in W. change (evidence c s o e) with (r o) in W.
      assert (Wp : 0 < wt s' t). { assert (0 < wt s t * p o) by now apply Rmult_lt_0_compat. pose proof (wt_range s' t I2). nra. }
      apply Rmult_le_compat_l; [lra|]. rewrite Rmult_1_r. apply Rplus_le_compat_l.
      assert (Hlt' : (t < n_particles s')%nat) by (unfold n_particles in *; rewrite LS, (step_len c G); exact Hlt).
      specialize (IH (hist ++ [o]) (S idx) s'). rewrite LS in IH. specialize (IH (Hstep _ _ _ HV) I2 Hlt' Tm Wp).
      apply Rle_trans with (1 := IH). right. apply (f_equal ln) in W. rewrite !ln_mult in W by assumption. lra.
    + rewrite (SumL_ext _ _ (fun o => (gap c dom s t e + - ln (wt s t)) * p o + -1 * (p o * (ln (p o) - ln (r o))))) by (intros; ring).
      rewrite !SumL_rsum, rsum_map_plus, <- !SumL_rsum, !SumL_scal, Sp.
      pose proof (gap_le_divergence (dom e) p r Hp Hq Hpq Sp Sr) as K. change (SumL (dom e) (fun o => (sqrt (p o) - sqrt (r o)) ^ 2)) with (gap c dom s t e) in K. lra.
Qed.
Lemma surprises_le idx s t h data : 0 <= h -> h * INR (surprises c rs dom idx s t h data) <= gaps c rs dom idx s t data.
Proof.
  intros Hh. revert idx s. induction data as [|[o e] data IH]; intros idx s; cbn [surprises gaps]; [cbn; lra|].
  rewrite plus_INR, Rmult_plus_distr_l. apply Rplus_le_compat; [|apply IH].
  destruct (Rle_dec h (gap c dom s t e)); cbn [INR]; [lra|]. rewrite Rmult_0_r. apply SumL_nonneg. intros; apply pow2_ge_0.
Qed.

Section B.
Variables (pol : list O -> E) (n t : nat) (s : @state O).
Hypothesis (Hinv : full_inv s) (HV : Forall V (ls s)) (Hlt : (t < n_particles s)%nat) (Hw : 0 < wt s t).
Hypothesis (Hr : tame pol n [] 0 s t).
Notation recs := (records dom pol n []).
Notation after data := (run c s (updates rs 0 data)).
Notation P i data := (path_lik c rs 0 data (ls s) i).

Lemma generated_total : generated c rs s t recs (fun _ => 1) = 1.
Proof. unfold generated. rewrite (SumL_ext _ _ (fun data => P t data)) by (intros; ring). now apply (path_total c rs dom V (step_len c G) Hdom Hstep). Qed.
Lemma generated_le f g : (forall data, In data recs -> P t data <> 0 -> f data <= g data) -> generated c rs s t recs f <= generated c rs s t recs g.
Proof.
  intros H. apply SumL_le. intros data Hd. destruct (Req_EM_T (P t data) 0) as [Z|Z]; [rewrite Z; lra|].
  apply Rmult_le_compat_l; [now apply path_nonneg|now apply H].
Qed.
Lemma generated_scal k f : generated c rs s t recs (fun d => k * f d) = k * generated c rs s t recs f.
Proof. unfold generated. rewrite <- SumL_scal. apply SumL_ext. intros; ring. Qed.
Lemma generated_Sum m (f : nat -> list (O * E) -> R) : generated c rs s t recs (fun d => Sum m (fun i => f i d)) = Sum m (fun i => generated c rs s t recs (f i)).
Proof. unfold generated. rewrite <- SumL_Sum_swap. apply SumL_ext. intros d _. now rewrite <- Sum_scal. Qed.
Lemma after_facts data : In data recs -> P t data <> 0 -> full_inv (after data) /\ n_particles (after data) = n_particles s /\ 0 < wt (after data) t /\
  0 < predictive c rs s data /\ (forall i, (i < n_particles s)%nat -> predictive c rs s data * wt (after data) i = wt s i * P i data).
Proof.
  intros Hd Hp. destruct (Hr data Hd) as [Z|Rg]; [now elim Hp|]. destruct (predictive_recorded c rs s data G Ht Hinv Rg) as (Ns & _ & H1 & H2 & H3).
  destruct (run_regular c rs G Ht data 0%nat s Hinv Rg) as (I1 & I2 & _). repeat split; try assumption; try apply I1; [|lra].
  pose proof (H3 t Hlt) as W. rewrite <- H1 in W. pose proof (path_nonneg c rs data G 0%nat (ls s) t). pose proof (wt_range _ t I1).
  assert (0 < wt s t * P t data) by (apply Rmult_lt_0_compat; lra). nra.
Qed.
Lemma inverse_weight : generated c rs s t recs (fun d => / wt (after d) t) <= / wt s t.
Proof.
  apply Rle_trans with (SumL recs (fun d => / wt s t * predictive c rs s d)).
  2:{ rewrite SumL_scal, (predictive_total c rs dom V (step_len c G) Hdom Hstep) by assumption. lra. }
  apply SumL_le. intros d Hd. destruct (Req_EM_T (P t d) 0) as [Z|Z].
  - rewrite Z, Rmult_0_l. apply Rmult_le_pos; [apply Rlt_le, Rinv_0_lt_compat; assumption|]. apply Sum_nonneg. intros i _. apply Rmult_le_pos; [apply (wt_range s i Hinv)|now apply path_nonneg].
  - destruct (after_facts d Hd Z) as (_ & _ & W1 & P1 & W2). specialize (W2 t Hlt). right.
    apply Rmult_eq_reg_r with (wt s t * wt (after d) t); [|apply Rgt_not_eq, Rmult_lt_0_compat; assumption].
    replace (P t d * / wt (after d) t * (wt s t * wt (after d) t)) with (wt s t * P t d) by (field; lra). rewrite <- W2. field. lra.
Qed.

(** Two particles share at most the total weight. *)
Lemma two_weights (s' : @state O) i : full_inv s' -> (i < n_particles s')%nat -> (t < n_particles s')%nat -> i <> t -> wt s' i + wt s' t <= 1.
Proof.
  intros I1 Hi Hlt' Hn. rewrite <- (full_inv_Sum s' I1).
  apply Rle_trans with (Sum (n_particles s') (fun k => wt s' k * (if Nat.eqb k i then 1 else if Nat.eqb k t then 1 else 0))).
  2:{ apply Sum_le. intros k _. pose proof (wt_range s' k I1). destruct (Nat.eqb k i), (Nat.eqb k t); lra. }
  rewrite (Sum_ext _ _ (fun k => (if Nat.eqb k i then wt s' k else 0) + (if Nat.eqb k t then wt s' k else 0))).
  2:{ intros k _. destruct (Nat.eqb_spec k i), (Nat.eqb_spec k t); try congruence; lra. }
  rewrite Sum_plus. clear - Hi Hlt'. assert (S1 : forall m f j, (j < m)%nat -> Sum m (fun k => if Nat.eqb k j then f k else 0) = f j).
  { induction m as [|m IH]; intros f j Hj; [lia|]. rewrite Sum_S. destruct j as [|j]; cbn [Nat.eqb].
    - rewrite Sum_zero by reflexivity. ring.
    - rewrite (IH (fun k => f (S k)) j) by lia. ring. }
  rewrite !S1 by assumption. lra.
Qed.
Lemma half_root r : 0 <= r -> r / (1 + r) <= sqrt r / 2.
Proof.
  intros H. pose proof (sqrt_pos r) as S0. pose proof (sqrt_sqrt r H) as S1. set (q := sqrt r) in *. rewrite <- S1.
  apply Rmult_le_reg_r with (2 * (1 + q * q)); [nra|]. replace (q * q / (1 + q * q) * (2 * (1 + q * q))) with (2 * (q * q)) by (field; nra).
  replace (q / 2 * (2 * (1 + q * q))) with (q * (1 + q * q)) by field. pose proof (Rle_0_sqr (q - 1)). unfold Rsqr in *. nra.
Qed.
Lemma weight_term i d : (i < n_particles s)%nat -> i <> t -> In d recs -> P t d * wt (after d) i <= sqrt (wt s i / wt s t) / 2 * sqrt (P i d * P t d).
Proof.
  intros Hi Hn Hd. pose proof (path_nonneg c rs d G 0%nat (ls s) t) as Pt. pose proof (path_nonneg c rs d G 0%nat (ls s) i) as Pi.
  pose proof (wt_range s i Hinv) as Wi.
  destruct (Req_EM_T (P t d) 0) as [Z|Z]; [rewrite Z, Rmult_0_l, Rmult_0_r, sqrt_0; lra|].
  destruct (after_facts d Hd Z) as (I1 & I2 & W1 & P1 & W2). pose proof (W2 i Hi) as Wa. pose proof (W2 t Hlt) as Wb.
  assert (Pp : 0 < P t d) by lra. set (r := wt s i * P i d / (wt s t * P t d)).
  assert (D0 : 0 < wt s t * P t d) by now apply Rmult_lt_0_compat.
  assert (r0 : 0 <= r) by (unfold r; apply Rmult_le_pos; [apply Rmult_le_pos; lra|apply Rlt_le, Rinv_0_lt_compat; assumption]).
  assert (Hr' : wt (after d) i = r * wt (after d) t).
  { unfold r. rewrite <- Wa, <- Wb. field. split; lra. }
  pose proof (two_weights (after d) i I1 ltac:(lia) ltac:(lia) Hn) as Tw.
  assert (Wle : wt (after d) i <= r / (1 + r)).
  { apply Rmult_le_reg_r with (1 + r); [lra|]. replace (r / (1 + r) * (1 + r)) with r by (field; lra). rewrite Hr' in *. nra. }
  apply Rle_trans with (P t d * (sqrt r / 2)); [apply Rmult_le_compat_l; [assumption|]; apply Rle_trans with (1 := Wle); now apply half_root|].
  right. replace (P i d * P t d) with (P i d / P t d * (P t d * P t d)) by (field; lra).
  assert (q1 : 0 <= P i d / P t d) by (apply Rmult_le_pos; [assumption|apply Rlt_le, Rinv_0_lt_compat; assumption]).
  rewrite sqrt_mult, sqrt_square by (try assumption; now apply Rmult_le_pos).
  replace r with (wt s i / wt s t * (P i d / P t d)) by (unfold r; field; split; lra).
  rewrite sqrt_mult; [field|apply Rmult_le_pos; [lra|apply Rlt_le, Rinv_0_lt_compat; assumption]|assumption].
Qed.
End B.
End A.

Section C.
Context {O E RND : Type}.
Variables (c : @config O E RND) (rs : nat -> RND) (dom : E -> list O).
Hypothesis (G : good_config c) (Hst : forall r l e, timestep (md c) r l e = l).
Lemma overlap_power pol rho l i t : 0 <= rho -> (forall hist, overlap c dom (nth i l []) (nth t l []) (pol hist) <= rho) ->
  forall n hist idx, SumL (records dom pol n hist) (fun d => sqrt (path_lik c rs idx d l i * path_lik c rs idx d l t)) <= rho ^ n.
Proof.
  intros H0 Hov. induction n as [|n IH]; intros hist idx; cbn [records].
  - unfold SumL. cbn [fold_right path_lik pow]. rewrite Rmult_1_l, sqrt_1. lra.
  - rewrite SumL_flat_map. apply Rle_trans with (SumL (dom (pol hist)) (fun o => rho ^ n * sqrt (lik (md c) o (nth i l []) (pol hist) * lik (md c) o (nth t l []) (pol hist)))).
    + apply SumL_le. intros o _. rewrite SumL_map, (Rmult_comm (rho ^ n)).
      rewrite (SumL_ext _ _ (fun d => sqrt (lik (md c) o (nth i l []) (pol hist) * lik (md c) o (nth t l []) (pol hist)) * sqrt (path_lik c rs (S idx) d l i * path_lik c rs (S idx) d l t))).
      * rewrite SumL_scal. apply Rmult_le_compat_l; [apply sqrt_pos|apply IH].
      * intros d _. cbn [path_lik]. rewrite Hst, <- sqrt_mult by (apply Rmult_le_pos; try apply (lik_nonneg c G); now apply path_nonneg). f_equal. ring.
    + rewrite SumL_scal. cbn [pow]. rewrite Rmult_comm. apply Rmult_le_compat_r; [now apply pow_le|]. apply Hov.
Qed.
End C.

Lemma SumL_plus' {A} (l : list A) f g : SumL l (fun a => f a + g a) = SumL l f + SumL l g.
Proof. rewrite !SumL_rsum, <- rsum_map_plus. reflexivity. Qed.
(** The overlap is one minus half the squared distance of the roots. *)
Lemma overlap_distance {A} (l : list A) (p r : A -> R) : (forall a, In a l -> 0 <= p a) -> (forall a, In a l -> 0 <= r a) -> SumL l p = 1 -> SumL l r = 1 ->
  SumL l (fun a => sqrt (p a * r a)) = 1 - SumL l (fun a => (sqrt (p a) - sqrt (r a)) ^ 2) / 2.
Proof.
  intros Hp Hq Sp Sr. rewrite (SumL_ext l (fun a => (sqrt (p a) - sqrt (r a)) ^ 2) (fun a => (p a + r a) + -2 * sqrt (p a * r a))).
  - rewrite !SumL_plus', SumL_scal, Sp, Sr. lra.
  - intros a Ha. rewrite sqrt_mult by auto. replace ((sqrt (p a) - sqrt (r a)) ^ 2) with (sqrt (p a) * sqrt (p a) + sqrt (r a) * sqrt (r a) + -2 * (sqrt (p a) * sqrt (r a))) by ring.
    rewrite !sqrt_sqrt by auto. reflexivity.
Qed.
Lemma overlap_lt {A} (l : list A) (p r : A -> R) : (forall a, In a l -> 0 <= p a) -> (forall a, In a l -> 0 <= r a) -> SumL l p = 1 -> SumL l r = 1 ->
  0 <= SumL l (fun a => sqrt (p a * r a)) <= 1 /\ ((exists a, In a l /\ p a <> r a) -> SumL l (fun a => sqrt (p a * r a)) < 1).
Proof.
  intros Hp Hq Sp Sr. assert (N0 : 0 <= SumL l (fun a => (sqrt (p a) - sqrt (r a)) ^ 2)) by (apply SumL_nonneg; intros; apply pow2_ge_0).
  rewrite (overlap_distance l p r) by assumption. split; [split; [|lra]|].
  - rewrite <- (overlap_distance l p r) by assumption. apply SumL_nonneg. intros; apply sqrt_pos.
  - intros (a & Ha & Hn). assert (X : SumL l (fun _ => 0) < SumL l (fun a => (sqrt (p a) - sqrt (r a)) ^ 2)).
    { apply (SumL_lt _ _ _ a Ha); [|intros; apply pow2_ge_0]. assert (sqrt (p a) - sqrt (r a) <> 0).
      { intros Z. apply Hn. apply sqrt_inj; auto. lra. }
      pose proof (Rsqr_pos_lt _ H). unfold Rsqr in *. lra. }
    rewrite (SumL_rsum l (fun _ => 0)), rsum_map_zero in X. lra.
Qed.
