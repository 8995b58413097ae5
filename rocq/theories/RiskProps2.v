(** C14, continued: outcomes whose evidence is positive but below machine epsilon. *)
From Verif Require Import Base RList Ext Sums SmcModel SmcSpec SmcProofs SmcProofs2 RiskModel RiskSpec RiskProofs RiskProofs2 RiskProps.
From Coq Require Import List.

Lemma eps_lt_half : eps <= 1 / 2.
Proof. unfold eps. apply Rle_trans with (/ 2); [apply Rinv_le_contravar; [lra|]; rewrite <- (pow_1 2) at 1; apply Rle_pow; [lra|lia]|lra]. Qed.
Lemma SumL_In_le {A} (l : list A) f x : (forall y, In y l -> 0 <= f y) -> In x l -> f x <= SumL l f.
Proof.
  induction l as [|y l IH]; intros Hf Hx; [destruct Hx|]; destruct Hx as [->|Hx]; change (SumL (?a :: l) f) with (f a + SumL l f).
  - assert (0 <= SumL l f) by (apply SumL_nonneg; intros z Hz; apply Hf; now right). lra.
  - assert (f x <= SumL l f) by (apply IH; [intros z Hz; apply Hf; now right|assumption]). assert (0 <= f y) by (apply Hf; now left). lra.
Qed.

Section Small.
Context {O E RND : Type}.
Variable c : @config O E RND.

(** What outcome [o] contributes to the mutual information *)
Definition gain (s : @state O) (e : E) (o : O) : R :=
  Sum (n_particles s) (fun i => let joint := wt s i * lik (md c) o (at_ s i) e in joint * ln (joint / (wt s i * evidence c s o e))).

Lemma gain_bounds s os e o : length (ws s) = length (ls s) -> Forall (fun x => 0 < x) (ws s) -> prob_vector (ws s) ->
  (forall o x, In o os -> In x (ls s) -> 0 < lik (md c) o x e) -> (forall i, (i < n_particles s)%nat -> SumL os (fun o => lik (md c) o (at_ s i) e) = 1) -> In o os ->
  0 < evidence c s o e <= 1 /\ 0 <= gain s e o <= evidence c s o e * - ln (evidence c s o e)
  /\ Sum (n_particles s) (fun i => wt s i * lik (md c) o (at_ s i) e * ln (lik (md c) o (at_ s i) e)) = gain s e o + evidence c s o e * ln (evidence c s o e).
Proof.
  intros Hlen Hw Hpv HL Hnorm Ho.
  assert (Hn : (0 < n_particles s)%nat) by (unfold n_particles; rewrite <- Hlen; now apply prob_vector_nonempty).
  assert (HS1 : Sum (n_particles s) (wt s) = 1) by (apply (full_inv_Sum s); split; assumption).
  assert (HLi : forall i, (i < n_particles s)%nat -> 0 < lik (md c) o (at_ s i) e <= 1).
  { intros i Hi. split; [apply HL; [assumption|]; now apply nth_In|]. rewrite <- (Hnorm i Hi). apply (SumL_In_le os (fun o => lik (md c) o (at_ s i) e)); [|assumption]. intros o' Ho'. left. apply HL; [assumption|]. now apply nth_In. }
  assert (HWi : forall i, (i < n_particles s)%nat -> 0 < wt s i) by (intros i Hi; now apply wt_pos).
  assert (HP : 0 < evidence c s o e) by (apply evidence_pos; auto).
  assert (HE : Sum (n_particles s) (fun i => wt s i * lik (md c) o (at_ s i) e) = evidence c s o e) by reflexivity.
  assert (HP1 : evidence c s o e <= 1).
  { rewrite <- HS1, <- HE. apply Sum_le. intros i Hi. destruct (HLi i Hi). specialize (HWi i Hi). nra. }
  assert (HT : forall i, (i < n_particles s)%nat -> ln (wt s i * lik (md c) o (at_ s i) e / (wt s i * evidence c s o e)) = ln (lik (md c) o (at_ s i) e) - ln (evidence c s o e)).
  { intros i Hi. destruct (HLi i Hi). specialize (HWi i Hi). replace (wt s i * lik (md c) o (at_ s i) e / (wt s i * evidence c s o e)) with (lik (md c) o (at_ s i) e * / evidence c s o e) by (field; lra).
    rewrite ln_mult, ln_Rinv by (try assumption; now apply Rinv_0_lt_compat). ring. }
  assert (HQ : Sum (n_particles s) (fun i => wt s i * lik (md c) o (at_ s i) e * ln (lik (md c) o (at_ s i) e)) = gain s e o + evidence c s o e * ln (evidence c s o e)).
  { assert (HE2 : evidence c s o e * ln (evidence c s o e) = Sum (n_particles s) (fun i => wt s i * lik (md c) o (at_ s i) e * ln (evidence c s o e))) by (rewrite Sum_scal_r, HE; reflexivity).
    rewrite HE2. unfold gain. rewrite <- Sum_plus. apply Sum_ext. intros i Hi. cbv zeta. rewrite HT by assumption. ring. }
  split; [lra|]. split; [split|exact HQ].
  - apply Rle_trans with (Sum (n_particles s) (fun i => wt s i * lik (md c) o (at_ s i) e - wt s i * evidence c s o e)).
    + rewrite Sum_minus, HE, Sum_scal_r, HS1. lra.
    + apply Sum_le. intros i Hi. cbv zeta. rewrite HT by assumption. destruct (HLi i Hi). specialize (HWi i Hi). set (a := lik (md c) o (at_ s i) e) in *. set (P := evidence c s o e) in *. clearbody a P.
      assert (Hl := ln_le_minus1 (P * / a) ltac:(apply Rmult_lt_0_compat; [assumption|now apply Rinv_0_lt_compat])). rewrite ln_mult, ln_Rinv in Hl by (try assumption; now apply Rinv_0_lt_compat).
      assert (a * (ln P + - ln a) <= P - a) by (replace (P - a) with (a * (P * / a - 1)) by (field; lra); apply Rmult_le_compat_l; lra). nra.
  - assert (Sum (n_particles s) (fun i => wt s i * lik (md c) o (at_ s i) e * ln (lik (md c) o (at_ s i) e)) <= 0); [|lra].
    rewrite <- (Rmult_0_r (Sum (n_particles s) (wt s))), <- Sum_scal_r. apply Sum_le. intros i Hi. destruct (HLi i Hi) as [A1 A2]. specialize (HWi i Hi). assert (ln (lik (md c) o (at_ s i) e) <= 0) by (assert (B := ln_le_minus1 _ A1); lra).
    assert (0 < wt s i * lik (md c) o (at_ s i) e) by now apply Rmult_lt_0_compat. nra.
Qed.

(** The number that is returned never exceeds the mutual information, and falls short of it by at most the sum of -p ln p over the
    outcomes of probability p below machine epsilon. *)
Theorem c14_any_evidence s os e o_last :
  length (ws s) = length (ls s) -> Forall (fun x => 0 < x) (ws s) -> prob_vector (ws s) ->
  (forall o x, In o os -> In x (ls s) -> 0 < lik (md c) o x e) -> os = removelast os ++ [o_last] ->
  (forall i, (i < n_particles s)%nat -> SumL os (fun o => lik (md c) o (at_ s i) e) = 1) ->
  exists r, eig1 c (ws s) (ls s) os e = Fin r /\
    mutual_information c s os e - SumL (filter (fun o => Rltb (evidence c s o e) eps) (removelast os)) (fun o => evidence c s o e * - ln (evidence c s o e)) <= r <= mutual_information c s os e.
Proof.
  intros Hlen Hw Hpv HL Hos Hnorm.
  assert (Hn : (0 < n_particles s)%nat) by (unfold n_particles; rewrite <- Hlen; now apply prob_vector_nonempty).
  pose proof (last_raw_evidence c s os o_last e Hlen Hos Hnorm) as Hraw.
  assert (HNl : rsum (hyp_row c (ws s) (ls s) o_last e) = evidence c s o_last e) by (now apply norm_scale_evidence).
  assert (Hin : In o_last os) by (rewrite Hos; apply in_or_app; right; now left).
  assert (Hlast : 0 < evidence c s o_last e) by (apply evidence_pos; auto).
  set (coded := fun o => if Rltb (evidence c s o e) eps then evidence c s o e * (gain s e o + evidence c s o e * ln (evidence c s o e)) else gain s e o).
  assert (HWi : forall i, (i < n_particles s)%nat -> 0 < wt s i) by (intros i Hi; now apply wt_pos).
  assert (Hpos : forall o, In o os -> Forall (fun x => 0 < x) (hyp_row c (ws s) (ls s) o e)).
  { intros o Ho. unfold hyp_row, L_row. rewrite map2_map_r. apply Forall_map2. intros a x Ha Hx. rewrite Forall_forall in Hw. apply Rmult_lt_0_compat; auto. }
  exists (SumL (removelast os) coded + gain s e o_last). split.
  - unfold eig1, risk_N, risk_w. rewrite Hraw, HNl. rewrite map2_app by now rewrite !map_length. rewrite map2_map_l, map2_map_r, map2_same. cbn [map2].
    assert (map (fun x => xdiv (Fin x) (Fin (evidence c s o_last e))) (hyp_row c (ws s) (ls s) o_last e) = map Fin (map (fun x => x / evidence c s o_last e) (hyp_row c (ws s) (ls s) o_last e))) as ->.
    { rewrite map_map. apply map_ext. intros x. apply xdiv_Fin. lra. }
    assert (Hrow : forall o, In o os -> xmul (Fin (evidence c s o e)) (kld (map Fin (map (fun x => x / evidence c s o e) (hyp_row c (ws s) (ls s) o e))) (ws s)) = Fin (gain s e o)).
    { intros o Ho. assert (He : 0 < evidence c s o e) by (apply evidence_pos; auto). rewrite kld_Fin; [| | |assumption].
      - cbn [xmul]. f_equal. apply eig_term; auto.
      - now rewrite map_length, hyp_row_length.
      - rewrite Forall_map. eapply Forall_impl; [|exact (Hpos o Ho)]. intros a Ha. now apply Rdiv_lt_0_compat. }
    rewrite Hrow by assumption.
    assert (map (fun o => xmul (Fin (norm_scale c (ws s) (ls s) o e)) (kld (map Fin (norm_row c (ws s) (ls s) o e)) (ws s))) (removelast os) = map Fin (map coded (removelast os))) as ->.
    { rewrite map_map. apply map_ext_in. intros o Ho'. assert (Ho : In o os) by (rewrite Hos; apply in_or_app; now left). rewrite norm_scale_evidence by assumption. unfold norm_row. rewrite norm_scale_evidence by assumption. unfold coded.
      destruct (gain_bounds s os e o Hlen Hw Hpv HL Hnorm Ho) as (P0 & _ & HQ).
      destruct (Rltb_spec (evidence c s o e) eps) as [P1|P1].
      - unfold fix_norm. rewrite Rltb_true by (rewrite Rabs_pos_eq; lra). rewrite (map_ext _ (fun x => x)) by (intros; field). rewrite map_id. rewrite kld_Fin; [|now rewrite hyp_row_length|now apply Hpos|assumption]. cbn [xmul]. f_equal. f_equal. rewrite <- HQ.
        unfold hyp_row, L_row. rewrite map2_map_r. rewrite (rsum_map2_index _ _ _ 0 0) by (now apply map2_length). rewrite map2_length by assumption. rewrite Hlen. fold (n_particles s). apply Sum_ext. intros i Hi.
        rewrite (nth_map2 _ _ _ _ 0 [] 0) by (auto; rewrite Hlen; exact Hi). fold (wt s i). fold (at_ s i). f_equal. f_equal. field. specialize (HWi i Hi). lra.
      - rewrite fix_norm_pos by lra. now apply Hrow. }
    change [Fin (gain s e o_last)] with (map Fin [gain s e o_last]). rewrite <- map_app, xsum_Fin. f_equal. rewrite rsum_app, SumL_rsum. f_equal. rewrite rsum_cons, rsum_nil. ring.
  - unfold mutual_information. change (SumL os _) with (SumL os (gain s e)). assert (HM : SumL os (gain s e) = SumL (removelast os) (gain s e) + gain s e o_last) by (rewrite Hos at 1; rewrite SumL_app; unfold SumL; cbn [fold_right]; ring). rewrite HM. clear HM.
    assert (Hsub : forall o, In o (removelast os) -> In o os) by (intros o Ho; rewrite Hos; apply in_or_app; now left). clear Hos Hraw.
    assert (SumL (removelast os) (gain s e) - SumL (filter (fun o => Rltb (evidence c s o e) eps) (removelast os)) (fun o => evidence c s o e * - ln (evidence c s o e)) <= SumL (removelast os) coded <= SumL (removelast os) (gain s e)); [|lra].
    induction (removelast os) as [|o r IH]; [unfold SumL; cbn; lra|].
    specialize (IH (fun o Ho => Hsub o (or_intror Ho))). change (SumL (o :: r) ?h) with (h o + SumL r h). cbn [filter].
    destruct (gain_bounds s os e o Hlen Hw Hpv HL Hnorm (Hsub o (or_introl eq_refl))) as (P0 & P1 & _).
    assert (HC : coded o = if Rltb (evidence c s o e) eps then evidence c s o e * (gain s e o + evidence c s o e * ln (evidence c s o e)) else gain s e o) by reflexivity. rewrite HC. clear HC.
    destruct (Rltb_spec (evidence c s o e) eps) as [P2|P2]; [|lra].
    change (SumL (o :: ?q) ?h) with (h o + SumL q h). cbv beta. set (N := evidence c s o e) in *. set (T := gain s e o) in *. set (l := ln N) in *. clearbody N T l. cbv beta. assert (0 <= (1 - N) * T) by (apply Rmult_le_pos; lra). assert (0 <= (1 - N) * (N * - l - T)) by (apply Rmult_le_pos; lra). assert (0 <= N * (N * - l)) by (apply Rmult_le_pos; lra). destruct IH as [I1 I2]. split; lra.
Qed.
End Small.

(** The announced information gain can be negative: one particle, about which nothing can be learnt, and an outcome below machine epsilon. *)
Theorem c14_negative_refuted : exists (c : @config bool unit unit) (s : @state bool) r,
  prob_vector (ws s) /\ Forall (fun x => 0 < x) (ws s) /\ length (ws s) = length (ls s) /\ (forall o x, 0 < lik (md c) o x tt) /\ lik_normalised c s [true; false] tt /\
  eig1 c (ws s) (ls s) [true; false] tt = Fin r /\ r < 0 /\ mutual_information c s [true; false] tt = 0.
Proof.
  assert (Hp := eps_pos). assert (Hh := eps_lt_half). set (N := eps / 2). assert (HN : 0 < N < eps) by (unfold N; lra). clearbody N.
  assert (Hl0 : ln N < 0) by (rewrite <- ln_1; apply ln_increasing; lra).
  exists (rare N), lone, (N * (N * ln N)).
  split; [split; [constructor; [lra|constructor]|unfold lone; cbn [ws]; rewrite rsum_cons, rsum_nil; ring]|].
  split; [constructor; [lra|constructor]|]. split; [reflexivity|]. split; [intros [|] x; cbn; lra|]. split; [intros i Hi; unfold SumL; cbn; ring|].
  split; [|split; [assert (0 < N * (N * - ln N)) by (repeat apply Rmult_lt_0_compat; lra); lra|]].
  - unfold eig1, risk_N, risk_w. cbn [removelast map app map2 lone ws ls].
    assert (Hl : last_raw (rare N) [1] [[1]] [true; false] tt = [1 - N]).
    { unfold last_raw. cbn [removelast map map2 rare md lik]. rewrite rsum_cons, rsum_nil. f_equal. ring. }
    rewrite Hl. rewrite rsum_cons, rsum_nil, Rplus_0_r. cbn [map]. rewrite xdiv_Fin by lra.
    assert (Hn : norm_scale (rare N) [1] [[1]] true tt = N).
    { change (norm_scale (rare N) (ws lone) (ls lone) true tt = N). rewrite norm_scale_evidence by (try reflexivity). apply (rare_evidence N true). }
    assert (Hr : norm_row (rare N) [1] [[1]] true tt = [N]).
    { unfold norm_row, fix_norm. rewrite Hn. rewrite Rltb_true by (rewrite Rabs_pos_eq; lra). unfold hyp_row, L_row. cbn. f_equal. field. }
    rewrite Hn, Hr. replace ((1 - N) / (1 - N)) with 1 by (field; lra). change [Fin N] with (map Fin [N]). change [Fin 1] with (map Fin [1]).
    assert (Hk : forall a, 0 < a -> kld (map Fin [a]) [1] = Fin (a * ln a)).
    { intros a Ha. rewrite kld_Fin; [|reflexivity|constructor; [assumption|constructor]|constructor; [lra|constructor]]. cbn [map2]. rewrite rsum_cons, rsum_nil. f_equal. replace (a / 1) with a by field. ring. }
    cbn [map] in Hk |- *. rewrite !Hk by lra. cbn [xmul]. rewrite ln_1.
    change [Fin (N * (N * ln N)); Fin ((1 - N) * (1 * 0))] with (map Fin [N * (N * ln N); (1 - N) * (1 * 0)]). rewrite xsum_Fin. f_equal. rewrite !rsum_cons, rsum_nil. ring.
  - unfold mutual_information, SumL. cbn [fold_right]. rewrite !rare_evidence. unfold n_particles. cbn [length lone ls]. rewrite !Sum_S, !Sum_0. unfold wt, at_. cbn [lone ws ls nth rare md lik].
    replace (1 * N / (1 * N)) with 1 by (field; lra). replace (1 * (1 - N) / (1 * (1 - N))) with 1 by (field; lra). rewrite ln_1. ring.
Qed.

(** The hypotheses hold of this cloud. *)
Example ex_c14_any : exists r, eig1 (rare (eps / 2)) (ws lone) (ls lone) [true; false] tt = Fin r /\ r <= 0.
Proof.
  assert (Hp := eps_pos). assert (Hh := eps_lt_half). destruct (c14_any_evidence (rare (eps / 2)) lone [true; false] tt false) as (r & E1 & E2 & E3).
  - reflexivity.
  - constructor; [lra|constructor].
  - split; [constructor; [lra|constructor]|unfold lone; cbn [ws]; rewrite rsum_cons, rsum_nil; ring].
  - intros [|] x _ _; cbn; lra.
  - reflexivity.
  - intros i Hi. unfold SumL. cbn. ring.
  - exists r. split; [exact E1|]. eapply Rle_trans; [exact E3|]. right. unfold mutual_information, SumL. cbn [fold_right]. rewrite !rare_evidence. unfold n_particles. cbn [length lone ls]. rewrite !Sum_S, !Sum_0. unfold wt, at_. cbn [lone ws ls nth rare md lik].
    replace (1 * (eps / 2) / (1 * (eps / 2))) with 1 by (field; lra). replace (1 * (1 - eps / 2) / (1 * (1 - eps / 2))) with 1 by (field; lra). rewrite ln_1. ring.
Qed.
Print Assumptions c14_any_evidence.
Print Assumptions c14_negative_refuted.
