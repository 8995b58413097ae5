(** Proofs about Bayes risk and expected information gain. *)
From Verif Require Import Base RList Ext SmcModel SmcSpec SmcProofs SmcProofs2 RiskModel RiskSpec.

Lemma variance_nonneg n p f : (forall i, (i < n)%nat -> 0 <= p i) -> 0 <= variance n p f.
Proof. intros H. apply Sum_nonneg. intros i Hi. apply Rmult_le_pos; [auto|]. apply pow2_ge_0. Qed.

Lemma variance_ext n p q f : (forall i, (i < n)%nat -> p i = q i) -> variance n p f = variance n q f.
Proof.
  intros H. unfold variance. rewrite (Sum_ext n (fun k => p k * f k) (fun k => q k * f k)) by (intros k Hk; now rewrite H).
  apply Sum_ext. intros i Hi. now rewrite H.
Qed.

(** The mean minimises the mean square deviation. *)
Lemma variance_min n a f m : 0 < Sum n a ->
  Sum n a * variance n (fun i => a i / Sum n a) f <= Sum n (fun i => a i * (f i - m) ^ 2).
Proof.
  intros HN. set (N := Sum n a) in *.
  set (M := Sum n (fun k => a k / N * f k)).
  assert (HM : N * M = Sum n (fun k => a k * f k)).
  { unfold M. rewrite <- Sum_scal. apply Sum_ext. intros k _. field. lra. }
  assert (E1 : N * variance n (fun i => a i / N) f = Sum n (fun i => a i * (f i - M) ^ 2)).
  { unfold variance. fold M. rewrite <- Sum_scal. apply Sum_ext. intros i _. field. lra. }
  rewrite E1.
  assert (E2 : forall t, Sum n (fun i => a i * (f i - t) ^ 2) = Sum n (fun i => a i * f i ^ 2) - 2 * t * (N * M) + t ^ 2 * N).
  { intros t. rewrite HM. unfold N. rewrite <- !Sum_scal, <- Sum_minus, <- Sum_plus. apply Sum_ext. intros i _. ring. }
  rewrite !E2. assert (0 <= N * (M - m) ^ 2) by (apply Rmult_le_pos; [lra|apply pow2_ge_0]). nra.
Qed.

Lemma xle_0_Fin x : 0 <= x -> xle (Fin 0) (Fin x).
Proof. intros. now apply xle_Fin. Qed.

Section Proofs.
Context {O E RND : Type}.
Variable c : @config O E RND.
Variable Q : list R.
Implicit Types s : @state O.

(** Real-valued version of [var_hyp]. *)
Definition rvar (wh : list R) (l : list loc) : R :=
  rsum (map2 (fun a x => a * rsum (map (fun j => nth j Q 0 * ((nth j x 0 - rdot wh (col j l)) * (nth j x 0 - rdot wh (col j l))))
    (seq 0 (length Q)))) wh l).

Lemma mu_hyp_Fin wh l j : mu_hyp (map Fin wh) l j = Fin (rdot wh (col j l)).
Proof.
  unfold mu_hyp, rdot, col. rewrite map2_map_l, map2_map_r, <- xsum_Fin, map_map2. f_equal.
Qed.

Lemma var_hyp_Fin wh l : var_hyp Q (map Fin wh) l = Fin (rvar wh l).
Proof.
  unfold var_hyp, rvar. rewrite map2_map_l, <- xsum_Fin, map_map2. f_equal. apply map2_ext. intros a x.
  transitivity (xmul (Fin a) (Fin (rsum (map (fun j => nth j Q 0 * ((nth j x 0 - rdot wh (col j l)) * (nth j x 0 - rdot wh (col j l)))) (seq 0 (length Q)))))); [|reflexivity].
  f_equal. rewrite <- xsum_Fin, map_map. f_equal. apply map_ext. intros j. cbv zeta. rewrite mu_hyp_Fin. reflexivity.
Qed.

Lemma rdot_index w (f : loc -> R) l : length w = length l ->
  rdot w (map f l) = Sum (length l) (fun i => nth i w 0 * f (nth i l [])).
Proof.
  intros H. unfold rdot. rewrite map2_map_r. rewrite (rsum_map2_index _ _ _ 0 []) by assumption. now rewrite H.
Qed.

Lemma rvar_loss s wh : length wh = length (ls s) ->
  rvar wh (ls s) = loss Q s (fun i => nth i wh 0).
Proof.
  intros H. unfold rvar, loss, variance. rewrite (rsum_map2_index _ _ _ 0 []) by assumption.
  rewrite H. fold (n_particles s).
  rewrite (Sum_ext _ _ (fun i => Sum (length Q) (fun j => nth j Q 0 * (nth i wh 0 *
     (nth j (at_ s i) 0 - Sum (n_particles s) (fun k => nth k wh 0 * nth j (at_ s k) 0)) ^ 2)))).
  - rewrite Sum_swap. apply Sum_ext. intros j _. now rewrite Sum_scal.
  - intros i _. rewrite <- Sum_rsum, <- Sum_scal. apply Sum_ext. intros j _.
    unfold col. rewrite (rdot_index wh (fun r => nth j r 0)) by assumption. fold (n_particles s).
    unfold at_. ring.
Qed.

Lemma last_raw_evidence s os o_last e : length (ws s) = length (ls s) -> os = removelast os ++ [o_last] ->
  (forall i, (i < n_particles s)%nat -> SumL os (fun o => lik (md c) o (at_ s i) e) = 1) ->
  last_raw c (ws s) (ls s) os e = hyp_row c (ws s) (ls s) o_last e.
Proof.
  intros Hlen Hos Hsum. unfold last_raw, hyp_row, L_row. rewrite map2_map_r.
  rewrite !(map2_index _ _ _ 0 []) by assumption. apply map_ext_in. intros i Hi. apply in_seq in Hi.
  specialize (Hsum i ltac:(unfold n_particles; lia)). rewrite Hos, SumL_app in Hsum. rewrite SumL_rsum in Hsum.
  unfold SumL in Hsum. cbn [fold_right] in Hsum. unfold at_ in Hsum. rewrite Rmult_comm. f_equal. lra.
Qed.

Definition lik_normalised s (os : list O) (e : E) : Prop :=
  forall i, (i < n_particles s)%nat -> SumL os (fun o => lik (md c) o (at_ s i) e) = 1.

(** One term of the risk: an outcome whose evidence is 0 or not below machine epsilon. *)
Lemma risk_term s o e : length (ws s) = length (ls s) -> Forall (fun x => 0 <= x) (ws s) ->
  (forall o x e, 0 <= lik (md c) o x e) ->
  evidence c s o e = 0 \/ eps <= evidence c s o e ->
  evidence c s o e * rvar (norm_row c (ws s) (ls s) o e) (ls s)
  = evidence c s o e * loss Q s (posterior c s o e).
Proof.
  intros Hlen Hw HL [H0|He]; [rewrite H0; ring|]. f_equal.
  rewrite rvar_loss by (unfold norm_row; now rewrite map_length, hyp_row_length).
  unfold loss. apply Sum_ext. intros j _. f_equal. apply variance_ext. intros i Hi. now apply norm_row_nth.
Qed.

Lemma removelast_last os (o : O) : os <> [] -> exists o_last, os = removelast os ++ [o_last] /\ o_last = last os o.
Proof. intros H. exists (last os o). split; [now apply app_removelast_last|reflexivity]. Qed.

Lemma c13_value s os e o_last :
  length (ws s) = length (ls s) -> prob_vector (ws s) -> (forall o x e, 0 <= lik (md c) o x e) ->
  os = removelast os ++ [o_last] -> lik_normalised s os e ->
  (forall o, In o (removelast os) -> evidence c s o e = 0 \/ eps <= evidence c s o e) ->
  0 < evidence c s o_last e ->
  bayes_risk1 c Q (ws s) (ls s) os e = Fin (expected_posterior_loss c Q s os e).
Proof.
  intros Hlen [Hw Hsum1] HL Hos Hnorm Hev Hlast.
  pose proof (last_raw_evidence s os o_last e Hlen Hos Hnorm) as Hraw.
  assert (HNl : rsum (hyp_row c (ws s) (ls s) o_last e) = evidence c s o_last e) by (now apply norm_scale_evidence).
  unfold bayes_risk1, risk_N, risk_w. rewrite Hraw, HNl.
  rewrite map2_app by now rewrite !map_length. rewrite map2_map_l, map2_map_r, map2_same. cbn [map2].
  assert (map (fun x => xdiv (Fin x) (Fin (evidence c s o_last e))) (hyp_row c (ws s) (ls s) o_last e)
    = map Fin (map (fun x => x / evidence c s o_last e) (hyp_row c (ws s) (ls s) o_last e))) as ->.
  { rewrite map_map. apply map_ext. intros x. apply xdiv_Fin. lra. }
  set (term := fun o => evidence c s o e * loss Q s (posterior c s o e)).
  assert (map (fun o => xmul (Fin (norm_scale c (ws s) (ls s) o e)) (var_hyp Q (map Fin (norm_row c (ws s) (ls s) o e)) (ls s))) (removelast os)
    = map Fin (map term (removelast os))) as ->.
  { rewrite map_map. apply map_ext_in. intros o Ho. rewrite var_hyp_Fin. cbn [xmul]. f_equal.
    rewrite norm_scale_evidence by assumption. apply risk_term; auto. }
  rewrite var_hyp_Fin. cbn [xmul].
  assert (evidence c s o_last e * rvar (map (fun x => x / evidence c s o_last e) (hyp_row c (ws s) (ls s) o_last e)) (ls s)
    = term o_last) as ->.
  { unfold term. f_equal. rewrite rvar_loss by (now rewrite map_length, hyp_row_length).
    unfold loss. apply Sum_ext. intros j _. f_equal. apply variance_ext. intros i Hi.
    unfold posterior, bayes. fold (evidence c s o_last e). unfold hyp_row, L_row. rewrite map2_map_r, map_map2.
    rewrite (nth_map2 _ _ _ _ 0 [] 0); [reflexivity| |assumption]. rewrite Hlen; exact Hi. }
  change [Fin (term o_last)] with (map Fin [term o_last]). rewrite <- map_app, xsum_Fin. f_equal.
  transitivity (SumL (removelast os ++ [o_last]) term); [rewrite SumL_rsum, map_app; reflexivity|rewrite <- Hos; reflexivity].
Qed.

(** The last outcome impossible: everything turns into NaN. *)
Lemma c13_nan s os e o_last :
  length (ws s) = length (ls s) -> prob_vector (ws s) -> (forall o x e, 0 <= lik (md c) o x e) ->
  os = removelast os ++ [o_last] -> lik_normalised s os e -> evidence c s o_last e = 0 ->
  bayes_risk1 c Q (ws s) (ls s) os e = NaN /\ eig1 c (ws s) (ls s) os e = NaN.
Proof.
  intros Hlen [Hw Hsum1] HL Hos Hnorm Hlast.
  pose proof (last_raw_evidence s os o_last e Hlen Hos Hnorm) as Hraw.
  assert (HNl : rsum (hyp_row c (ws s) (ls s) o_last e) = evidence c s o_last e) by (now apply norm_scale_evidence).
  pose proof (hyp_row_nonneg c (ws s) (ls s) o_last e Hw HL) as Hnn.
  rewrite Hlast in HNl. pose proof (rsum_nonneg_zero _ Hnn HNl) as Hz.
  pose proof (prob_vector_nonempty _ (conj Hw Hsum1)) as Hne.
  pose proof (hyp_row_length c (ws s) (ls s) o_last e Hlen) as Hhl.
  unfold bayes_risk1, eig1, risk_N, risk_w. rewrite Hraw, HNl.
  rewrite !map2_app by now rewrite !map_length. cbn [map2].
  assert (exists k, map (fun x => xdiv (Fin x) (Fin 0)) (hyp_row c (ws s) (ls s) o_last e) = NaN :: k) as [k Hk].
  { destruct (hyp_row c (ws s) (ls s) o_last e) as [|x h]; [simpl in Hhl; lia|]. inversion Hz; subst.
    cbn [map]. rewrite xdiv_00. eexists; reflexivity. }
  rewrite Hk. destruct (ws s) as [|w0 w]; [simpl in Hne; lia|]. destruct (ls s) as [|l0 l]; [discriminate|].
  split; apply xsum_NaN; apply in_or_app; right; left.
  - replace (var_hyp Q (NaN :: k) (l0 :: l)) with NaN; [apply xmul_NaN_r|]. symmetry. apply xsum_NaN. left. apply xmul_NaN_l.
  - replace (kld (NaN :: k) (w0 :: w)) with NaN; [apply xmul_NaN_r|]. symmetry. apply xsum_NaN. left. apply xmul_NaN_l.
Qed.

Lemma evidence_nonneg s o e : Forall (fun x => 0 <= x) (ws s) -> (forall o x e, 0 <= lik (md c) o x e) -> 0 <= evidence c s o e.
Proof.
  intros Hw HL. apply Sum_nonneg. intros i Hi. apply Rmult_le_pos; [|apply HL].
  unfold wt. destruct (nth_in_or_default i (ws s) 0) as [H|H]; [|rewrite H; lra].
  rewrite Forall_forall in Hw. auto.
Qed.
Lemma wt_nonneg s i : Forall (fun x => 0 <= x) (ws s) -> 0 <= wt s i.
Proof. intros Hw. unfold wt. destruct (nth_in_or_default i (ws s) 0) as [H|H]; [|rewrite H; lra]. rewrite Forall_forall in Hw; auto. Qed.

Lemma loss_nonneg s p : Forall (fun x => 0 <= x) Q -> (forall i, (i < n_particles s)%nat -> 0 <= p i) -> 0 <= loss Q s p.
Proof.
  intros HQ Hp. apply Sum_nonneg. intros j Hj. apply Rmult_le_pos; [|now apply variance_nonneg].
  rewrite Forall_forall in HQ. apply HQ. now apply nth_In.
Qed.

Lemma c13_bounds s os e : Forall (fun x => 0 <= x) Q -> length (ws s) = length (ls s) -> prob_vector (ws s) ->
  (forall o x e, 0 <= lik (md c) o x e) -> lik_normalised s os e ->
  0 <= expected_posterior_loss c Q s os e <= loss Q s (wt s).
Proof.
  intros HQ Hlen Hpv HL Hnorm. destruct Hpv as [Hw Hs]. unfold expected_posterior_loss. split.
  - apply SumL_nonneg. intros o _. apply Rmult_le_pos; [now apply evidence_nonneg|].
    apply loss_nonneg; [assumption|]. intros i Hi. unfold posterior, bayes. fold (evidence c s o e).
    pose proof (evidence_nonneg s o e Hw HL).
    apply Rmult_le_pos; [apply Rmult_le_pos; [now apply wt_nonneg|apply HL]|].
    destruct (Req_dec (evidence c s o e) 0) as [->|]; [rewrite Rinv_0; lra|]. left. apply Rinv_0_lt_compat. lra.
  - set (mu := fun j => Sum (n_particles s) (fun k => wt s k * nth j (at_ s k) 0)).
    apply Rle_trans with (SumL os (fun o => Sum (length Q) (fun j => nth j Q 0 *
      Sum (n_particles s) (fun i => wt s i * lik (md c) o (at_ s i) e * (nth j (at_ s i) 0 - mu j) ^ 2)))).
    + apply SumL_le. intros o _. unfold loss. rewrite <- Sum_scal. apply Sum_le. intros j Hj.
      rewrite <- Rmult_assoc, (Rmult_comm (evidence c s o e)), Rmult_assoc.
      apply Rmult_le_compat_l; [rewrite Forall_forall in HQ; apply HQ; now apply nth_In|].
      pose proof (evidence_nonneg s o e Hw HL) as He.
      destruct (Req_dec (evidence c s o e) 0) as [E0|E0].
      * rewrite E0, Rmult_0_l. apply Sum_nonneg. intros i Hi. apply Rmult_le_pos; [|apply pow2_ge_0].
        apply Rmult_le_pos; [now apply wt_nonneg|apply HL].
      * unfold posterior, bayes. apply variance_min. fold (evidence c s o e). lra.
    + right. rewrite SumL_Sum_swap. unfold loss. apply Sum_ext. intros j _.
      rewrite SumL_scal. f_equal. unfold variance. fold (mu j). rewrite SumL_Sum_swap. apply Sum_ext. intros i Hi.
      rewrite (SumL_ext _ _ (fun o => (wt s i * (nth j (at_ s i) 0 - mu j) ^ 2) * lik (md c) o (at_ s i) e)) by (intros; ring).
      rewrite SumL_scal. rewrite (Hnorm i Hi). ring.
Qed.

(** ** C14 *)
Lemma kld_Fin wh w : length wh = length w -> Forall (fun x => 0 < x) wh -> Forall (fun x => 0 < x) w ->
  kld (map Fin wh) w = Fin (rsum (map2 (fun a b => a * ln (a / b)) wh w)).
Proof.
  intros Hl H1 H2. revert w Hl H2. induction H1 as [|a wh Ha Hwh IH]; intros [|b w] Hl H2; try discriminate; [reflexivity|].
  inversion H2; subst. unfold kld in *. cbn [map map2]. rewrite xsum_cons, IH by (auto; simpl in Hl; congruence).
  rewrite xdiv_Fin by lra. cbn [xln]. rewrite Rltb_true by (apply Rdiv_lt_0_compat; assumption).
  cbn [xmul xadd]. rewrite rsum_cons. reflexivity.
Qed.

Lemma norm_row_pos w l o e N : fix_norm (norm_scale c w l o e) = N -> 0 < N -> Forall (fun x => 0 < x) w ->
  (forall x, In x l -> 0 < lik (md c) o x e) -> Forall (fun x => 0 < x) (norm_row c w l o e).
Proof.
  intros HN HNp Hw HL. unfold norm_row. rewrite HN. rewrite Forall_map. unfold hyp_row, L_row. rewrite map2_map_r.
  apply Forall_map2. intros a x Ha Hx. rewrite Forall_forall in Hw. apply Rdiv_lt_0_compat; [|assumption].
  apply Rmult_lt_0_compat; auto.
Qed.

Lemma eig_term s o e wh : length (ws s) = length (ls s) -> Forall (fun x => 0 < x) (ws s) ->
  (forall x, In x (ls s) -> 0 < lik (md c) o x e) -> 0 < evidence c s o e ->
  wh = map (fun x => x / evidence c s o e) (hyp_row c (ws s) (ls s) o e) ->
  evidence c s o e * rsum (map2 (fun a b => a * ln (a / b)) wh (ws s))
  = Sum (n_particles s) (fun i => let joint := wt s i * lik (md c) o (at_ s i) e in
      joint * ln (joint / (wt s i * evidence c s o e))).
Proof.
  intros Hlen Hw HL He ->. unfold hyp_row, L_row. rewrite map2_map_r, map_map2.
  assert (Hl2 : length (map2 (fun a b => a * lik (md c) o b e / evidence c s o e) (ws s) (ls s)) = length (ws s)) by now apply map2_length.
  rewrite (rsum_map2_index _ _ _ 0 0) by assumption. rewrite Hl2, Hlen. fold (n_particles s).
  rewrite <- Sum_scal. apply Sum_ext. intros i Hi.
  rewrite (nth_map2 _ _ _ _ 0 [] 0) by (auto; rewrite Hlen; exact Hi). fold (wt s i). fold (at_ s i).
  assert (0 < wt s i). { unfold wt. rewrite Forall_forall in Hw. apply Hw. apply nth_In. rewrite Hlen. exact Hi. }
  cbv zeta. replace (wt s i * lik (md c) o (at_ s i) e / evidence c s o e / wt s i)
    with (wt s i * lik (md c) o (at_ s i) e / (wt s i * evidence c s o e)) by (field; lra).
  field. lra.
Qed.

Lemma evidence_pos s o e : length (ws s) = length (ls s) -> Forall (fun x => 0 < x) (ws s) -> (0 < n_particles s)%nat ->
  (forall x, In x (ls s) -> 0 < lik (md c) o x e) -> 0 < evidence c s o e.
Proof.
  intros Hlen Hw Hn HL. rewrite <- norm_scale_evidence by assumption. unfold norm_scale, hyp_row, L_row, n_particles in *. rewrite map2_map_r.
  destruct (ws s) as [|w0 w], (ls s) as [|l0 l]; simpl in *; try lia. inversion Hw; subst. rewrite rsum_cons.
  assert (0 < w0 * lik (md c) o l0 e) by (apply Rmult_lt_0_compat; auto).
  assert (0 <= rsum (map2 (fun a b => a * lik (md c) o b e) w l)); [|lra].
  apply rsum_nonneg, Forall_map2. intros a x Ha Hx. rewrite Forall_forall in H2. left. apply Rmult_lt_0_compat; auto.
Qed.

Lemma c14_value s os e o_last :
  length (ws s) = length (ls s) -> Forall (fun x => 0 < x) (ws s) -> prob_vector (ws s) ->
  (forall o x, In o os -> In x (ls s) -> 0 < lik (md c) o x e) ->
  os = removelast os ++ [o_last] -> lik_normalised s os e ->
  (forall o, In o (removelast os) -> eps <= evidence c s o e) ->
  eig1 c (ws s) (ls s) os e = Fin (mutual_information c s os e).
Proof.
  intros Hlen Hw Hpv HL Hos Hnorm Hev.
  assert (Hn : (0 < n_particles s)%nat) by (unfold n_particles; rewrite <- Hlen; now apply prob_vector_nonempty).
  pose proof (last_raw_evidence s os o_last e Hlen Hos Hnorm) as Hraw.
  assert (HNl : rsum (hyp_row c (ws s) (ls s) o_last e) = evidence c s o_last e) by (now apply norm_scale_evidence).
  assert (Hin : In o_last os) by (rewrite Hos; apply in_or_app; right; now left).
  assert (Hlast : 0 < evidence c s o_last e) by (apply evidence_pos; auto).
  unfold eig1, risk_N, risk_w. rewrite Hraw, HNl.
  rewrite map2_app by now rewrite !map_length. rewrite map2_map_l, map2_map_r, map2_same. cbn [map2].
  assert (map (fun x => xdiv (Fin x) (Fin (evidence c s o_last e))) (hyp_row c (ws s) (ls s) o_last e)
    = map Fin (map (fun x => x / evidence c s o_last e) (hyp_row c (ws s) (ls s) o_last e))) as ->.
  { rewrite map_map. apply map_ext. intros x. apply xdiv_Fin. lra. }
  set (term := fun o => Sum (n_particles s) (fun i => let joint := wt s i * lik (md c) o (at_ s i) e in
      joint * ln (joint / (wt s i * evidence c s o e)))).
  assert (Hrow : forall o, In o os -> 0 < evidence c s o e ->
    xmul (Fin (evidence c s o e)) (kld (map Fin (map (fun x => x / evidence c s o e) (hyp_row c (ws s) (ls s) o e))) (ws s)) = Fin (term o)).
  { intros o Ho He. rewrite kld_Fin; [| | |assumption].
    - cbn [xmul]. f_equal. apply eig_term; auto.
    - now rewrite map_length, hyp_row_length.
    - rewrite Forall_map. unfold hyp_row, L_row. rewrite map2_map_r. apply Forall_map2. intros a x Ha Hx.
      apply Rdiv_lt_0_compat; [|assumption]. rewrite Forall_forall in Hw. apply Rmult_lt_0_compat; auto. }
  rewrite Hrow by assumption.
  assert (map (fun o => xmul (Fin (norm_scale c (ws s) (ls s) o e)) (kld (map Fin (norm_row c (ws s) (ls s) o e)) (ws s))) (removelast os)
    = map Fin (map term (removelast os))) as ->.
  { rewrite map_map. apply map_ext_in. intros o Ho. specialize (Hev o Ho). pose proof eps_pos.
    rewrite <- Hrow; [|rewrite Hos; apply in_or_app; now left|lra]. unfold norm_row.
    rewrite norm_scale_evidence by assumption. rewrite fix_norm_pos by assumption. reflexivity. }
  change [Fin (term o_last)] with (map Fin [term o_last]). rewrite <- map_app, xsum_Fin. f_equal.
  transitivity (SumL (removelast os ++ [o_last]) term); [rewrite SumL_rsum, map_app; reflexivity|rewrite <- Hos; reflexivity].
Qed.

Lemma ln_le_minus1 x : 0 < x -> ln x <= x - 1.
Proof.
  intros Hx. destruct (Req_dec x 1) as [->|Hne]; [rewrite ln_1; lra|].
  assert (Hl : ln x <> 0). { intros H. apply Hne. rewrite <- ln_1 in H. apply ln_inv; lra. }
  pose proof (exp_ineq1 (ln x) Hl). rewrite exp_ln in H by assumption. lra.
Qed.

Lemma wt_pos s i : length (ws s) = length (ls s) -> Forall (fun x => 0 < x) (ws s) -> (i < n_particles s)%nat -> 0 < wt s i.
Proof. intros Hlen Hw Hi. unfold wt. rewrite Forall_forall in Hw. apply Hw, nth_In. rewrite Hlen. exact Hi. Qed.

Lemma evidence_sum s os e : length (ws s) = length (ls s) -> prob_vector (ws s) -> lik_normalised s os e ->
  SumL os (fun o => evidence c s o e) = 1.
Proof.
  intros Hlen Hpv Hnorm. unfold evidence. rewrite SumL_Sum_swap.
  rewrite (Sum_ext _ _ (wt s)); [apply full_inv_Sum; split; assumption|].
  intros i Hi. rewrite SumL_scal, (Hnorm i Hi). ring.
Qed.

Lemma c14_bounds s os e :
  length (ws s) = length (ls s) -> Forall (fun x => 0 < x) (ws s) -> prob_vector (ws s) ->
  (forall o x, In o os -> In x (ls s) -> 0 < lik (md c) o x e) -> lik_normalised s os e ->
  0 <= mutual_information c s os e <= entropy s.
Proof.
  intros Hlen Hw Hpv HL Hnorm.
  assert (Hn : (0 < n_particles s)%nat) by (unfold n_particles; rewrite <- Hlen; now apply prob_vector_nonempty).
  assert (HS1 : Sum (n_particles s) (wt s) = 1) by (apply full_inv_Sum; split; assumption).
  assert (HLi : forall o i, In o os -> (i < n_particles s)%nat -> 0 < lik (md c) o (at_ s i) e).
  { intros o i Ho Hi. apply HL; [assumption|]. apply nth_In. exact Hi. }
  unfold mutual_information. split.
  - (* Gibbs' inequality: -joint * ln (P/L) >= joint - w * P *)
    apply Rle_trans with (SumL os (fun o => Sum (n_particles s) (fun i =>
      wt s i * lik (md c) o (at_ s i) e - wt s i * evidence c s o e))).
    + right. symmetry.
      rewrite (SumL_ext _ _ (fun o => 0)); [rewrite SumL_rsum; apply rsum_map_zero|].
      intros o Ho. rewrite Sum_minus. fold (evidence c s o e). rewrite Sum_scal_r, HS1. ring.
    + apply SumL_le. intros o Ho. apply Sum_le. intros i Hi. cbv zeta.
      assert (Hwi : 0 < wt s i) by now apply wt_pos. pose proof (HLi o i Ho Hi) as HLo.
      assert (HP : 0 < evidence c s o e) by (apply evidence_pos; auto).
      set (J := wt s i * lik (md c) o (at_ s i) e). set (P := wt s i * evidence c s o e).
      assert (0 < J) by (unfold J; now apply Rmult_lt_0_compat). assert (0 < P) by (unfold P; now apply Rmult_lt_0_compat).
      assert (ln (J / P) = - ln (P / J)) as ->.
      { rewrite <- ln_Rinv by (now apply Rdiv_lt_0_compat). f_equal. field. lra. }
      pose proof (ln_le_minus1 (P / J) ltac:(now apply Rdiv_lt_0_compat)) as Hln.
      apply Rmult_le_compat_l with (r := J) in Hln; [|lra].
      replace (J * (P / J - 1)) with (P - J) in Hln by (field; lra). lra.
  - unfold entropy. rewrite SumL_Sum_swap.
    replace (- Sum (n_particles s) (fun i => wt s i * ln (wt s i))) with (Sum (n_particles s) (fun i => - 1 * (wt s i * ln (wt s i)))) by (rewrite Sum_scal; ring).
    apply Sum_le. intros i Hi. assert (Hwi : 0 < wt s i) by now apply wt_pos.
    apply Rle_trans with (SumL os (fun o => (wt s i * - ln (wt s i)) * lik (md c) o (at_ s i) e)).
    + apply SumL_le. intros o Ho. cbv zeta. pose proof (HLi o i Ho Hi) as HLo.
      assert (HP : 0 < evidence c s o e) by (apply evidence_pos; auto).
      replace (wt s i * - ln (wt s i) * lik (md c) o (at_ s i) e) with (wt s i * lik (md c) o (at_ s i) e * - ln (wt s i)) by ring.
      apply Rmult_le_compat_l; [left; now apply Rmult_lt_0_compat|].
      rewrite <- ln_Rinv by assumption.
      assert (Hle : wt s i * lik (md c) o (at_ s i) e / (wt s i * evidence c s o e) <= / wt s i).
      { replace (wt s i * lik (md c) o (at_ s i) e / (wt s i * evidence c s o e)) with
          ((wt s i * lik (md c) o (at_ s i) e) / evidence c s o e * / wt s i) by (field; lra).
        rewrite <- (Rmult_1_l (/ wt s i)) at 2. apply Rmult_le_compat_r; [left; now apply Rinv_0_lt_compat|].
        apply Rmult_le_reg_r with (evidence c s o e); [assumption|]. unfold Rdiv. rewrite Rmult_assoc, Rinv_l, Rmult_1_r, Rmult_1_l by lra.
        unfold evidence. rewrite Sum_rsum.
        apply (In_le_rsum (map (fun i0 => wt s i0 * lik (md c) o (at_ s i0) e) (seq 0 (n_particles s)))).
        - rewrite Forall_map, Forall_forall. intros k Hk. apply in_seq in Hk. left. apply Rmult_lt_0_compat; [apply wt_pos; auto; lia|apply HLi; auto; lia].
        - apply in_map_iff. exists i. split; [reflexivity|]. apply in_seq. lia. }
      assert (H0 : 0 < wt s i * lik (md c) o (at_ s i) e / (wt s i * evidence c s o e)).
      { apply Rdiv_lt_0_compat; now apply Rmult_lt_0_compat. }
      destruct (Rle_lt_or_eq_dec _ _ Hle) as [Hlt|Heq]; [left; now apply ln_increasing|rewrite Heq; lra].
    + right. rewrite SumL_scal, (Hnorm i Hi). ring.
Qed.

(** Any particle with a zero product weight makes the information gain NaN. *)
Lemma kld_zero_nan wh w i : length wh = length w -> (i < length w)%nat ->
  nth i wh (Fin 1) = Fin 0 -> 0 <= nth i w 0 -> kld wh w = NaN.
Proof.
  intros Hl Hi H0 Hw. unfold kld. apply xsum_NaN.
  assert (Hx : nth i (map2 (fun a wi => xmul a (xln (xdiv a (Fin wi)))) wh w) NaN
    = xmul (nth i wh (Fin 1)) (xln (xdiv (nth i wh (Fin 1)) (Fin (nth i w 0))))).
  { exact (nth_map2 (fun a wi => xmul a (xln (xdiv a (Fin wi)))) wh w i (Fin 1) 0 NaN ltac:(rewrite Hl; assumption) Hl). }
  assert (xmul (nth i wh (Fin 1)) (xln (xdiv (nth i wh (Fin 1)) (Fin (nth i w 0)))) = NaN) as Hy.
  { rewrite H0. simpl xdiv. destruct (Reqb_spec (nth i w 0) 0) as [E0|E0].
    - unfold inf_times. rewrite Rltb_false by lra. reflexivity.
    - replace (0 / nth i w 0) with 0 by (field; assumption). simpl. rewrite Rltb_false by lra. simpl.
      unfold inf_times. now rewrite Rltb_false by lra. }
  rewrite Hy in Hx. rewrite <- Hx. apply nth_In. rewrite map2_length by assumption. now rewrite Hl.
Qed.

Lemma c14_nan s os e o i : length (ws s) = length (ls s) -> Forall (fun x => 0 <= x) (ws s) ->
  In o (removelast os) -> (i < n_particles s)%nat ->
  wt s i * lik (md c) o (at_ s i) e = 0 ->
  eig1 c (ws s) (ls s) os e = NaN.
Proof.
  intros Hlen Hw Ho Hi H0. unfold eig1. apply xsum_NaN. unfold risk_N, risk_w.
  rewrite map2_app by now rewrite !map_length. apply in_or_app. left.
  rewrite map2_map_l, map2_map_r, map2_same. apply in_map_iff. exists o. split; [|assumption].
  assert (Hl : length (norm_row c (ws s) (ls s) o e) = length (ws s)) by (unfold norm_row; now rewrite map_length, hyp_row_length).
  rewrite (kld_zero_nan _ _ i); [apply xmul_NaN_r|now rewrite map_length|rewrite Hlen; exact Hi| |now apply wt_nonneg].
  rewrite (nth_indep _ _ (Fin 0)) by (rewrite map_length, Hl, Hlen; exact Hi). rewrite map_nth. f_equal.
  unfold norm_row. rewrite (nth_indep _ _ (0 / fix_norm (norm_scale c (ws s) (ls s) o e))) by (rewrite map_length, hyp_row_length by assumption; rewrite Hlen; exact Hi).
  rewrite (map_nth (fun x => x / fix_norm (norm_scale c (ws s) (ls s) o e)) _ 0).
  unfold hyp_row, L_row. rewrite map2_map_r. rewrite (nth_map2 _ _ _ _ 0 [] 0) by (auto; rewrite Hlen; exact Hi).
  fold (wt s i). fold (at_ s i). rewrite H0. unfold Rdiv. ring.
Qed.
End Proofs.
