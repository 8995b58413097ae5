(** Effective sample sizes against thresholds. *)
From Coq Require Import Lia Lra.
From Verif Require Import Base RList Ext Sums SmcModel SmcSpec SmcProofs SmcProofs2 FreqSpec.

Lemma sumsq_le w : Forall (fun x => 0 <= x) w -> rsum w <= 1 -> 0 <= rsum (map (fun x => x * x) w) <= 1.
Proof.
  intros H H1. assert (G : 0 <= rsum (map (fun x => x * x) w) <= rsum w * rsum w /\ 0 <= rsum w).
  { clear H1. induction H as [|x w Hx Hw IH]; [cbn [map]; rewrite rsum_nil; lra|]. cbn [map]. rewrite !rsum_cons. split; nra. }
  split; [lra|]. nra.
Qed.
Lemma ess_not_low w t : Forall (fun x => 0 <= x) w -> rsum w <= 1 -> t <= 1 -> xltb (n_ess w) (Fin t) = false.
Proof.
  intros H H1 Ht. pose proof (sumsq_le w H H1) as Sq. unfold n_ess. set (q := rsum (map (fun x => x * x) w)) in *. clearbody q. cbn [xdiv]. destruct (Req_dec q 0) as [Z|Z].
  - rewrite Reqb_true by assumption. unfold inf_times. rewrite Rltb_true by lra. reflexivity.
  - rewrite Reqb_false by assumption. cbn [xltb]. apply Rltb_false. apply Rle_trans with 1; [assumption|]. unfold Rdiv. rewrite Rmult_1_l. rewrite <- Rinv_1 at 1. apply Rinv_le_contravar; lra.
Qed.
Lemma ess_positive w t : t <= 0 -> xltb (n_ess w) (Fin t) = false.
Proof.
  intros Ht. unfold n_ess. assert (Sq : 0 <= rsum (map (fun x => x * x) w)) by (apply rsum_nonneg, Forall_forall; intros y Hy; apply in_map_iff in Hy; destruct Hy as (x & <- & _); nra). set (q := rsum (map (fun x => x * x) w)) in *. clearbody q. cbn [xdiv]. destruct (Req_dec q 0) as [Z|Z].
  - rewrite Reqb_true by assumption. unfold inf_times. rewrite Rltb_true by lra. reflexivity.
  - rewrite Reqb_false by assumption. cbn [xltb]. apply Rltb_false. apply Rle_trans with 0; [assumption|]. unfold Rdiv. rewrite Rmult_1_l. left. apply Rinv_0_lt_compat. lra.
Qed.

Section F.
Context {O E RND : Type}.
Implicit Types (c : @config O E RND) (s : @state O).
(** ** An invariant that keeps the counter *)
Lemma install_rcnt c r s w N e check : (forall s', ws s' = w -> length (ls s') = length (ls s) -> maybe_resample c r s' = (s', None)) -> (forall r l e, length (timestep (md c) r l e) = length l) -> rcnt (fst (install c r s w N e check)) = rcnt s /\ ws (fst (install c r s w N e check)) = w /\ length (ls (fst (install c r s w N e check))) = length (ls s).
Proof.
  intros H HT. unfold install. destruct check; [rewrite H; [|reflexivity|apply HT]|]; (split; [reflexivity|split; [reflexivity|apply HT]]).
Qed.
Lemma nonpositive_maybe c r s : rthresh c <= 0 -> maybe_resample c r s = (s, None).
Proof. intros H. unfold maybe_resample. rewrite ess_positive; [reflexivity|]. pose proof (pos_INR (n_particles s)). nra. Qed.
Lemma nonpositive_update c r s o e check : rthresh c <= 0 -> rcnt (fst (update c r s o e check)) = rcnt s.
Proof.
  intros H. assert (I : forall s w N, rcnt (fst (install c r s w N e check)) = rcnt s) by (intros; unfold install; destruct check; [rewrite nonpositive_maybe by assumption|]; reflexivity).
  rewrite update_unfold. destruct (Nat.eqb _ _); [|reflexivity]. cbv zeta. destruct (Rleb _ _); [destruct (zpolicy c)|]; rewrite ?I; reflexivity.
Qed.
Lemma nonpositive_step c s x : rthresh c <= 0 -> unforced x -> rcnt (fst (step c s x)) = rcnt s.
Proof.
  intros H Hx. destruct x as [r o e ck|rs os es k|r|r|r np only rw|os es]; cbn [step].
  - now apply nonpositive_update.
  - apply (batch_update_ind c (fun s' => rcnt s' = rcnt s)); [|..]; auto; [intros r s' o e <-; now apply nonpositive_update|intros r s' <-; now rewrite nonpositive_maybe].
  - destruct Hx.
  - now rewrite nonpositive_maybe.
  - unfold reset. destruct np, only; reflexivity.
  - unfold hypothetical_update. destruct (negb _); reflexivity.
Qed.

(** ** Thresholds up to 1/n *)
Definition light (n k : nat) s : Prop := Forall (fun x => 0 <= x) (ws s) /\ rsum (ws s) <= 1 /\ length (ls s) = n /\ rcnt s = k.
Lemma new_weights_light c s o e : sound_model c -> Forall (fun x => 0 <= x) (ws s) -> Forall (fun x => 0 <= x) (new_weights c s o e) /\ rsum (new_weights c s o e) <= 1.
Proof.
  intros G Hw. assert (Nn := norm_row_nonneg c (ws s) (ls s) o e Hw (sm_lik c G)). unfold new_weights. rewrite clip_negative_id by assumption. split; [assumption|].
  destruct (Rlt_dec (norm_scale c (ws s) (ls s) o e) eps) as [L|L]; [|rewrite norm_row_sum by lra; lra].
  pose proof (rsum_nonneg _ (hyp_row_nonneg c (ws s) (ls s) o e Hw (sm_lik c G))) as P. fold (norm_scale c (ws s) (ls s) o e) in P. rewrite norm_row_sum_small by (split; assumption). fold (norm_scale c (ws s) (ls s) o e).
  assert (eps <= 1); [|lra]. unfold eps. rewrite <- Rinv_1. apply Rinv_le_contravar; [lra|]. apply pow_R1_Rle. lra.
Qed.
Lemma light_maybe c r s n : INR n * rthresh c <= 1 -> Forall (fun x => 0 <= x) (ws s) -> rsum (ws s) <= 1 -> length (ls s) = n -> maybe_resample c r s = (s, None).
Proof. intros H H1 H2 H3. unfold maybe_resample, n_particles. rewrite H3, ess_not_low by assumption. reflexivity. Qed.
Lemma light_update c r s o e check n k : sound_model c -> INR n * rthresh c <= 1 -> light n k s -> light n k (fst (update c r s o e check)).
Proof.
  intros G Ht (H1 & H2 & H3 & H4). destruct (new_weights_light c s o e G H1) as [W1 W2].
  assert (I : forall s1 N, length (ls s1) = n -> rcnt s1 = k -> light n k (fst (install c r s1 (new_weights c s o e) N e check))).
  { intros s1 N Hl Hk. destruct (install_rcnt c r s1 (new_weights c s o e) N e check) as (I1 & I2 & I3).
    - intros s' Ew El. apply (light_maybe c r s' n Ht); [now rewrite Ew|now rewrite Ew|congruence].
    - apply (sm_step c G).
    - repeat split; [now rewrite I2|now rewrite I2|congruence|congruence]. }
  rewrite update_unfold. destruct (Nat.eqb _ _); [|repeat split; assumption]. cbv zeta.
  destruct (Rleb _ _); [destruct (zpolicy c)|]; try (apply I; assumption); try (repeat split; assumption).
  apply I; [|assumption]. cbn. destruct (canonize c); rewrite ?(sm_canon c G), (sm_prior c G); assumption.
Qed.
Lemma light_step c s x n k : sound_model c -> INR n * rthresh c <= 1 -> steady x -> light n k s -> light n k (fst (step c s x)).
Proof.
  intros G Ht Hx Hs. destruct x as [r o e ck|rs os es kk|r|r|r np only rw|os es]; cbn [step]; try (now destruct Hx).
  - now apply light_update.
  - apply (batch_update_ind c (light n k)); auto; [intros; now apply light_update|]. intros r s' Hs'. destruct Hs' as (A1 & A2 & A3 & A4). rewrite (light_maybe c r s' n) by assumption. repeat split; assumption.
  - destruct Hs as (A1 & A2 & A3 & A4). rewrite (light_maybe c r s n) by assumption. repeat split; assumption.
  - unfold hypothetical_update. destruct (negb _); exact Hs.
Qed.

(** ** One regular update *)
(** [c] without a resampler *)
Definition mute c : config := {| md := md c; prior := prior c; rsmp := fun _ _ _ => Err RuntimeError; rthresh := rthresh c; zpolicy := zpolicy c; zthresh := zthresh c; canonize := canonize c |}.
Lemma mute_good c : sound_model c -> good_config (mute c).
Proof. intros [H1 H2 H3 H4]. constructor; try assumption. discriminate. Qed.
Lemma update_even c r s o e check : sound_model c -> zthresh c < 1 -> full_inv s -> eps <= evidence c s o e ->
  exists s1, update c r s o e check = (if check then maybe_resample c r s1 else (s1, None)) /\ full_inv s1 /\ n_particles s1 = n_particles s /\ rcnt s1 = rcnt s /\
    ls s1 = timestep (md c) r (ls s) e /\ ws s1 = norm_row c (ws s) (ls s) o e.
Proof.
  intros G Ht Hinv He. pose proof (update_regular_inv (mute c) r s o e (mute_good c G) Ht Hinv He) as Hi. change (full_inv (fst (update c r s o e false))) in Hi. destruct Hinv as [Hlen [Hw Hs]]. rewrite update_regular in Hi by (auto; apply (sm_lik c G)). rewrite install_nocheck in Hi.
  eexists. split; [rewrite update_regular by (auto; apply (sm_lik c G)); unfold install; reflexivity|]. split; [exact Hi|]. split; [apply (sm_step c G)|]. repeat split.
Qed.
Lemma large_maybe c r s : sound_model c -> sound_resampler c -> full_inv s -> 1 < rthresh c -> full_inv (fst (maybe_resample c r s)) /\ rcnt (fst (maybe_resample c r s)) = S (rcnt s).
Proof.
  intros G Hr [Hlen Hp] Ht. unfold maybe_resample. destruct (c09_bounds (ws s) Hp) as (x & -> & [X1 X2] & _). cbn [xltb]. unfold n_particles. rewrite <- Hlen. rewrite Rltb_true by nra.
  unfold resample. destruct (rsmp c r (ws s) (ls s)) as [[w' l']|ex] eqn:Eq; [|split; [split; assumption|reflexivity]]. destruct (Hr _ _ _ _ _ Hp Hlen Eq) as [A1 A2]. split; [|reflexivity]. split; cbn; [|assumption]. destruct (canonize c); rewrite ?(sm_canon c G); now symmetry.
Qed.
Lemma large_run c rs : sound_model c -> sound_resampler c -> zthresh c < 1 -> 1 < rthresh c -> forall data idx s, full_inv s -> expected_data c rs idx data s ->
  rcnt (run c s (learn rs idx data)) = (rcnt s + length data)%nat.
Proof.
  intros G HR Hz Ht. induction data as [|[o e] data IH]; intros idx s Hinv Hx; [cbn; lia|]. destruct Hx as [He Hx].
  change (run c s (learn rs idx ((o, e) :: data))) with (run c (fst (update c (rs idx) s o e true)) (learn rs (S idx) data)).
  destruct (update_even c (rs idx) s o e true G Hz Hinv He) as (s1 & Eu & Hi & _ & Hr & _). rewrite Eu in *. destruct (large_maybe c (rs idx) s1 G HR Hi Ht) as [L1 L2].
  rewrite IH by assumption. rewrite L2, Hr. cbn. lia.
Qed.

(** ** Spacing *)
Definition spread (q : R) s : Prop := forall x y, In x (ws s) -> In y (ws s) -> x <= q * y.
Lemma spread_ess q s : full_inv s -> 0 < q -> spread q s -> exists x, n_ess (ws s) = Fin x /\ INR (n_particles s) / q <= x.
Proof.
  intros [Hlen Hp] Hq Hs. destruct (c09_bounds (ws s) Hp) as (x & Ex & [X1 X2] & _). exists x. split; [assumption|]. destruct (n_ess_Fin (ws s) Hp) as [P1 P2]. rewrite Ex in P2. injection P2 as ->. unfold n_particles. rewrite <- Hlen.
  destruct Hp as [Hnn Hsum]. set (n := INR (length (ws s))). assert (Pn : 1 <= n) by (unfold n; lra).
  assert (B : forall x, In x (ws s) -> n * x <= q).
  { intros y Hy. assert (G : forall l, (forall z, In z l -> y <= q * z) -> INR (length l) * y <= q * rsum l).
    { induction l as [|z l IH]; intros H; [cbn; rewrite rsum_nil; lra|]. cbn [length]. rewrite S_INR, rsum_cons. specialize (H z (or_introl eq_refl)) as Hz. specialize (IH (fun z' Hz' => H z' (or_intror Hz'))). lra. }
    specialize (G (ws s) (fun z Hz => Hs y z Hy Hz)). rewrite Hsum in G. fold n in G. lra. }
  assert (Sq : n * sumsq (ws s) <= q).
  { unfold sumsq. clear -B Hnn Hsum Pn Hq. assert (G : forall l, (forall x, In x l -> n * x <= q) -> Forall (fun x => 0 <= x) l -> n * rsum (map (fun x => x * x) l) <= q * rsum l).
    { induction l as [|z l IH]; intros H F; [cbn [map]; rewrite rsum_nil; lra|]. inversion F; subst. cbn [map]. rewrite !rsum_cons. specialize (H z (or_introl eq_refl)) as Hz. specialize (IH (fun z' Hz' => H z' (or_intror Hz')) H3). nra. }
    specialize (G (ws s) B Hnn). rewrite Hsum in G. lra. }
  apply Rmult_le_reg_r with (q * sumsq (ws s)); [now apply Rmult_lt_0_compat|]. replace (n / q * (q * sumsq (ws s))) with (n * sumsq (ws s)) by (field; lra). replace (/ sumsq (ws s) * (q * sumsq (ws s))) with q by (field; lra). exact Sq.
Qed.
Lemma spread_update c s o e a b q : sound_model c -> full_inv s -> eps <= evidence c s o e -> 0 < a -> a <= b -> (forall x, In x (ls s) -> a <= lik (md c) o x e <= b) -> 0 < q -> spread q s ->
  forall x y, In x (norm_row c (ws s) (ls s) o e) -> In y (norm_row c (ws s) (ls s) o e) -> x <= b / a * q * y.
Proof.
  intros G [Hlen [Hw Hsum]] He Ha Hab HL Hq Hs x y Hx Hy. unfold norm_row in Hx, Hy. rewrite norm_scale_evidence, fix_norm_pos in Hx, Hy by assumption. apply in_map_iff in Hx. apply in_map_iff in Hy. destruct Hx as (x' & <- & Hx). destruct Hy as (y' & <- & Hy).
  assert (M : forall z, In z (hyp_row c (ws s) (ls s) o e) -> exists w l, In w (ws s) /\ In l (ls s) /\ z = w * lik (md c) o l e).
  { intros z Hz. unfold hyp_row, L_row in Hz. rewrite map2_map_r in Hz. clear -Hz. revert Hz. generalize (ws s) (ls s). intros w. induction w as [|w0 w IH]; intros [|l0 l] Hz; cbn in Hz; try contradiction. destruct Hz as [<-|Hz]; [exists w0, l0; cbn; auto|]. destruct (IH l Hz) as (u & v & A1 & A2 & A3). exists u, v. cbn. auto. }
  destruct (M x' Hx) as (w1 & l1 & A1 & A2 & ->). destruct (M y' Hy) as (w2 & l2 & B1 & B2 & ->). specialize (Hs w1 w2 A1 B1). pose proof (HL l1 A2). pose proof (HL l2 B2). pose proof eps_pos as Ep.
  assert (W1 : 0 <= w1) by (rewrite Forall_forall in Hw; auto). assert (W2 : 0 <= w2) by (rewrite Forall_forall in Hw; auto).
  unfold Rdiv at 1. replace (b / a * q * (w2 * lik (md c) o l2 e / evidence c s o e)) with ((b / a * q * (w2 * lik (md c) o l2 e)) * / evidence c s o e) by (unfold Rdiv; ring). apply Rmult_le_compat_r; [left; apply Rinv_0_lt_compat; lra|].
  apply Rle_trans with (q * w2 * b); [apply Rmult_le_compat; lra|]. replace (b / a * q * (w2 * lik (md c) o l2 e)) with (q * w2 * b * (lik (md c) o l2 e / a)) by (unfold Rdiv; ring). rewrite <- (Rmult_1_r (q * w2 * b)) at 1. apply Rmult_le_compat_l; [apply Rmult_le_pos; [apply Rmult_le_pos|]; lra|].
  apply Rmult_le_reg_r with a; [assumption|]. unfold Rdiv. rewrite Rmult_assoc, Rinv_l by lra. lra.
Qed.
Lemma even_evidence c s o e a : full_inv s -> (forall x, In x (ls s) -> a <= lik (md c) o x e) -> a <= evidence c s o e.
Proof.
  intros [Hlen [Hw Hsum]] HL. unfold evidence, n_particles. rewrite <- Hlen. rewrite <- (Rmult_1_r a), <- Hsum. rewrite (rsum_index (ws s)). rewrite <- Sum_scal. apply Sum_le. intros i Hi. unfold wt. rewrite Rmult_comm. apply Rmult_le_compat_l; [rewrite Forall_forall in Hw; apply Hw; now apply nth_In|apply HL; apply nth_In; lia].
Qed.

Lemma spacing_run c rs (Good : RND -> Prop) (V : loc -> Prop) a b m n : sound_model c -> zthresh c < 1 -> eps <= a -> a <= b -> even_resampler c Good V n -> (forall i, Good (rs i)) -> (forall r l e, Forall V l -> Forall V (timestep (md c) r l e)) -> rthresh c <= (a / b) ^ m ->
  forall data idx s j, n_particles s = n -> (forall o e x, In (o, e) data -> V x -> a <= lik (md c) o x e <= b) -> full_inv s -> Forall V (ls s) -> spread ((b / a) ^ j) s ->
  (rcnt (run c s (learn rs idx data)) <= rcnt s + (j + length data) / S m)%nat.
Proof.
  intros G Hz Hea Hab Hr HG HT Ht. pose proof eps_pos as Ep. assert (Pab : 0 < b / a) by (apply Rdiv_lt_0_compat; lra).
  induction data as [|[o e] data IH]; intros idx s j HN HL Hinv HV Hs; [cbn [learn combine seq length map run fold_left]; lia|].
  change (run c s (learn rs idx ((o, e) :: data))) with (run c (fst (update c (rs idx) s o e true)) (learn rs (S idx) data)).
  assert (HLs : forall x, In x (ls s) -> a <= lik (md c) o x e <= b) by (intros x Hx; apply HL; [now left|rewrite Forall_forall in HV; auto]).
  assert (He : eps <= evidence c s o e) by (apply Rle_trans with a; [assumption|]; apply even_evidence; [assumption|intros x Hx; now apply HLs]).
  destruct (update_even c (rs idx) s o e true G Hz Hinv He) as (s1 & Eu & Hi & Hn & Hrc & El & Ew). rewrite Eu. cbv iota.
  assert (Hs1 : spread ((b / a) ^ S j) s1).
  { intros x y Hx Hy. rewrite Ew in Hx, Hy. cbn [pow]. apply (spread_update c s o e a b ((b / a) ^ j)); auto; try lra. now apply pow_lt. }
  assert (HV1 : Forall V (ls s1)) by (rewrite El; now apply HT).
  assert (HL' : forall o' e' x, In (o', e') data -> V x -> a <= lik (md c) o' x e' <= b) by (intros; apply HL; [now right|assumption]).
  destruct (spread_ess ((b / a) ^ S j) s1 Hi (pow_lt _ _ Pab) Hs1) as (x & Ex & Hx). unfold maybe_resample. rewrite Ex. cbn [xltb]. rb.
  - assert (Pn : 0 < INR (n_particles s1)). { destruct Hi as [Hlen Hp]. apply lt_0_INR. unfold n_particles. rewrite <- Hlen. now apply prob_vector_nonempty. }
    assert (J : (m <= j)%nat).
    { destruct (Nat.le_gt_cases m j) as [|C]; [assumption|exfalso]. assert (P1 : 0 < a / b <= 1) by (split; [apply Rdiv_lt_0_compat; lra|]; apply Rmult_le_reg_r with b; [lra|]; unfold Rdiv; rewrite Rmult_assoc, Rinv_l by lra; lra).
      assert (P2 : (a / b) ^ m <= (a / b) ^ S j). { replace m with (S j + (m - S j))%nat by lia. rewrite pow_add. assert (0 < (a / b) ^ S j) by (apply pow_lt; lra). assert ((a / b) ^ (m - S j) <= 1) by (rewrite <- (pow1 (m - S j)); apply pow_incr; lra). nra. }
      assert (P3 : INR (n_particles s1) / (b / a) ^ S j = INR (n_particles s1) * (a / b) ^ S j). { unfold Rdiv at 1. f_equal. rewrite <- pow_inv. f_equal. field. lra. }
      rewrite P3 in Hx. assert (INR (n_particles s1) * rthresh c <= INR (n_particles s1) * (a / b) ^ S j) by (apply Rmult_le_compat_l; lra). lra. }
    assert (Np : (0 < length (ls s1))%nat) by (apply INR_lt; exact Pn).
    assert (N1 : length (ls s1) = n) by (unfold n_particles in *; congruence).
    unfold resample. destruct (Hr (rs idx) (ws s1) (ls s1) (HG idx) (proj2 Hi) (proj1 Hi) N1 HV1) as (l' & -> & Hl' & HV'). cbn [fst].
    eapply Nat.le_trans; [apply (IH (S idx) _ 0%nat)|].
    + unfold n_particles. cbn [ls]. destruct (canonize c); rewrite ?(sm_canon c G); exact Hl'.
    + exact HL'.
    + split; cbn; [rewrite uniform_weights_length; destruct (canonize c); rewrite ?(sm_canon c G); now symmetry|]. apply uniform_prob. now rewrite <- N1.
    + exact HV'.
    + intros u v Hu Hv. cbn in Hu, Hv. apply repeat_spec in Hu. apply repeat_spec in Hv. subst. cbn. lra.
    + cbn [rcnt length]. rewrite Hrc. assert (D : ((S m + length data) / S m = 1 + length data / S m)%nat) by (replace (S m + length data)%nat with (1 * S m + length data)%nat by lia; rewrite Nat.div_add_l by lia; reflexivity).
      assert (D2 : ((S m + length data) / S m <= (j + S (length data)) / S m)%nat) by (apply Nat.div_le_mono; lia). rewrite D in D2. change (0 + length data)%nat with (length data). revert D2. generalize (length data / S m)%nat ((j + S (length data)) / S m)%nat. clear. intros; lia.
  - cbn [fst]. eapply Nat.le_trans; [apply (IH (S idx) s1 (S j)); try assumption; congruence|]. rewrite Hrc. cbn [length]. replace (S j + length data)%nat with (j + S (length data))%nat by lia. lia.
Qed.

(** ** Two thresholds *)
Lemma maybe_two c r s t t' : t <= t' -> (rcnt s < rcnt (fst (maybe_resample (with_thresh c t') r s)))%nat \/ maybe_resample (with_thresh c t) r s = maybe_resample (with_thresh c t') r s.
Proof.
  intros H. unfold maybe_resample. cbn [with_thresh rthresh]. destruct (xltb (n_ess (ws s)) (Fin (INR (n_particles s) * t'))) eqn:E1.
  - left. unfold resample. cbn [with_thresh rsmp canonize md]. destruct (rsmp c r (ws s) (ls s)) as [[w' l']|x]; cbn; lia.
  - right. replace (xltb (n_ess (ws s)) (Fin (INR (n_particles s) * t))) with false; [reflexivity|]. symmetry. destruct (n_ess (ws s)) as [x| | |]; cbn [xltb] in *; try reflexivity; try discriminate. revert E1. rb; [discriminate|]. intros _. apply Rltb_false. pose proof (pos_INR (n_particles s)). nra.
Qed.
Lemma maybe_rcnt c r s : (rcnt s <= rcnt (fst (maybe_resample c r s)))%nat.
Proof. unfold maybe_resample. destruct (xltb _ _); [|cbn; lia]. unfold resample. destruct (rsmp c r (ws s) (ls s)) as [[w' l']|x]; cbn; lia. Qed.
Lemma update_false_same c r s o e t t' : update (with_thresh c t) r s o e false = update (with_thresh c t') r s o e false.
Proof. reflexivity. Qed.
Lemma update_false_rcnt c r s o e : rcnt (fst (update c r s o e false)) = rcnt s.
Proof.
  rewrite update_unfold. destruct (Nat.eqb _ _); [|reflexivity]. cbv zeta. destruct (Rleb _ _); [destruct (zpolicy c)|]; reflexivity.
Qed.
Lemma update_two c r s o e check t t' : t <= t' -> (rcnt s < rcnt (fst (update (with_thresh c t') r s o e check)))%nat \/ update (with_thresh c t) r s o e check = update (with_thresh c t') r s o e check.
Proof.
  intros H. destruct check; [|right; reflexivity]. rewrite !update_check_split. rewrite (update_false_same c r s o e t t'). pose proof (update_false_rcnt (with_thresh c t') r s o e) as Hr. destruct (update (with_thresh c t') r s o e false) as [s1 [x|]]; [now right|]. cbn [fst] in Hr.
  change (new_weights (with_thresh c t) s o e) with (new_weights (with_thresh c t') s o e). change (zthresh (with_thresh c t)) with (zthresh (with_thresh c t')). change (zpolicy (with_thresh c t)) with (zpolicy (with_thresh c t')).
  destruct (Rleb _ _); [destruct (zpolicy _)|]; try (now right); rewrite <- Hr; now apply maybe_two.
Qed.
Lemma update_rcnt c r s o e check : (rcnt s <= rcnt (fst (update c r s o e check)))%nat.
Proof.
  destruct check; [|rewrite update_false_rcnt; lia]. rewrite update_check_split. pose proof (update_false_rcnt c r s o e) as Hr. destruct (update c r s o e false) as [s1 [x|]]; cbn [fst] in *; [lia|]. rewrite <- Hr. destruct (Rleb _ _); [destruct (zpolicy _)|]; try apply maybe_rcnt; cbn; lia.
Qed.
Lemma batch_rcnt c rs k data : forall idx s, (rcnt s <= rcnt (fst (batch_loop c rs k idx data s)))%nat.
Proof.
  intros idx s. apply (batch_loop_ind c (fun s' => (rcnt s <= rcnt s')%nat)); [| |lia].
  - intros r s' o e H. eapply Nat.le_trans; [exact H|apply update_rcnt].
  - intros r s' H. eapply Nat.le_trans; [exact H|apply maybe_rcnt].
Qed.
Lemma batch_two c rs k t t' data : t <= t' -> forall idx s, (rcnt s < rcnt (fst (batch_loop (with_thresh c t') rs k idx data s)))%nat \/ batch_loop (with_thresh c t) rs k idx data s = batch_loop (with_thresh c t') rs k idx data s.
Proof.
  intros H. induction data as [|[o e] data IH]; intros idx s; [now right|]. cbn [batch_loop]. rewrite (update_false_same c _ s o e t t'). pose proof (update_false_rcnt (with_thresh c t') (rs idx) s o e) as Hr. destruct (update (with_thresh c t') (rs idx) s o e false) as [s1 [x|]]; [now right|]. cbn [fst] in Hr.
  destruct (Z.eqb k 0); [now right|]. destruct (Z.eqb _ 0); [|rewrite <- Hr; apply IH]. pose proof (maybe_rcnt (with_thresh c t') (rs idx) s1) as Hm. destruct (maybe_two c (rs idx) s1 t t' H) as [L|Eq].
  - left. destruct (maybe_resample (with_thresh c t') (rs idx) s1) as [s2 [x|]]; cbn [fst] in *; [lia|]. pose proof (batch_rcnt (with_thresh c t') rs k data (S idx) s2). lia.
  - rewrite Eq. destruct (maybe_resample (with_thresh c t') (rs idx) s1) as [s2 [x|]]; [now right|]. cbn [fst] in Hm. destruct (IH (S idx) s2) as [L| ->]; [left; lia|now right].
Qed.
Lemma step_rcnt c s x : (rcnt s <= rcnt (fst (step c s x)))%nat.
Proof.
  destruct x as [r o e ck|rs os es k|r|r|r np only rw|os es]; cbn [step].
  - apply update_rcnt.
  - unfold batch_update. destruct (Nat.eqb _ _); [apply batch_rcnt|cbn; lia].
  - unfold resample. destruct (rsmp c r (ws s) (ls s)) as [[w' l']|x]; cbn; lia.
  - apply maybe_rcnt.
  - unfold reset. destruct np, only; cbn; lia.
  - unfold hypothetical_update. destruct (negb _); cbn; lia.
Qed.
Lemma run_rcnt c xs : forall s, (rcnt s <= rcnt (run c s xs))%nat.
Proof. induction xs as [|x xs IH]; intros s; [cbn; lia|]. change (run c s (x :: xs)) with (run c (fst (step c s x)) xs). eapply Nat.le_trans; [apply step_rcnt|apply IH]. Qed.
Lemma step_two c s x t t' : t <= t' -> (rcnt s < rcnt (fst (step (with_thresh c t') s x)))%nat \/ step (with_thresh c t) s x = step (with_thresh c t') s x.
Proof.
  intros H. destruct x as [r o e ck|rs os es k|r|r|r np only rw|os es]; cbn [step].
  - now apply update_two.
  - unfold batch_update. destruct (Nat.eqb _ _); [now apply batch_two|now right].
  - right. reflexivity.
  - now apply maybe_two.
  - right. reflexivity.
  - right. reflexivity.
Qed.
End F.
