(** Proofs about the SMC updater model, second part: zero-weight policies, effective sample
    size, resampling decision, reset, permutation of particles. *)
From Verif Require Import Base RList Ext SmcModel SmcSpec SmcProofs.

(** ** C09: effective sample size *)
Definition sumsq (w : list R) : R := rsum (map (fun x => x * x) w).

Lemma prob_le_1 w x : prob_vector w -> In x w -> 0 <= x <= 1.
Proof.
  intros [H1 H2] Hx. split; [rewrite Forall_forall in H1; auto|]. rewrite <- H2. now apply In_le_rsum.
Qed.

Lemma sumsq_le_1 w : prob_vector w -> sumsq w <= 1.
Proof.
  intros H. unfold sumsq. rewrite <- (proj2 H). rewrite <- (map_id w) at 2. apply rsum_le.
  intros x Hx. pose proof (prob_le_1 w x H Hx). nra.
Qed.

Lemma sumsq_dev w : prob_vector w ->
  rsum (map (fun x => (x - / INR (length w)) * (x - / INR (length w))) w) = sumsq w - / INR (length w).
Proof.
  intros H. pose proof (prob_vector_nonempty w H) as Hn. set (u := / INR (length w)).
  rewrite (rsum_map_ext _ (fun x => x * x - (2 * u * x - u * u))) by (intros; ring).
  rewrite rsum_map_minus. fold (sumsq w). rewrite rsum_map_minus, rsum_map_const.
  rewrite (rsum_map_ext _ (fun x => (2 * u) * x)) by (intros; ring).
  rewrite rsum_scal, (proj2 H). assert (INR (length w) * u = 1) by (unfold u; apply Rinv_r; apply not_0_INR; lia).
  replace (INR (length w) * (u * u)) with u by (rewrite <- Rmult_assoc, H0; ring). lra.
Qed.

Lemma sumsq_ge w : prob_vector w -> / INR (length w) <= sumsq w.
Proof.
  intros H. pose proof (sumsq_dev w H) as E.
  assert (0 <= rsum (map (fun x => (x - / INR (length w)) * (x - / INR (length w))) w)) by apply rsum_sq_nonneg. lra.
Qed.

Lemma n_ess_Fin w : prob_vector w -> 0 < sumsq w /\ n_ess w = Fin (/ sumsq w).
Proof.
  intros H. pose proof (sumsq_ge w H). pose proof (prob_vector_nonempty w H).
  assert (0 < / INR (length w)) by (apply Rinv_0_lt_compat, lt_0_INR; lia).
  split; [lra|]. unfold n_ess. fold (sumsq w). rewrite xdiv_Fin by lra. f_equal. unfold Rdiv. apply Rmult_1_l.
Qed.

Lemma c09_bounds w : prob_vector w ->
  exists x, n_ess w = Fin x /\ 1 <= x <= INR (length w) /\
    (x = INR (length w) <-> forall y, In y w -> y = / INR (length w)) /\
    (x = 1 <-> exists i, (i < length w)%nat /\ nth i w 0 = 1 /\ forall j, j <> i -> nth j w 0 = 0).
Proof.
  intros H. destruct (n_ess_Fin w H) as [Hp ->]. exists (/ sumsq w). split; [reflexivity|].
  pose proof (sumsq_ge w H) as Hge. pose proof (sumsq_le_1 w H) as Hle. pose proof (prob_vector_nonempty w H) as Hn.
  assert (0 < INR (length w)) as Hn' by (apply lt_0_INR; lia).
  assert (0 < / INR (length w)) as Hni by now apply Rinv_0_lt_compat.
  split; [split|split].
  - rewrite <- Rinv_1. apply Rinv_le_contravar; assumption.
  - rewrite <- (Rinv_inv (INR (length w))). apply Rinv_le_contravar; assumption.
  - split.
    + intros E y Hy. assert (sumsq w = / INR (length w)) as Es by (rewrite <- E; now rewrite Rinv_inv).
      pose proof (sumsq_dev w H) as Ed. rewrite Es in Ed.
      assert (rsum (map (fun x => (x - / INR (length w)) * (x - / INR (length w))) w) = 0) as Ez by lra.
      apply rsum_nonneg_zero in Ez.
      * rewrite Forall_map, Forall_forall in Ez. specialize (Ez y Hy). destruct (Rmult_integral _ _ Ez); lra.
      * rewrite Forall_map, Forall_forall. intros x _. apply Rle_0_sqr.
    + intros Hu. assert (sumsq w = / INR (length w)) as ->; [|now rewrite Rinv_inv].
      unfold sumsq. rewrite (rsum_map_ext _ (fun _ => / INR (length w) * / INR (length w))) by (intros x Hx; now rewrite (Hu x Hx)).
      rewrite rsum_map_const. field. lra.
  - split.
    + intros E. assert (sumsq w = 1) as Es by (rewrite <- (Rinv_inv (sumsq w)), E; apply Rinv_1).
      assert (Hz : rsum (map (fun x => x * (1 - x)) w) = 0).
      { rewrite (rsum_map_ext _ (fun x => x - x * x)) by (intros; ring). rewrite rsum_map_minus, map_id, (proj2 H).
        fold (sumsq w). lra. }
      apply rsum_nonneg_zero in Hz.
      2:{ rewrite Forall_map, Forall_forall. intros x Hx. pose proof (prob_le_1 w x H Hx). nra. }
      rewrite Forall_map in Hz. destruct H as [H1 H2]. clear - H1 H2 Hz.
      assert (forall l, Forall (fun x => x * (1 - x) = 0) l -> Forall (fun x => 0 <= x) l -> rsum l = 0 ->
        forall j, nth j l 0 = 0) as Hzero.
      { intros l _ Hnn Hs j. pose proof (rsum_nonneg_zero l Hnn Hs) as Hall.
        destruct (Nat.lt_ge_cases j (length l)) as [Hj|Hj]; [|now apply nth_overflow].
        rewrite Forall_forall in Hall. apply Hall. now apply nth_In. }
      revert H2. induction H1 as [|x l Hx Hl IH]; intros H2; [rewrite rsum_nil in H2; lra|].
      inversion Hz as [|? ? Hx0 Hz']; subst. rewrite rsum_cons in H2.
      apply Rmult_integral in Hx0. destruct Hx0 as [Hx0|Hx0].
      * subst x. destruct (IH Hz' ltac:(lra)) as (i & Hi & Hi1 & Hi0).
        exists (S i). split; [simpl; lia|]. split; [exact Hi1|]. intros [|j] Hj; [reflexivity|]. apply Hi0. congruence.
      * assert (x = 1) by lra. subst x. exists 0%nat. split; [simpl; lia|]. split; [reflexivity|].
        intros [|j] Hj; [congruence|]. simpl. apply Hzero; try assumption. lra.
    + intros (i & Hi & Hi1 & Hi0). assert (sumsq w = 1) as ->; [|apply Rinv_1].
      apply Rle_antisym; [assumption|]. unfold sumsq.
      replace 1 with (nth i w 0 * nth i w 0) by (rewrite Hi1; ring).
      apply In_le_rsum.
      * rewrite Forall_map, Forall_forall. intros x _. apply Rle_0_sqr.
      * apply in_map_iff. exists (nth i w 0). split; [reflexivity|now apply nth_In].
Qed.

Lemma n_ess_not_nan w : n_ess w <> NaN.
Proof.
  unfold n_ess. simpl. rb; [|discriminate]. unfold inf_times. rewrite Rltb_true by lra. discriminate.
Qed.

Lemma xle_total a b : a <> NaN -> b <> NaN -> xleb a b = false -> xle b a.
Proof.
  unfold xle. destruct a, b; simpl; intros; try congruence; try discriminate. repeat rb; try discriminate; try reflexivity; lra.
Qed.
Lemma xle_refl a : a <> NaN -> xle a a.
Proof. destruct a; intros; try congruence; try reflexivity. apply xle_refl_Fin. Qed.

Section Proofs.
Context {O E RND : Type}.
Notation state := (@state O).
Notation config := (@config O E RND).
Notation op := (@op O E RND).
Implicit Types (c : config) (s : state).

Lemma resample_mness c r s : mness (fst (resample c r s)) = mness s.
Proof. unfold resample. destruct (rsmp _ _ _ _) as [[w' l']|x]; reflexivity. Qed.
Lemma maybe_resample_mness c r s : mness (fst (maybe_resample c r s)) = mness s.
Proof. unfold maybe_resample. destruct (xltb _ _); [apply resample_mness|reflexivity]. Qed.

Lemma install_mness c r s w N e check : mness s <> NaN ->
  let m := mness (fst (install c r s w N e check)) in m <> NaN /\ xle m (mness s) /\ xle m (n_ess w).
Proof.
  intros Hn. unfold install. set (s1 := Build_state _ _ _ _ _ _ _ _).
  assert (mness s1 <> NaN /\ xle (mness s1) (mness s) /\ xle (mness s1) (n_ess w)) as H.
  { unfold s1; cbn [mness]. destruct (xleb (n_ess w) (mness s)) eqn:Eq.
    - split; [apply n_ess_not_nan|]. split; [exact Eq|apply xle_refl, n_ess_not_nan].
    - split; [assumption|]. split; [now apply xle_refl|]. apply xle_total; [apply n_ess_not_nan|assumption|assumption]. }
  destruct check; [|exact H]. cbv zeta. rewrite maybe_resample_mness. exact H.
Qed.

Lemma reset_mness c r s np only rw : mness (fst (reset c r s np only rw)) = mness s.
Proof. unfold reset. destruct np, only; reflexivity. Qed.

Lemma update_mness c r s o e check : mness s <> NaN ->
  let m := mness (fst (update c r s o e check)) in m <> NaN /\ xle m (mness s).
Proof.
  intros Hn. assert (mness s <> NaN /\ xle (mness s) (mness s)) as H0 by (split; [assumption|now apply xle_refl]).
  rewrite update_unfold. destruct (Nat.eqb _ _); [|exact H0]. cbv zeta.
  assert (forall s1 w N, mness s1 = mness s ->
    mness (fst (install c r s1 w N e check)) <> NaN /\ xle (mness (fst (install c r s1 w N e check))) (mness s)) as Hi.
  { intros s1 w N E1. rewrite <- E1 in *. destruct (install_mness c r s1 w N e check Hn) as (A & B & _). split; assumption. }
  destruct (Rleb _ _); [destruct (zpolicy c)|]; try exact H0; apply Hi; rewrite ?reset_mness; reflexivity.
Qed.

Lemma step_mness c s x : mness s <> NaN ->
  mness (fst (step c s x)) <> NaN /\ xle (mness (fst (step c s x))) (mness s).
Proof.
  intros Hn. assert (mness s <> NaN /\ xle (mness s) (mness s)) as H0 by (split; [assumption|now apply xle_refl]).
  destruct x as [r o e ck|rs os es k|r|r|r np only rw|os es]; cbn [step].
  - now apply update_mness.
  - apply (batch_update_ind c (fun s' => mness s' <> NaN /\ xle (mness s') (mness s))); [| |exact H0].
    + intros r s1 o e [A B]. destruct (update_mness c r s1 o e false A) as [A' B']. split; [exact A'|]. eapply xle_trans; eassumption.
    + intros r s1 AB. now rewrite maybe_resample_mness.
  - now rewrite resample_mness.
  - now rewrite maybe_resample_mness.
  - now rewrite reset_mness.
  - unfold hypothetical_update. destruct (negb _); exact H0.
Qed.

Lemma run_mness c xs : forall s, mness s <> NaN -> mness (run c s xs) <> NaN /\ xle (mness (run c s xs)) (mness s).
Proof.
  induction xs as [|x xs IH]; intros s Hn.
  - split; [assumption|now apply xle_refl].
  - unfold run in *; cbn [fold_left]. destruct (step_mness c s x Hn) as [A B]. destruct (IH _ A) as [A' B'].
    split; [assumption|]. eapply xle_trans; eassumption.
Qed.

Lemma init_mness c r n s : init c r n false = Ok s -> mness s = Fin (INR n).
Proof. intros H. unfold init in H. injection H as <-. reflexivity. Qed.

(** The weights installed by an applied update, before any resampling, were seen by min_n_ess. *)
Lemma update_mness_seen c r s o e check : mness s <> NaN -> length (ws s) = length (ls s) ->
  applied c (rsum (new_weights c s o e)) ->
  ws (fst (update c r s o e false)) = new_weights c s o e /\
  xle (mness (fst (update c r s o e check))) (n_ess (new_weights c s o e)).
Proof.
  intros Hn Hlen Ha. rewrite !update_unfold, Hlen, Nat.eqb_refl. cbv zeta.
  destruct (Rleb_spec (rsum (new_weights c s o e)) (zthresh c)) as [Hle|Hgt].
  - destruct Ha as [Ha|[Ha|[Ha|Ha]]]; [lra|rewrite Ha..]; (split; [reflexivity|]); apply install_mness; rewrite ?reset_mness; exact Hn.
  - split; [reflexivity|]. apply install_mness. exact Hn.
Qed.

(** ** C08 *)
Lemma c08_divert c r s o e check : length (ws s) = length (ls s) ->
  rsum (new_weights c s o e) <= zthresh c ->
  zpolicy c <> PIgnore -> zpolicy c <> PWarn -> zpolicy c <> PReset ->
  update c r s o e check =
  (recorded s o, match zpolicy c with PError => Some RuntimeError | PSkip => None | _ => Some ValueError end).
Proof.
  intros Hlen Hle H1 H2 H3. rewrite update_unfold, Hlen, Nat.eqb_refl. cbv zeta. rewrite Rleb_true by assumption.
  destruct (zpolicy c); try congruence; reflexivity.
Qed.


Lemma install_policy c p r s w N e check : install (with_policy c p) r s w N e check = install c r s w N e check.
Proof. reflexivity. Qed.
Lemma new_weights_policy c p s o e : new_weights (with_policy c p) s o e = new_weights c s o e.
Proof. reflexivity. Qed.

Lemma c08_no_influence c p q r s o e check : length (ws s) = length (ls s) ->
  zthresh c < rsum (new_weights c s o e) ->
  update (with_policy c p) r s o e check = update (with_policy c q) r s o e check.
Proof.
  intros Hlen Hgt. rewrite !update_unfold, Hlen, Nat.eqb_refl. cbv zeta.
  rewrite !new_weights_policy. cbn [zthresh with_policy]. rewrite Rleb_false by assumption. reflexivity.
Qed.

Lemma c08_carry_on c r s o e check : length (ws s) = length (ls s) ->
  (zpolicy c = PIgnore \/ zpolicy c = PWarn) ->
  update c r s o e check =
  install c r (recorded s o) (new_weights c s o e) (evidence c s o e) e check.
Proof.
  intros Hlen Hp. rewrite update_unfold, Hlen, Nat.eqb_refl. cbv zeta. rewrite norm_scale_evidence by assumption.
  destruct (Rleb _ _); [|reflexivity]. destruct Hp as [->| ->]; reflexivity.
Qed.

(** ** C10 *)
Lemma resample_count c r s : rcnt (fst (resample c r s)) = S (rcnt s) /\ jr (fst (resample c r s)) = true.
Proof. unfold resample. destruct (rsmp _ _ _ _) as [[w' l']|x]; split; reflexivity. Qed.

Lemma maybe_resample_true c r s : xltb (n_ess (ws s)) (Fin (INR (n_particles s) * rthresh c)) = true ->
  maybe_resample c r s = resample c r s.
Proof. intros H. unfold maybe_resample. now rewrite H. Qed.
Lemma maybe_resample_false c r s : xltb (n_ess (ws s)) (Fin (INR (n_particles s) * rthresh c)) = false ->
  maybe_resample c r s = (s, None).
Proof. intros H. unfold maybe_resample. now rewrite H. Qed.

Lemma update_nocheck_counters c r s o e : rcnt (fst (update c r s o e false)) = rcnt s /\ jr (fst (update c r s o e false)) = false.
Proof.
  rewrite update_unfold. destruct (Nat.eqb _ _); [|split; reflexivity]. cbv zeta.
  destruct (Rleb _ _); [destruct (zpolicy c)|]; split; reflexivity.
Qed.

(** ** C11 *)
Lemma set_nth_length i v row : length (set_nth i v row) = length row.
Proof. revert i; induction row as [|x row IH]; intros [|i]; simpl; try reflexivity. now rewrite IH. Qed.
Lemma set_nth_other i j v row : i <> j -> nth j (set_nth i v row) 0 = nth j row 0.
Proof.
  revert i j; induction row as [|x row IH]; intros [|i] [|j] H; simpl; try reflexivity; try congruence.
  apply IH. congruence.
Qed.
Lemma set_nth_same i v row : (i < length row)%nat -> nth i (set_nth i v row) 0 = v.
Proof. revert i; induction row as [|x row IH]; intros [|i] H; simpl in *; try lia; try reflexivity. apply IH; lia. Qed.

Lemma set_row_length sel : forall row vals, length (set_row sel row vals) = length row.
Proof.
  unfold set_row. induction sel as [|i sel IH]; intros row [|v vals]; simpl; try reflexivity.
  rewrite IH. apply set_nth_length.
Qed.
Lemma set_row_other sel j : ~ In j sel -> forall row vals, nth j (set_row sel row vals) 0 = nth j row 0.
Proof.
  unfold set_row. induction sel as [|i sel IH]; intros Hj row [|v vals]; simpl; try reflexivity.
  rewrite IH by (intros H; apply Hj; now right). apply set_nth_other. intros ->. apply Hj. now left.
Qed.
Lemma set_row_same sel : NoDup sel -> forall row vals k, length vals = length sel ->
  (forall j, In j sel -> (j < length row)%nat) -> (k < length sel)%nat ->
  nth (nth k sel 0%nat) (set_row sel row vals) 0 = nth k vals 0.
Proof.
  induction 1 as [|i sel Hi Hnd IH]; intros row [|v vals] k Hlen Hin Hk; simpl in Hlen, Hk; try lia.
  unfold set_row. cbn [combine fold_left fst snd]. fold (set_row sel (set_nth i v row) vals).
  destruct k as [|k]; cbn [nth].
  - rewrite set_row_other by assumption. apply set_nth_same. apply Hin. now left.
  - apply IH; try lia. intros j Hj. rewrite set_nth_length. apply Hin. now right.
Qed.

Lemma set_cols_nth sel rows sub i : length rows = length sub -> (i < length rows)%nat ->
  nth i (set_cols sel rows sub) [] = set_row sel (nth i rows []) (nth i sub []).
Proof. intros H Hi. unfold set_cols. now rewrite (nth_map2 _ _ _ _ [] [] []). Qed.

(** ** C12: permuting particles *)

Lemma permute_map2 {A B C} (f : A -> B -> C) p l m da db dc : length l = length m ->
  Forall (fun i => (i < length l)%nat) p ->
  map2 f (permute p l da) (permute p m db) = permute p (map2 f l m) dc.
Proof.
  intros Hlen Hp. unfold permute. rewrite map2_map_l, map2_map_r, map2_same.
  apply map_ext_in. intros i Hi. rewrite Forall_forall in Hp. symmetry. apply nth_map2; auto.
Qed.
Lemma permute_map {A B} (f : A -> B) p l d d' : Forall (fun i => (i < length l)%nat) p ->
  map f (permute p l d) = permute p (map f l) d'.
Proof.
  intros Hp. unfold permute. rewrite map_map. apply map_ext_in. intros i Hi. rewrite Forall_forall in Hp. specialize (Hp i Hi).
  rewrite (nth_indep (map f l) d' (f d)) by now rewrite map_length. now rewrite map_nth.
Qed.
Lemma permute_Permutation {A} p (l : list A) d : Permutation p (seq 0 (length l)) -> Permutation (permute p l d) l.
Proof.
  intros H. unfold permute. pose proof (Permutation_map (fun i => nth i l d) H) as HP.
  rewrite map_nth_seq in HP. exact HP.
Qed.
Lemma perm_bound {A} p (l : list A) : Permutation p (seq 0 (length l)) -> Forall (fun i => (i < length l)%nat) p.
Proof.
  intros H. apply Forall_forall. intros i Hi. apply (Permutation_in _ H) in Hi. apply in_seq in Hi. lia.
Qed.
Lemma permute_length {A} p (l : list A) d : Permutation p (seq 0 (length l)) -> length (permute p l d) = length l.
Proof. intros H. unfold permute. rewrite map_length, (Permutation_length H). apply seq_length. Qed.


Section Perm.
Variables (c : config) (p : list nat) (s : state).
Hypothesis (Hlen : length (ws s) = length (ls s)) (Hp : Permutation p (seq 0 (length (ls s)))).

Lemma Hpw : Permutation p (seq 0 (length (ws s))). Proof. now rewrite Hlen. Qed.

Lemma hyp_row_perm o e : hyp_row c (permute p (ws s) 0) (permute p (ls s) []) o e = permute p (hyp_row c (ws s) (ls s) o e) 0.
Proof.
  unfold hyp_row, L_row. rewrite (permute_map _ _ _ _ 0) by now apply perm_bound.
  apply permute_map2; [now rewrite map_length|]. apply perm_bound, Hpw.
Qed.
Lemma norm_scale_perm o e : norm_scale c (permute p (ws s) 0) (permute p (ls s) []) o e = norm_scale c (ws s) (ls s) o e.
Proof.
  unfold norm_scale. rewrite hyp_row_perm. apply rsum_perm, permute_Permutation.
  rewrite hyp_row_length by assumption. apply Hpw.
Qed.
Lemma norm_row_perm o e : norm_row c (permute p (ws s) 0) (permute p (ls s) []) o e = permute p (norm_row c (ws s) (ls s) o e) 0.
Proof.
  unfold norm_row. rewrite norm_scale_perm, hyp_row_perm. apply permute_map.
  apply perm_bound. rewrite hyp_row_length by assumption. apply Hpw.
Qed.
Lemma clip_negative_perm w : Permutation p (seq 0 (length w)) -> clip_negative (permute p w 0) = permute p (clip_negative w) 0.
Proof.
  intros Hw. unfold clip_negative.
  assert (forallb (fun x => Rleb 0 x) (permute p w 0) = forallb (fun x => Rleb 0 x) w) as ->.
  { pose proof (permute_Permutation p w 0 Hw) as HP. apply Bool.eq_true_iff_eq. rewrite !forallb_forall.
    split; intros H x Hx; apply H; [|eapply Permutation_in; eassumption].
    eapply Permutation_in; [apply Permutation_sym|]; eassumption. }
  destruct (forallb _ w); [reflexivity|]. apply permute_map. now apply perm_bound.
Qed.
Lemma new_weights_perm o e : new_weights c (permute_state p s) o e = permute p (new_weights c s o e) 0.
Proof.
  unfold new_weights. cbn [permute_state ws ls]. rewrite norm_row_perm. apply clip_negative_perm.
  unfold norm_row. rewrite map_length, hyp_row_length by assumption. apply Hpw.
Qed.
Lemma new_weights_length o e : length (new_weights c s o e) = length (ws s).
Proof. unfold new_weights. rewrite clip_negative_length. unfold norm_row. rewrite map_length. now apply hyp_row_length. Qed.
Lemma n_ess_perm w : Permutation p (seq 0 (length w)) -> n_ess (permute p w 0) = n_ess w.
Proof.
  intros H. unfold n_ess. do 2 f_equal. apply rsum_perm. apply Permutation_map. now apply permute_Permutation.
Qed.

Lemma update_perm r o e :
  zpolicy c <> PReset ->
  (forall l e, length l = length (ls s) -> timestep (md c) r (permute p l []) e = permute p (timestep (md c) r l e) []) ->
  update c r (permute_state p s) o e false =
  (permute_state p (fst (update c r s o e false)), snd (update c r s o e false)).
Proof.
  intros Hpol Hts. rewrite !update_unfold.
  assert (length (ws (permute_state p s)) = length (ws s)) as -> by (cbn; apply permute_length, Hpw).
  assert (length (ls (permute_state p s)) = length (ls s)) as -> by (cbn; now apply permute_length).
  rewrite Hlen, Nat.eqb_refl. cbv zeta. rewrite new_weights_perm.
  cbn [permute_state ws ls]. rewrite norm_scale_perm.
  assert (rsum (permute p (new_weights c s o e) 0) = rsum (new_weights c s o e)) as ->.
  { apply rsum_perm, permute_Permutation. rewrite new_weights_length. apply Hpw. }
  assert (recorded (permute_state p s) o = permute_state p (recorded s o)) as Hrec.
  { unfold recorded, permute_state. cbn. f_equal. rewrite permute_length by assumption. reflexivity. }
  rewrite Hrec.
  assert (Hin : install c r (permute_state p (recorded s o)) (permute p (new_weights c s o e) 0)
     (norm_scale c (ws s) (ls s) o e) e false =
     (permute_state p (fst (install c r (recorded s o) (new_weights c s o e) (norm_scale c (ws s) (ls s) o e) e false)),
      snd (install c r (recorded s o) (new_weights c s o e) (norm_scale c (ws s) (ls s) o e) e false))).
  { rewrite !install_nocheck. cbn [fst snd recorded permute_state ws ls drec nrec mness rcnt jr calls].
    rewrite Hts by reflexivity. rewrite n_ess_perm by (rewrite new_weights_length; apply Hpw). reflexivity. }
  destruct (Rleb _ _); [destruct (zpolicy c)|]; try reflexivity; try exact Hin; congruence.
Qed.

Lemma rdot_perm (f : loc -> R) : rdot (permute p (ws s) 0) (map f (permute p (ls s) [])) = rdot (ws s) (map f (ls s)).
Proof.
  unfold rdot. rewrite (permute_map f _ _ _ 0) by now apply perm_bound.
  rewrite (permute_map2 _ _ _ _ _ _ 0); [|now rewrite map_length|apply perm_bound, Hpw].
  apply rsum_perm, permute_Permutation. rewrite map2_length by now rewrite map_length. apply Hpw.
Qed.
Lemma mean_perm d : particle_mean d (permute p (ws s) 0) (permute p (ls s) []) = particle_mean d (ws s) (ls s).
Proof. unfold particle_mean. apply map_ext. intros j. apply (rdot_perm (fun r => nth j r 0)). Qed.
Lemma cov_perm m n : particle_cov (permute p (ws s) 0) (permute p (ls s) []) m n = particle_cov (ws s) (ls s) m n.
Proof.
  unfold particle_cov. f_equal.
  - rewrite (permute_map2 _ _ _ _ _ _ 0); [|assumption|apply perm_bound, Hpw].
    apply rsum_perm, permute_Permutation. rewrite map2_length by assumption. apply Hpw.
  - unfold col. now rewrite (rdot_perm (fun r => nth m r 0)), (rdot_perm (fun r => nth n r 0)).
Qed.
End Perm.
End Proofs.
