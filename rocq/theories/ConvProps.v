(** C123: with more particles the updater approaches the exact posterior.  The particles are drawn from the prior (smc.py 123-178, 281-320),
    updated on a record of data without resampling; chances are over the draws from the prior. *)
From Coq Require Import List ZArith Lia Lra Psatz.
From Verif Require Import Base RList Ext Sums SmcModel SmcSpec SmcProofs LinProofs LearnSpec LearnProofs RateSpec ReSpec ConvSpec ConvProofs ConvProofs2.
Import ListNotations.

Section Props.
Context {O E RND : Type}.
Implicit Types (c : @config O E RND).
Notation after c rs n data r := (run c (fresh c n r) (updates rs 0 data)).

(** On average the cloud gives a record of data its exact probability. *)
Theorem c123_prediction_is_unbiased c mv rs V n Ep Er data : from_prior c mv rs V Ep data -> sampling c V n Ep Er -> (0 < n)%nat ->
  Er (fun r => predictive c rs (fresh c n r) data) = exact_evidence c mv rs Ep data (length data).
Proof. intros HF HS Hn. now apply (predictive_mean c mv rs V n Ep Er). Qed.
(** The chance that a posterior average is off by [h] falls like one over the number of particles. *)
Theorem c123_posterior_average c mv rs V n Ep Er data f h : from_prior c mv rs V Ep data -> sampling c V n Ep Er -> (0 < n)%nat -> 0 < h ->
  (exists b, forall x, V x -> Rabs (f (final mv rs 0 data x)) <= b) ->
  let a := exact_average c mv rs Ep data f in let T := length data in
  chance Er (fun r => Rleb h (Rabs (average (after c rs n data r) f - a))) <=
  (9 * Sum T (fun k => spread c mv rs Ep data (S k)) +
   9 / 4 * (Ep (fun x => (record_lik c mv rs 0 data x * (f (final mv rs 0 data x) - a)) ^ 2) / exact_evidence c mv rs Ep data T ^ 2) / h ^ 2) / INR n.
Proof. intros HF HS Hn Hh Hf. cbv zeta. now apply (average_chance c mv rs V n Ep Er data HF HS Hn f h (fun r => average (after c rs n data r) f)). Qed.
(** So does the chance that the estimate of the total likelihood is off by a factor outside 1 - h to 1 + h. *)
Theorem c123_total_likelihood c mv rs V n Ep Er data h : from_prior c mv rs V Ep data -> sampling c V n Ep Er -> (0 < n)%nat -> 0 < h ->
  let T := length data in
  chance Er (fun r => match log_total_likelihood (after c rs n data r) with
                      | Fin t => Rleb h (Rabs (exp t / exact_evidence c mv rs Ep data T - 1)) | _ => true end) <=
  (9 * Sum T (fun k => spread c mv rs Ep data (S k)) + spread c mv rs Ep data T / h ^ 2) / INR n.
Proof. intros HF HS Hn Hh. cbv zeta. now apply (total_chance c mv rs V n Ep Er data HF HS Hn). Qed.

(** Convergence in probability as the number of particles grows *)
Definition settles (Er : nat -> (RND -> R) -> R) (est : nat -> RND -> R) (a : R) : Prop :=
  forall h d, 0 < h -> 0 < d -> exists N, forall n, (N <= n)%nat -> chance (Er n) (fun r => Rleb h (Rabs (est n r - a))) <= d.
Lemma above x : exists N, x < INR N.
Proof. destruct (archimed x) as [H _]. destruct (Z_le_gt_dec 0 (up x)) as [Hz|Hz]; [exists (Z.to_nat (up x)); rewrite INR_IZR_INZ, Z2Nat.id by assumption; lra|]. exists 0%nat. assert (IZR (up x) <= 0) by (apply (IZR_le _ 0); lia). cbn. lra. Qed.
Lemma below_rate K d N n : 0 < d -> Rmax K 0 / d < INR N -> (N <= n)%nat -> (0 < n)%nat -> K / INR n <= d.
Proof.
  intros Hd HN Hle Hn. assert (P : INR N <= INR n) by now apply le_INR. assert (Pn : 0 < INR n) by now apply lt_0_INR.
  apply Rmult_le_reg_r with (INR n); [assumption|]. unfold Rdiv. rewrite Rmult_assoc, Rinv_l, Rmult_1_r by lra.
  pose proof (Rmax_l K 0). apply Rle_trans with (d * (Rmax K 0 / d)); [replace (d * (Rmax K 0 / d)) with (Rmax K 0) by (field; lra); lra|]. apply Rmult_le_compat_l; lra.
Qed.
Lemma settles_rate (Er : nat -> (RND -> R) -> R) est a : (forall h, 0 < h -> exists K, forall n, (0 < n)%nat -> chance (Er n) (fun r => Rleb h (Rabs (est n r - a))) <= K / INR n) -> settles Er est a.
Proof.
  intros H h d Hh Hd. destruct (H h Hh) as [K HK]. destruct (above (Rmax K 0 / d)) as [N HN]. exists (S N). intros n Hn'.
  apply Rle_trans with (1 := HK n ltac:(lia)). apply (below_rate K d N); try assumption; lia.
Qed.
Theorem c123_averages_settle c mv rs V Ep Er data f : from_prior c mv rs V Ep data -> (forall n, (0 < n)%nat -> sampling c V n Ep (Er n)) ->
  (exists b, forall x, V x -> Rabs (f (final mv rs 0 data x)) <= b) ->
  settles Er (fun n r => average (after c rs n data r) f) (exact_average c mv rs Ep data f).
Proof. intros HF HS Hf. apply settles_rate. intros h Hh. eexists. intros n Hn. apply (c123_posterior_average c mv rs V n Ep (Er n) data f h HF (HS n Hn) Hn Hh Hf). Qed.
(** Rules for [settles] *)
Section Rules.
Context (c : @config O E RND) (mv : RND -> E -> loc -> loc) (rs : nat -> RND) (V : loc -> Prop) (Ep : (loc -> R) -> R) (Er : nat -> (RND -> R) -> R) (data : list (O * E)).
Hypothesis HF : from_prior c mv rs V Ep data.
Hypothesis HS : forall n, (0 < n)%nat -> sampling c V n Ep (Er n).
Lemma settles_regular est est' a : (forall n r, (0 < n)%nat -> regular c rs 0 data (fresh c n r) -> est n r = est' n r) -> settles Er est' a -> settles Er est a.
Proof.
  intros Heq H h d Hh Hd. destruct (H h (d/2) Hh ltac:(lra)) as [N1 H1]. set (K := 9 * Sum (length data) (fun k => spread c mv rs Ep data (S k))).
  destruct (above (Rmax K 0 / (d/2))) as [N2 H2]. exists (S (N1 + N2)). intros n Hn. assert (Pn : (0 < n)%nat) by lia.
  assert (Q : chance (Er n) (fun r => Rleb h (Rabs (est n r - a))) <= K / INR n + chance (Er n) (fun r => Rleb h (Rabs (est' n r - a)))).
  { apply (bad_run c mv rs V n Ep (Er n) data HF (HS n Pn) Pn). intros r _ Hr _ Hb. now rewrite <- (Heq n r Pn Hr). }
  pose proof (H1 n ltac:(lia)) as Q1. pose proof (below_rate K (d/2) N2 n ltac:(lra) H2 ltac:(lia) Pn) as Q2. lra.
Qed.
Lemma both (n : nat) (b b1 b2 : RND -> bool) : (0 < n)%nat -> (forall r, b r = true -> b1 r = true \/ b2 r = true) -> chance (Er n) b <= chance (Er n) b1 + chance (Er n) b2.
Proof.
  intros Hn H. pose proof (union c V n Ep (Er n) (HS n Hn) Hn 1 b (fun _ => b1) b2) as U. rewrite Sum_S, Sum_0, Rplus_0_r in U. apply U.
  intros r _ Hb. destruct (H r Hb) as [Z|Z]; [right; exists 0%nat; split; [lia|exact Z]|now left].
Qed.
Lemma settles_combine (op : R -> R -> R) e1 e2 a b : (forall h, 0 < h -> exists t, 0 < t /\ forall x y, Rabs (x - a) < t -> Rabs (y - b) < t -> Rabs (op x y - op a b) < h) ->
  settles Er e1 a -> settles Er e2 b -> settles Er (fun n r => op (e1 n r) (e2 n r)) (op a b).
Proof.
  intros Hc H1 H2 h d Hh Hd. destruct (Hc h Hh) as (t & Ht & Hx). destruct (H1 t (d/2) Ht ltac:(lra)) as [N1 A1]. destruct (H2 t (d/2) Ht ltac:(lra)) as [N2 A2].
  exists (S (N1 + N2)). intros n Hn. specialize (A1 n ltac:(lia)). specialize (A2 n ltac:(lia)).
  assert (Q : chance (Er n) (fun r => Rleb h (Rabs (op (e1 n r) (e2 n r) - op a b))) <= chance (Er n) (fun r => Rleb t (Rabs (e1 n r - a))) + chance (Er n) (fun r => Rleb t (Rabs (e2 n r - b)))); [|lra].
  apply both; [lia|]. intros r Hb. destruct (Rleb_spec h (Rabs (op (e1 n r) (e2 n r) - op a b))) as [X|]; [|discriminate].
  destruct (Rleb_spec t (Rabs (e1 n r - a))) as [|Y]; [now left|]. destruct (Rleb_spec t (Rabs (e2 n r - b))) as [|Z]; [now right|].
  exfalso. apply Rnot_le_lt in Y. apply Rnot_le_lt in Z. pose proof (Hx _ _ Y Z). lra.
Qed.
Lemma settles_minus e1 e2 a b : settles Er e1 a -> settles Er e2 b -> settles Er (fun n r => e1 n r - e2 n r) (a - b).
Proof.
  apply (settles_combine Rminus). intros h Hh. exists (h/2). split; [lra|]. intros x y Hx Hy. apply Rabs_def2 in Hx. apply Rabs_def2 in Hy. apply Rabs_def1; lra.
Qed.
Lemma settles_mult e1 e2 a b : settles Er e1 a -> settles Er e2 b -> settles Er (fun n r => e1 n r * e2 n r) (a * b).
Proof.
  apply (settles_combine Rmult). intros h Hh. pose proof (Rabs_pos a) as Pa. pose proof (Rabs_pos b) as Pb. set (t := Rmin 1 (h / (2 * (Rabs a + Rabs b + 1)))).
  assert (Pt : 0 < t) by (unfold t; apply Rmin_glb_lt; [lra|apply Rdiv_lt_0_compat; lra]). assert (T1 : t <= 1) by apply Rmin_l.
  assert (T2 : t * (Rabs a + Rabs b + 1) <= h / 2).
  { apply Rle_trans with (h / (2 * (Rabs a + Rabs b + 1)) * (Rabs a + Rabs b + 1)); [apply Rmult_le_compat_r; [lra|apply Rmin_r]|]. apply Req_le. field. lra. }
  clearbody t. exists t. split; [assumption|]. intros x y Hx Hy. replace (x * y - a * b) with ((x - a) * (y - b) + (a * (y - b) + b * (x - a))) by ring.
  pose proof (Rabs_triang ((x - a) * (y - b)) (a * (y - b) + b * (x - a))) as E1. pose proof (Rabs_triang (a * (y - b)) (b * (x - a))) as E2.
  rewrite Rabs_mult in E1. rewrite !Rabs_mult in E2. pose proof (Rabs_pos (x - a)). pose proof (Rabs_pos (y - b)).
  assert (Rabs (x - a) * Rabs (y - b) <= t * 1) by (apply Rmult_le_compat; lra).
  assert (Rabs a * Rabs (y - b) <= Rabs a * t) by (apply Rmult_le_compat_l; lra). assert (Rabs b * Rabs (x - a) <= Rabs b * t) by (apply Rmult_le_compat_l; lra). idtac. nra.
Qed.
End Rules.
(** The mean estimate and the covariance estimate settle on those of the exact posterior. *)
Theorem c123_mean_settles c mv rs V Ep Er data d j : from_prior c mv rs V Ep data -> (forall n, (0 < n)%nat -> sampling c V n Ep (Er n)) -> (j < d)%nat ->
  (exists b, forall x, V x -> Rabs (nth j (final mv rs 0 data x) 0) <= b) ->
  settles Er (fun n r => nth j (particle_mean d (ws (after c rs n data r)) (ls (after c rs n data r))) 0) (exact_average c mv rs Ep data (fun x => nth j x 0)).
Proof.
  intros HF HS Hj Hf. apply (settles_regular c mv rs V Ep Er data HF HS _ (fun n r => average (after c rs n data r) (fun x => nth j x 0))); [|now apply (c123_averages_settle c mv rs V)].
  intros n r Hn Hr. destruct (run_regular c rs (fp_config _ _ _ _ _ _ HF) (fp_threshold _ _ _ _ _ _ HF) data 0%nat (fresh c n r) (fresh_inv c n (fp_config _ _ _ _ _ _ HF) (fp_canon _ _ _ _ _ _ HF) Hn r) Hr) as ((Q & _) & _).
  rewrite mean_mom by (try assumption; exact Q). reflexivity.
Qed.
Theorem c123_covariance_settles c mv rs V Ep Er data j k : from_prior c mv rs V Ep data -> (forall n, (0 < n)%nat -> sampling c V n Ep (Er n)) ->
  (exists b, forall x, V x -> Rabs (nth j (final mv rs 0 data x) 0) <= b) -> (exists b, forall x, V x -> Rabs (nth k (final mv rs 0 data x) 0) <= b) ->
  let avg f := exact_average c mv rs Ep data f in
  settles Er (fun n r => particle_cov (ws (after c rs n data r)) (ls (after c rs n data r)) j k)
    (avg (fun x => nth j x 0 * nth k x 0) - avg (fun x => nth j x 0) * avg (fun x => nth k x 0)).
Proof.
  intros HF HS Hj Hk avg. set (p := fun x : loc => nth j x 0 * nth k x 0).
  assert (Hp : exists b, forall x, V x -> Rabs (p (final mv rs 0 data x)) <= b).
  { destruct Hj as [b1 H1], Hk as [b2 H2]. exists (b1 * b2). intros x Hx. unfold p. rewrite Rabs_mult. apply Rmult_le_compat; try apply Rabs_pos; auto. }
  apply (settles_regular c mv rs V Ep Er data HF HS _ (fun n r => average (after c rs n data r) p - average (after c rs n data r) (fun x => nth j x 0) * average (after c rs n data r) (fun x => nth k x 0))).
  - intros n r Hn Hr. destruct (run_regular c rs (fp_config _ _ _ _ _ _ HF) (fp_threshold _ _ _ _ _ _ HF) data 0%nat (fresh c n r) (fresh_inv c n (fp_config _ _ _ _ _ _ HF) (fp_canon _ _ _ _ _ _ HF) Hn r) Hr) as ((Q & _) & _).
    rewrite cov_mom by exact Q. reflexivity.
  - apply (settles_minus c V Ep Er HS); [now apply (c123_averages_settle c mv rs V)|]. apply (settles_mult c V Ep Er HS); now apply (c123_averages_settle c mv rs V).
Qed.
End Props.

(** Independent draws from any prior with finitely many values form such a law, for every number of particles: the random numbers are the
    locations drawn, and the prior returns the first [n] of them. *)
Definition tape (l : list loc) (i : nat) : loc := nth i l [].
Section Independent.
Variables (xs : list loc) (ps : list R).
Hypothesis Hps : prob_vector ps.
Hypothesis Hlp : length ps = length xs.
Notation one g := (Sum (length xs) (fun k => nth k ps 0 * g (nth k xs []))).
Lemma p_nonneg k : 0 <= nth k ps 0.
Proof. destruct Hps as [H _]. destruct (Nat.lt_ge_cases k (length ps)) as [Hk|Hk]; [rewrite Forall_forall in H; now apply H, nth_In|rewrite nth_overflow by lia; lra]. Qed.
Lemma p_total : Sum (length xs) (fun k => nth k ps 0) = 1.
Proof. rewrite <- Hlp, <- rsum_index. apply Hps. Qed.
Lemma ind_le n : forall f g, (forall l, length l = n -> Forall (fun x => In x xs) l -> f l <= g l) -> independent xs ps n f <= independent xs ps n g.
Proof.
  induction n as [|n IH]; intros f g H; cbn [independent]; [apply H; [reflexivity|constructor]|]. apply Sum_le. intros k Hk. apply Rmult_le_compat_l; [apply p_nonneg|]. apply IH.
  intros l Hl HV. apply H; [cbn; now rewrite Hl|]. constructor; [now apply nth_In|assumption].
Qed.
Lemma ind_ext n f g : (forall l, length l = n -> Forall (fun x => In x xs) l -> f l = g l) -> independent xs ps n f = independent xs ps n g.
Proof. intros H. apply Rle_antisym; apply ind_le; intros l Hl HV; rewrite (H l Hl HV); lra. Qed.
Lemma ind_plus n : forall f g, independent xs ps n (fun l => f l + g l) = independent xs ps n f + independent xs ps n g.
Proof. induction n as [|n IH]; intros f g; cbn [independent]; [reflexivity|]. rewrite <- Sum_plus. apply Sum_ext. intros k Hk. rewrite IH. ring. Qed.
Lemma ind_scal n a : forall f, independent xs ps n (fun l => a * f l) = a * independent xs ps n f.
Proof. induction n as [|n IH]; intros f; cbn [independent]; [reflexivity|]. rewrite <- Sum_scal. apply Sum_ext. intros k Hk. rewrite IH. ring. Qed.
Lemma ind_const n a : independent xs ps n (fun _ => a) = a.
Proof. induction n as [|n IH]; cbn [independent]; [reflexivity|]. rewrite IH, Sum_scal_r, p_total. ring. Qed.
Lemma ind_each n g : forall i, (i < n)%nat -> independent xs ps n (fun l => g (nth i l [])) = one g.
Proof.
  induction n as [|n IH]; intros i Hi; [lia|]. cbn [independent]. destruct i as [|i]; cbn [nth].
  - apply Sum_ext. intros k Hk. now rewrite ind_const.
  - rewrite (Sum_ext _ _ (fun k => nth k ps 0 * one g)) by (intros k Hk; now rewrite IH by lia). rewrite Sum_scal_r, p_total. ring.
Qed.
Lemma ind_pairs n g h : forall i j, (i < n)%nat -> (j < n)%nat -> i <> j -> independent xs ps n (fun l => g (nth i l []) * h (nth j l [])) = one g * one h.
Proof.
  induction n as [|n IH]; intros i j Hi Hj Hne; [lia|]. cbn [independent]. destruct i as [|i], j as [|j]; cbn [nth]; try lia.
  - rewrite (Sum_ext _ _ (fun k => nth k ps 0 * g (nth k xs []) * one h)); [now rewrite Sum_scal_r|]. intros k Hk. rewrite ind_scal, ind_each by lia. ring.
  - rewrite (Sum_ext _ _ (fun k => nth k ps 0 * h (nth k xs []) * one g)); [rewrite Sum_scal_r; ring|]. intros k Hk.
    rewrite (ind_ext n _ (fun l => h (nth k xs []) * g (nth i l []))) by (intros; ring). rewrite ind_scal, ind_each by lia. ring.
  - rewrite (Sum_ext _ _ (fun k => nth k ps 0 * (one g * one h))) by (intros k Hk; now rewrite IH by lia). rewrite Sum_scal_r, p_total. ring.
Qed.
Lemma tape_prefix l : map (tape l) (seq 0 (length l)) = l.
Proof. symmetry. apply (nth_ext _ _ [] []); [now rewrite map_length, seq_length|]. intros i Hi. rewrite (nth_indep (map (tape l) (seq 0 (length l))) [] (tape l 0)) by (now rewrite map_length, seq_length). rewrite (map_nth (tape l)), seq_nth by assumption. reflexivity. Qed.
Theorem c123_finite_priors {O E} (c : @config O E (nat -> loc)) n : (forall r m, prior c r m = map r (seq 0 m)) ->
  sampling c (fun x => In x xs) n (fun g => one g) (fun F => independent xs ps n (fun l => F (tape l))).
Proof.
  intros Hp. assert (Q : forall l, length l = n -> prior c (tape l) n = l) by (intros l Hl; rewrite Hp, <- Hl; apply tape_prefix).
  constructor.
  - intros F G _ _ H. apply ind_le. intros l Hl HV. apply H. now rewrite Q.
  - intros F G _ _. apply ind_plus.
  - intros k F _. apply ind_scal.
  - apply ind_const.
  - intros i g Hi _. rewrite <- (ind_each n g i Hi). apply ind_ext. intros l Hl _. now rewrite Q.
  - intros i j g h Hi Hj Hne _ _. rewrite <- (ind_pairs n g h i j Hi Hj Hne). apply ind_ext. intros l Hl _. now rewrite Q.
Qed.
End Independent.

(** A coin of unknown bias 1/4 or 3/4, thrown twice with outcome 1: the exact posterior mean is 7/10. *)
Definition coin_model : @config Z unit (nat -> loc) :=
  {| md := {| lik := fun o x _ => let p := clip 0 1 (nth 0 x 0) in if Z.eqb o 1 then p else 1 - p; timestep := fun _ l _ => l; canon := fun l => l |};
     prior := fun r m => map r (seq 0 m); rsmp := fun _ _ _ => Err RuntimeError; rthresh := 1/2; zpolicy := PError; zthresh := 0; canonize := true |}.
Definition two_heads : list (Z * unit) := [(1%Z, tt); (1%Z, tt)].
Example c123_example : let xs := [[1/4]; [3/4]] in let ps := [1/2; 1/2] in let Ep := (fun g : loc -> R => Sum 2 (fun k => nth k ps 0 * g (nth k xs []))) in
  prob_vector ps /\ from_prior coin_model (fun _ _ x => x) (fun _ _ => []) (fun x => In x xs) Ep two_heads /\
  (forall n, sampling coin_model (fun x => In x xs) n Ep (fun F => independent xs ps n (fun l => F (tape l)))) /\
  exact_average coin_model (fun _ _ x => x) (fun _ _ => []) Ep two_heads (fun x => nth 0 x 0) = 7 / 10.
Proof.
  cbv zeta. assert (HP : prob_vector [1/2; 1/2]) by (split; [repeat constructor; lra|unfold rsum; cbn; lra]). split; [exact HP|].
  assert (C1 : clip 0 1 (1/4) = 1/4) by (unfold clip; rewrite Rmax_right, Rmin_right by lra; reflexivity). assert (C3 : clip 0 1 (3/4) = 3/4) by (unfold clip; rewrite Rmax_right, Rmin_right by lra; reflexivity).
  assert (CR : forall x, 0 <= clip 0 1 x <= 1).
  { intros x. unfold clip. pose proof (Rmax_l 0 x). split; [apply Rmin_glb; lra|apply Rmin_l]. }
  split; [|split].
  - constructor.
    + constructor; try (intros; reflexivity).
      * intros o x e. cbn. destruct (Z.eqb o 1); pose proof (CR (nth 0 x 0)); lra.
      * intros r n. cbn. now rewrite map_length, seq_length.
      * intros. discriminate.
    + cbn. lra.
    + reflexivity.
    + intros. cbn. now rewrite map_id.
    + intros r e x Hx. exact Hx.
    + intros o e. exists 1. intros x _. cbn. destruct (Z.eqb o 1); pose proof (CR (nth 0 x 0)); lra.
    + assert (Pe : eps <= 1/8) by (unfold eps; apply Rle_trans with (/ 2 ^ 3); [apply Rinv_le_contravar; [apply pow_lt; lra|apply Rle_pow; [lra|lia]]|lra]).
      intros [|[|k]] Hk; [| |cbn in Hk; lia]; unfold exact_evidence, two_heads; cbn [firstn record_lik]; rewrite !Sum_S, !Sum_0; cbn [nth coin_model md lik Z.eqb Pos.eqb]; rewrite C1, C3; lra.
  - intros n. apply (c123_finite_priors [[1/4]; [3/4]] [1/2; 1/2] HP eq_refl coin_model). reflexivity.
  - unfold exact_average, two_heads. cbn [record_lik final]. rewrite !Sum_S, !Sum_0. cbn [nth coin_model md lik Z.eqb Pos.eqb]. rewrite C1, C3. field.
Qed.

Print Assumptions c123_prediction_is_unbiased.
Print Assumptions c123_posterior_average.
Print Assumptions c123_total_likelihood.
Print Assumptions c123_averages_settle.
Print Assumptions c123_mean_settles.
Print Assumptions c123_covariance_settles.
Print Assumptions c123_finite_priors.
