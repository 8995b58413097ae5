(** C128: with more particles the updater approaches the exact posterior even though it resamples on the way.  The particles are drawn from the
    prior (smc.py 123-178, 281-320), every datum is processed by [update] with [check_for_resample=True] (smc.py 388-457), and chances are over
    the draws from the prior and the draws of all resampling steps (smc.py 459-530, resamplers.py 256-392). *)
From Coq Require Import List ZArith Lia Lra Psatz.
From Verif Require Import Base RList Ext Sums SmcModel SmcSpec SmcProofs SmcProofs2 LinProofs LearnSpec LearnProofs RateSpec PartModel PartSpec PartProofs LwModel LwSpec LwProofs2 LwProofs3 ReModel ReSpec ReProofs2 ReProofs3 ReProps
  ConvSpec ConvProofs ConvProofs2 ConvProps PfSpec PfProofs PfProofs2 PfProofs3.
Import ListNotations.

Section Props.
Context {O E RND : Type}.
Implicit Types (c : @config O E RND).

(** The chance that the run meets a datum predicted with probability below machine epsilon falls like one over the number of particles. *)
Theorem c128_no_early_end c mv V n M Good Ep E0 Er data : filtering c mv V Ep M data -> sampling c V n Ep E0 -> faithful c V n Good Er -> (0 < n)%nat ->
  overall c n E0 Er data (fun _ => false) <= failure_rate c mv Ep M data (length data) / INR n.
Proof.
  intros FL HS FF Hn. pose proof (overall_bound c mv V n M Good Ep E0 Er data FL HS FF Hn (fun _ => false) (fun _ => 0) 0 (Rle_refl 0) (bd_const _ _ _ _ _) (fun _ _ => Rle_refl 0) ltac:(intros; discriminate)) as Q.
  rewrite Rmult_0_l, Rplus_0_r in Q. exact Q.
Qed.
(** So does the chance that a posterior average is off by [h]. *)
Theorem c128_posterior_average c mv V n M Good Ep E0 Er data f b h : filtering c mv V Ep M data -> sampling c V n Ep E0 -> faithful c V n Good Er -> (0 < n)%nat ->
  0 <= b -> 0 < h -> (forall x, V x -> Rabs (f x) <= b) -> let T := length data in
  overall c n E0 Er data (fun s => Rleb h (Rabs (average s f - posterior c mv Ep data f))) <=
  (failure_rate c mv Ep M data T + error_rate c mv Ep M data T * b ^ 2 / h ^ 2) / INR n.
Proof. intros FL HS FF Hn Pb Ph Hf. cbv zeta. now apply (average_chance c mv V n M Good Ep E0 Er data FL HS FF Hn). Qed.
(** So does the chance that the estimate of the total likelihood is off by a factor outside 1 - h to 1 + h. *)
Theorem c128_total_likelihood c mv V n M Good Ep E0 Er data h : filtering c mv V Ep M data -> sampling c V n Ep E0 -> faithful c V n Good Er -> (0 < n)%nat ->
  0 < h -> let T := length data in
  overall c n E0 Er data (fun s => match log_total_likelihood s with Fin t => Rleb h (Rabs (exp t / probability c mv Ep data - 1)) | _ => true end) <=
  (failure_rate c mv Ep M data T + total_rate c mv Ep M data T / h ^ 2) / INR n.
Proof. intros FL HS FF Hn Ph. cbv zeta. now apply (total_chance c mv V n M Good Ep E0 Er data FL HS FF Hn). Qed.

(** Convergence in probability as the number of particles grows *)
Section Settle.
Context (c : @config O E RND) (mv : E -> loc -> loc) (V : loc -> Prop) (M : R) (Good : nat -> RND -> Prop) (Ep : (loc -> R) -> R) (E0 Er : nat -> (RND -> R) -> R) (data : list (O * E)).
Definition converges (est : @state O -> R) (a : R) : Prop :=
  forall h d, 0 < h -> 0 < d -> exists N, forall n, (N <= n)%nat -> overall c n (E0 n) (Er n) data (fun s => Rleb h (Rabs (est s - a))) <= d.
Hypothesis FL : filtering c mv V Ep M data.
Hypothesis HS : forall n, (0 < n)%nat -> sampling c V n Ep (E0 n).
Hypothesis FF : forall n, (0 < n)%nat -> faithful c V n (Good n) (Er n).
Lemma converges_rate est a : (forall h, 0 < h -> exists K, forall n, (0 < n)%nat -> overall c n (E0 n) (Er n) data (fun s => Rleb h (Rabs (est s - a))) <= K / INR n) -> converges est a.
Proof.
  intros H h d Hh Hd. destruct (H h Hh) as [K HK]. destruct (above (Rmax K 0 / d)) as [N HN]. exists (S N). intros n Hn'.
  apply Rle_trans with (1 := HK n ltac:(lia)). apply (below_rate K d N); try assumption; lia.
Qed.
Theorem c128_averages_converge f : (exists b, forall x, V x -> Rabs (f x) <= b) -> converges (fun s => average s f) (posterior c mv Ep data f).
Proof.
  intros [b Hb]. apply converges_rate. intros h Hh. eexists. intros n Hn.
  apply (c128_posterior_average c mv V n M (Good n) Ep (E0 n) (Er n) data f (Rabs b) h FL (HS n Hn) (FF n Hn) Hn (Rabs_pos b) Hh).
  intros x Hx. apply Rle_trans with b; [now apply Hb|apply Rle_abs].
Qed.
Lemma converges_regular est est' a : (forall s, full_inv s -> est s = est' s) -> converges est' a -> converges est a.
Proof.
  intros Heq H h d Hh Hd. destruct (H h d Hh Hd) as [N HN]. exists (S N). intros n Hn.
  rewrite (overall_ext c mv V n M (Good n) Ep (E0 n) (Er n) data FL (HS n ltac:(lia)) (FF n ltac:(lia)) ltac:(lia) _ (fun s => Rleb h (Rabs (est' s - a)))); [apply HN; lia|].
  intros s (Hs & _). now rewrite Heq.
Qed.
Lemma converges_combine (op : R -> R -> R) e1 e2 a b : (forall h, 0 < h -> exists t, 0 < t /\ forall x y, Rabs (x - a) < t -> Rabs (y - b) < t -> Rabs (op x y - op a b) < h) ->
  converges e1 a -> converges e2 b -> converges (fun s => op (e1 s) (e2 s)) (op a b).
Proof.
  intros Hc H1 H2 h d Hh Hd. destruct (Hc h Hh) as (t & Ht & Hx). destruct (H1 t (d/2) Ht ltac:(lra)) as [N1 A1]. destruct (H2 t (d/2) Ht ltac:(lra)) as [N2 A2].
  exists (S (N1 + N2)). intros n Hn. specialize (A1 n ltac:(lia)). specialize (A2 n ltac:(lia)). assert (Hn0 : (0 < n)%nat) by lia.
  pose proof (overall_union c mv V n M (Good n) Ep (E0 n) (Er n) data FL (HS n Hn0) (FF n Hn0) Hn0 (fun s => Rleb h (Rabs (op (e1 s) (e2 s) - op a b))) (fun s => Rleb t (Rabs (e1 s - a))) (fun s => Rleb t (Rabs (e2 s - b)))) as U.
  assert (Q : overall c n (E0 n) (Er n) data (fun s => Rleb h (Rabs (op (e1 s) (e2 s) - op a b))) <=
    overall c n (E0 n) (Er n) data (fun s => Rleb t (Rabs (e1 s - a))) + overall c n (E0 n) (Er n) data (fun s => Rleb t (Rabs (e2 s - b)))); [|lra].
  apply U. intros s _ Hb. destruct (Rleb_spec h (Rabs (op (e1 s) (e2 s) - op a b))) as [X|]; [|discriminate].
  destruct (Rleb_spec t (Rabs (e1 s - a))) as [|Y]; [now left|]. destruct (Rleb_spec t (Rabs (e2 s - b))) as [|Z]; [now right|].
  exfalso. apply Rnot_le_lt in Y. apply Rnot_le_lt in Z. pose proof (Hx _ _ Y Z). lra.
Qed.
Lemma converges_minus e1 e2 a b : converges e1 a -> converges e2 b -> converges (fun s => e1 s - e2 s) (a - b).
Proof.
  apply (converges_combine Rminus). intros h Hh. exists (h/2). split; [lra|]. intros x y Hx Hy. apply Rabs_def2 in Hx. apply Rabs_def2 in Hy. apply Rabs_def1; lra.
Qed.
Lemma converges_mult e1 e2 a b : converges e1 a -> converges e2 b -> converges (fun s => e1 s * e2 s) (a * b).
Proof.
  apply (converges_combine Rmult). intros h Hh. pose proof (Rabs_pos a) as Pa. pose proof (Rabs_pos b) as Pb. set (t := Rmin 1 (h / (2 * (Rabs a + Rabs b + 1)))).
  assert (Pt : 0 < t) by (unfold t; apply Rmin_glb_lt; [lra|apply Rdiv_lt_0_compat; lra]). assert (T1 : t <= 1) by apply Rmin_l.
  assert (T2 : t * (Rabs a + Rabs b + 1) <= h / 2).
  { apply Rle_trans with (h / (2 * (Rabs a + Rabs b + 1)) * (Rabs a + Rabs b + 1)); [apply Rmult_le_compat_r; [lra|apply Rmin_r]|]. apply Req_le. field. lra. }
  clearbody t. exists t. split; [assumption|]. intros x y Hx Hy. replace (x * y - a * b) with ((x - a) * (y - b) + (a * (y - b) + b * (x - a))) by ring.
  pose proof (Rabs_triang ((x - a) * (y - b)) (a * (y - b) + b * (x - a))) as E1. pose proof (Rabs_triang (a * (y - b)) (b * (x - a))) as E2.
  rewrite Rabs_mult in E1. rewrite !Rabs_mult in E2. pose proof (Rabs_pos (x - a)). pose proof (Rabs_pos (y - b)).
  assert (Rabs (x - a) * Rabs (y - b) <= t * 1) by (apply Rmult_le_compat; lra).
  assert (Rabs a * Rabs (y - b) <= Rabs a * t) by (apply Rmult_le_compat_l; lra). assert (Rabs b * Rabs (x - a) <= Rabs b * t) by (apply Rmult_le_compat_l; lra). idtac. nra.
Qed.
(** The mean estimate and the covariance estimate approach those of the exact posterior. *)
Theorem c128_mean_converges d j : (j < d)%nat -> (exists b, forall x, V x -> Rabs (nth j x 0) <= b) ->
  converges (fun s => nth j (particle_mean d (ws s) (ls s)) 0) (posterior c mv Ep data (fun x => nth j x 0)).
Proof.
  intros Hj Hf. apply (converges_regular _ (fun s => average s (fun x => nth j x 0))); [|now apply c128_averages_converge].
  intros s (Q & _). rewrite mean_mom by (try assumption; exact Q). reflexivity.
Qed.
Theorem c128_covariance_converges j k : (exists b, forall x, V x -> Rabs (nth j x 0) <= b) -> (exists b, forall x, V x -> Rabs (nth k x 0) <= b) ->
  let avg f := posterior c mv Ep data f in
  converges (fun s => particle_cov (ws s) (ls s) j k) (avg (fun x => nth j x 0 * nth k x 0) - avg (fun x => nth j x 0) * avg (fun x => nth k x 0)).
Proof.
  intros Hj Hk avg. set (p := fun x : loc => nth j x 0 * nth k x 0).
  assert (Hp : exists b, forall x, V x -> Rabs (p x) <= b).
  { destruct Hj as [b1 H1], Hk as [b2 H2]. exists (b1 * b2). intros x Hx. unfold p. rewrite Rabs_mult. apply Rmult_le_compat; try apply Rabs_pos; auto. }
  apply (converges_regular _ (fun s => average s p - average s (fun x => nth j x 0) * average s (fun x => nth k x 0))).
  - intros s (Q & _). rewrite cov_mom by exact Q. reflexivity.
  - apply converges_minus; [now apply c128_averages_converge|]. apply converges_mult; now apply c128_averages_converge.
Qed.
End Settle.
End Props.

(** The Liu-West resampler with [a = 1] and [h = 0] (multinomial resampling) is faithful when every location in [V] is valid, whatever matrix root
    and whatever independent kernel vectors it uses. *)
Theorem c128_liu_west {O E} (c : @config O E (list (R * list R))) valid postselect sqrtm cfg d n junk (V : loc -> Prop) Eu Ez :
  rsmp c = lw_rsmp valid postselect sqrtm cfg d junk -> c_default_n cfg = None \/ c_default_n cfg = Some n -> (0 < c_maxiter cfg)%nat ->
  (forall m, isfinite (snd (sqrtm m)) = true) -> (forall m, is_matrix d m -> is_matrix d (fst (sqrtm m))) ->
  c_a cfg = 1 -> c_h cfg = 0 -> (forall x, V x -> length x = d) -> (postselect = true -> forall x, V x -> valid x = true) ->
  uniform_law Eu -> kernel_expectation d Ez -> (forall f, (forall z, length z = d -> 0 <= f z) -> 0 <= Ez f) ->
  faithful c V n (good_draws n d) (draws Eu Ez n).
Proof. intros Hc H1 H2 H3 H4 H5 H6 H7 H8 HU HE HP. now apply (boot_faithful valid postselect sqrtm cfg d n junk V Eu Ez HU HE H1 H2 H3 H4 H5 H6 H7 H8 HP c). Qed.
(** A prior that reads its locations off the same tape of random numbers. *)
Definition read (r : list (R * list R)) (m : nat) : list loc := map (fun i => snd (nth i r (0, []))) (seq 0 m).
Theorem c128_finite_priors {O E} (c : @config O E (list (R * list R))) xs ps n : prob_vector ps -> length ps = length xs -> (forall r m, prior c r m = read r m) ->
  sampling c (fun x => In x xs) n (fun g => Sum (length xs) (fun k => nth k ps 0 * g (nth k xs []))) (fun F => independent xs ps n (fun l => F (map (fun x => (0, x)) l))).
Proof.
  intros Hps Hlp Hp. assert (Q : forall l, length l = n -> prior c (map (fun x => (0, x)) l) n = l).
  { intros l Hl. rewrite Hp. unfold read. rewrite <- Hl. etransitivity; [|apply tape_prefix]. apply map_ext_in. intros i Hi. apply in_seq in Hi. unfold tape.
    pose proof (map_nth (fun x : loc => (0, x)) l [] i) as N. cbv beta in N. now rewrite N. }
  constructor.
  - intros F G _ _ H. apply (ind_le xs ps Hps Hlp). intros l Hl HV. apply H. now rewrite Q.
  - intros F G _ _. apply ind_plus.
  - intros k F _. apply ind_scal.
  - apply (ind_const xs ps Hps Hlp).
  - intros i g Hi _. rewrite <- (ind_each xs ps Hps Hlp n g i Hi). apply (ind_ext xs ps Hps Hlp). intros l Hl _. now rewrite Q.
  - intros i j g h Hi Hj Hne _ _. rewrite <- (ind_pairs xs ps Hps Hlp n g h i j Hi Hj Hne). apply (ind_ext xs ps Hps Hlp). intros l Hl _. now rewrite Q.
Qed.

(** A coin of unknown bias 1/4 or 3/4, thrown twice with outcome 1, with multinomial resampling after every update: the exact posterior mean is 7/10,
    and the updater's mean estimate approaches it. *)
Definition boot_lw : lw_config := {| c_a := 1; c_h := 0; c_maxiter := 1000; c_comp := 1/1000000000000; c_default_n := None |}.
Definition coin_filter : @config Z unit (list (R * list R)) :=
  {| md := {| lik := fun o x _ => let p := clip 0 1 (nth 0 x 0) in if Z.eqb o 1 then p else 1 - p; timestep := fun _ l _ => l; canon := fun l => l |};
     prior := read; rsmp := lw_rsmp (fun x => Rleb 0 (nth 0 x 0) && Rleb (nth 0 x 0) 1)%bool true (fun m => (m, Fin 0)) boot_lw 1 (fun _ => [7]); rthresh := 2; zpolicy := PError; zthresh := 0; canonize := true |}.
Example c128_example : let xs := [[1/4]; [3/4]] in let ps := [1/2; 1/2] in let Ep := (fun g : loc -> R => Sum 2 (fun k => nth k ps 0 * g (nth k xs []))) in
  let E0 n := fun F => independent xs ps n (fun l => F (map (fun x => (0, x)) l)) in let Er n := draws riemann (signs 1) n in
  filtering coin_filter (fun _ x => x) (fun x => In x xs) Ep 1 two_heads /\
  (forall n, sampling coin_filter (fun x => In x xs) n Ep (E0 n)) /\
  (forall n, faithful coin_filter (fun x => In x xs) n (good_draws n 1) (Er n)) /\
  posterior coin_filter (fun _ x => x) Ep two_heads (fun x => nth 0 x 0) = 7 / 10 /\
  converges coin_filter E0 Er two_heads (fun s => nth 0 (particle_mean 1 (ws s) (ls s)) 0) (7 / 10).
Proof.
  cbv zeta. assert (HP : prob_vector [1/2; 1/2]) by (split; [repeat constructor; lra|unfold rsum; cbn; lra]).
  assert (C1 : clip 0 1 (1/4) = 1/4) by (unfold clip; rewrite Rmax_right, Rmin_right by lra; reflexivity). assert (C3 : clip 0 1 (3/4) = 3/4) by (unfold clip; rewrite Rmax_right, Rmin_right by lra; reflexivity).
  assert (CR : forall x, 0 <= clip 0 1 x <= 1).
  { intros x. unfold clip. pose proof (Rmax_l 0 x). split; [apply Rmin_glb; lra|apply Rmin_l]. }
  set (Ep := fun g : loc -> R => Sum 2 (fun k => nth k [1/2; 1/2] 0 * g (nth k [[1/4]; [3/4]] []))).
  assert (FL : filtering coin_filter (fun _ x => x) (fun x => In x [[1/4]; [3/4]]) Ep 1 two_heads).
  { constructor.
    + cbn. lra.
    + intros r n. cbn. unfold read. now rewrite map_length, seq_length.
    + reflexivity.
    + intros. cbn. now rewrite map_id.
    + intros e x Hx. exact Hx.
    + intros o x e. cbn. destruct (Z.eqb o 1); pose proof (CR (nth 0 x 0)); lra.
    + intros o x e _. cbn. destruct (Z.eqb o 1); pose proof (CR (nth 0 x 0)); lra.
    + assert (Pe : eps <= 1/8) by (unfold eps; apply Rle_trans with (/ 2 ^ 3); [apply Rinv_le_contravar; [apply pow_lt; lra|apply Rle_pow; [lra|lia]]|lra]).
      intros [|[|k]] Hk; [| |cbn in Hk; lia]; unfold probability, Ep, two_heads; cbn [firstn given]; rewrite !Sum_S, !Sum_0; cbn [nth coin_filter md lik Z.eqb Pos.eqb]; rewrite C1, C3; lra. }
  assert (HS : forall n, sampling coin_filter (fun x => In x [[1/4]; [3/4]]) n Ep (fun F => independent [[1/4]; [3/4]] [1/2; 1/2] n (fun l => F (map (fun x => (0, x)) l)))).
  { intros n. apply (c128_finite_priors coin_filter [[1/4]; [3/4]] [1/2; 1/2] n HP eq_refl). reflexivity. }
  assert (FF : forall n, faithful coin_filter (fun x => In x [[1/4]; [3/4]]) n (good_draws n 1) (draws riemann (signs 1) n)).
  { intros n. apply (c128_liu_west coin_filter (fun x => Rleb 0 (nth 0 x 0) && Rleb (nth 0 x 0) 1)%bool true (fun m => (m, Fin 0)) boot_lw 1 n (fun _ => [7])); try reflexivity.
    - now left.
    - cbn. lia.
    - intros m Hm. exact Hm.
    - intros x [<-|[<-|[]]]; reflexivity.
    - intros _ x [<-|[<-|[]]]; cbn; rewrite !Rleb_true by lra; reflexivity.
    - exact riemann_uniform.
    - exact (signs_kernel 1).
    - exact (signs_positive 1). }
  assert (PM : posterior coin_filter (fun _ x => x) Ep two_heads (fun x => nth 0 x 0) = 7 / 10).
  { unfold posterior, Ep, two_heads. cbn [given moved]. rewrite !Sum_S, !Sum_0. cbn [nth coin_filter md lik Z.eqb Pos.eqb]. rewrite C1, C3. field. }
  split; [exact FL|]. split; [exact HS|]. split; [exact FF|]. split; [exact PM|]. rewrite <- PM.
  apply (c128_mean_converges coin_filter (fun _ x => x) (fun x => In x [[1/4]; [3/4]]) 1 (fun n => good_draws n 1) Ep _ _ two_heads FL (fun n _ => HS n) (fun n _ => FF n) 1 0); [lia|].
  exists 1. intros x [<-|[<-|[]]]; cbn; rewrite Rabs_pos_eq by lra; lra.
Qed.

(** With shrinking the convergence fails: the default [a = 0.98] moves every particle of a cloud with two values away from both, so that the posterior
    probability of the two values, which is 1, is estimated as 0. *)
Definition shrink_lw : lw_config := {| c_a := 98/100; c_h := 0; c_maxiter := 1000; c_comp := 1/1000000000000; c_default_n := None |}.
Definition coin_shrink : @config Z unit (list (R * list R)) :=
  {| md := md coin_filter; prior := read; rsmp := lw_rsmp (fun _ => true) true (fun m => (m, Fin 0)) shrink_lw 1 (fun _ => [7]); rthresh := 2; zpolicy := PError; zthresh := 0; canonize := true |}.
Definition one_head : list (Z * unit) := [(1%Z, tt)].
Definition either (x : loc) : R := if (Reqb (nth 0 x 0) (1/4) || Reqb (nth 0 x 0) (3/4))%bool then 1 else 0.
Section Shrink.
Notation xs := [[1/4]; [3/4]].
Notation ps := [1/2; 1/2].
Notation Ep := (fun g : loc -> R => Sum 2 (fun k => nth k ps 0 * g (nth k xs []))).
Lemma half_prob : prob_vector ps. Proof. split; [repeat constructor; lra|unfold rsum; cbn; lra]. Qed.
Lemma clip_range x : 0 <= clip 0 1 x <= 1.
Proof. unfold clip. pose proof (Rmax_l 0 x). split; [apply Rmin_glb; lra|apply Rmin_l]. Qed.
Lemma eps_small : eps <= 1/8.
Proof. unfold eps. apply Rle_trans with (/ 2 ^ 3); [apply Rinv_le_contravar; [apply pow_lt; lra|apply Rle_pow; [lra|lia]]|lra]. Qed.
Lemma shrink_filtering : filtering coin_shrink (fun _ x => x) (fun x => In x xs) Ep 1 one_head.
Proof.
  constructor; try (intros; reflexivity).
  + cbn. lra.
  + intros r n. cbn. unfold read. now rewrite map_length, seq_length.
  + intros. cbn. now rewrite map_id.
  + intros e x Hx. exact Hx.
  + intros o x e. cbn. destruct (Z.eqb o 1); pose proof (clip_range (nth 0 x 0)); lra.
  + intros o x e _. cbn. destruct (Z.eqb o 1); pose proof (clip_range (nth 0 x 0)); lra.
  + pose proof eps_small. assert (C1 : clip 0 1 (1/4) = 1/4) by (unfold clip; rewrite Rmax_right, Rmin_right by lra; reflexivity). assert (C3 : clip 0 1 (3/4) = 3/4) by (unfold clip; rewrite Rmax_right, Rmin_right by lra; reflexivity).
    intros [|k] Hk; [|cbn in Hk; lia]; unfold probability, one_head; cbn [firstn given]; rewrite !Sum_S, !Sum_0; cbn [nth coin_shrink coin_filter md lik Z.eqb Pos.eqb]; rewrite C1, C3; lra.
Qed.
Lemma shrink_exact : posterior coin_shrink (fun _ x => x) Ep one_head either = 1.
Proof.
  assert (C1 : clip 0 1 (1/4) = 1/4) by (unfold clip; rewrite Rmax_right, Rmin_right by lra; reflexivity). assert (C3 : clip 0 1 (3/4) = 3/4) by (unfold clip; rewrite Rmax_right, Rmin_right by lra; reflexivity).
  unfold posterior, one_head. cbn [given moved]. rewrite !Sum_S, !Sum_0. cbn [nth coin_shrink coin_filter md lik Z.eqb Pos.eqb]. rewrite C1, C3. unfold either. cbn [nth].
  rewrite (Reqb_true (1/4) (1/4) eq_refl), (Reqb_true (3/4) (3/4) eq_refl), Bool.orb_true_r. cbn [orb]. field.
Qed.

Lemma lik_one x : In x xs -> lik (md coin_shrink) 1%Z x tt = nth 0 x 0.
Proof. intros [<-|[<-|[]]]; cbn; unfold clip; rewrite Rmax_right, Rmin_right by lra; reflexivity. Qed.
Lemma shrink_point w l m (z : list R) j : In (nth j l []) xs -> est_mean 1 w l = [m] -> 1/4 < m < 3/4 ->
  either (point (fun m => (m, Fin 0)) shrink_lw 1 w l (j, z)) = 0.
Proof.
  intros Hx Hm B. unfold point, lw_point. cbn [fst snd seq map shrink_lw c_a c_h]. unfold either. cbn [nth]. rewrite Hm, Rmult_0_l, Rplus_0_r. cbn [nth].
  destruct Hx as [<-|[<-|[]]]; cbn [nth]; rewrite !Reqb_false by lra; reflexivity.
Qed.
Lemma shrink_round n l : (1 < n)%nat -> length l = n -> Forall (fun x => In x xs) l ->
  let F := fun t : option (@state Z) => match t with Some s => indicator (Rleb (1/2) (Rabs (average s either - 1))) | None => 1 end in
  let v := rounds coin_shrink (draws riemann (signs 1) n) one_head F (Some (fresh coin_shrink n (map (fun x => (0, x)) l))) in
  0 <= v /\ (nth 0 l [] = [1/4] -> nth 1 l [] = [3/4] -> v = 1).
Proof.
  intros Hn Hl HV F. set (s := fresh coin_shrink n (map (fun x => (0, x)) l)). cbv zeta.
  destruct shrink_filtering as [Hth Hpr Hcan Hmv Hst Hlik HM _].
  assert (Ls : ls s = l).
  { unfold s, fresh, init, reset. cbn. unfold read. rewrite <- Hl. etransitivity; [|apply tape_prefix]. apply map_ext_in. intros i Hi. unfold tape.
    pose proof (map_nth (fun x : loc => (0, x)) l [] i) as N. cbv beta in N. now rewrite N. }
  assert (Pn : 0 < INR n) by (apply lt_0_INR; lia).
  assert (Ws : forall i, (i < n)%nat -> nth i (ws s) 0 = / INR n).
  { intros i Hi. change (ws s) with (uniform_weights n). now apply nth_uniform. }
  assert (Is : Inv (fun x => In x xs) n 1 0 s).
  { unfold Inv, full_inv. rewrite Ls, Hl. change (ws s) with (uniform_weights n). change (nrec s) with (@nil R). split; [split; [apply uniform_weights_length|apply uniform_prob; lia]|].
    split; [split; assumption|]. split; [reflexivity|constructor]. }
  assert (Hx : forall i, (i < n)%nat -> In (nth i l []) xs) by (intros i Hi; rewrite Forall_forall in HV; apply HV, nth_In; now rewrite Hl).
  assert (Hb : forall i, (i < n)%nat -> 1/4 <= nth 0 (nth i l []) 0 <= 3/4) by (intros i Hi; destruct (Hx i Hi) as [<-|[<-|[]]]; cbn; lra).
  assert (Ev : evidence coin_shrink s 1%Z tt = Sum n (fun i => / INR n * nth 0 (nth i l []) 0)).
  { unfold evidence, n_particles, at_, wt. rewrite Ls, Hl. apply Sum_ext. intros i Hi. rewrite Ws by assumption. f_equal. now apply lik_one, Hx. }
  assert (Ev1 : 1/4 <= evidence coin_shrink s 1%Z tt).
  { rewrite Ev. apply Rle_trans with (Sum n (fun _ => / INR n * (1/4))); [rewrite Sum_const; apply Req_le; field; lra|]. apply Sum_le. intros i Hi. apply Rmult_le_compat_l; [apply Rlt_le, Rinv_0_lt_compat, Pn|apply Hb, Hi]. }
  pose proof eps_small as Pe. pose proof eps_pos as Pe'.
  assert (He : eps <= evidence coin_shrink s 1%Z tt) by lra.
  cbn [rounds one_head]. rewrite Rltb_false by lra.
  destruct (upd_shape coin_shrink (fun _ x => x) (fun x => In x xs) n 1 Hth Hcan Hmv Hlik 0 s 1%Z tt Is He) as (b & K & K1 & _ & Kb & K3).
  destruct (pst_prob coin_shrink Hlik s 1%Z tt (proj1 Is) He) as [P1 P2]. rewrite Ls in P2. rewrite map_id, Ls in *. set (w := pst coin_shrink s 1%Z tt) in *.
  assert (bT : b = true).
  { rewrite Kb. destruct (c09_bounds w P1) as (y & -> & By & _). rewrite P2, Hl in By. cbn [xltb rthresh coin_shrink]. apply Rltb_true. lra. }
  rewrite bT in K3. clear Kb bT b.
  assert (HC : clouds 1 n l) by (split; [assumption|]; intros x Hin; rewrite Forall_forall in HV; destruct (HV x Hin) as [<-|[<-|[]]]; reflexivity).
  assert (D1 : c_default_n shrink_lw = None \/ c_default_n shrink_lw = Some n) by (now left). assert (D2 : (0 < c_maxiter shrink_lw)%nat) by (cbn; lia).
  assert (D3 : forall m : list (list R), isfinite (snd (m, Fin 0)) = true) by reflexivity.
  assert (D4 : forall m : list (list R), is_matrix 1 m -> is_matrix 1 (fst (m, Fin 0))) by (intros m Hm; exact Hm).
  assert (D5 : true = true -> forall x : loc, length x = 1%nat -> true = true) by reflexivity.
  pose proof (lw_law (fun _ => true) true (fun m => (m, Fin 0)) shrink_lw 1 n (fun _ => [7]) riemann (signs 1) riemann_uniform (signs_kernel 1) D1 D2 D3 D4 D5 coin_shrink eq_refl) as HR.
  pose proof (lw_positive (fun _ => true) true (fun m => (m, Fin 0)) shrink_lw 1 n (fun _ => [7]) riemann (signs 1) riemann_uniform (signs_kernel 1) D1 D2 D3 D4 D5 coin_shrink eq_refl (signs_positive 1)) as HPo.
  rewrite (rl_ext _ _ _ _ HR _ (fun r => F (Some (K (rsmp coin_shrink r w l))))) by (intros r _; now rewrite K1).
  split.
  - apply (HPo w l (fun x => F (Some (K x))) P1 P2 HC). intros r _. unfold F. destruct (Rleb _ _); cbn [indicator]; lra.
  - intros H0 H1. rewrite (rl_ext _ _ _ _ HR _ (fun _ => 1)); [apply (rl_const _ _ _ _ HR)|]. intros r Hg. unfold F. rewrite (Rleb_true (1/2)); [reflexivity|].
    cbn [rsmp coin_shrink]. rewrite (call_value (fun _ => true) true (fun m => (m, Fin 0)) shrink_lw 1 n (fun _ => [7]) D1 D2 D3 D4 D5 r w l Hg P1 P2 HC). unfold answer, average.
    destruct (K3 (uniform_weights n) (map (point (fun m => (m, Fin 0)) shrink_lw 1 w l) (picked w r))) as [-> ->].
    assert (Z : cloud_average (uniform_weights n) (map (point (fun m => (m, Fin 0)) shrink_lw 1 w l) (picked w r)) either = 0).
    { unfold cloud_average. destruct Hg as [G1 G2]. unfold picked. rewrite map_map, map_length, G1. apply Sum_zero. intros i Hi.
      set (pt := fun p : R * list R => point (fun m => (m, Fin 0)) shrink_lw 1 w l (sample_index w (fst p), snd p)).
      rewrite (nth_indep (map pt r) [] (pt (0, []))) by (now rewrite map_length, G1). rewrite (map_nth pt). unfold pt.
      set (m := nth 0 (particle_mean 1 w l) 0).
      assert (Wp : forall i, (i < n)%nat -> 0 < nth i w 0).
      { intros k Hk. unfold w, pst. rewrite norm_row_nth by (try apply Is; try assumption; unfold n_particles; now rewrite Ls, Hl). unfold bayes. fold (evidence coin_shrink s 1%Z tt). unfold wt, at_. rewrite Ls, Ws by assumption.
        rewrite lik_one by now apply Hx. pose proof (Hb k Hk). apply Rdiv_lt_0_compat; [|lra]. apply Rmult_lt_0_compat; [now apply Rinv_0_lt_compat|lra]. }
      assert (Em : m = Sum n (fun i => nth i w 0 * nth 0 (nth i l []) 0)).
      { unfold m. rewrite mean_mom by (try lia; now rewrite P2). change (cloud_average w l (fun x => nth 0 x 0) = Sum n (fun i => nth i w 0 * nth 0 (nth i l []) 0)). unfold cloud_average. now rewrite Hl. }
      assert (S1 : Sum n (fun i => nth i w 0) = 1) by (rewrite <- Hl, <- P2, <- rsum_index; apply P1).
      assert (M1 : 1/4 < m).
      { assert (Q : nth 1 w 0 * (1/2) <= Sum n (fun i => nth i w 0 * (nth 0 (nth i l []) 0 - 1/4))).
        { replace (nth 1 w 0 * (1/2)) with (nth 1 w 0 * (nth 0 (nth 1 l []) 0 - 1/4)) by (rewrite H1; cbn; lra).
          apply (Sum_ge_term n (fun i => nth i w 0 * (nth 0 (nth i l []) 0 - 1/4)) 1 Hn). intros k Hk. pose proof (Wp k Hk). pose proof (Hb k Hk). apply Rmult_le_pos; lra. }
        rewrite (Sum_ext n _ (fun i => nth i w 0 * nth 0 (nth i l []) 0 - nth i w 0 * (1/4))), Sum_minus, Sum_scal_r, S1, <- Em in Q by (intros; ring). pose proof (Wp 1%nat Hn). lra. }
      assert (M2 : m < 3/4).
      { assert (Q : nth 0 w 0 * (1/2) <= Sum n (fun i => nth i w 0 * (3/4 - nth 0 (nth i l []) 0))).
        { replace (nth 0 w 0 * (1/2)) with (nth 0 w 0 * (3/4 - nth 0 (nth 0 l []) 0)) by (rewrite H0; cbn; lra).
          apply (Sum_ge_term n (fun i => nth i w 0 * (3/4 - nth 0 (nth i l []) 0)) 0 ltac:(lia)). intros k Hk. pose proof (Wp k Hk). pose proof (Hb k Hk). apply Rmult_le_pos; lra. }
        rewrite (Sum_ext n _ (fun i => nth i w 0 * (3/4) - nth i w 0 * nth 0 (nth i l []) 0)), Sum_minus, Sum_scal_r, S1, <- Em in Q by (intros; ring). pose proof (Wp 0%nat ltac:(lia)). lra. }
      assert (W0 : w <> []) by (intros W; rewrite W in P2; cbn in P2; lia).
      rewrite (shrink_point w l m); [ring| |reflexivity|split; assumption]. apply Hx. rewrite <- Hl, <- P2. now apply sample_index_range. }
    rewrite Z. rewrite Rabs_left by lra. lra.
Qed.
Theorem c128_shrinking_refuted :
  let E0 n := fun F => independent xs ps n (fun l => F (map (fun x => (0, x)) l)) in let Er n := draws riemann (signs 1) n in
  filtering coin_shrink (fun _ x => x) (fun x => In x xs) Ep 1 one_head /\ (forall n, sampling coin_shrink (fun x => In x xs) n Ep (E0 n)) /\
  posterior coin_shrink (fun _ x => x) Ep one_head either = 1 /\ ~ converges coin_shrink E0 Er one_head (fun s => average s either) 1.
Proof.
  cbv zeta. split; [exact shrink_filtering|]. split; [intros n; apply (c128_finite_priors coin_shrink xs ps n half_prob eq_refl); reflexivity|]. split; [exact shrink_exact|].
  intros H. destruct (H (1/2) (1/8) ltac:(lra) ltac:(lra)) as [N HN]. specialize (HN (S (S N)) ltac:(lia)). set (n := S (S N)) in *. assert (Hn : (1 < n)%nat) by (unfold n; lia). clearbody n.
  set (g1 := fun x : loc => if Reqb (nth 0 x 0) (1/4) then 1 else 0). set (g2 := fun x : loc => if Reqb (nth 0 x 0) (3/4) then 1 else 0).
  assert (Q : independent xs ps n (fun l => g1 (nth 0 l []) * g2 (nth 1 l [])) = 1/4).
  { rewrite (ind_pairs xs ps half_prob eq_refl n g1 g2 0 1) by lia. cbn [length]. rewrite !Sum_S, !Sum_0. unfold g1, g2. cbn [nth].
    rewrite (Reqb_true (1/4) (1/4) eq_refl), (Reqb_true (3/4) (3/4) eq_refl), (Reqb_false (3/4) (1/4)), (Reqb_false (1/4) (3/4)) by lra. lra. }
  assert (Q2 : 1/4 <= overall coin_shrink n (fun F => independent xs ps n (fun l => F (map (fun x => (0, x)) l))) (draws riemann (signs 1) n) one_head (fun s => Rleb (1/2) (Rabs (average s either - 1)))); [|lra].
  apply Rle_trans with (1 := Req_le _ _ (eq_sym Q)). unfold overall. apply (ind_le xs ps half_prob eq_refl). intros l Hl HV. destruct (shrink_round n l Hn Hl HV) as [V0 V1].
  assert (X : forall i, (i < n)%nat -> In (nth i l []) xs) by (intros i Hi; rewrite Forall_forall in HV; apply HV, nth_In; now rewrite Hl).
  unfold g1, g2. destruct (X 0%nat ltac:(lia)) as [X0|[X0|[]]], (X 1%nat Hn) as [X1|[X1|[]]]; rewrite <- X0, <- X1; cbn [nth];
    rewrite ?(Reqb_true (1/4) (1/4) eq_refl), ?(Reqb_true (3/4) (3/4) eq_refl), ?(Reqb_false (3/4) (1/4)), ?(Reqb_false (1/4) (3/4)) by lra; rewrite ?Rmult_0_l, ?Rmult_0_r; try exact V0.
  rewrite V1 by (now symmetry). lra.
Qed.
End Shrink.
Print Assumptions c128_no_early_end.
Print Assumptions c128_posterior_average.
Print Assumptions c128_total_likelihood.
Print Assumptions c128_averages_converge.
Print Assumptions c128_mean_converges.
Print Assumptions c128_covariance_converges.
Print Assumptions c128_liu_west.
Print Assumptions c128_finite_priors.
Print Assumptions c128_example.
Print Assumptions c128_shrinking_refuted.
