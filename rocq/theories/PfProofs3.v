(** Proofs for C128: the Liu-West resampler without shrinking and without noise. *)
From Coq Require Import List Lia Lra Psatz.
From Verif Require Import Base RList Ext Sums SmcModel SmcSpec SmcProofs PartModel PartSpec PartProofs LwModel LwSpec LwProofs LwProofs2 LwProofs3 ReModel ReSpec ReProofs ReProofs2 ConvSpec PfSpec PfProofs.
Import ListNotations.

Section Boot.
Variables (valid : loc -> bool) (postselect : bool) (sqrtm : list (list R) -> list (list R) * ext) (cfg : lw_config) (d n : nat) (junk : nat -> loc).
Variables (V : loc -> Prop) (Eu : (R -> R) -> R) (Ez : (list R -> R) -> R).
Hypothesis (HEu : uniform_law Eu) (HEz : kernel_expectation d Ez).
Hypothesis (Hdef : c_default_n cfg = None \/ c_default_n cfg = Some n) (Hmax : (0 < c_maxiter cfg)%nat).
Hypothesis (Hfin : forall m, isfinite (snd (sqrtm m)) = true) (Hroot : forall m, is_matrix d m -> is_matrix d (fst (sqrtm m))).
Hypothesis (Ha : c_a cfg = 1) (Hh : c_h cfg = 0).
Hypothesis (Hlen : forall x, V x -> length x = d).
Hypothesis (Hval : postselect = true -> forall x, V x -> valid x = true).
Hypothesis HP : forall f, (forall z, length z = d -> 0 <= f z) -> 0 <= Ez f.

Lemma within_clouds l : within V n l -> clouds d n l.
Proof. intros [H1 H2]. split; [exact H1|]. intros x Hx. rewrite Forall_forall in H2. now apply Hlen, H2. Qed.
Lemma still m (S : list (list R)) x z : length x = d -> lw_point d (c_a cfg) (c_h cfg) m S x z = x.
Proof.
  intros Hx. unfold lw_point. apply (nth_ext _ _ 0 0); [now rewrite map_length, seq_length|]. intros i Hi. rewrite map_length, seq_length in Hi.
  set (f := fun p => c_a cfg * nth p x 0 + (1 - c_a cfg) * nth p m 0 + c_h cfg * Sum d (fun k => entry S p k * nth k z 0)).
  rewrite (nth_indep (map f (seq 0 d)) 0 (f 0%nat)) by (now rewrite map_length, seq_length). rewrite (map_nth f), seq_nth by assumption. unfold f. cbn [plus]. rewrite Ha, Hh. ring.
Qed.
Lemma same_answer r w l : good_draws n d r -> prob_vector w -> length w = length l -> within V n l ->
  lw_rsmp valid postselect sqrtm cfg d junk r w l = answer sqrtm cfg d n w l (picked w r).
Proof.
  intros [R1 R2] Hp Hl HW. pose proof (within_clouds l HW) as [C1 C2]. unfold lw_rsmp.
  set (kernel := fun t i => match t with 0%nat => snd (nth i r (0, repeat 0 d)) | S _ => repeat 0 d end).
  assert (Hus : Forall (fun u => 0 <= u < 1) (map fst r)) by (rewrite Forall_map; revert R2; apply Forall_impl; tauto).
  assert (Hln : length (map fst r) = the_n cfg l None) by (rewrite map_length, R1; unfold the_n; destruct Hdef as [->| ->]; auto).
  assert (Hk : forall t i, length (kernel t i) = d).
  { intros [|t] i; cbn; [|apply repeat_length]. destruct (Nat.lt_ge_cases i (length r)) as [Hi|Hi].
    - rewrite Forall_forall in R2. apply (R2 (nth i r (0, repeat 0 d))), nth_In, Hi.
    - rewrite nth_overflow by assumption. apply repeat_length. }
  destruct (call_first valid postselect kernel sqrtm cfg d w l None None None (map fst r) junk Hp (eq_sym Hl) Hus Hln Hfin Hmax C2 Hk) as (dist & left & calls & E1 & E2).
  { apply Hroot, the_cov_matrix. }
  { cbn. unfold est_mean, particle_mean. now rewrite map_length, seq_length. }
  destruct (call_shape valid postselect kernel sqrtm cfg d w l None None None (map fst r) junk Hp (eq_sym Hl) Hus Hln Hfin) as (locs & left' & calls' & E3 & E4 & _).
  rewrite E3 in E1. injection E1 as <- <- <-. change (match lw_call valid postselect kernel sqrtm cfg d w l None None None (map fst r) junk with
    | Ok (dist, _, _) => Ok (map finite_part (snd dist), fst dist) | Err x => Err x end = answer sqrtm cfg d n w l (picked w r)).
  rewrite E3. unfold answer. rewrite <- Hln, map_length, R1 in E4. do 2 f_equal.
  - cbn [snd]. rewrite map_map. unfold finite_part. rewrite map_id. f_equal. rewrite <- Hln, map_length. exact R1.
  - cbn [fst] in *. set (pt := point sqrtm cfg d w l). assert (Lp : length (map pt (picked w r)) = n) by (unfold picked; now rewrite !map_length).
    apply (nth_ext _ _ [] []); [now rewrite Lp|]. intros i Hi. rewrite E4 in Hi.
    assert (Hi' : (i < length (map fst r))%nat) by (rewrite map_length, R1; exact Hi).
    destruct (E2 i Hi') as (j & Hj & Hs & Hpt). rewrite Hpt.
    + assert (Hu : 0 <= nth i (map fst r) 0 < 1) by (rewrite Forall_forall in Hus; apply Hus, nth_In, Hi').
      apply (sample_index_slot w _ j Hp Hu Hj) in Hs. unfold picked. rewrite map_map.
      rewrite (nth_indep (map _ r) [] (pt (sample_index w (fst (0, repeat 0 d)), snd (0, repeat 0 d)))) by (now rewrite map_length, R1).
      rewrite (map_nth (fun p => pt (sample_index w (fst p), snd p))). unfold pt, point. cbn [fst snd].
      rewrite <- Hs. f_equal. f_equal. f_equal. rewrite (nth_indep _ 0 (fst (0, repeat 0 d))) by exact Hi'. apply map_nth.
    + intros Hpost. assert (Vj : V (nth j l [])) by (destruct HW as [_ HW]; rewrite Forall_forall in HW; apply HW, nth_In; now rewrite <- Hl).
      cbn. rewrite still by now apply Hlen. now apply (Hval Hpost).
Qed.

Context {O E : Type}.
Variable c : @config O E (list (R * list R)).
Hypothesis (Hc : rsmp c = lw_rsmp valid postselect sqrtm cfg d junk).
(** The same updater without the validity check *)
Let c' : @config O E (list (R * list R)) := {| md := md c; prior := prior c; rsmp := lw_rsmp (fun _ => true) postselect sqrtm cfg d junk;
  rthresh := rthresh c; zpolicy := zpolicy c; zthresh := zthresh c; canonize := canonize c |}.
Let Htrue : postselect = true -> forall x : loc, length x = d -> (fun _ : loc => true) x = true := fun _ _ _ => eq_refl.
Lemma same_rsmp r w l : good_draws n d r -> prob_vector w -> length w = length l -> within V n l -> rsmp c r w l = rsmp c' r w l.
Proof.
  intros Hr Hp Hl HW. rewrite Hc, same_answer by assumption. symmetry. cbn [c' rsmp].
  apply (call_value (fun _ => true) postselect sqrtm cfg d n junk Hdef Hmax Hfin Hroot Htrue); try assumption. now apply within_clouds.
Qed.
Notation Dr := (draws Eu Ez n).
Lemma swap (F : res (list R * list loc) -> R) w l : prob_vector w -> length w = length l -> within V n l -> Dr (fun r => F (rsmp c r w l)) = Dr (fun r => F (rsmp c' r w l)).
Proof. intros Hp Hl HW. apply (draws_ext d Eu Ez HEu HEz n). intros r Hr. now rewrite same_rsmp. Qed.
Let L' : resampling_law c' (clouds d n) (good_draws n d) Dr := lw_law (fun _ => true) postselect sqrtm cfg d n junk Eu Ez HEu HEz Hdef Hmax Hfin Hroot Htrue c' eq_refl.
Lemma boot_law : resampling_law c (within V n) (good_draws n d) Dr.
Proof.
  constructor.
  - exact (rl_ext c' _ _ _ L').
  - exact (rl_const c' _ _ _ L').
  - intros w l F G Hp Hl HW. rewrite (swap (fun x => F x + G x)), (swap F), (swap G) by assumption. apply (rl_plus c' _ _ _ L'); try assumption. now apply within_clouds.
  - intros w l k F Hp Hl HW. rewrite (swap (fun x => k * F x)), (swap F) by assumption. apply (rl_scal c' _ _ _ L'); try assumption. now apply within_clouds.
  - intros r w l Hr Hp Hl HW. rewrite Hc, same_answer by assumption. pose proof (within_clouds l HW) as HC.
    assert (N : (0 < n)%nat) by (destruct HW as [<- _]; rewrite <- Hl; now apply prob_vector_nonempty).
    exists (uniform_weights n), (map (point sqrtm cfg d w l) (picked w r)). split; [reflexivity|]. split; [now apply uniform_prob|].
    destruct Hr as [R1 R2]. unfold picked. rewrite uniform_weights_length, !map_length, R1. split; [reflexivity|]. split; [now rewrite !map_length|].
    rewrite !Forall_map. rewrite Forall_forall in R2 |- *. intros q Hq. unfold point. cbn [fst snd]. destruct (R2 q Hq) as [U _].
    destruct HW as [_ HW]. rewrite Forall_forall in HW. assert (Vj : V (nth (sample_index w (fst q)) l [])).
    { apply HW, nth_In. rewrite <- Hl. apply sample_index_range. intros W0. apply prob_vector_nonempty in Hp. rewrite W0 in Hp. cbn in Hp. lia. }
    rewrite still by now apply Hlen. exact Vj.
Qed.
Lemma boot_positive : positive_law c (within V n) (good_draws n d) Dr.
Proof.
  intros w l F Hp Hl HW HF. rewrite (swap F) by assumption.
  apply (lw_positive (fun _ => true) postselect sqrtm cfg d n junk Eu Ez HEu HEz Hdef Hmax Hfin Hroot Htrue c' eq_refl HP w l F Hp Hl (within_clouds l HW)).
  intros r Hr. rewrite <- same_rsmp by assumption. now apply HF.
Qed.
Lemma boot_error w l f b : prob_vector w -> length w = length l -> within V n l -> (forall x, V x -> Rabs (f x) <= b) ->
  Dr (fun r => match rsmp c r w l with Ok (w', l') => (cloud_average w' l' f - cloud_average w l f) ^ 2 | Err _ => 0 end) <= b ^ 2 / INR n.
Proof.
  intros Hp Hl HW Hf. pose proof (within_clouds l HW) as HC. assert (N : (0 < n)%nat) by (destruct HW as [<- _]; rewrite <- Hl; now apply prob_vector_nonempty).
  assert (Pn : 0 < INR n) by now apply lt_0_INR. set (m := cloud_average w l f).
  assert (One : forall g, Sum (length w) (fun j => nth j w 0 * Ez (fun z => g (point sqrtm cfg d w l (j, z)))) = cloud_average w l g).
  { intros g. unfold cloud_average. rewrite <- Hl. apply Sum_ext. intros j Hj. f_equal. destruct HC as [_ HC].
    assert (Lj : length (nth j l []) = d) by (apply HC, nth_In; now rewrite <- Hl).
    rewrite (ez_ext d Ez HEz _ (fun _ => g (nth j l []) * 1)); [rewrite (ez_scal d Ez HEz _ (fun _ => 1)), (ez_one d Ez HEz); ring|]. intros z _. unfold point. cbn [fst snd]. rewrite still by assumption. ring. }
  rewrite (swap (fun x => match x with Ok (w', l') => (cloud_average w' l' f - m) ^ 2 | Err _ => 0 end)) by assumption.
  set (A := fun x : res (list R * list loc) => match x with Ok (w', l') => cloud_average w' l' f * cloud_average w' l' f | Err _ => 0 end).
  set (B := fun x : res (list R * list loc) => match x with Ok (w', l') => cloud_average w' l' f | Err _ => 0 end).
  rewrite (rl_ext c' _ _ _ L' _ (fun r => A (rsmp c' r w l) + ((-2 * m) * B (rsmp c' r w l) + m ^ 2))).
  - rewrite (rl_plus c' _ _ _ L' w l A (fun x => (-2 * m) * B x + m ^ 2) Hp Hl HC), (rl_plus c' _ _ _ L' w l (fun x => (-2 * m) * B x) (fun _ => m ^ 2) Hp Hl HC),
      (rl_scal c' _ _ _ L' w l (-2 * m) B Hp Hl HC), (rl_const c' _ _ _ L').
    pose proof (expected_product (fun _ => true) postselect sqrtm cfg d n junk Eu Ez HEu HEz Hdef Hmax Hfin Hroot Htrue c' eq_refl w l f f Hp Hl HC) as EA. cbv beta zeta in EA.
    pose proof (expected_average (fun _ => true) postselect sqrtm cfg d n junk Eu Ez HEu HEz Hdef Hmax Hfin Hroot Htrue c' eq_refl w l f Hp Hl HC) as EB. fold B in EB.
    pose proof (One (fun x => f x * f x)) as One2. cbv beta in One2. rewrite One2, (One f) in EA. rewrite (One f) in EB. fold m in EA, EB.
    change (Dr (fun r => A (rsmp c' r w l)) = / INR n * cloud_average w l (fun x => f x * f x) + (1 - / INR n) * (m * m)) in EA. change (Dr (fun r => B (rsmp c' r w l)) = m) in EB.
    rewrite EA, EB.
    assert (Sq : cloud_average w l (fun x => f x * f x) <= b ^ 2).
    { apply Rle_trans with (Rabs (cloud_average w l (fun x => f x * f x))); [apply Rle_abs|]. destruct HW as [W1 W2]. apply (cloud_bound V); try assumption. intros x Hx. rewrite Rabs_mult.
      replace (b ^ 2) with (b * b) by ring. apply Rmult_le_compat; try apply Rabs_pos; now apply Hf. }
    set (s2 := cloud_average w l (fun x => f x * f x)) in *. assert (Pi : 0 < / INR n) by now apply Rinv_0_lt_compat.
    replace (/ INR n * s2 + (1 - / INR n) * (m * m) + (-2 * m * m + m ^ 2)) with (/ INR n * (s2 - m ^ 2)) by ring. unfold Rdiv. rewrite Rmult_comm. apply Rmult_le_compat_r; [lra|].
    pose proof (pow2_ge_0 m). lra.
  - intros r Hr. unfold A, B. cbn [c' rsmp]. rewrite (call_value (fun _ => true) postselect sqrtm cfg d n junk Hdef Hmax Hfin Hroot Htrue) by assumption. unfold answer. ring.
Qed.
Lemma boot_faithful : faithful c V n (good_draws n d) Dr.
Proof. constructor; [apply boot_law|apply boot_positive|intros; now apply boot_error]. Qed.
End Boot.
