(** C145: outcomes that rule particles out.  When every likelihood is one value on some particles and zero on the others, the effective
    sample size is exactly the number of particles left, and the resampling decisions and min_n_ess follow from those numbers. *)
From Verif Require Import Base RList Ext Sums SmcModel SmcSpec SmcProofs SmcProofs2 DecSpec DecProofs.
From Coq Require Import List.

(** Any history of such updates, with or without the resample check, and of calls to resample: [ms] are the numbers of particles left
    by the updates, [k] the number of resamplings called for or due because [m < n_particles * resample_thresh]. *)
Theorem c145_history {O E RND} (c : @config O E RND) Good s xs ms k P y : good_config c -> zthresh c < 1 -> uniform_resampler c Good -> Forall (drawn (Good (n_particles s))) xs -> full_inv s -> spread P s -> mness s = Fin y ->
  decimation c s xs ms k ->
  let s' := run c s xs in
  n_particles s' = n_particles s /\ rcnt s' = (rcnt s + k)%nat /\ mness s' = Fin (fold_left Rmin (map INR ms) y) /\
  exists P', spread P' s' /\ n_ess (ws s') = Fin (INR (card (n_particles s) P')).
Proof.
  intros G Ht HU Hx Hinv HP Hy HD s'. destruct (decimation_lem c Good G Ht HU s xs ms k HD P y Hx Hinv HP Hy) as (H1 & H2 & [P' H3] & H4 & H5). fold s' in H1, H2, H3, H4, H5.
  split; [exact H2|]. split; [exact H4|]. split; [exact H5|]. exists P'. split; [exact H3|]. rewrite <- H2. exact (n_ess_spread _ s' (proj1 H1) H3).
Qed.
(** Updates without resampling: the particles in every kept set remain, [m] of them, evenly weighted; the effective sample size is [m];
    min_n_ess is the smaller of its old value and [m]; the total likelihood is the product of the values times the fraction left. *)
Theorem c145_nested {O E RND} (c : @config O E RND) rs ks P s y : good_config c -> zthresh c < 1 -> (forall r l e, timestep (md c) r l e = l) ->
  full_inv s -> spread P s -> mness s = Fin y -> nrec s = [] -> (forall o e K v, In (o, e, K, v) ks -> keeps c s o e K v) ->
  let m := card (n_particles s) (fun i => P i && forallb (fun k => snd (fst k) i) ks) in
  (0 < m)%nat -> (forall o e K v, In (o, e, K, v) ks -> eps <= v * INR m / INR (card (n_particles s) P)) ->
  let s' := run c s (updates rs 0 (map (fun k => fst (fst k)) ks)) in
  ls s' = ls s /\ (forall i, (i < n_particles s)%nat -> wt s' i = if (P i && forallb (fun k => snd (fst k) i) ks)%bool then / INR m else 0) /\
  n_ess (ws s') = Fin (INR m) /\ (ks <> [] -> mness s' = Fin (Rmin y (INR m))) /\
  exists x, log_total_likelihood s' = Fin x /\ exp x = rprod (map snd ks) * INR m / INR (card (n_particles s) P).
Proof.
  intros G Ht Hst Hinv HP Hy H0 HK m Hm He s'. destruct (nested_lem c rs G Ht Hst ks 0%nat P s y Hinv HP Hy HK Hm He) as (H1 & H2 & H3 & H4 & H5 & Ns & H6 & N2 & H7). fold s' in H1, H2, H3, H4, H5, H6.
  split; [exact H2|]. split; [|split; [exact H4|split; [exact H5|]]].
  - intros i Hi. assert (Hn : n_particles s' = n_particles s) by (unfold n_particles; now rewrite H2). destruct H3 as [_ H3]. rewrite Hn in H3. exact (H3 i Hi).
  - rewrite H0 in H6. cbn [app] in H6. exists (ln (rprod Ns)). split; [rewrite log_total_exp; now rewrite H6|]. rewrite exp_ln by now apply rprod_pos. exact H7.
Qed.
(** min_n_ess survives a forced resampling, and a reset. *)
Theorem c145_min_n_ess_kept {O E RND} (c : @config O E RND) r s np only rw : mness (fst (resample c r s)) = mness s /\ mness (fst (reset c r s np only rw)) = mness s.
Proof. split; [apply resample_mness|]. unfold reset. destruct np, only; reflexivity. Qed.

(** Four particles at 0, 1, 2, 3; the experiment [t] keeps those below [t]. *)
Definition below (o : unit) (x : loc) (t : R) : R := if Rltb (nth 0 x 0) t then 1/2 else 0.
Definition dec_config : @config unit R unit :=
  {| md := {| lik := below; timestep := fun _ x _ => x; canon := fun x => x |}; prior := fun _ n => repeat [0] n;
     rsmp := fun _ w l => match l with [] => Err ValueError | _ => Ok (uniform_weights (length l), l) end;
     rthresh := 3/4; zpolicy := PError; zthresh := 1/2; canonize := true |}.
Definition dec_state : @state unit :=
  {| ws := [1/4; 1/4; 1/4; 1/4]; ls := [[0]; [1]; [2]; [3]]; drec := []; nrec := []; mness := Fin 4; rcnt := 0; jr := false; calls := 0 |}.
Lemma dec_good : good_config dec_config.
Proof.
  constructor; cbn; auto; [intros o x e; unfold below; destruct (Rltb _ _); lra|intros; apply repeat_length|].
  intros r w [|x l] w' l' [= <- <-]. enough (P : prob_vector (uniform_weights (length (x :: l)))) by (split; [apply P|]; split; [unfold uniform_weights; now rewrite repeat_length|intros _; exact P]).
  assert (HN : 0 < INR (S (length l))) by (apply (lt_INR 0); lia). split; [unfold uniform_weights; apply Forall_forall; intros y Hy; apply repeat_spec in Hy; subst; left; now apply Rinv_0_lt_compat|].
  unfold uniform_weights. cbn [length]. rewrite rsum_repeat. apply Rinv_r. lra.
Qed.
Lemma dec_uniform : uniform_resampler dec_config (fun _ _ => True).
Proof. intros r w l _ Hp Hw. exists l. cbn. destruct l; [apply prob_vector_nonempty in Hp; cbn in Hw; lia|]. split; reflexivity. Qed.
Lemma dec_inv : full_inv dec_state.
Proof. split; [reflexivity|split; [repeat constructor; lra|cbn; rewrite !rsum_cons, rsum_nil; lra]]. Qed.
Lemma dec_spread : spread (fun _ => true) dec_state.
Proof. unfold spread. rewrite card_all. cbn [n_particles dec_state ls length]. split; [cbn; lia|]. intros i Hi. unfold wt. cbn [ws dec_state]. change (n_particles dec_state) with 4%nat in *. replace (/ INR 4) with (1/4) by (cbn [INR]; lra). destruct i as [|[|[|[|i]]]]; try reflexivity. lia. Qed.
Lemma dec_keeps (s : @state unit) t K : ls s = ls dec_state -> (forall i, (i < 4)%nat -> K i = Rltb (INR i) t) -> keeps dec_config s tt t K (1/2).
Proof. intros El HK i Hi. unfold n_particles in Hi. unfold at_. rewrite El in *. cbn [length dec_state ls] in Hi. cbn [dec_config md lik]. unfold below. rewrite HK by assumption. destruct i as [|[|[|[|i]]]]; try reflexivity; try lia; cbn [nth dec_state ls INR]; replace (1 + 1 + 1) with 3 by ring; reflexivity. Qed.
Lemma dec_eps : eps <= 1/64.
Proof. unfold eps. replace (1/64) with (/ 2 ^ 6) by lra. apply Rinv_le_contravar; [apply pow_lt; lra|]. apply Rle_pow; [lra|lia]. Qed.
(** Keep the particles below 2, then those below 1: one is left, and the total likelihood is 1/2 * 1/2 * 1/4. *)
Example ex_c145_nested : let s' := run dec_config dec_state (updates (fun _ => tt) 0 [(tt, 2); (tt, 1)]) in
  n_ess (ws s') = Fin 1 /\ mness s' = Fin 1 /\ exists x, log_total_likelihood s' = Fin x /\ exp x = 1/16.
Proof.
  set (ks := [(tt, 2, fun i => Nat.ltb i 2, 1/2); (tt, 1, fun i => Nat.ltb i 1, 1/2)]).
  assert (Em : card (n_particles dec_state) (fun i => true && forallb (fun k => snd (fst k) i) ks) = 1%nat) by reflexivity.
  assert (Ec : card (n_particles dec_state) (fun _ => true) = 4%nat) by reflexivity. pose proof dec_eps as Ep.
  assert (HK : forall o e K v, In (o, e, K, v) ks -> keeps dec_config dec_state o e K v).
  { intros o e K v [[= <- <- <- <-]|[[= <- <- <- <-]|[]]]; apply dec_keeps; try reflexivity; intros i Hi; (destruct i as [|[|[|[|i]]]]; [| | | |lia]); cbn [INR Nat.ltb Nat.leb]; symmetry; (apply Rltb_true; lra) || (apply Rltb_false; lra). }
  intros s'. destruct (c145_nested dec_config (fun _ => tt) ks (fun _ => true) dec_state 4 dec_good) as (_ & _ & H1 & H2 & x & H3 & H4); try reflexivity; try assumption; [cbn; lra|apply dec_inv|apply dec_spread|cbn; lia| |].
  - intros o e K v Hin. rewrite Em, Ec. destruct Hin as [[= <- <- <- <-]|[[= <- <- <- <-]|[]]]; cbn [INR]; lra.
  - rewrite Em, Ec in *. cbn [INR] in *. specialize (H2 ltac:(discriminate)). split; [exact H1|]. split; [etransitivity; [exact H2|]; f_equal; apply Rmin_right; lra|]. exists x. split; [exact H3|]. rewrite H4. unfold rprod. cbn. field.
Qed.
(** The same update twice with the check on: the threshold is three particles, so both resample. *)
Example ex_c145_history : exists s', s' = run dec_config dec_state [OUpdate tt tt 2 true; OUpdate tt tt 2 true] /\ rcnt s' = 2%nat /\ mness s' = Fin 2.
Proof.
  set (K := fun i => Nat.ltb i 2). eexists. split; [reflexivity|].
  assert (HKi : forall i, (i < 4)%nat -> K i = Rltb (INR i) 2) by (intros i Hi; (destruct i as [|[|[|[|i]]]]; [| | | |lia]); cbn [INR]; unfold K; cbn; symmetry; (apply Rltb_true; lra) || (apply Rltb_false; lra)).
  pose proof dec_eps as Ep. pose proof dec_good as G. pose proof dec_inv as Hinv. pose proof dec_spread as HS.
  assert (HK := dec_keeps dec_state 2 K eq_refl HKi).
  assert (Hev : evidence dec_config dec_state tt 2 = 1/4) by (rewrite (evidence_spread dec_config _ K (1/2) dec_state tt 2 HS HK); cbn; field).
  destruct (spread_step dec_config tt _ K (1/2) dec_state tt 2 G ltac:(cbn; lra) Hinv HS HK ltac:(cbn; lia) ltac:(lra)) as (S1 & S2 & S3 & _ & S5 & _ & _ & S8).
  set (s1 := fst (update dec_config tt dec_state tt 2 false)) in *. pose proof (n_ess_spread _ s1 (proj1 S1) S3) as Hn1. rewrite S2 in Hn1. change (card (n_particles dec_state) (fun i => true && K i)) with 2%nat in Hn1.
  assert (Hu : update dec_config tt dec_state tt 2 true = resample dec_config tt s1).
  { rewrite S8. unfold maybe_resample. rewrite Hn1, S2. cbn [xltb]. change (n_particles dec_state) with 4%nat. rewrite Rltb_true; [reflexivity|]. cbn. lra. }
  destruct (resample_uniform dec_config _ tt s1 G dec_uniform I S1 ltac:(rewrite S2; cbn; lia)) as (R1 & R2 & R3). set (s2 := fst (resample dec_config tt s1)) in *. cbv zeta in R1, R2, R3.
  assert (El : ls s2 = ls dec_state) by (unfold s2, resample; cbn [dec_config rsmp]; rewrite S5; reflexivity).
  assert (HK2 := dec_keeps s2 2 K El HKi). assert (N2 : n_particles s2 = 4%nat) by (unfold n_particles; now rewrite El).
  assert (Hev2 : evidence dec_config s2 tt 2 = 1/4) by (rewrite (evidence_spread dec_config _ K (1/2) s2 tt 2 R3 HK2), N2; cbn; field).
  assert (Hsv : survivors dec_state K = 2%nat) by (rewrite (survivors_spread _ K dec_state HS); reflexivity).
  assert (Hsv2 : survivors s2 K = 2%nat) by (rewrite (survivors_spread _ K s2 R3), N2; reflexivity).
  destruct (c145_history dec_config (fun _ _ => True) dec_state [OUpdate tt tt 2 true; OUpdate tt tt 2 true] [2; 2]%nat 2 (fun _ => true) 4 G) as (_ & H2 & H3 & _); try assumption; [cbn; lra|apply dec_uniform|repeat constructor|reflexivity| |].
  - pose proof (dec_update dec_config dec_state tt tt 2 true K (1/2) [OUpdate tt tt 2 true] [2%nat] 1 HK ltac:(lia) ltac:(lra)) as D1. rewrite Hsv in D1. change (n_particles dec_state) with 4%nat in D1. rewrite Rltb_true in D1 by (cbn; lra). apply D1.
    cbn [step]. rewrite Hu. fold s2. pose proof (dec_update dec_config s2 tt tt 2 true K (1/2) [] [] 0 HK2 ltac:(lia) ltac:(lra) (dec_nil _ _)) as D2. rewrite Hsv2, N2, Rltb_true in D2 by (cbn; lra). exact D2.
  - split; [exact H2|]. rewrite H3. cbn [map fold_left INR]. f_equal. unfold Rmin. repeat destruct (Rle_dec _ _); lra.
Qed.
Print Assumptions c145_history.
Print Assumptions c145_nested.
Print Assumptions c145_min_n_ess_kept.
