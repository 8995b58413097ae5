(** Properties C65-C70, C72 and C73: adaptive likelihood estimation, finite differences, the outcome
    cutoff, the mixed and Cramer-Rao updaters, performance runs. *)
From Coq Require Import Sorting.Sorted.
From Verif Require Import Base Ext RList Sums SmcModel SmcDemo PartSpec DerModel DerProps MiscModel MiscSpec MiscProofs MiscProofs2 MiscProofs3.

(** * C65 Adaptive likelihood estimation *)
Lemma ale_init_facts sim two tol mn st eh ah c : ale_init sim two tol mn st eh ah = Ok c ->
  0 < a_tol c <= 1 /\ 0 <= a_est c /\ 0 <= a_adapt c /\ a_min c = Int_part mn /\ a_step c = Int_part st /\ 0 < mn /\ 0 < st /\ a_tol c = tol /\ a_est c = eh /\ a_adapt c = ah.
Proof.
  unfold ale_init. destruct sim; cbn [negb]; [|discriminate]. repeat (rb; try discriminate). destruct two; cbn [negb]; [|discriminate]. intros [= <-]. cbn. repeat split; lra.
Qed.

(** Whenever the constructor accepts the options and 1 <= samp_step <= min_samp as integers, the
    loop ends on every data stream; the two rows of the result are probabilities adding up to one,
    namely the hedged estimates at the round whose estimated errors are all below the tolerance. *)
Theorem c65_terminates_partial sim two tol mn st eh ah c k data :
  ale_init sim two tol mn st eh ah = Ok c -> (1 <= a_step c <= a_min c)%Z -> counts_ok k (IZR (a_step c)) data ->
  exists fuel0, forall fuel, (fuel0 <= fuel)%nat ->
  exists r0 r1, ale_likelihood c data fuel k [0; 1]%Z = Some [r0; r1] /\ length r0 = k /\ length r1 = k /\
    Forall2 (fun a b => exists p q, a = Fin p /\ b = Fin q /\ 0 <= p <= 1 /\ 0 <= q <= 1 /\ p + q = 1) r0 r1.
Proof.
  intros Hi Hs Hd. destruct (ale_init_facts _ _ _ _ _ _ _ _ Hi) as (Ht & He & Ha & _).
  assert (H1 : 1 <= IZR (a_step c) <= IZR (a_min c)) by (split; [apply (IZR_le 1)|apply IZR_le]; lia).
  destruct (ale_loop_terminates c data k ltac:(lra) Ha ltac:(lia) Hd 0%nat (IZR (a_min c)) (repeat 0 k)) as (f & N & n & El & Ln & Fn & HN & _).
  - lra.
  - apply repeat_length.
  - apply Forall_forall. intros x Hx. apply repeat_spec in Hx. subst x. lra.
  - exists f. intros g Hg. unfold ale_likelihood. rewrite (ale_loop_le _ _ _ _ _ _ _ _ Hg El). cbn [map xpr0_like Z.eqb Pos.eqb].
    eexists _, _. split; [reflexivity|]. rewrite !map_length. split; [assumption|]. split; [assumption|].
    clear El Ln. induction Fn as [|x n Hx Fn IH]; [constructor|]. cbn [map]. constructor; [|exact IH].
    destruct (c47_estimate_range x N (a_est c) Hx He ltac:(lra)) as (p & -> & Hp & _). cbn. exists (1 + - p), (1 + - (1 + - p)). repeat split; lra.
Qed.
(** Non-termination: every round returns only ones, and the sample step exceeds min_samp by more than
    the hedge.  The estimate stays above one, its error is NaN and the test never succeeds. *)
Lemma ale_never c (data : nat -> list R) : a_tol c <= 1 -> 0 <= a_adapt c -> 0 <= IZR (a_step c) -> (forall i, data i = [IZR (a_step c)]) ->
  forall f i N n, 0 <= N -> N + a_adapt c < n + IZR (a_step c) -> ale_loop c data f i N [n] = None.
Proof.
  intros Ht Ha Hs Hd. induction f as [|f IH]; intros i N n HN Hn; [reflexivity|]. rewrite ale_loop_S. cbv zeta. rewrite Hd. cbn [map2].
  unfold ale_stops. cbn [forallb]. rewrite (xbinom_bad_tol _ N (a_adapt c)) by (try lra; apply ale_error_nan; lra). cbn [andb]. apply IH; lra.
Qed.
Theorem c65_nontermination_refuted sim two tol mn st eh ah c :
  ale_init sim two tol mn st eh ah = Ok c -> (0 <= a_min c)%Z -> IZR (a_min c) + a_adapt c < IZR (a_step c) ->
  exists data, counts_ok 1 (IZR (a_step c)) data /\ forall fuel os, ale_likelihood c data fuel 1 os = None.
Proof.
  intros Hi Hm Hs. destruct (ale_init_facts _ _ _ _ _ _ _ _ Hi) as (Ht & _ & Ha & _). apply IZR_le in Hm. cbn in Hm.
  exists (fun _ => [IZR (a_step c)]). split.
  - intros i. split; [reflexivity|]. repeat constructor; lra.
  - intros fuel os. unfold ale_likelihood. cbn [repeat]. rewrite (ale_never c); try reflexivity; lra.
Qed.
(** A fractional sample step below one is accepted, truncated to zero, and no progress is made. *)
Lemma ale_stuck c N n : a_step c = 0%Z -> ale_stops c N n = false -> forall f i, ale_loop c (fun _ => map (fun _ => 0) n) f i N n = None.
Proof.
  intros Hs Hn. induction f as [|f IH]; intros i; [reflexivity|]. rewrite ale_loop_S. cbv zeta.
  assert (E : map2 Rplus n (map (fun _ => 0) n) = n) by (clear; induction n as [|x n IH]; [reflexivity|]; cbn; rewrite IH; f_equal; ring).
  rewrite E, Hn, Hs, Rplus_0_r. apply IH.
Qed.
Lemma Int_part_IZR z : Int_part (IZR z) = z.
Proof. destruct (base_Int_part (IZR z)) as [A B]. apply Z.le_antisymm; [now apply le_IZR|]. assert (IZR z < IZR (Int_part (IZR z)) + 1) by lra. rewrite <- plus_IZR in H. apply lt_IZR in H. lia. Qed.
Lemma Int_part_half : Int_part (1/2) = 0%Z.
Proof. destruct (base_Int_part (1/2)) as [A B]. apply Z.le_antisymm; [assert (IZR (Int_part (1/2)) < 1) by lra; apply lt_IZR in H; lia|]. assert (-1 < IZR (Int_part (1/2))) by lra. apply (lt_IZR (-1)) in H. lia. Qed.
Theorem c65_fractional_step_refuted : exists c, ale_init true true (1/100) 10 (1/2) (1/2) (1/2) = Ok c /\
  forall fuel os, ale_likelihood c (fun _ => [0]) fuel 1 os = None.
Proof.
  eexists. split.
  - unfold ale_init. cbn [negb]. rewrite (Rleb_false (1/100)) by lra. rewrite (Rltb_false 1) by lra. rewrite !Rleb_false by lra. rewrite !Rltb_false by lra. reflexivity.
  - intros fuel os. unfold ale_likelihood. cbn [a_min repeat]. rewrite (Int_part_IZR 10). match goal with |- context [ale_loop ?c _ _ _ _ _] => pose proof (ale_stuck c 10 [0] Int_part_half) as K end. cbn [map] in K. rewrite K; [reflexivity|]. clear K.
    unfold ale_stops. cbn [forallb a_adapt a_tol]. unfold binom_est_p. rewrite xdiv_Fin by lra. rewrite xbinom_agrees. unfold binom_est_error. rewrite xdiv_Fin by lra.
    cbn [xsqrt]. rewrite Rltb_false by lra. cbn [xltb]. rewrite andb_true_r. apply Rltb_false.
    rewrite <- (sqrt_square (1/100)) by lra. apply sqrt_le_1; lra.
Qed.
Example c65_accepts : exists c, ale_init true true (1/100) 10 10 (1/2) (1/2) = Ok c /\ (1 <= a_step c <= a_min c)%Z.
Proof.
  eexists. split.
  - unfold ale_init. cbn [negb]. rewrite (Rleb_false (1/100)) by lra. rewrite (Rltb_false 1) by lra. rewrite !Rleb_false by lra. rewrite !Rltb_false by lra. reflexivity.
  - cbn. rewrite (Int_part_IZR 10). lia.
Qed.
Example c65_bad_options : exists c, ale_init true true (1/100) 1 10 (1/2) (1/2) = Ok c /\ IZR (a_min c) + a_adapt c < IZR (a_step c).
Proof.
  eexists. split.
  - unfold ale_init. cbn [negb]. rewrite (Rleb_false (1/100)) by lra. rewrite (Rltb_false 1) by lra. rewrite !Rleb_false by lra. rewrite !Rltb_false by lra. reflexivity.
  - cbn. rewrite (Int_part_IZR 10), (Int_part_IZR 1). lra.
Qed.
Example c65_data : counts_ok 2 10 (fun i => if Nat.even i then [3; 10] else [0; 7]).
Proof. intros i. destruct (Nat.even i); split; try reflexivity; repeat constructor; lra. Qed.

(** * C72 Sample count used by adaptive likelihood estimation *)
(** The number of samples [N] entering the estimate after [r] rounds is min_samp + (r-1) samp_step,
    and the count [n] adds up the ones of all [r] rounds of samp_step samples each. *)
Theorem c72_sample_count c data fuel k N n : (forall i, length (data i) = k) ->
  ale_loop c data fuel 0 (IZR (a_min c)) (repeat 0 k) = Some (N, n) ->
  exists r, (1 <= r <= fuel)%nat /\ N = IZR (a_min c) + (INR r - 1) * IZR (a_step c) /\
    forall j, (j < k)%nat -> nth j n 0 = Sum r (fun i => nth j (data i) 0).
Proof.
  intros Hd. 
  assert (G : forall f i N0 n0 N n, length n0 = k -> ale_loop c data f i N0 n0 = Some (N, n) -> exists r, (1 <= r <= f)%nat /\ N = N0 + (INR r - 1) * IZR (a_step c) /\
    forall j, (j < k)%nat -> nth j n 0 = nth j n0 0 + Sum r (fun t => nth j (data (i + t)%nat) 0)).
  { induction f as [|f IH]; intros i N0 n0 N' n' Hl; [discriminate|]. rewrite ale_loop_S. cbv zeta.
    assert (Hm : length (map2 Rplus n0 (data i)) = k) by (rewrite map2_length; [assumption|now rewrite Hd]).
    assert (Nm : forall j, (j < k)%nat -> nth j (map2 Rplus n0 (data i)) 0 = nth j n0 0 + nth j (data i) 0) by (intros j Hj; apply nth_map2; rewrite ?Hd, ?Hl; congruence || assumption).
    destruct (ale_stops c N0 (map2 Rplus n0 (data i))).
    - intros [= <- <-]. exists 1%nat. split; [lia|]. split; [cbn; ring|]. intros j Hj. rewrite Nm by assumption. rewrite Sum_S, Sum_0, Nat.add_0_r. ring.
    - intros E. destruct (IH _ _ _ _ _ Hm E) as (r & Hr & EN & En). exists (S r). split; [lia|]. split; [rewrite EN, S_INR; ring|].
      intros j Hj. rewrite En, Nm by assumption. rewrite Sum_S, Nat.add_0_r, Rplus_assoc. f_equal. f_equal. apply Sum_ext. intros t _. do 2 f_equal. lia. }
  intros E. destruct (G _ _ _ _ _ _ (repeat_length 0 k) E) as (r & Hr & EN & En). exists r. split; [assumption|]. split; [assumption|].
  intros j Hj. rewrite (En j Hj). replace (nth j (repeat 0 k) 0) with 0; [ring_simplify; reflexivity|]. symmetry. apply nth_repeat.
Qed.
(** So [N] is the number of samples drawn, r * samp_step, exactly when min_samp = samp_step. *)
Theorem c72_count_matches_iff c r : IZR (a_min c) + (INR r - 1) * IZR (a_step c) = INR r * IZR (a_step c) <-> a_min c = a_step c.
Proof. split; intros H; [apply eq_IZR; lra|rewrite H; ring]. Qed.
(** With min_samp = 100 and samp_step = 10 a simulator that always yields 1 is given likelihood 1/10 for outcome 1. *)
Theorem c72_biased_refuted : exists c r0 r1, ale_init true true (1/10) 100 10 0 0 = Ok c /\
  ale_likelihood c (fun _ => [10]) 1 1 [0; 1]%Z = Some [r0; r1] /\ r1 = [Fin (1/10)].
Proof.
  eexists _, _, _. split; [|split].
  - unfold ale_init. cbn [negb]. rewrite (Rleb_false (1/10)) by lra. rewrite (Rltb_false 1) by lra. rewrite !Rleb_false by lra. rewrite !Rltb_false by lra. reflexivity.
  - unfold ale_likelihood. cbn [a_min repeat]. rewrite (Int_part_IZR 100), ale_loop_S. cbv zeta. cbn [map2].
    match goal with |- context [ale_stops ?c ?N ?n] => replace (ale_stops c N n) with true end.
    + cbn [map xpr0_like Z.eqb]. reflexivity.
    + symmetry. unfold ale_stops. cbn [forallb a_adapt a_tol]. unfold binom_est_p. rewrite xdiv_Fin by lra. rewrite xbinom_agrees. unfold binom_est_error. rewrite xdiv_Fin by lra.
      cbn [xsqrt]. rewrite Rltb_false by lra. cbn [xltb]. rewrite andb_true_r. apply Rltb_true.
      rewrite <- (sqrt_square (1/10)) by lra. apply sqrt_lt_1; lra.
  - cbn [a_est]. unfold binom_est_p. rewrite xdiv_Fin by lra. cbn. do 2 f_equal. lra.
Qed.

(** * C66 Finite differences and scores *)
Theorem c66_central_exact f n h xs i : length xs = n -> length (fd_steps n h) = n -> (i < n)%nat -> nth i (fd_steps n h) 0 <> 0 -> quadratic_in f xs i ->
  exists g d, fd_central f n h xs = Ok g /\ length g = n /\ nth i g NaN = Fin d /\ partial f xs i d.
Proof.
  intros Hx Hh Hi Hn (a & b & c & Hq). unfold fd_central. rewrite Hh, Hx, Nat.ltb_irrefl, !Nat.eqb_refl. cbn [andb negb].
  eexists _, (b + 2 * c * nth i xs 0). split; [reflexivity|]. split; [rewrite map2_length; rewrite map_length, seq_length; [reflexivity|now rewrite Hh]|]. split.
  - rewrite (nth_map2 _ _ _ i 0 0) by (rewrite map_length, seq_length, ?Hh; first [assumption|reflexivity]). rewrite nth_map_seq by assumption. cbv zeta. rewrite half_unit.
    rewrite <- Hx. rewrite plus_unit, minus_unit by lia. rewrite !Hq. rewrite Hx. rewrite xdiv_Fin by assumption. f_equal. field. assumption.
  - unfold partial. apply (quad_deriv _ a b c). exact Hq.
Qed.
(** The scalar step is used for every argument. *)
Theorem c66_scalar_steps n h i : (i < n)%nat -> length (fd_steps n (Scalar h)) = n /\ nth i (fd_steps n (Scalar h)) 0 = h.
Proof. intros Hi. unfold fd_steps. rewrite map_length, seq_length, nth_map_seq by assumption. split; [reflexivity|ring]. Qed.
(** A zero step yields NaN. *)
Theorem c66_zero_step_refuted f n xs i : length xs = n -> (i < n)%nat -> exists g, fd_central f n (Scalar 0) xs = Ok g /\ nth i g (Fin 0) = NaN.
Proof.
  intros Hx Hi. destruct (c66_scalar_steps n 0 i Hi) as [L E]. unfold fd_central. rewrite L, Hx, Nat.ltb_irrefl, !Nat.eqb_refl. cbn [andb negb]. eexists. split; [reflexivity|].
  rewrite (nth_map2 _ _ _ i 0 0) by (rewrite map_length, seq_length, ?L; first [assumption|reflexivity]). rewrite E, nth_map_seq by assumption. cbv zeta. rewrite E, half_unit.
  rewrite <- Hx, plus_unit, minus_unit by lia. replace (nth i xs 0 + 0 / 2) with (nth i xs 0) by field. replace (nth i xs 0 - 0 / 2) with (nth i xs 0) by field. rewrite Rminus_diag_eq by reflexivity. apply xdiv_00.
Qed.
(** The score is the derivative of the log-likelihood. *)
Theorem c66_score_exact n h hs like x i : length x = n -> (i < n)%nat -> score_steps n h = Ok hs -> nth i hs 0 <> 0 -> 0 < like x -> quadratic_in like x i ->
  exists q d, score n h like x = Ok q /\ length q = n /\ nth i q NaN = Fin d /\ partial (fun y => ln (like y)) x i d.
Proof.
  intros Hx Hi Hs Hn HL (a & b & c & Hq). unfold score. rewrite Hs. cbn [bind].
  assert (H0 : like x = a + b * nth i x 0 + c * nth i x 0 ^ 2) by (rewrite <- Hq; now rewrite upd_same).
  eexists _, ((b + 2 * c * nth i x 0) / like x). split; [reflexivity|]. split; [now rewrite map_length, seq_length|]. split.
  - rewrite nth_map_seq by assumption. cbv zeta. rewrite plus_unit, minus_unit by lia. rewrite !Hq. rewrite xdiv_Fin; [f_equal; field; lra|].
    intros C. apply Rmult_integral in C. destruct C as [C|C]; [|lra]. apply Rmult_integral in C. destruct C; [lra|contradiction].
  - unfold partial. replace ((b + 2 * c * nth i x 0) / like x) with (/ like (upd x i (nth i x 0)) * (b + 2 * c * nth i x 0)) by (rewrite upd_same; unfold Rdiv; ring).
    apply (derivable_pt_lim_comp (fun t => like (upd x i t)) ln).
    + apply (quad_deriv _ a b c). exact Hq.
    + apply derivable_pt_lim_ln. now rewrite upd_same.
Qed.
(** Step sizes: one number is repeated, a vector must have one entry per parameter. *)
Theorem c66_score_steps n h : match score_steps n h with
  | Ok hs => length hs = n /\ (hs = h \/ exists x, h = [x] /\ forall i, (i < n)%nat -> nth i hs 0 = x)
  | Err e => (e = AssertionError /\ (1 < length h)%nat /\ length h <> n) \/ (e = ValueError /\ h = []) end.
Proof.
  unfold score_steps. destruct (Nat.ltb_spec 1 (length h)) as [H|H].
  - destruct (Nat.eqb_spec (length h) n) as [E|E]; [split; [assumption|now left]|now left].
  - destruct h as [|x [|y h]]; [now right| |cbn in H; lia]. rewrite map_length, seq_length. split; [reflexivity|]. right. exists x. split; [reflexivity|]. intros i Hi. rewrite nth_map_seq by assumption. ring.
Qed.
(** A likelihood x(1-y), quadratic (linear) in each argument separately. *)
Example c66_example : quadratic_in (fun v => nth 0 v 0 * (1 - nth 1 v 0)) [1/3; 1/4] 1 /\ 0 < (fun v => nth 0 v 0 * (1 - nth 1 v 0)) [1/3; 1/4] /\ score_steps 2 [1/1000] = Ok [1/1000 * 1; 1/1000 * 1].
Proof. split; [|split; [cbn; lra|reflexivity]]. exists (1/3), (-(1/3)), 0. intros t. cbn. lra. Qed.

(** * C67 Outcome cutoff *)
(** The setter never returns: whatever the recursion limit, it ends in RecursionError. *)
Theorem c67_setter_refuted depth m v : set_cutoff depth m v = Err RecursionError.
Proof. induction depth as [|depth IH]; [reflexivity|exact IH]. Qed.
(** The constructor argument is stored and can be read back. *)
Theorem c67_constructor_partial v : get_cutoff (fom_init v) = v.
Proof. reflexivity. Qed.

(** * C68 Mixed approximate updater *)
Section C68.
Context {O E : Type}.
Variables (asort : list R -> list nat) (shuffled : list nat) (ratio thresh : R) (min_good : nat) (good apx : O -> loc -> E -> R) (w : list R) (l : list loc) (os : list O) (es : list E).
(** Every particle is passed to exactly one of the two models, and its likelihood is put back at its own place. *)
Theorem c68_each_particle_once : (forall a, argsorts (asort a) a) -> Permutation shuffled (seq 0 (length w)) -> prob_vector w -> length l = length w ->
  let mask := mixed_mask asort shuffled ratio thresh min_good w in
  length mask = length w /\ Permutation (select mask l ++ select (map negb mask) l) l /\
  forall o e p, (p < length w)%nat -> nth p (mixed_L good apx mask l o e) 0 = if nth p mask false then good o (nth p l []) e else apx o (nth p l []) e.
Proof.
  intros Ha Hs [Hw _] Hl mask. pose proof (mask_len asort Ha shuffled ratio thresh min_good w Hs Hw) as Lm. fold mask in Lm.
  split; [assumption|]. split; [apply select_partition; congruence|]. intros o e p Hp. unfold mixed_L. rewrite scatter_select by congruence.
  rewrite (nth_map2 _ _ _ p false []) by (congruence || lia). reflexivity.
Qed.
(** A particle given to the good model is at least as heavy as one given to the approximate model;
    the good model gets at least min_good particles (or all). *)
Theorem c68_heaviest : (forall a, argsorts (asort a) a) -> Permutation shuffled (seq 0 (length w)) -> prob_vector w ->
  let mask := mixed_mask asort shuffled ratio thresh min_good w in
  (forall p q, (p < length w)%nat -> (q < length w)%nat -> nth p mask false = true -> nth q mask false = false -> nth q w 0 <= nth p w 0) /\
  (Nat.min min_good (length w) <= length (filter (fun b => b) mask))%nat /\
  ((forall p, (p < length w)%nat -> nth p mask false = true) \/ ratio < rsum (select mask w)).
Proof.
  intros Ha Hs [Hw H1] mask. split; [|split].
  - intros p q Hp Hq. now apply mask_heaviest.
  - now apply mask_count.
  - now apply mask_mass.
Qed.
(** The result is the Bayes update with the assembled likelihood. *)
Theorem c68_bayes : (forall a, argsorts (asort a) a) -> Permutation shuffled (seq 0 (length w)) -> prob_vector w -> length l = length w ->
  forall res0, mixed_hypothetical asort shuffled ratio thresh min_good good apx w l os es = Ok res0 ->
  let mask := mixed_mask asort shuffled ratio thresh min_good w in
  let lk o e p := if nth p mask false then good o (nth p l []) e else apx o (nth p l []) e in
  length res0 = length os /\
  forall i j o e, nth_error os i = Some o -> nth_error es j = Some e ->
  exists rowi ww LL N, nth_error res0 i = Some rowi /\ nth_error rowi j = Some (ww, LL, N) /\
    length ww = length w /\ N = Sum (length w) (fun p => nth p w 0 * lk o e p) /\
    (forall p, (p < length w)%nat -> nth p LL 0 = lk o e p) /\
    (eps <= N -> forall p, (p < length w)%nat -> nth p ww 0 = nth p w 0 * lk o e p / N).
Proof.
  intros Ha Hs Hw Hl res0 HR mask lk. destruct (c68_each_particle_once Ha Hs Hw Hl) as (Lm & _ & HL). fold mask in Lm, HL.
  unfold mixed_hypothetical in HR. fold mask in HR. destruct (mixed_assert mask w); cbn [negb] in HR; [|discriminate].
  assert (E1 : res0 = map (fun o => map (fun e => let L := mixed_L good apx mask l o e in let hyp := map2 Rmult w L in let N := rsum hyp in (map (fun x => x / fix_norm N) hyp, L, N)) es) os) by (injection HR as HR; symmetry; exact HR).
  clear HR. subst res0. split; [apply map_length|]. intros i j o e Ho He.
  assert (LL : length (mixed_L good apx mask l o e) = length w) by (unfold mixed_L; rewrite scatter_select by congruence; rewrite map2_length; congruence).
  assert (Hn : forall p, (p < length w)%nat -> nth p (map2 Rmult w (mixed_L good apx mask l o e)) 0 = nth p w 0 * lk o e p) by (intros p Hp; rewrite (nth_map2 _ _ _ p 0 0) by (congruence || lia); now rewrite HL).
  assert (HN : rsum (map2 Rmult w (mixed_L good apx mask l o e)) = Sum (length w) (fun p => nth p w 0 * lk o e p)).
  { rewrite <- (map_nth_seq 0 (map2 Rmult w (mixed_L good apx mask l o e))), map2_length, <- Sum_rsum by congruence. apply Sum_ext. exact Hn. }
  eexists _, _, _, _. split; [apply map_nth_error; exact Ho|]. split; [rewrite (map_nth_error _ _ _ He); reflexivity|].
  split; [rewrite map_length; apply map2_length; congruence|]. split; [exact HN|]. split; [intros p Hp; now apply HL|].
  intros He0 p Hp. unfold fix_norm. pose proof eps_pos. rewrite Rltb_false by (rewrite Rabs_right; lra).
  rewrite (nth_indep _ 0 (0 / rsum (map2 Rmult w (mixed_L good apx mask l o e)))) by (rewrite map_length, map2_length; congruence).
  rewrite (map_nth (fun x => x / rsum (map2 Rmult w (mixed_L good apx mask l o e)))). now rewrite Hn.
Qed.
(** The update raises AssertionError exactly when every particle went to the good model ... *)
Theorem c68_assertion : (forall a, argsorts (asort a) a) -> Permutation shuffled (seq 0 (length w)) -> prob_vector w -> 0 <= ratio ->
  mixed_hypothetical asort shuffled ratio thresh min_good good apx w l os es = Err AssertionError <->
  forall p, (p < length w)%nat -> nth p (mixed_mask asort shuffled ratio thresh min_good w) false = true.
Proof.
  intros Ha Hs [Hw H1] Hr. pose proof (mixed_assert_iff asort Ha shuffled ratio thresh min_good w Hs Hw H1 Hr) as A. rewrite <- A. unfold mixed_hypothetical.
  destruct (mixed_assert _ _); cbn [negb]; split; intros; try reflexivity; discriminate.
Qed.
(** ... which happens for every cloud with a mixture ratio of one, and for every single-particle cloud. *)
Theorem c68_all_good_refuted : (forall a, argsorts (asort a) a) -> Permutation shuffled (seq 0 (length w)) -> prob_vector w -> 0 <= ratio ->
  1 <= ratio \/ length w = 1%nat -> mixed_hypothetical asort shuffled ratio thresh min_good good apx w l os es = Err AssertionError.
Proof.
  intros Ha Hs Hw Hr Hc. apply c68_assertion; try assumption. destruct Hw as [Hw H1]. destruct Hc as [Hc|Hc]; [now apply all_good_ratio|].
  intros p Hp. destruct (mask_mass asort Ha shuffled ratio thresh min_good w Hs Hw H1) as [Al|Hm]; [now apply Al|].
  pose proof (mask_len asort Ha shuffled ratio thresh min_good w Hs Hw) as Lm. destruct w as [|x [|y w']]; try (cbn in Hc; lia).
  destruct (mixed_mask asort shuffled ratio thresh min_good [x]) as [|b [|b' m']]; try (cbn in Lm; lia). cbn in Hp. replace p with 0%nat by lia. cbn. destruct b; [reflexivity|]. cbn in Hm. rewrite rsum_nil in Hm. lra.
Qed.
End C68.
(** A sorting routine with the assumed behaviour exists (insertion sort). *)
Fixpoint ins (w : list R) (i : nat) (l : list nat) : list nat :=
  match l with [] => [i] | j :: l' => if Rleb (nth i w 0) (nth j w 0) then i :: l else j :: ins w i l' end.
Definition isort (w : list R) : list nat := fold_right (ins w) [] (seq 0 (length w)).
Lemma ins_perm w i l : Permutation (ins w i l) (i :: l).
Proof. induction l as [|j l IH]; cbn; [reflexivity|]. destruct (Rleb _ _); [reflexivity|]. rewrite IH. apply perm_swap. Qed.
Lemma ins_sorted w i l : StronglySorted (fun a b => nth a w 0 <= nth b w 0) l -> StronglySorted (fun a b => nth a w 0 <= nth b w 0) (ins w i l).
Proof.
  induction 1 as [|j l Hs IH Hf]; cbn; [repeat constructor|]. destruct (Rleb_spec (nth i w 0) (nth j w 0)).
  - constructor; [now constructor|]. constructor; [assumption|]. eapply Forall_impl; [|exact Hf]. cbv beta. intros; lra.
  - constructor; [assumption|]. apply Forall_forall. intros x Hx. apply (Permutation_in _ (ins_perm w i l)) in Hx. destruct Hx as [<-|Hx]; [lra|]. rewrite Forall_forall in Hf. now apply Hf.
Qed.
Lemma isort_ok w : argsorts (isort w) w.
Proof.
  assert (G : forall s, Permutation (fold_right (ins w) [] s) s /\ StronglySorted (fun a b => nth a w 0 <= nth b w 0) (fold_right (ins w) [] s)).
  { induction s as [|i s [IH1 IH2]]; cbn; [split; constructor|]. split; [now rewrite ins_perm, IH1|now apply ins_sorted]. }
  destruct (G (seq 0 (length w))) as [G1 G2]. split; [exact G1|]. intros a b Hab. fold (isort w) in *.
  pose proof (perm_seq_length _ _ G1) as L. clear G G1.
  assert (K : forall s, StronglySorted (fun a b => nth a w 0 <= nth b w 0) s -> forall a b, (a <= b < length s)%nat -> nth (nth a s 0%nat) w 0 <= nth (nth b s 0%nat) w 0).
  { induction 1 as [|i s Hs IH Hf]; intros p q Hpq; [cbn in Hpq; lia|]. destruct p as [|p], q as [|q]; cbn in *; try lra; try lia.
    - rewrite Forall_forall in Hf. apply Hf. apply nth_In. lia.
    - apply IH. lia. }
  apply K; [assumption|lia].
Qed.
Example c68_example : prob_vector [1/4; 1/2; 1/4] /\ Permutation [2; 0; 1]%nat (seq 0 (length [1/4; 1/2; 1/4])) /\ (forall a, argsorts (isort a) a).
Proof. split; [split; [repeat constructor; lra|unfold rsum; cbn; lra]|]. split; [|exact isort_ok]. cbn. apply Permutation_sym. apply perm_trans with [0; 2; 1]%nat; [constructor; constructor|constructor]. Qed.

(** * C69 Bayesian information *)
Section C69.
Context {O E RND : Type}.
Variable c : @config O E RND.
Variable fisher : loc -> E -> nat -> nat -> R.
(** After construction: the initial matrix is the caller's, or the mean of the gradient outer products;
    the adaptive matrix starts equal to it in an array of its own. *)
Theorem c69_construction diff grad (s : @state O) h next initial adaptive : (forall a, initial = Some a -> (a < next)%nat /\ flt (h a) = true) ->
  match bcrb_init diff grad s h next initial adaptive with
  | Err e => e = ValueError /\ diff = false
  | Ok b => diff = true /\ sane b /\ b_smc b = s /\
      (forall i j, current_bim b i j = match initial with Some a => ent (h a) i j
         | None => rsum (map (fun m => grad m i * grad m j) (ls s)) / INR (length (ls s)) end) /\
      (if adaptive then exists m, adaptive_bim b = Ok m /\ forall i j, m i j = current_bim b i j else adaptive_bim b = Err ValueError) /\
      (forall a, (a < next)%nat -> b_heap b a = h a)
  end.
Proof.
  intros Hi. unfold bcrb_init. destruct diff; cbn [negb]; [|split; reflexivity]. destruct initial as [a|].
  - destruct (Hi a eq_refl) as [Ha Hf]. destruct adaptive.
    + split; [reflexivity|]. split; [split; cbn; [rewrite put_other by lia; assumption|split; [lia|now rewrite put_same]]|]. split; [reflexivity|]. unfold current_bim, adaptive_bim; cbn.
      rewrite put_other, put_same by lia. split; [reflexivity|]. split; [now exists (ent (h a))|]. intros a' H'. apply put_other. lia.
    + split; [reflexivity|]. split; [split; cbn; [assumption|trivial]|]. repeat split.
  - destruct adaptive.
    + split; [reflexivity|]. split; [split; cbn; [rewrite put_other by lia; now rewrite put_same|split; [lia|now rewrite !put_same]]|]. split; [reflexivity|]. unfold current_bim, adaptive_bim; cbn.
      rewrite put_other, !put_same by lia. split; [reflexivity|]. split; [eexists; split; reflexivity|]. intros a' H'. rewrite !put_other by lia. reflexivity.
    + split; [reflexivity|]. split; [split; cbn; [now rewrite put_same|trivial]|]. split; [reflexivity|]. unfold current_bim; cbn. rewrite put_same. split; [reflexivity|]. split; [reflexivity|]. intros a' H'. apply put_other. lia.
Qed.
(** After any history (failed updates included) the current matrix is the initial one plus the sum
    of the uniform averages of the Fisher information over the prior samples drawn at each update. *)
Theorem c69_additive b xs i j : sane b ->
  current_bim (bcrb_run c fisher b xs) i j = current_bim b i j +
    rsum (map2 (fun s x => let ms := prior c (op_rp x) (length (ls s)) in
                           rsum (map (fun m => fisher m (op_e x) i j) ms) / INR (length ms)) (before c fisher b xs) xs).
Proof.
  intros Hb. destruct (run_spec c fisher xs b Hb) as (_ & C1 & _ & E1 & _). unfold current_bim at 1. rewrite C1. exact (E1 i j).
Qed.
(** The adaptive matrix adds the posterior averages, taken just before each update. *)
Theorem c69_adaptive b xs m : sane b -> adaptive_bim b = Ok m ->
  exists m', adaptive_bim (bcrb_run c fisher b xs) = Ok m' /\ forall i j, m' i j = m i j +
    rsum (map2 (fun s x => rsum (map2 (fun p y => p * fisher y (op_e x) i j) (ws s) (ls s))) (before c fisher b xs) xs).
Proof.
  intros Hb Hm. destruct (run_spec c fisher xs b Hb) as (_ & _ & A1 & _ & W1 & _). unfold adaptive_bim in *. rewrite A1. destruct (b_adapt b) as [a|]; [|discriminate].
  injection Hm as <-. eexists. split; [reflexivity|]. intros i j. exact (W1 a eq_refl i j).
Qed.
(** Order does not matter: two histories using the same samples and experiments in another order agree. *)
Definition used (b : @bcrb O) (xs : list (@bop O E RND)) : list (list loc * E) := map2 (fun s x => (prior c (op_rp x) (length (ls s)), op_e x)) (before c fisher b xs) xs.
Theorem c69_order b b' xs ys : sane b -> sane b' -> (forall i j, current_bim b i j = current_bim b' i j) -> Permutation (used b xs) (used b' ys) ->
  forall i j, current_bim (bcrb_run c fisher b xs) i j = current_bim (bcrb_run c fisher b' ys) i j.
Proof.
  intros Hb Hb' He Hp i j. rewrite !c69_additive by assumption. rewrite He. f_equal.
  assert (G : forall b xs, map2 (fun s x => let ms := prior c (op_rp x) (length (ls s)) in rsum (map (fun m => fisher m (op_e x) i j) ms) / INR (length ms)) (before c fisher b xs) xs
    = map (fun p => rsum (map (fun m => fisher m (snd p) i j) (fst p)) / INR (length (fst p))) (used b xs)).
  { intros b0 xs0. unfold used. rewrite map_map2. reflexivity. }
  rewrite !G. apply rsum_perm. now apply Permutation_map.
Qed.
(** Everything the caller holds, except the initial matrix it passed in, is left alone. *)
Theorem c69_frame b xs a : sane b -> a <> b_cur b -> b_adapt b <> Some a -> b_heap (bcrb_run c fisher b xs) a = b_heap b a.
Proof. intros Hb. destruct (run_spec c fisher xs b Hb) as (_ & _ & _ & _ & _ & F). now apply F. Qed.
(** But the caller's initial matrix itself is overwritten: it always shows the current value. *)
Theorem c69_caller_array_refuted grad (s : @state O) h next a adaptive b xs : (a < next)%nat -> flt (h a) = true ->
  bcrb_init true grad s h next (Some a) adaptive = Ok b ->
  forall i j, ent (b_heap (bcrb_run c fisher b xs) a) i j = current_bim (bcrb_run c fisher b xs) i j.
Proof.
  intros Ha Hf Hi i j. assert (Hb : sane b /\ b_cur b = a).
  { pose proof (c69_construction true grad s h next (Some a) adaptive) as K. rewrite Hi in K. destruct K as (_ & S1 & _); [intros a' [= <-]; now split|]. split; [assumption|].
    unfold bcrb_init in Hi. cbn [negb] in Hi. destruct adaptive; injection Hi as <-; reflexivity. }
  destruct Hb as [Hb Hc]. destruct (run_spec c fisher xs b Hb) as (_ & C1 & _). unfold current_bim. now rewrite C1, Hc.
Qed.
(** An integer initial matrix makes every update fail without changing anything. *)
Theorem c69_integer_array_refuted b rp r o e ck : flt (b_heap b (b_cur b)) = false -> bcrb_update c fisher rp r b o e ck = (b, Some TypeError).
Proof. intros H. unfold bcrb_update, iadd. now rewrite H. Qed.
(** Information never decreases: with positive semidefinite Fisher information every quadratic form grows. *)
Theorem c69_monotone d b xs y : sane b -> (forall m e, 0 <= qform d (fisher m e) y) -> (forall r n, (0 < length (prior c r n))%nat) ->
  qform d (current_bim b) y <= qform d (current_bim (bcrb_run c fisher b xs)) y.
Proof.
  intros Hb Hf Hp. revert b Hb. induction xs as [|x xs IH]; intros b Hb; [apply Rle_refl|].
  destruct (update_sane c fisher (op_rp x) (op_r x) b (op_o x) (op_e x) (op_check x) Hb) as (S1 & C1 & _ & _ & _ & _ & E1 & _).
  eapply Rle_trans; [|apply (IH _ S1)]. unfold current_bim at 2. rewrite C1. unfold qform at 2.
  rewrite (Sum_ext d _ (fun i => Sum d (fun j => y i * current_bim b i j * y j) + Sum d (fun j => y i * bim_uniform fisher (prior c (op_rp x) (n_particles (b_smc b))) (op_e x) i j * y j)))
    by (intros i _; rewrite <- Sum_plus; apply Sum_ext; intros j _; rewrite E1; unfold current_bim; ring).
  rewrite Sum_plus. fold (qform d (current_bim b) y). pose proof (Hp (op_rp x) (n_particles (b_smc b))) as Hl. set (ms := prior c (op_rp x) (n_particles (b_smc b))) in *.
  assert (K : Sum d (fun i => Sum d (fun j => y i * bim_uniform fisher ms (op_e x) i j * y j)) = rsum (map (fun m => qform d (fisher m (op_e x)) y) ms) / INR (length ms)).
  { unfold bim_uniform, Rdiv. rewrite Rmult_comm. unfold qform. clear - E.
    transitivity (/ INR (length ms) * Sum d (fun i => Sum d (fun j => SumL ms (fun m => y i * fisher m (op_e x) i j * y j)))).
    - rewrite <- Sum_scal. apply Sum_ext. intros i _. rewrite <- Sum_scal. apply Sum_ext. intros j _. rewrite SumL_rsum, rsum_map_scal_r, rsum_map_scal. ring.
    - f_equal. rewrite <- SumL_rsum. rewrite SumL_Sum_swap. apply Sum_ext. intros i _. now rewrite SumL_Sum_swap. }
  rewrite K. assert (0 < INR (length ms)) by (now apply lt_0_INR). assert (0 <= rsum (map (fun m => qform d (fisher m (op_e x)) y) ms)) by (apply rsum_map_nonneg; intros; apply Hf).
  assert (0 <= rsum (map (fun m => qform d (fisher m (op_e x)) y) ms) / INR (length ms)); [|lra]. apply Rmult_le_pos; [assumption|]. left. now apply Rinv_0_lt_compat.
Qed.
End C69.
(** Keyword arguments: resample_a, zero_weight_policy and friends are dropped without notice, and the
    listed resampler_a makes the SMC constructor fail. *)
Theorem c69_keywords ks passed : bcrb_kwargs ks = Ok passed -> ~ In K_resample_a passed /\ ~ In K_zero_weight_policy passed /\ ~ In K_canonicalize passed /\
  (forall k, In k [K_resampler; K_resample_thresh; K_model; K_prior; K_n_particles] -> In k ks -> In k passed).
Proof.
  unfold bcrb_kwargs. destruct (forallb smc_knows (filter bcrb_passes ks)); [|discriminate]. intros [= <-].
  repeat split; try (intros H; apply filter_In in H; destruct H as [_ H]; discriminate). intros k Hk Hin. apply filter_In. split; [assumption|]. cbn in Hk. intuition (subst; reflexivity).
Qed.
Theorem c69_misspelt_keyword_refuted ks : In K_resampler_a ks -> bcrb_kwargs ks = Err TypeError.
Proof.
  intros H. unfold bcrb_kwargs. destruct (forallb smc_knows (filter bcrb_passes ks)) eqn:F; [|reflexivity].
  rewrite forallb_forall in F. specialize (F K_resampler_a). discriminate F. apply filter_In. split; [assumption|reflexivity].
Qed.
Example c69_example : exists b, bcrb_init true (fun _ _ => 0) demo_state (fun _ => {| flt := true; ent := fun _ _ => 5 |}) 1 (Some 0%nat) true = Ok b /\ sane b /\
  current_bim (bcrb_run (demo PError) (fun m _ i j => nth i m 0 * nth j m 0) b [{| op_rp := tt; op_r := tt; op_o := 0%nat; op_e := tt; op_check := true |}]) 0 0 = 5 + 1/2.
Proof.
  eexists. split; [reflexivity|]. assert (S1 : sane {| b_smc := demo_state; b_heap := put (fun _ => {| flt := true; ent := fun _ _ => 5 |}) 1 {| flt := true; ent := fun _ _ => 5 |}; b_cur := 0; b_adapt := Some 1%nat; b_next := 2 |}) by (split; cbn; [reflexivity|split; [lia|reflexivity]]).
  split; [exact S1|]. rewrite (c69_additive (demo PError)) by exact S1. cbn -[rsum]. unfold rsum; cbn. lra.
Qed.

(** * C70 Performance runs *)
Section C70.
Context {O E U H : Type}.
(** A successful run has one row per experiment, explained by a sequence of true parameters [T],
    updater states [Us], heuristic states, experiments and outcomes: row k holds T k (before the
    k-th drift), the mean of the updater after k+1 updates, the k-th outcome and experiment. *)
Theorem c70_rows (v : @perf_env O E U H) n tm u h rows : perf_test v n tm (Ok (u, h)) = Ok rows ->
  length rows = n /\ (n = 0%nat \/ exists T Us Hs es ds, explains v n tm u h rows T Us Hs es ds 0).
Proof.
  unfold perf_test. cbn [bind fst snd]. intros Hr. destruct (perf_loop_explains v n 0 tm u h rows Hr) as [[-> ->]|K]; [split; [reflexivity|now left]|].
  destruct K as (T & Us & Hs & es & ds & K). split; [apply K|]. right. now exists T, Us, Hs, es, ds.
Qed.
(** A run fails exactly with the first exception raised. *)
Theorem c70_failure (v : @perf_env O E U H) tm mk x : mk = Err x -> forall n, perf_test v n tm mk = Err x.
Proof. intros ->; reflexivity. Qed.
End C70.
(** With allow_failures the call always returns, one entry per trial, and the error policy is as before. *)
Theorem c70_error_policy {A} (trials : list (act A)) s : exists l, perf_test_multiple true trials s = (s, Ok l) /\ length l = length trials.
Proof.
  unfold perf_test_multiple, numpy_err_policy. destruct (collect_allow trials (with_divide ERaise s)) as (s' & l & -> & Hl). now exists l.
Qed.
Lemma collect_nth {A} allow (ts : list (act A)) (Hpure : forall t s, In t ts -> fst (t s) = s) s s' l : collect allow ts s = (s', Ok l) ->
  s' = s /\ length l = length ts /\ forall k t, nth_error ts k = Some t ->
    nth_error l k = Some (match snd (t s) with Ok a => Some a | Err _ => None end) /\ (allow = false -> exists a, snd (t s) = Ok a).
Proof.
  revert s s' l. induction ts as [|t ts IH]; intros s s' l; cbn [collect].
  - intros [= <- <-]. split; [reflexivity|]. split; [reflexivity|]. intros [|k] t; discriminate.
  - pose proof (Hpure t s (or_introl eq_refl)) as Hp. destruct (t s) as [s1 [a|x]] eqn:Et; cbn [fst] in Hp; subst s1.
    + destruct (collect allow ts s) as [s2 [l2|y]] eqn:Ec; [|discriminate]. intros [= <- <-]. destruct (IH (fun t s Ht => Hpure t s (or_intror Ht)) _ _ _ Ec) as (E1 & E2 & E3).
      split; [assumption|]. split; [cbn; now rewrite E2|]. intros [|k] t'; cbn [nth_error]; [|apply E3]. intros [= <-]. rewrite Et. split; [reflexivity|]. intros _. now exists a.
    + destruct allow; [|discriminate]. destruct (collect true ts s) as [s2 [l2|y]] eqn:Ec; [|discriminate]. intros [= <- <-]. destruct (IH (fun t s Ht => Hpure t s (or_intror Ht)) _ _ _ Ec) as (E1 & E2 & E3).
      split; [assumption|]. split; [cbn; now rewrite E2|]. intros [|k] t'; cbn [nth_error]; [|apply E3]. intros [= <-]. rewrite Et. split; [reflexivity|]. discriminate.
Qed.
(** When it returns, the error policy is as before; with allow_failures the failed trials are masked and the others kept,
    and every trial ran with division errors raising. *)
(** The error state with division errors raised and everything else as it was *)
Definition raising (s : errstate) : errstate := {| e_divide := ERaise; e_over := e_over s; e_under := e_under s; e_invalid := e_invalid s |}.
Theorem c70_trials {A} allow (trials : list (act A)) s s' l : (forall t s0, In t trials -> fst (t s0) = s0) -> perf_test_multiple allow trials s = (s', Ok l) ->
  s' = s /\ length l = length trials /\ forall k t, nth_error trials k = Some t ->
    nth_error l k = Some (match snd (t (raising s)) with Ok a => Some a | Err _ => None end) /\ (allow = false -> exists a, snd (t (raising s)) = Ok a).
Proof.
  intros Hp. unfold perf_test_multiple, numpy_err_policy. destruct (collect allow trials (with_divide ERaise s)) as [s2 [l2|y]] eqn:Ec; [|discriminate]. intros [= <- <-].
  destruct (collect_nth allow trials Hp _ _ _ Ec) as (_ & E2 & E3). split; [reflexivity|]. split; [exact E2|exact E3].
Qed.
(** Without allow_failures a failing trial leaves division errors raising. *)
Theorem c70_error_policy_refuted {A} (pre : list (act A)) t post s x : (forall t' s0, In t' (pre ++ t :: post) -> fst (t' s0) = s0) ->
  (forall t', In t' pre -> exists a, snd (t' (raising s)) = Ok a) -> snd (t (raising s)) = Err x ->
  perf_test_multiple false (pre ++ t :: post) s = (raising s, Err x).
Proof.
  intros Hp Hpre Ht. unfold perf_test_multiple, numpy_err_policy. change (with_divide ERaise s) with (raising s). set (s1 := raising s) in *.
  assert (G : collect false (pre ++ t :: post) s1 = (s1, Err x)); [|now rewrite G].
  induction pre as [|t' pre IH]; cbn [app collect].
  - pose proof (Hp t s1 (or_introl eq_refl)) as E. destruct (t s1) as [s2 r]. cbn [fst snd] in *. subst. reflexivity.
  - pose proof (Hp t' s1 (or_introl eq_refl)) as E. destruct (Hpre t' (or_introl eq_refl)) as [a Ea]. destruct (t' s1) as [s2 r]. cbn [fst snd] in *. subst.
    rewrite IH; [reflexivity| |]; intros; [apply Hp; now right|apply Hpre; now right].
Qed.
Example c70_policy_changed : exists (t : act nat) s, perf_test_multiple false [t] s = (with_divide ERaise s, Err RuntimeError) /\ with_divide ERaise s <> s.
Proof. exists (fun s => (s, Err RuntimeError)), {| e_divide := EWarn; e_over := EWarn; e_under := EIgnore; e_invalid := EWarn |}. split; [reflexivity|discriminate]. Qed.
(** A drifting coin: the loss is taken against the parameters after the drift. *)
Definition coin_env : @perf_env nat nat (list R) unit :=
  {| p_heur := fun k h u => Ok (k, tt); p_sim := fun _ _ _ => Ok 1%nat; p_upd := fun _ u d _ => Ok (map (fun x => x + INR d) u);
     p_drift := fun _ t _ => Ok (map (fun x => x + 1) t); p_mean := fun u => Ok u; p_count := fun _ => 0%nat; p_Q := [1]; p_nmin := 1 |}.
Example c70_run : exists r0 r1, perf_test coin_env 2 [0] (Ok ([5], tt)) = Ok [r0; r1] /\ r_true r1 = [0 + 1] /\ r_est r1 = [5 + INR 1 + INR 1] /\ r_loss r0 = 25.
Proof. eexists _, _. split; [reflexivity|]. cbn. split; [reflexivity|]. split; [reflexivity|]. unfold rdot, rsum; cbn. lra. Qed.

(** * C73 Lazily applied trials *)
(** [apply_serial.get] runs its function once: after a success later calls return the same value
    without calling it; after an exception the next call tries again. *)
Theorem c73_runs_once {A} (fn : nat -> res A) calls s0 : done s0 = false ->
  match serial_get fn calls s0 with
  | (calls1, s1, Ok v) => (exists a, v = Some a /\ fn calls = Ok a) /\ calls1 = S calls /\ forall m, (serial_get fn m s1) = (m, s1, Ok v)
  | (calls1, s1, Err x) => fn calls = Err x /\ calls1 = S calls /\ s1 = s0
  end.
Proof.
  intros H. unfold serial_get at 1. rewrite H. destruct (fn calls) as [a|x] eqn:E; [|repeat split].
  split; [now exists a|]. split; [reflexivity|]. intros m. reflexivity.
Qed.
Print Assumptions c65_terminates_partial.
Print Assumptions c65_nontermination_refuted.
Print Assumptions c65_fractional_step_refuted.
Print Assumptions c72_sample_count.
Print Assumptions c72_count_matches_iff.
Print Assumptions c72_biased_refuted.
Print Assumptions c66_central_exact.
Print Assumptions c66_scalar_steps.
Print Assumptions c66_zero_step_refuted.
Print Assumptions c66_score_exact.
Print Assumptions c66_score_steps.
Print Assumptions c67_setter_refuted.
Print Assumptions c67_constructor_partial.
Print Assumptions c68_each_particle_once.
Print Assumptions c68_heaviest.
Print Assumptions c68_bayes.
Print Assumptions c68_assertion.
Print Assumptions c68_all_good_refuted.
Print Assumptions c69_construction.
Print Assumptions c69_additive.
Print Assumptions c69_adaptive.
Print Assumptions c69_order.
Print Assumptions c69_frame.
Print Assumptions c69_caller_array_refuted.
Print Assumptions c69_integer_array_refuted.
Print Assumptions c69_monotone.
Print Assumptions c69_keywords.
Print Assumptions c69_misspelt_keyword_refuted.
Print Assumptions c70_rows.
Print Assumptions c70_failure.
Print Assumptions c70_error_policy.
Print Assumptions c70_trials.
Print Assumptions c70_error_policy_refuted.
Print Assumptions c73_runs_once.
