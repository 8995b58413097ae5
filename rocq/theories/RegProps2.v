(** C74: the minimum-volume-ellipsoid iteration stops. *)
From Verif Require Import Base Sums LinAlg LinProofs RegModel RegProofs RegSpec RegSpec2 RegProofs2 RegProofs3 RegProofs4 RegProps.

(** With a positive tolerance the loop stops after finitely many passes, whatever inverse routine is plugged in, and
    returns an ellipsoid; a larger allowance of passes does not change this. *)
Theorem c74_stops inv N d p tol : (0 < N)%nat -> (0 < d)%nat -> inverts inv (S d) -> inverts inv d -> spanning N d p -> 0 < tol ->
  exists passes, forall fuel, (passes <= fuel)%nat -> exists B c, mvee inv fuel N d p tol = Some (Ok (B, c)).
Proof.
  intros HN Hd Hi Hid Hs Ht. pose proof (start_good N d p HN Hs) as Hg.
  destruct (good_bound N d p _ Hg) as [P0 _].
  destruct (growth_unbounded (tol / 2 * (tol / 2)) _ (bound N d p ^ S d) ltac:(nra) P0) as (k & Hk).
  exists k. intros fuel Hf. pose proof (mvee_shape inv N d p HN Hd Hi Hid Hs fuel tol) as HL.
  destruct (mvee inv fuel N d p tol) as [[[B c]|e]|] eqn:E; [now exists B, c|contradiction|exfalso].
  unfold mvee in E. destruct (mvee_loop inv fuel N d p tol 1 (fun _ => 1 / INR N)) as [[u|e]|] eqn:EL; [|discriminate|].
  - discriminate.
  - pose proof (loop_progress inv N d p HN Hd Hi fuel tol 1 _ Ht Hg EL) as G. specialize (Hk fuel Hf). lra.
Qed.
(** Whole-function statement: for a small positive tolerance there is an answer and it encloses every point up to the slack. *)
Theorem c74_stops_and_encloses inv N d p tol : (0 < N)%nat -> (0 < d)%nat -> inverts inv (S d) -> inverts inv d -> spanning N d p ->
  0 < tol < 1 -> tol * (INR d + 1) * (INR d + 1) < INR d ->
  exists fuel B c, mvee inv fuel N d p tol = Some (Ok (B, c)) /\ in_hull N d p c /\ forall a, (a < N)%nat -> dist2 d B c (p a) <= slack d tol.
Proof.
  intros HN Hd Hi Hid Hs Ht Ht2. destruct (c74_stops inv N d p tol HN Hd Hi Hid Hs ltac:(lra)) as (k & Hk). destruct (Hk k (le_n k)) as (B & c & E).
  exists k, B, c. split; [exact E|]. split; [apply (c74_centre_and_shape inv k N d p tol B c HN Hd Hi Hid Hs E)|].
  apply (c74_encloses_within_tolerance inv k N d p tol B c HN Hd Hi Hid Hs); lra || assumption.
Qed.
Example c74_stops_example : exists fuel B c, mvee inv_small fuel 4 2 (pts_of cross) (1/1000) = Some (Ok (B, c)) /\
  forall a, (a < 4)%nat -> dist2 2 B c (pts_of cross a) <= slack 2 (1/1000).
Proof.
  destruct c74_example as (H3 & H2 & HS & HT).
  destruct (c74_stops_and_encloses inv_small 4 2 (pts_of cross) (1/1000) ltac:(lia) ltac:(lia) H3 H2 HS ltac:(lra) HT) as (f & B & c & E & _ & G). now exists f, B, c.
Qed.
(** Volume.  No ellipsoid that encloses all the points is smaller than the returned one, whatever the tolerance ... *)
Theorem c74_no_enclosing_ellipsoid_is_smaller inv fuel N d p tol B c B' c' : (0 < N)%nat -> (0 < d)%nat -> inverts inv (S d) -> inverts inv d -> spanning N d p ->
  mvee inv fuel N d p tol = Some (Ok (B, c)) -> posdef d B' -> (forall a, (a < N)%nat -> dist2 d B' c' (p a) <= 1) ->
  posdef d B /\ volume2 d B <= volume2 d B'.
Proof.
  intros HN Hd Hi Hid Hs H HB' Hin. destruct (smallest inv N d p fuel tol B c B' c' HN Hd Hi Hid Hs H HB' Hin) as [PB HV].
  split; [assumption|]. unfold volume2. apply Rinv_le_contravar; [now apply pdet_pos|assumption].
Qed.
(** ... and blown up by the slack it encloses them all, so that it is minimal up to the power d/2 of the slack. *)
Theorem c74_minimal_volume_up_to_slack inv fuel N d p tol B c : (0 < N)%nat -> (0 < d)%nat -> inverts inv (S d) -> inverts inv d -> spanning N d p ->
  0 <= tol < 1 -> tol * (INR d + 1) * (INR d + 1) < INR d -> mvee inv fuel N d p tol = Some (Ok (B, c)) ->
  let blown i j := / slack d tol * B i j in
  posdef d blown /\ (forall a, (a < N)%nat -> dist2 d blown c (p a) <= 1) /\
  forall B' c', posdef d B' -> (forall a, (a < N)%nat -> dist2 d B' c' (p a) <= 1) -> volume2 d blown <= slack d tol ^ d * volume2 d B'.
Proof.
  intros HN Hd Hi Hid Hs Ht Ht2 H blown. assert (HD : 1 <= INR d) by (change 1 with (INR 1); apply le_INR; lia).
  assert (Hsl : 0 < slack d tol).
  { unfold slack. set (D := INR d) in *. set (s := tol * (D + 1) / D). assert (0 <= s) by (unfold s; apply Rmult_le_pos; [nra|left; apply Rinv_0_lt_compat; lra]).
    assert (Hsg : s * (D + 1) < 1).
    { unfold s. apply (Rmult_lt_reg_r D); [lra|]. replace (tol * (D + 1) / D * (D + 1) * D) with (tol * (D + 1) * (D + 1)) by (field; lra). lra. }
    apply Rdiv_lt_0_compat; [|lra]. assert (0 <= s * (D + 1) / D) by (apply Rmult_le_pos; [nra|left; apply Rinv_0_lt_compat; lra]). lra. }
  assert (Hin : forall a, (a < N)%nat -> dist2 d blown c (p a) <= 1).
  { intros a Ha. pose proof (c74_encloses_within_tolerance inv fuel N d p tol B c HN Hd Hi Hid Hs ltac:(lra) Ht2 H a Ha) as E. unfold dist2, blown in *. rewrite rquad_mscal.
    apply (Rmult_le_reg_l (slack d tol)); [assumption|]. rewrite <- Rmult_assoc, Rinv_r, Rmult_1_l by lra. lra. }
  assert (PB : posdef d B) by (apply (mvee_posdef inv N d p fuel tol B c); assumption).
  assert (PBl : posdef d blown).
  { destruct PB as [P1 P2]. split; [intros i j Hi' Hj'; unfold blown, rtr; f_equal; now apply P1|]. intros v Hv. unfold blown. rewrite rquad_mscal. apply Rmult_lt_0_compat; [now apply Rinv_0_lt_compat|now apply P2]. }
  split; [assumption|]. split; [assumption|]. intros B' c' HB' Hin'. destruct (c74_no_enclosing_ellipsoid_is_smaller inv fuel N d p tol B c B' c' HN Hd Hi Hid Hs H HB' Hin') as [_ HV].
  unfold volume2 in *. unfold blown. rewrite pdet_scal by (try assumption; now apply Rinv_0_lt_compat). rewrite pow_inv. pose proof (pdet_pos d B PB). pose proof (pow_lt _ d Hsl).
  replace (/ (/ slack d tol ^ d * pdet d B)) with (slack d tol ^ d * / pdet d B) by (field; lra). apply Rmult_le_compat_l; lra.
Qed.
(** The determinant by elimination is the usual one; an enclosing circle of the cross *)
Example c74_volume_example : (forall X, X 0%nat 0%nat <> 0 -> pdet 2 X = X 0%nat 0%nat * X 1%nat 1%nat - X 0%nat 1%nat * X 1%nat 0%nat) /\
  posdef 2 (diag3 (1/9) (1/9) 0) /\ (forall a, (a < 4)%nat -> dist2 2 (diag3 (1/9) (1/9) 0) (fun _ => 0) (pts_of cross a) <= 1).
Proof.
  split; [intros X HX; cbn [pdet]; unfold schur; field; assumption|]. split.
  - split; [intros i j Hi Hj; unfold rtr, diag3; rewrite (Nat.eqb_sym i j); destruct (Nat.eqb_spec j i) as [->|]; reflexivity|].
    intros v (i & Hi & Hv). unfold rquad. rewrite !Sum_S, !Sum_0. unfold diag3. cbn.
    destruct i as [|[|i]]; [| |lia]; [assert (0 < v 0%nat * v 0%nat) by nra; assert (0 <= v 1%nat * v 1%nat) by nra; lra|assert (0 < v 1%nat * v 1%nat) by nra; assert (0 <= v 0%nat * v 0%nat) by nra; lra].
  - intros a Ha. unfold dist2, rquad. rewrite !Sum_S, !Sum_0. unfold diag3, pts_of, cross. destruct a as [|[|[|[|]]]]; try lia; cbn; lra.
Qed.
Print Assumptions c74_stops.
Print Assumptions c74_stops_and_encloses.
Print Assumptions c74_no_enclosing_ellipsoid_is_smaller.
Print Assumptions c74_minimal_volume_up_to_slack.
