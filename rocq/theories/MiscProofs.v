(** Proofs for adaptive likelihood estimation, finite differences, scores and performance tests. *)
From Verif Require Import Base Ext RList Sums SmcModel DerModel DerProps MiscModel MiscSpec.

(** ** ALE *)
Lemma xbinom_agrees p N h : xbinom_est_error (Fin p) N h = binom_est_error p N h.
Proof. unfold xbinom_est_error, binom_est_error. cbn [xsub xopp xadd xmul]. reflexivity. Qed.

(** The stopping test of one round. *)
Definition ale_stops (c : ale) (N : R) (n : list R) : bool :=
  forallb (fun x => xltb (xbinom_est_error (binom_est_p x N (a_adapt c)) N (a_adapt c)) (Fin (a_tol c))) n.
Lemma ale_loop_S c data f i N n : ale_loop c data (S f) i N n =
  let n' := map2 Rplus n (data i) in if ale_stops c N n' then Some (N, n') else ale_loop c data f (S i) (N + IZR (a_step c)) n'.
Proof. reflexivity. Qed.
Lemma ale_loop_mono c data f i N n r : ale_loop c data f i N n = Some r -> ale_loop c data (S f) i N n = Some r.
Proof.
  revert i N n. induction f as [|f IH]; intros i N n; [discriminate|]. rewrite (ale_loop_S c data (S f)), (ale_loop_S c data f). cbv zeta.
  destruct (ale_stops c N (map2 Rplus n (data i))); [exact (fun x => x)|apply IH].
Qed.
Lemma ale_loop_le c data f g i N n r : (f <= g)%nat -> ale_loop c data f i N n = Some r -> ale_loop c data g i N n = Some r.
Proof. induction 1; [exact (fun x => x)|]. intros. now apply ale_loop_mono, IHle. Qed.

Lemma counts_add k step n d N : length n = k -> length d = k -> Forall (fun x => 0 <= x <= N) n -> Forall (fun x => 0 <= x <= step) d ->
  length (map2 Rplus n d) = k /\ Forall (fun x => 0 <= x <= N + step) (map2 Rplus n d).
Proof.
  revert n d. induction k as [|k IH]; intros [|x n] [|y d] Hn Hd Fn Fd; try discriminate; [split; constructor|].
  cbn [map2 length]. inversion Fn; subst. inversion Fd; subst. destruct (IH n d) as [E F]; try (cbn in Hn, Hd; lia); try assumption.
  split; [now rewrite E|]. constructor; [lra|assumption].
Qed.

(** Once [N] is large enough the test succeeds for every table of counts. *)
Lemma ale_stops_large c : 0 < a_tol c -> 0 <= a_adapt c ->
  exists N0, forall N n, N0 <= N -> 0 < N -> Forall (fun x => 0 <= x <= N) n -> ale_stops c N n = true.
Proof.
  intros Ht Hh. destruct (c47_error_vanishes (a_tol c) Ht) as [N0 HN0]. exists N0. intros N n HN Hp Hn. apply forallb_forall. intros x Hx.
  rewrite Forall_forall in Hn. destruct (c47_estimate_range x N (a_adapt c) (Hn x Hx) Hh ltac:(lra)) as (p & Ep & Hpr & _). rewrite Ep, xbinom_agrees.
  destruct (HN0 N (a_adapt c) p HN Hh Hpr) as (s & Es & Hs). rewrite Es. cbn. now apply Rltb_true.
Qed.

(** Invariant: the counts never exceed [N]. *)
Lemma ale_loop_terminates c data k : 0 < a_tol c -> 0 <= a_adapt c -> (1 <= a_step c)%Z -> counts_ok k (IZR (a_step c)) data ->
  forall i N n, 0 < N -> length n = k -> Forall (fun x => 0 <= x <= N - IZR (a_step c)) n ->
  exists f N' n', ale_loop c data f i N n = Some (N', n') /\ length n' = k /\ Forall (fun x => 0 <= x <= N') n' /\ N <= N' /\ ale_stops c N' n' = true.
Proof.
  intros Ht Hh Hst Hd. destruct (ale_stops_large c Ht Hh) as [N0 HN0].
  assert (Hs1 : 1 <= IZR (a_step c)) by (apply (IZR_le 1); assumption).
  assert (G : forall m i N n, N0 <= N + INR m * IZR (a_step c) -> 0 < N -> length n = k -> Forall (fun x => 0 <= x <= N - IZR (a_step c)) n ->
    exists f N' n', ale_loop c data f i N n = Some (N', n') /\ length n' = k /\ Forall (fun x => 0 <= x <= N') n' /\ N <= N' /\ ale_stops c N' n' = true).
  { induction m as [|m IH]; intros i N n HN Hp Hl Hn; destruct (Hd i) as [Hdl Hdf];
    destruct (counts_add k _ n (data i) _ Hl Hdl Hn Hdf) as [Hl' Hn']; replace (N - IZR (a_step c) + IZR (a_step c)) with N in Hn' by ring.
    - exists 1%nat, N, (map2 Rplus n (data i)). assert (St : ale_stops c N (map2 Rplus n (data i)) = true) by (apply HN0; [cbn in HN; lra|assumption|assumption]).
      rewrite ale_loop_S. cbv zeta. rewrite St. repeat split; try assumption. lra.
    - destruct (ale_stops c N (map2 Rplus n (data i))) eqn:St.
      + exists 1%nat, N, (map2 Rplus n (data i)). rewrite ale_loop_S. cbv zeta. rewrite St. repeat split; try assumption. lra.
      + destruct (IH (S i) (N + IZR (a_step c)) (map2 Rplus n (data i))) as (f & N' & n' & E & A1 & A2 & A3 & A4).
        * rewrite S_INR in HN. lra.
        * lra.
        * assumption.
        * eapply Forall_impl; [|exact Hn']. cbv beta. intros; lra.
        * exists (S f), N', n'. rewrite ale_loop_S. cbv zeta. rewrite St. repeat split; try assumption. lra. }
  intros i N n Hp Hl Hn. destruct (archimed ((N0 - N) / IZR (a_step c))) as [Hu _].
  set (z := up ((N0 - N) / IZR (a_step c))) in *. apply (G (Z.to_nat z)); try assumption.
  destruct (Z_le_gt_dec 0 z) as [Hz|Hz].
  - rewrite INR_IZR_INZ, Z2Nat.id by assumption. apply Rlt_le in Hu. apply (Rmult_le_compat_r (IZR (a_step c))) in Hu; [|lra].
    unfold Rdiv in Hu. rewrite Rmult_assoc, Rinv_l, Rmult_1_r in Hu by lra. lra.
  - replace (Z.to_nat z) with 0%nat by lia. cbn. assert (IZR z < 0) by (apply IZR_lt; lia).
    assert ((N0 - N) / IZR (a_step c) < 0) by lra. apply (Rmult_lt_compat_r (IZR (a_step c))) in H0; [|lra].
    unfold Rdiv in H0. rewrite Rmult_assoc, Rinv_l, Rmult_1_r in H0 by lra. lra.
Qed.

(** With data exceeding the count of samples the estimate leaves [0,1] and the error is NaN. *)
Lemma ale_error_nan n N h : 0 <= N + 2 * h -> N + h < n -> binom_est_p n N h = PInf \/ (exists p, binom_est_p n N h = Fin p /\ 1 < p).
Proof.
  intros Hd Hn. unfold binom_est_p. cbn [xdiv]. rb.
  - left. unfold inf_times. rewrite Rltb_true; [reflexivity|lra].
  - right. eexists. split; [reflexivity|]. assert (0 < N + 2 * h) by lra. apply (Rmult_lt_reg_r (N + 2 * h)); [assumption|]. unfold Rdiv. rewrite Rmult_assoc, Rinv_l by lra. lra.
Qed.
Lemma xbinom_bad p N h : 0 <= N + 2 * h -> p = PInf \/ (exists q, p = Fin q /\ 1 < q) -> xltb (xbinom_est_error p N h) (Fin 1) = false.
Proof.
  intros Hd [->|[q [-> Hq]]]; unfold xbinom_est_error; cbn [xsub xopp xadd xmul xdiv].
  - rewrite Reqb_false by lra. unfold inf_times. rewrite Rltb_true by lra. reflexivity.
  - rewrite Reqb_false by lra. cbn [xsqrt]. rewrite Rltb_true; [reflexivity|]. assert (0 < N + 2 * h + 1) by lra.
    apply (Rmult_lt_reg_r (N + 2 * h + 1)); [assumption|]. unfold Rdiv. rewrite Rmult_assoc, Rinv_l by lra. nra.
Qed.
Lemma xbinom_bad_tol p N h t : t <= 1 -> 0 <= N + 2 * h -> p = PInf \/ (exists q, p = Fin q /\ 1 < q) -> xltb (xbinom_est_error p N h) (Fin t) = false.
Proof.
  intros Ht Hd Hp. pose proof (xbinom_bad p N h Hd Hp) as B. destruct (xbinom_est_error p N h); cbn in *; try reflexivity; try discriminate.
  destruct (Rltb_spec r 1); [discriminate|]. now apply Rltb_false; lra.
Qed.

(** ** Finite differences *)
Lemma map2_seq_nth (g : R -> R -> R) (x : list R) (u : nat -> R) : map2 g x (map u (seq 0 (length x))) = map (fun j => g (nth j x 0) (u j)) (seq 0 (length x)).
Proof.
  revert u. induction x as [|a x IH]; intros u; [reflexivity|]. cbn [length seq map map2 nth]. f_equal.
  rewrite <- seq_shift, !map_map. exact (IH (fun j => u (S j))).
Qed.
Lemma plus_unit x i h : (i < length x)%nat -> map2 Rplus x (unit_step (length x) i h) = upd x i (nth i x 0 + h).
Proof.
  intros Hi. unfold unit_step, upd. rewrite map2_seq_nth. apply map_ext_in. intros j _. destruct (Nat.eqb_spec j i) as [->|_]; ring.
Qed.
Lemma minus_unit x i h : (i < length x)%nat -> map2 Rminus x (unit_step (length x) i h) = upd x i (nth i x 0 - h).
Proof.
  intros Hi. unfold unit_step, upd. rewrite map2_seq_nth. apply map_ext_in. intros j _. destruct (Nat.eqb_spec j i) as [->|_]; ring.
Qed.
Lemma half_unit n i h : map (fun s => s / 2) (unit_step n i h) = unit_step n i (h / 2).
Proof. unfold unit_step. rewrite map_map. apply map_ext. intros j. destruct (Nat.eqb j i); [reflexivity|]. unfold Rdiv. ring. Qed.
Lemma upd_same x i : upd x i (nth i x 0) = x.
Proof.
  unfold upd.
  assert (G : forall y : list R, map (fun j => nth j y 0) (seq 0 (length y)) = y).
  { induction y as [|a y IH]; [reflexivity|]. cbn [length seq map nth]. f_equal. rewrite <- seq_shift, map_map. exact IH. }
  transitivity (map (fun j => nth j x 0) (seq 0 (length x))); [|apply G].
  apply map_ext. intros j. destruct (Nat.eqb_spec j i) as [->|_]; reflexivity.
Qed.

(** A quadratic function of one variable has the obvious derivative. *)
Lemma quad_deriv (g : R -> R) a b c t : (forall s, g s = a + b * s + c * s ^ 2) -> derivable_pt_lim g t (b + 2 * c * t).
Proof.
  intros H. apply (derivable_pt_lim_ext (fun s => a + b * s + c * s ^ 2)) ; [intros; now rewrite H|].
  replace (b + 2 * c * t) with ((0 + (0 * t + b * 1)) + c * (INR 2 * t ^ 1)) by (cbn; ring).
  apply (derivable_pt_lim_plus (fun s => a + b * s) (fun s => c * s ^ 2)).
  - apply (derivable_pt_lim_plus (fun _ => a) (fun s => b * s)); [apply derivable_pt_lim_const|].
    apply (derivable_pt_lim_mult (fun _ => b) (fun s => s)); [apply derivable_pt_lim_const|apply derivable_pt_lim_id].
  - apply (derivable_pt_lim_scal (fun s => s ^ 2)). apply derivable_pt_lim_pow.
Qed.

(** ** Performance tests *)
Lemma collect_allow {A} (ts : list (act A)) : forall s, exists s' l, collect true ts s = (s', Ok l) /\ length l = length ts.
Proof.
  induction ts as [|t ts IH]; intros s; [now exists s, []|]. cbn [collect]. destruct (t s) as [s1 [a|x]]; destruct (IH s1) as (s2 & l & -> & Hl).
  - exists s2, (Some a :: l). cbn. now rewrite Hl.
  - exists s2, (None :: l). cbn. now rewrite Hl.
Qed.
