(** Proofs about rounding: sums in any order, Bayes updates, whole runs. *)
From Flocq Require Import Core Relative Plus_error.
From Coq Require Import List ZArith Permutation Lia Lra Psatz.
From Verif Require Import Base RList Sums SmcModel SmcSpec SmcProofs FltModel FltSpec FltSpec2 FltProofs.
Import ListNotations.
#[local] Instance p53b : Prec_gt_0 53. Proof. easy. Qed.

Lemma SumL_perm {A} (l m : list A) f : Permutation l m -> SumL l f = SumL m f.
Proof. induction 1; unfold SumL in *; cbn [fold_right]; try lra. Qed.
Lemma sums_all_Sum n t f : sums_all n t -> SumL (leaves t) f = Sum n f.
Proof. intros H. rewrite (SumL_perm _ _ f H), SumL_rsum, Sum_rsum. reflexivity. Qed.
Lemma sums_all_in n t i : sums_all n t -> In i (leaves t) <-> (i < n)%nat.
Proof. intros H. split; intros G; [apply (Permutation_in _ H), in_seq in G; lia|apply (Permutation_in _ (Permutation_sym H)), in_seq; lia]. Qed.

Section Tree.
Variable f : nat -> R.
Lemma fsum_facts t : (forall i, In i (leaves t) -> double (f i)) -> (forall i, In i (leaves t) -> 0 <= f i) ->
  double (fsum t f) /\ 0 <= fsum t f /\ (forall i, In i (leaves t) -> f i <= fsum t f) /\ 0 <= SumL (leaves t) f /\ close (depth t) (fsum t f) (SumL (leaves t) f).
Proof.
  induction t as [i|l IHl r IHr]; intros Hd Hn; cbn [fsum leaves depth] in *.
  - assert (E : SumL [i] f = f i) by (unfold SumL; cbn; ring). rewrite E. split; [apply Hd; now left|split; [apply Hn; now left|split; [|split; [apply Hn; now left|apply close_refl, Hn; now left]]]].
    intros j [<-|[]]. lra.
  - destruct IHl as (A1 & A2 & A3 & A4 & A5); [intros; apply Hd, in_or_app; now left|intros; apply Hn, in_or_app; now left|].
    destruct IHr as (B1 & B2 & B3 & B4 & B5); [intros; apply Hd, in_or_app; now right|intros; apply Hn, in_or_app; now right|].
    rewrite SumL_app. split; [apply rnd_double|split; [apply rnd_nonneg; lra|split; [|split; [lra|]]]].
    + intros i Hi. apply in_app_or in Hi. destruct Hi as [Hi|Hi].
      * apply Rle_trans with (fsum l f); [now apply A3|apply rnd_ge; [exact A1|lra]].
      * apply Rle_trans with (fsum r f); [now apply B3|apply rnd_ge; [exact B1|lra]].
    + change (S (Nat.max (depth l) (depth r))) with (1 + Nat.max (depth l) (depth r))%nat.
      apply close_trans with (fsum l f + fsum r f); [lra|apply rnd_add_close; [exact A1|exact B1|lra]|].
      apply close_plus; [apply close_mono with (depth l)|apply close_mono with (depth r)]; try assumption; lia.
Qed.
(** Numbers of any sign. *)
Lemma fsum_signed t : (forall i, In i (leaves t) -> double (f i)) ->
  double (fsum t f) /\ Rabs (fsum t f - SumL (leaves t) f) <= ((1 + uro) ^ depth t - 1) * SumL (leaves t) (fun i => Rabs (f i)).
Proof.
  pose proof uro_pos as U. induction t as [i|l IHl r IHr]; intros Hd; cbn [fsum leaves depth] in *.
  - split; [apply Hd; now left|]. unfold SumL. cbn. replace (f i - (f i + 0)) with 0 by ring. rewrite Rabs_R0. lra.
  - destruct IHl as (A1 & A2); [intros; apply Hd, in_or_app; now left|]. destruct IHr as (B1 & B2); [intros; apply Hd, in_or_app; now right|].
    split; [apply rnd_double|]. rewrite !SumL_app. set (d := Nat.max (depth l) (depth r)).
    assert (NN : forall t, 0 <= SumL (leaves t) (fun i => Rabs (f i))) by (intros; apply SumL_nonneg; intros; apply Rabs_pos).
    assert (TT : forall t, Rabs (SumL (leaves t) f) <= SumL (leaves t) (fun i => Rabs (f i))).
    { intros t. induction (leaves t) as [|i q IH]; unfold SumL in *; cbn [fold_right]; [rewrite Rabs_R0; lra|]. eapply Rle_trans; [apply Rabs_triang|lra]. }
    pose proof (NN l) as NL. pose proof (NN r) as NR. pose proof (TT l) as TL. pose proof (TT r) as TR.
    assert (Pl : (1 + uro) ^ depth l <= (1 + uro) ^ d) by (apply Rle_pow; [lra|apply Nat.le_max_l]). assert (Pr : (1 + uro) ^ depth r <= (1 + uro) ^ d) by (apply Rle_pow; [lra|apply Nat.le_max_r]).
    apply double_gf in A1. apply double_gf in B1. destruct (FLT_plus_error_N_ex radix2 (-1074) 53 (fun x => negb (Z.even x)) _ _ A1 B1) as (e & E1 & E2). rewrite u_ro_uro in E1.
    unfold rnd. rewrite E2. assert (E3 : Rabs e <= uro). { apply Rle_trans with (1 := E1). apply Rmult_le_reg_r with (1 + uro); [lra|]. unfold Rdiv. rewrite Rmult_assoc, Rinv_l by lra. nra. }
    set (a := fsum l f) in *. set (b := fsum r f) in *. set (SA := SumL (leaves l) f) in *. set (SB := SumL (leaves r) f) in *.
    set (QA := SumL (leaves l) (fun i => Rabs (f i))) in *. set (QB := SumL (leaves r) (fun i => Rabs (f i))) in *. cbn [pow]. pose proof (upow_ge1 d) as P1.
    replace ((a + b) * (1 + e) - (SA + SB)) with ((1 + e) * ((a - SA) + (b - SB)) + e * (SA + SB)) by ring.
    eapply Rle_trans; [apply Rabs_triang|]. rewrite !Rabs_mult.
    assert (H1 : Rabs (a - SA + (b - SB)) <= ((1 + uro) ^ d - 1) * (QA + QB)).
    { eapply Rle_trans; [apply Rabs_triang|]. rewrite Rmult_plus_distr_l. apply Rplus_le_compat; [apply Rle_trans with (1 := A2)|apply Rle_trans with (1 := B2)]; apply Rmult_le_compat_r; lra. }
    assert (H2 : Rabs (1 + e) <= 1 + uro) by (eapply Rle_trans; [apply Rabs_triang|]; rewrite Rabs_R1; lra).
    assert (H3 : Rabs (SA + SB) <= QA + QB) by (eapply Rle_trans; [apply Rabs_triang|lra]).
    apply Rle_trans with ((1 + uro) * (((1 + uro) ^ d - 1) * (QA + QB)) + uro * (QA + QB)).
    + apply Rplus_le_compat; apply Rmult_le_compat; try apply Rabs_pos; assumption.
    + right. ring.
Qed.
End Tree.

(** Underflow. *)
Lemma half_least_bpow : / 2 * bpow radix2 (-1074) = half_least.
Proof.
  unfold half_least. change (-1074)%Z with (- Z.of_nat 1074)%Z. rewrite bpow_opp, <- IZR_Zpower by lia.
  replace (IZR (Zpower radix2 (Z.of_nat 1074))) with (2 ^ 1074) by (rewrite pow_IZR; reflexivity). change (2 ^ 1075) with (2 * 2 ^ 1074). rewrite Rinv_mult. reflexivity.
Qed.
Lemma half_least_pos : 0 < half_least. Proof. unfold half_least. apply Rinv_0_lt_compat, pow_lt. lra. Qed.
Lemma rnd_any x : 0 <= x -> rnd x <= x * (1 + uro) + half_least /\ x <= rnd x * (1 + uro) + half_least.
Proof.
  intros Hx. pose proof half_least_pos as Hh. pose proof uro_pos as U.
  destruct (relative_error_N_FLT'_ex radix2 (-1074) 53 eq_refl (fun x => negb (Z.even x)) x) as (e & h & E1 & E2 & E3 & E4).
  rewrite u_ro_uro in E1. rewrite half_least_bpow in E2. fold (rnd x) in E4. apply Rabs_le_inv in E2.
  destruct (Req_dec h 0) as [Z|Z].
  - rewrite Z, Rplus_0_r in E4. rewrite E4. destruct (close_eps e x Hx E1) as [C1 C2]. rewrite pow_1 in C1, C2. lra.
  - assert (e = 0) by (apply Rmult_integral in E3; tauto). subst e. pose proof (rnd_nonneg x Hx). split; nra.
Qed.

(** One update. *)
Section Update.
Variables (t : stree) (w L : list R).
Hypothesis Hlen : length L = length w.
Hypothesis Ht : sums_all (length w) t.
Hypothesis Wd : Forall double w.
Hypothesis Wn : Forall (fun x => 0 <= x) w.
Hypothesis Ln : Forall (fun x => 0 <= x) L.
Notation h := (f_hyp w L).
Lemma hyp_len : length h = length w. Proof. unfold f_hyp. rewrite map2_length; [reflexivity|now symmetry]. Qed.
Lemma hyp_nth i : (i < length w)%nat -> nth i h 0 = rnd (nth i w 0 * nth i L 0).
Proof.
  intros Hi. unfold f_hyp. rewrite (map2_index (fun a b => rnd (a * b)) w L 0 0) by lia.
  rewrite (nth_indep _ 0 ((fun i => rnd (nth i w 0 * nth i L 0)) 0%nat)) by (rewrite map_length, seq_length; lia).
  rewrite (map_nth (fun i => rnd (nth i w 0 * nth i L 0)) (seq 0 (length w)) 0%nat i), seq_nth by lia. reflexivity.
Qed.
Lemma L_nonneg i : 0 <= nth i L 0.
Proof. destruct (Nat.lt_ge_cases i (length L)) as [H|H]; [rewrite Forall_forall in Ln; now apply Ln, nth_In|rewrite nth_overflow by assumption; lra]. Qed.
Lemma hyp_nonneg i : 0 <= nth i h 0.
Proof.
  destruct (Nat.lt_ge_cases i (length w)) as [H|H]; [|rewrite nth_overflow by (rewrite hyp_len; assumption); lra].
  rewrite hyp_nth by assumption. apply rnd_nonneg, Rmult_le_pos; [now apply w_nonneg|apply L_nonneg].
Qed.
Lemma hyp_double i : double (nth i h 0).
Proof. destruct (Nat.lt_ge_cases i (length w)) as [H|H]; [rewrite hyp_nth by assumption; apply rnd_double|rewrite nth_overflow by (rewrite hyp_len; assumption); apply double_0]. Qed.
Notation N := (f_norm t w L).
Lemma norm_facts : double N /\ 0 <= N /\ (forall i, (i < length w)%nat -> nth i h 0 <= N) /\ 0 <= Sum (length w) (fun i => nth i h 0) /\ close (depth t) N (Sum (length w) (fun i => nth i h 0)).
Proof.
  destruct (fsum_facts (fun i => nth i h 0) t) as (A1 & A2 & A3 & A4 & A5); [intros; apply hyp_double|intros; apply hyp_nonneg|].
  rewrite (sums_all_Sum _ _ _ Ht) in A4, A5. split; [exact A1|split; [exact A2|split; [|split; assumption]]]. intros i Hi. apply A3. now apply (sums_all_in (length w)).
Qed.
Lemma weights_len : length (f_weights t w L) = length w. Proof. unfold f_weights. rewrite map_length. apply hyp_len. Qed.
Lemma weights_nth i : (i < length w)%nat -> nth i (f_weights t w L) 0 = rnd (nth i h 0 / f_fix N).
Proof.
  intros Hi. unfold f_weights. rewrite (nth_indep _ 0 ((fun x => rnd (x / f_fix N)) 0)) by (rewrite map_length, hyp_len; lia).
  exact (map_nth (fun x => rnd (x / f_fix N)) h 0 i).
Qed.
Lemma fix_regular : eps <= N -> f_fix N = N /\ 0 < N.
Proof. intros H. assert (0 < eps) by apply eps_pos. unfold f_fix. rewrite Rabs_pos_eq by lra. destruct (Rltb_spec N eps); [lra|]. split; [reflexivity|lra]. Qed.
Lemma fix_pos : 0 < f_fix N.
Proof. destruct norm_facts as (_ & H & _). assert (0 < eps) by apply eps_pos. unfold f_fix. rewrite Rabs_pos_eq by lra. destruct (Rltb_spec N eps); lra. Qed.
Lemma weights_double i : double (nth i (f_weights t w L) 0).
Proof. destruct (Nat.lt_ge_cases i (length w)) as [H|H]; [rewrite weights_nth by assumption; apply rnd_double|rewrite nth_overflow by (rewrite weights_len; assumption); apply double_0]. Qed.
Lemma weights_nonneg i : 0 <= nth i (f_weights t w L) 0.
Proof.
  destruct (Nat.lt_ge_cases i (length w)) as [H|H]; [|rewrite nth_overflow by (rewrite weights_len; assumption); lra].
  rewrite weights_nth by assumption. apply rnd_nonneg, Rmult_le_pos; [apply hyp_nonneg|apply Rlt_le, Rinv_0_lt_compat, fix_pos].
Qed.
Lemma weights_le1 i : eps <= N -> nth i (f_weights t w L) 0 <= 1.
Proof.
  intros HN. destruct (fix_regular HN) as [F P]. destruct (Nat.lt_ge_cases i (length w)) as [H|H]; [|rewrite nth_overflow by (rewrite weights_len; assumption); lra].
  rewrite weights_nth by assumption. apply rnd_le; [apply double_1|]. rewrite F. destruct norm_facts as (_ & _ & Q & _). specialize (Q i H).
  apply Rmult_le_reg_r with N; [exact P|]. unfold Rdiv. rewrite Rmult_assoc, Rinv_l by lra. lra.
Qed.
(** The exact total of the new weights. *)
Lemma quotient_total : eps <= N -> close (depth t) (Sum (length w) (fun i => nth i h 0 / N)) 1.
Proof.
  intros HN. destruct (fix_regular HN) as [F P]. destruct norm_facts as (_ & _ & _ & S0 & C).
  rewrite (Sum_ext _ _ (fun i => / N * nth i h 0)) by (intros; unfold Rdiv; ring). rewrite Sum_scal. set (s := Sum _ _) in *.
  assert (Sp : 0 < s). { destruct C as [_ C]. pose proof (upow_pos (depth t)). nra. }
  replace (/ N * s) with (s / N) by (unfold Rdiv; ring). replace 1 with (s / s) by (field; lra). change (depth t) with (0 + depth t)%nat.
  apply close_div; [lra|exact Sp|apply close_refl; lra|exact C].
Qed.
Lemma total_any : eps <= N -> Sum (length w) (fun i => nth i (f_weights t w L) 0) <= (1 + uro) ^ (depth t + 1) + INR (length w) * half_least /\
  1 <= (Sum (length w) (fun i => nth i (f_weights t w L) 0) + INR (length w) * half_least) * (1 + uro) ^ (depth t + 1).
Proof.
  intros HN. destruct (fix_regular HN) as [F P]. destruct (quotient_total HN) as [Q1 Q2]. pose proof (upow_pos (depth t)) as PD. pose proof uro_pos as U. pose proof half_least_pos as Hp.
  assert (Cst : forall n k, Sum n (fun _ => k) = INR n * k).
  { intros n k. induction n as [|n IH]; [cbn; ring|]. rewrite Sum_end, IH, S_INR. ring. }
  assert (QN : forall i, 0 <= nth i h 0 / N) by (intros; apply Rmult_le_pos; [apply hyp_nonneg|now apply Rlt_le, Rinv_0_lt_compat]).
  assert (S1 : Sum (length w) (fun i => nth i (f_weights t w L) 0) <= Sum (length w) (fun i => nth i h 0 / N) * (1 + uro) + INR (length w) * half_least).
  { rewrite <- Sum_scal_r, <- Cst, <- Sum_plus. apply Sum_le. intros i Hi. rewrite weights_nth, F by assumption. apply rnd_any, QN. }
  assert (S2 : Sum (length w) (fun i => nth i h 0 / N) <= Sum (length w) (fun i => nth i (f_weights t w L) 0) * (1 + uro) + INR (length w) * half_least).
  { rewrite <- Sum_scal_r, <- Cst, <- Sum_plus. apply Sum_le. intros i Hi. rewrite weights_nth, F by assumption. apply rnd_any, QN. }
  rewrite pow_add, pow_1. set (s := Sum (length w) (fun i => nth i (f_weights t w L) 0)) in *. set (q := Sum (length w) (fun i => nth i h 0 / N)) in *.
  assert (Hl : 0 <= INR (length w) * half_least) by (apply Rmult_le_pos; [apply pos_INR|lra]). split.
  - apply Rle_trans with (1 := S1). apply Rplus_le_compat_r, Rmult_le_compat_r; lra.
  - apply Rle_trans with (1 := Q1). replace ((s + INR (length w) * half_least) * ((1 + uro) ^ depth t * (1 + uro))) with ((s * (1 + uro) + INR (length w) * half_least * (1 + uro)) * (1 + uro) ^ depth t) by ring.
    apply Rmult_le_compat_r; [lra|]. nra.
Qed.
Hypothesis Nu : forall i, (i < length w)%nat -> normal (nth i h 0 / N).
Lemma weights_close i : eps <= N -> (i < length w)%nat -> close 1 (nth i (f_weights t w L) 0) (nth i h 0 / N).
Proof. intros HN Hi. destruct (fix_regular HN) as [F P]. rewrite weights_nth, F by assumption. now apply rnd_close, Nu. Qed.
Lemma total_close : eps <= N -> close (depth t + 1) (Sum (length w) (fun i => nth i (f_weights t w L) 0)) 1.
Proof.
  intros HN. rewrite Nat.add_comm. apply close_trans with (Sum (length w) (fun i => nth i h 0 / N)); [lra| |now apply quotient_total].
  assert (G : forall n, (n <= length w)%nat -> close 1 (Sum n (fun i => nth i (f_weights t w L) 0)) (Sum n (fun i => nth i h 0 / N))); [|now apply G].
  induction n as [|n IH]; intros H; [apply close_0|]. rewrite !Sum_end. apply close_plus; [apply IH; lia|apply weights_close; [exact HN|lia]].
Qed.
End Update.

(** A whole run. *)
Section Run.
Context {O E RND : Type}.
Variables (c : @config O E RND) (rs : nat -> RND) (ts : nat -> stree).
Hypothesis G : good_config c.
Lemma L_row_len l o e : length (L_row c l o e) = length l. Proof. apply map_length. Qed.
Lemma L_row_nth l o e i : (i < length l)%nat -> nth i (L_row c l o e) 0 = lik (md c) o (nth i l []) e.
Proof.
  intros H. unfold L_row. rewrite (nth_indep _ 0 ((fun x => lik (md c) o x e) [])) by (rewrite map_length; exact H). exact (map_nth (fun x => lik (md c) o x e) l [] i).
Qed.
Lemma L_row_nonneg l o e : Forall (fun x => 0 <= x) (L_row c l o e).
Proof. apply Forall_forall. intros x Hx. apply in_map_iff in Hx. destruct Hx as (y & <- & _). apply (lik_nonneg c G). Qed.
Lemma Forall_nth_double w : (forall i, double (nth i w 0)) -> Forall double w.
Proof. intros H. apply Forall_forall. intros x Hx. destruct (In_nth _ _ 0 Hx) as (i & _ & <-). apply H. Qed.
Lemma Forall_nth_nonneg w : (forall i, 0 <= nth i w 0) -> Forall (fun x => 0 <= x) w.
Proof. intros H. apply Forall_forall. intros x Hx. destruct (In_nth _ _ 0 Hx) as (i & _ & <-). apply H. Qed.
Lemma f_run_cons idx w l o e data : fst (f_run c rs ts idx w l ((o, e) :: data)) = fst (f_run c rs ts (S idx) (f_weights (ts idx) w (L_row c l o e)) (timestep (md c) (rs idx) l e) data).
Proof. cbn [f_run]. now destruct (f_run c rs ts (S idx) _ _ data). Qed.
Lemma run_proportional n data : forall idx w l a k C, length w = n -> length l = n -> (forall j, sums_all n (ts j)) -> Forall double w -> Forall (fun x => 0 <= x) w ->
  0 < C -> (forall i, 0 <= a i) -> (forall i, (i < n)%nat -> close k (nth i w 0) (C * a i)) -> no_underflow c rs ts idx w l data ->
  let w' := fst (f_run c rs ts idx w l data) in
  length w' = n /\ Forall double w' /\ Forall (fun x => 0 <= x) w' /\
  exists C', 0 < C' /\ forall i, (i < n)%nat -> close (k + 2 * length data) (nth i w' 0) (C' * (a i * path_lik c rs idx data l i)).
Proof.
  induction data as [|[o e] data IH]; intros idx w l a k C Hw Hl Hts Wd Wn HC Ha Hk Hu.
  - cbn. split; [exact Hw|split; [exact Wd|split; [exact Wn|exists C; split; [exact HC|]]]]. intros i Hi. rewrite Nat.add_0_r, Rmult_1_r. now apply Hk.
  - cbv zeta. rewrite f_run_cons. cbn [no_underflow] in Hu. cbv zeta in Hu. destruct Hu as (HN & Hnu & Hrest). set (L := L_row c l o e) in *.
    assert (HL : length L = length w) by (unfold L; rewrite L_row_len; congruence). assert (Ln : Forall (fun x => 0 <= x) L) by apply L_row_nonneg.
    assert (Ht : sums_all (length w) (ts idx)) by (rewrite Hw; apply Hts). destruct (fix_regular (ts idx) w L HN) as [_ Np].
    destruct (IH (S idx) (f_weights (ts idx) w L) (timestep (md c) (rs idx) l e) (fun i => a i * nth i L 0) (k + 2)%nat (C / f_norm (ts idx) w L)) as (R1 & R2 & R3 & C' & R4 & R5).
    + rewrite weights_len by assumption. exact Hw.
    + rewrite (step_len c G). exact Hl.
    + exact Hts.
    + apply Forall_nth_double. intros i. now apply weights_double.
    + apply Forall_nth_nonneg. intros i. now apply weights_nonneg.
    + now apply Rdiv_lt_0_compat.
    + intros i. apply Rmult_le_pos; [apply Ha|apply (L_nonneg L Ln)].
    + intros i Hi. assert (Hi' : (i < length w)%nat) by lia. pose proof (L_nonneg L Ln i) as Li. specialize (Ha i). specialize (Hk i Hi). destruct (Hnu i Hi') as [U1 U2].
      pose proof (weights_close (ts idx) w L HL (fun j Hj => proj2 (Hnu j Hj)) i HN Hi') as W1.
      assert (Hh : close (1 + k) (nth i (f_hyp w L) 0) (C * a i * nth i L 0)).
      { rewrite hyp_nth by assumption. apply close_trans with (nth i w 0 * nth i L 0); [apply Rmult_le_pos; [nra|exact Li]|now apply rnd_close|].
        replace k with (k + 0)%nat by lia. apply close_mult; [nra|exact Li|exact Hk|now apply close_refl]. }
      replace (k + 2)%nat with (1 + (1 + k))%nat by lia.
      replace (C / f_norm (ts idx) w L * (a i * nth i L 0)) with (C * a i * nth i L 0 / f_norm (ts idx) w L) by (field; lra).
      assert (P0 : 0 <= C * a i * nth i L 0) by (apply Rmult_le_pos; [nra|exact Li]).
      apply close_trans with (nth i (f_hyp w L) 0 / f_norm (ts idx) w L); [apply Rmult_le_pos; [exact P0|now apply Rlt_le, Rinv_0_lt_compat]|exact W1|].
      replace (1 + k)%nat with (1 + k + 0)%nat by lia. apply close_div; [exact P0|exact Np|exact Hh|apply close_refl; lra].
    + exact Hrest.
    + split; [exact R1|split; [exact R2|split; [exact R3|exists C'; split; [exact R4|]]]]. intros i Hi. cbn [path_lik length]. specialize (R5 i Hi).
      replace (k + 2 * S (length data))%nat with (k + 2 + 2 * length data)%nat by lia. 
      replace (a i * (lik (md c) o (nth i l []) e * path_lik c rs (S idx) data (timestep (md c) (rs idx) l e) i)) with (a i * nth i L 0 * path_lik c rs (S idx) data (timestep (md c) (rs idx) l e) i);
        [exact R5|]. unfold L. rewrite L_row_nth by lia. ring.
Qed.
Lemma run_total n d data : data <> [] -> forall idx w l, length w = n -> length l = n -> (forall j, sums_all n (ts j) /\ (depth (ts j) <= d)%nat) -> Forall double w -> Forall (fun x => 0 <= x) w ->
  no_underflow c rs ts idx w l data -> close (d + 1) (Sum n (fun i => nth i (fst (f_run c rs ts idx w l data)) 0)) 1.
Proof.
  intros Hne. induction data as [|[o e] data IH]; intros idx w l Hw Hl Hts Wd Wn Hu; [easy|]. rewrite f_run_cons. cbn [no_underflow] in Hu. cbv zeta in Hu. destruct Hu as (HN & Hnu & Hrest).
  set (L := L_row c l o e) in *.
  assert (HL : length L = length w) by (unfold L; rewrite L_row_len; congruence). assert (Ln : Forall (fun x => 0 <= x) L) by apply L_row_nonneg.
  assert (Ht : sums_all (length w) (ts idx)) by (rewrite Hw; apply Hts).
  destruct data as [|x data].
  - cbn [f_run fst]. rewrite <- Hw. apply close_mono with (depth (ts idx) + 1)%nat; [destruct (Hts idx); lia|lra|].
    apply total_close; try assumption. intros i Hi. apply (Hnu i Hi).
  - apply IH; [discriminate|rewrite weights_len by assumption; exact Hw|rewrite (step_len c G); exact Hl|exact Hts| | |exact Hrest].
    + apply Forall_nth_double. intros i. now apply weights_double.
    + apply Forall_nth_nonneg. intros i. now apply weights_nonneg.
Qed.
Lemma Sum_close k n f g : (forall i, (i < n)%nat -> close k (f i) (g i)) -> close k (Sum n f) (Sum n g).
Proof. induction n as [|n IH]; intros H; [apply close_0|]. rewrite !Sum_end. apply close_plus; [apply IH; intros; apply H; lia|apply H; lia]. Qed.
(** Proportional up to [k] roundings and normalised up to [m]: close to the normalised values. *)
Lemma proportional_close n k m (f a : nat -> R) C : 0 < C -> (forall i, 0 <= a i) -> 0 < Sum n a -> (forall i, (i < n)%nat -> close k (f i) (C * a i)) -> close m (Sum n f) 1 ->
  forall i, (i < n)%nat -> close (2 * k + m) (f i) (a i / Sum n a).
Proof.
  intros HC Ha HS Hf Hm i Hi. set (A := Sum n a) in *.
  assert (C1 : close (k + m) (C * A) 1).
  { apply close_trans with (Sum n f); [lra| |exact Hm]. apply close_sym. unfold A. rewrite <- Sum_scal. now apply Sum_close. }
  replace (2 * k + m)%nat with (k + (k + m))%nat by lia. pose proof (Ha i) as Hai. assert (Q : 0 <= a i / A) by (apply Rmult_le_pos; [exact Hai|now apply Rlt_le, Rinv_0_lt_compat]).
  apply close_trans with (C * a i); [exact Q|now apply Hf|]. replace (C * a i) with (C * A * (a i / A)) by (field; lra). replace (a i / A) with (1 * (a i / A)) at 2 by ring.
  replace (k + m)%nat with (k + m + 0)%nat by lia. apply close_mult; [lra|exact Q|exact C1|now apply close_refl].
Qed.
End Run.

(** When nothing underflows. *)
Lemma pow_small k : INR k * uro <= / 8 -> (1 + uro) ^ k <= 8 / 7.
Proof.
  intros H. pose proof (bernoulli k) as B. pose proof (upow_pos k) as P. assert (Q : 7 / 8 <= / (1 + uro) ^ k) by lra.
  apply (Rmult_le_compat_r ((1 + uro) ^ k)) in Q; [|lra]. rewrite Rinv_l in Q by lra. lra.
Qed.
Section Sufficient.
Context {O E RND : Type}.
Variables (c : @config O E RND) (rs : nat -> RND) (ts : nat -> stree).
Hypothesis G : good_config c.
Variables (n d : nat) (p : R).
Hypothesis Hts : forall j, sums_all n (ts j) /\ (depth (ts j) <= d)%nat.
Hypothesis Hd : INR (d + 1) * uro <= / 8.
Hypothesis Hp : 8 * eps <= p <= 1.
Hypothesis Hlik : forall o x e, p <= lik (md c) o x e <= 1.
Lemma no_underflow_suff data : forall idx w l k, length w = n -> length l = n -> Forall double w -> (forall i, (i < n)%nat -> k <= nth i w 0) -> 1 / 2 <= Sum n (fun i => nth i w 0) <= 3 / 2 ->
  0 < k -> least_normal <= k * (p / 4) ^ length data -> no_underflow c rs ts idx w l data.
Proof.
  pose proof eps_pos as Ep. pose proof uro_pos as U. pose proof uro_small as Us. assert (LN : 0 < least_normal) by (unfold least_normal; apply Rinv_0_lt_compat, pow_lt; lra).
  induction data as [|[o e] data IH]; intros idx w l k Hw Hl Wd Wk Ws Hk Hb; cbn [no_underflow]; [exact I|]. cbv zeta. set (L := L_row c l o e).
  assert (HL : length L = length w) by (unfold L; rewrite L_row_len; congruence). assert (Ln : Forall (fun x => 0 <= x) L) by (apply L_row_nonneg; exact G).
  destruct (Hts idx) as [Ht0 Hdep]. assert (Ht : sums_all (length w) (ts idx)) by (rewrite Hw; exact Ht0).
  assert (Wn : Forall (fun x => 0 <= x) w) by (apply Forall_nth_nonneg; intros i; destruct (Nat.lt_ge_cases i n) as [H|H]; [specialize (Wk i H); lra|rewrite nth_overflow by lia; lra]).
  assert (Li : forall i, (i < n)%nat -> p <= nth i L 0 <= 1) by (intros i Hi; unfold L; rewrite L_row_nth by lia; apply Hlik).
  cbn [length pow] in Hb. assert (Pw : (p / 4) ^ length data <= 1) by (rewrite <- (pow1 (length data)); apply pow_incr; lra).
  assert (Pw0 : 0 < (p / 4) ^ length data) by (apply pow_lt; lra). assert (Hkp : least_normal <= k * (p / 4)) by (assert (0 < k * (p / 4)) by (apply Rmult_lt_0_compat; lra); nra).
  assert (Nprod : forall i, (i < n)%nat -> k * p <= nth i w 0 * nth i L 0) by (intros i Hi; specialize (Wk i Hi); specialize (Li i Hi); apply Rmult_le_compat; lra).
  assert (Nn : forall i, (i < n)%nat -> normal (nth i w 0 * nth i L 0)) by (intros i Hi; right; specialize (Nprod i Hi); lra).
  destruct (norm_facts (ts idx) w L HL Ht Wn Ln) as (_ & N0 & _ & S0 & Cn). rewrite Hw in S0, Cn. set (N := f_norm (ts idx) w L) in *.
  assert (Ch : close 1 (Sum n (fun i => nth i (f_hyp w L) 0)) (Sum n (fun i => nth i w 0 * nth i L 0))).
  { apply Sum_close. intros i Hi. rewrite hyp_nth by (try assumption; lia). now apply rnd_close, Nn. }
  assert (WL1 : Sum n (fun i => nth i w 0 * nth i L 0) <= 3 / 2).
  { apply Rle_trans with (Sum n (fun i => nth i w 0)); [|lra]. apply Sum_le. intros i Hi. specialize (Wk i Hi). specialize (Li i Hi). nra. }
  assert (WL2 : p / 2 <= Sum n (fun i => nth i w 0 * nth i L 0)).
  { apply Rle_trans with (Sum n (fun i => nth i w 0 * p)); [rewrite Sum_scal_r; nra|]. apply Sum_le. intros i Hi. specialize (Wk i Hi). specialize (Li i Hi). apply Rmult_le_compat_l; lra. }
  assert (WL0 : 0 <= Sum n (fun i => nth i w 0 * nth i L 0)) by lra.
  assert (CN : close (d + 1) N (Sum n (fun i => nth i w 0 * nth i L 0))).
  { apply close_trans with (Sum n (fun i => nth i (f_hyp w L) 0)); [exact WL0| |exact Ch]. apply close_mono with (depth (ts idx)); assumption. }
  pose proof (pow_small (d + 1) Hd) as Ps. pose proof (upow_pos (d + 1)) as Pp. destruct CN as [CN1 CN2].
  set (WL := Sum n (fun i => nth i w 0 * nth i L 0)) in *. assert (NU : N <= 2) by nra. assert (NL : p / 4 <= N) by nra. assert (HN : eps <= N) by lra.
  assert (Np : 0 < N) by lra.
  assert (Hh : forall i, (i < n)%nat -> k * p / (1 + uro) <= nth i (f_hyp w L) 0).
  { intros i Hi. rewrite hyp_nth by (try assumption; lia). destruct (rnd_close _ (Nn i Hi)) as [R1 _]. rewrite pow_1 in R1. specialize (Nprod i Hi).
    apply Rmult_le_reg_r with (1 + uro); [lra|]. replace (k * p / (1 + uro) * (1 + uro)) with (k * p) by (field; lra). lra. }
  assert (Hq : forall i, (i < n)%nat -> k * p / (1 + uro) / 2 <= nth i (f_hyp w L) 0 / N).
  { intros i Hi. specialize (Hh i Hi). assert (0 < k * p / (1 + uro)) by (apply Rdiv_lt_0_compat; [apply Rmult_lt_0_compat; lra|lra]).
    apply Rmult_le_reg_r with N; [exact Np|]. replace (nth i (f_hyp w L) 0 / N * N) with (nth i (f_hyp w L) 0) by (field; lra). nra. }
  assert (Q4 : k * (p / 4) <= k * p / (1 + uro) / 2 / (1 + uro)).
  { replace (k * p / (1 + uro) / 2 / (1 + uro)) with (k * p * / (2 * (1 + uro) * (1 + uro))) by (field; lra). replace (k * (p / 4)) with (k * p * / 4) by field.
    apply Rmult_le_compat_l; [nra|]. apply Rinv_le_contravar; nra. }
  assert (Q5 : k * p / (1 + uro) / 2 / (1 + uro) <= k * p / (1 + uro) / 2).
  { assert (0 < k * p / (1 + uro) / 2) by (apply Rdiv_lt_0_compat; [apply Rdiv_lt_0_compat; [apply Rmult_lt_0_compat; lra|lra]|lra]).
    apply Rmult_le_reg_r with (1 + uro); [lra|]. replace (k * p / (1 + uro) / 2 / (1 + uro) * (1 + uro)) with (k * p / (1 + uro) / 2) by (field; lra). nra. }
  assert (Nq : forall i, (i < n)%nat -> normal (nth i (f_hyp w L) 0 / N)) by (intros i Hi; right; specialize (Hq i Hi); lra).
  split; [exact HN|split; [intros i Hi; split; [apply Nn|apply Nq]; lia|]].
  apply IH with (k * (p / 4)).
  - rewrite weights_len by assumption. exact Hw.
  - rewrite (step_len c G). exact Hl.
  - apply Forall_nth_double. intros i. now apply weights_double.
  - intros i Hi. pose proof (weights_close (ts idx) w L HL (fun j Hj => Nq j ltac:(lia)) i HN ltac:(lia)) as [C1 _]. rewrite pow_1 in C1. fold N in C1. specialize (Hq i Hi).
    apply Rle_trans with (1 := Q4). apply Rmult_le_reg_r with (1 + uro); [lra|]. replace (k * p / (1 + uro) / 2 / (1 + uro) * (1 + uro)) with (k * p / (1 + uro) / 2) by (field; lra). lra.
  - assert (T : close (d + 1) (Sum n (fun i => nth i (f_weights (ts idx) w L) 0)) 1).
    { rewrite <- Hw at 1. apply close_mono with (depth (ts idx) + 1)%nat; [lia|lra|]. apply total_close; try assumption. intros i Hi. apply Nq. lia. }
    destruct T as [T1 T2]. nra.
  - apply Rmult_lt_0_compat; lra.
  - replace (k * (p / 4) * (p / 4) ^ length data) with (k * (p / 4 * (p / 4) ^ length data)) by ring. exact Hb.
Qed.
End Sufficient.

(** Locations and normalisations of a run. *)
Section Norms.
Context {O E RND : Type}.
Variables (c : @config O E RND) (rs : nat -> RND) (ts : nat -> stree).
Hypothesis G : good_config c.
Hypothesis Hz : zthresh c < 1.
Fixpoint locs_after (idx : nat) (l : list loc) (data : list (O * E)) : list loc :=
  match data with [] => l | (o, e) :: data' => locs_after (S idx) (timestep (md c) (rs idx) l e) data' end.
Lemma locs_after_len data : forall idx l, length (locs_after idx l data) = length l.
Proof. induction data as [|[o e] data IH]; intros idx l; [reflexivity|]. cbn. rewrite IH. apply (step_len c G). Qed.
Lemma locs_after_run data : forall idx s, full_inv s -> regular c rs idx data s -> ls (run c s (updates rs idx data)) = locs_after idx (ls s) data.
Proof.
  induction data as [|[o e] data IH]; intros idx s Hi Hr; [reflexivity|]. rewrite run_updates_cons. cbn [regular] in Hr. destruct Hr as [He Hr].
  pose proof (update_regular_inv c (rs idx) s o e G Hz Hi He) as I2. rewrite IH by assumption. cbn [locs_after]. f_equal.
  destruct Hi as [HL [Hw _]]. rewrite update_regular by (auto; apply (lik_nonneg c G)). now rewrite install_nocheck.
Qed.
Lemma f_run_snoc o e data : forall idx w l, f_run c rs ts idx w l (data ++ [(o, e)]) =
  let w' := fst (f_run c rs ts idx w l data) in let l' := locs_after idx l data in let t := ts (idx + length data)%nat in
  (f_weights t w' (L_row c l' o e), snd (f_run c rs ts idx w l data) ++ [f_norm t w' (L_row c l' o e)]).
Proof.
  induction data as [|[o' e'] data IH]; intros idx w l.
  - cbn. rewrite Nat.add_0_r. reflexivity.
  - cbn [app f_run]. rewrite IH. cbv zeta. destruct (f_run c rs ts (S idx) (f_weights (ts idx) w (L_row c l o' e')) (timestep (md c) (rs idx) l e') data) as [w' Ns].
    cbn [fst snd locs_after length app]. rewrite Nat.add_succ_r. reflexivity.
Qed.
Lemma no_underflow_snoc o e data : forall idx w l, no_underflow c rs ts idx w l (data ++ [(o, e)]) ->
  no_underflow c rs ts idx w l data /\ let w' := fst (f_run c rs ts idx w l data) in let L := L_row c (locs_after idx l data) o e in
  forall i, (i < length w')%nat -> normal (nth i w' 0 * nth i L 0).
Proof.
  induction data as [|[o' e'] data IH]; intros idx w l H; cbn [app no_underflow] in H |- *.
  - split; [exact I|]. cbn. intros i Hi. now apply H.
  - cbv zeta in *. destruct H as (H1 & H2 & H3). apply IH in H3. destruct H3 as [H3 H4]. split; [split; [exact H1|split; [exact H2|exact H3]]|].
    rewrite f_run_cons. exact H4.
Qed.
End Norms.
Lemma rnd_signed x : normal (Rabs x) -> Rabs (rnd x - x) <= uro * Rabs x /\ Rabs (rnd x) <= (1 + uro) * Rabs x.
Proof.
  intros Hn. assert (A : Rabs (rnd x - x) <= uro * Rabs x).
  { destruct Hn as [H|H].
    - apply Rabs_eq_R0 in H. subst. rewrite rnd_0, Rminus_0_r, Rabs_R0. lra.
    - pose proof (relative_error_N_FLT radix2 (-1074) 53 p53b (fun x => negb (Z.even x)) x) as R1. unfold least_normal in H.
      assert (B : bpow radix2 (-1074 + 53 - 1) <= Rabs x). { change (-1074 + 53 - 1)%Z with (-1022)%Z. rewrite bpow_powerRZ. unfold powerRZ. change (Pos.to_nat 1022) with 1022%nat. exact H. }
      specialize (R1 B). unfold rnd. replace uro with (/ 2 * bpow radix2 (- (53) + 1)); [exact R1|]. unfold uro. rewrite bpow_powerRZ. change (-(53) + 1)%Z with (-52)%Z. unfold powerRZ. change (Pos.to_nat 52) with 52%nat.
      change (IZR radix2) with 2. change 53%nat with (1 + 52)%nat. rewrite pow_add, pow_1, Rinv_mult. reflexivity. }
  split; [exact A|]. replace (rnd x) with ((rnd x - x) + x) by ring. eapply Rle_trans; [apply Rabs_triang|]. lra.
Qed.
Lemma Sum_Rabs n f : Rabs (Sum n f) <= Sum n (fun i => Rabs (f i)).
Proof. induction n as [|n IH]; [cbn; rewrite Rabs_R0; lra|]. rewrite !Sum_end. eapply Rle_trans; [apply Rabs_triang|lra]. Qed.
