(** C120: rounding errors of sums, Bayes updates and whole runs of the updater in double arithmetic. *)
From Flocq Require Import Core.
From Coq Require Import List ZArith Permutation Lia Lra Psatz.
From Verif Require Import Base RList Ext Sums SmcModel SmcSpec SmcProofs SmcProofs2 LearnSpec LearnProofs CountProofs CountProps RateProps FltModel FltSpec FltSpec2 FltProofs FltProofs2.
Import ListNotations.

(** np.sum of non-negative doubles in whatever order: a double, no less than any entry, off by at most as many roundings as the deepest entry
    goes through (n - 1 one after the other, about log2 n pairwise). *)
Theorem c120_sum n t f : sums_all n t -> (forall i, double (f i)) -> (forall i, 0 <= f i) ->
  double (fsum t f) /\ (forall i, (i < n)%nat -> f i <= fsum t f) /\ close (depth t) (fsum t f) (Sum n f).
Proof.
  intros H Hd Hn. destruct (fsum_facts f t (fun i _ => Hd i) (fun i _ => Hn i)) as (A1 & _ & A3 & _ & A5). rewrite (sums_all_Sum _ _ _ H) in A5.
  split; [exact A1|split; [|exact A5]]. intros i Hi. now apply A3, (sums_all_in n).
Qed.
(** One update whose normalisation is at least machine epsilon: the new weights are doubles between 0 and 1 and particles that cannot have
    produced the outcome get weight exactly 0. *)
Theorem c120_weights t w L : length L = length w -> sums_all (length w) t -> Forall (fun x => 0 <= x) w -> Forall (fun x => 0 <= x) L -> eps <= f_norm t w L ->
  length (f_weights t w L) = length w /\ Forall double (f_weights t w L) /\ Forall (fun x => 0 <= x <= 1) (f_weights t w L) /\
  (forall i, nth i w 0 * nth i L 0 = 0 -> nth i (f_weights t w L) 0 = 0).
Proof.
  intros HL Ht Wn Ln HN. split; [now apply weights_len|split; [|split]].
  - apply Forall_nth_double. intros i. now apply weights_double.
  - apply Forall_forall. intros x Hx. destruct (In_nth _ _ 0 Hx) as (i & _ & <-). split; [now apply weights_nonneg|now apply weights_le1].
  - intros i H0. destruct (Nat.lt_ge_cases i (length w)) as [Hi|Hi]; [|apply nth_overflow; rewrite weights_len by assumption; lia].
    rewrite weights_nth, hyp_nth, H0, rnd_0 by assumption. unfold Rdiv. rewrite Rmult_0_l. apply rnd_0.
Qed.
(** Their exact total is one up to the roundings of sum and division and up to half the least double for each particle. *)
Theorem c120_total t w L : length L = length w -> sums_all (length w) t -> Forall (fun x => 0 <= x) w -> Forall (fun x => 0 <= x) L -> eps <= f_norm t w L ->
  let s := Sum (length w) (fun i => nth i (f_weights t w L) 0) in
  s <= (1 + uro) ^ (depth t + 1) + INR (length w) * half_least /\ 1 <= (s + INR (length w) * half_least) * (1 + uro) ^ (depth t + 1).
Proof. intros. now apply total_any. Qed.
(** So no rounding makes a normalised cloud look as if all its weights were zero: their sum in double arithmetic exceeds 1/2. *)
Theorem c120_not_taken_for_zero t t2 w L : length L = length w -> sums_all (length w) t -> sums_all (length w) t2 -> Forall (fun x => 0 <= x) w -> Forall (fun x => 0 <= x) L ->
  eps <= f_norm t w L -> INR (depth t + 1 + depth t2) * uro <= / 8 -> INR (length w) * half_least <= / 8 ->
  1 / 2 < fsum t2 (fun i => nth i (f_weights t w L) 0).
Proof.
  intros HL Ht Ht2 Wn Ln HN Hk Hh. destruct (total_any t w L HL Ht Wn Ln HN) as [_ T].
  destruct (c120_sum (length w) t2 (fun i => nth i (f_weights t w L) 0) Ht2) as (_ & _ & C1 & _); [intros; now apply weights_double|intros; now apply weights_nonneg|].
  set (s := Sum (length w) (fun i => nth i (f_weights t w L) 0)) in *. set (x := fsum t2 _) in *.
  pose proof (pow_small _ Hk) as P. rewrite pow_add in P. pose proof (upow_ge1 (depth t + 1)). pose proof (upow_ge1 (depth t2)).
  set (a := (1 + uro) ^ (depth t + 1)) in *. set (b := (1 + uro) ^ depth t2) in *. clearbody a b s x. set (h := INR (length w) * half_least) in *. clearbody h.
  assert (Ha : a <= 8 / 7) by nra. assert (1 <= x * b * a + h * a) by nra. assert (h * a <= 1 / 7) by nra.
  assert (6 / 7 <= x * (a * b)) by nra. assert (AB : 1 <= a * b) by nra. destruct (Rle_lt_dec x (1 / 2)) as [Hx|Hx]; [exfalso|exact Hx]. assert (x * (a * b) <= 1 / 2 * (8 / 7)) by (apply Rle_trans with (1 / 2 * (a * b)); [apply Rmult_le_compat_r|apply Rmult_le_compat_l]; lra). lra.
Qed.
(** A normalisation below machine epsilon counts as one: the products stay as they are. *)
Theorem c120_below_eps t w L : length L = length w -> Rabs (f_norm t w L) < eps -> f_weights t w L = f_hyp w L.
Proof.
  intros HL H. unfold f_weights, f_fix. destruct (Rltb_spec (Rabs (f_norm t w L)) eps); [|lra]. rewrite <- (map_id (f_hyp w L)) at 2. apply map_ext_in. intros x Hx.
  unfold Rdiv. rewrite Rinv_1, Rmult_1_r. apply rnd_id. unfold f_hyp in Hx. clear - Hx. revert L Hx. induction w as [|a w IH]; intros [|b L] Hx; cbn in Hx; try easy. destruct Hx as [<-|Hx]; [apply rnd_double|now apply (IH L)].
Qed.

Section Runs.
Context {O E RND : Type}.
Variables (c : @config O E RND) (rs : nat -> RND) (ts : nat -> stree).
(** After n updates each weight agrees with its exact value up to 4n + d + 1 roundings, where d is the depth of the sums. *)
Theorem c120_run s w data d : good_config c -> zthresh c < 1 -> full_inv s -> regular c rs 0 data s -> data <> [] ->
  length w = n_particles s -> Forall double w -> (exists C, 0 < C /\ forall i, nth i w 0 = C * wt s i) ->
  (forall j, sums_all (n_particles s) (ts j) /\ (depth (ts j) <= d)%nat) -> no_underflow c rs ts 0 w (ls s) data ->
  let w' := fst (f_run c rs ts 0 w (ls s) data) in
  length w' = n_particles s /\ Forall double w' /\
  forall i, (i < n_particles s)%nat -> close (4 * length data + d + 1) (nth i w' 0) (wt (run c s (updates rs 0 data)) i).
Proof.
  intros G Hz Hi Hr Hne Hw Wd (C & HC & HwC) Hts Hu. set (n := n_particles s) in *.
  assert (W0 : forall i, 0 <= wt s i). { intros i. destruct Hi as [_ [Hi _]]. destruct (Nat.lt_ge_cases i (length (ws s))) as [H|H]; [|unfold wt; rewrite nth_overflow by assumption; lra]. rewrite Forall_forall in Hi. now apply Hi, nth_In. }
  assert (Wn : Forall (fun x => 0 <= x) w) by (apply Forall_nth_nonneg; intros i; rewrite HwC; specialize (W0 i); nra).
  assert (Hl : length (ls s) = n) by reflexivity.
  destruct (run_proportional c rs ts G n data 0%nat w (ls s) (wt s) 0%nat C Hw Hl (fun j => proj1 (Hts j)) Wd Wn HC W0 (fun i _ => eq_ind_r (fun x => close 0 x (C * wt s i)) (close_refl 0 (C * wt s i) ltac:(specialize (W0 i); nra)) (HwC i)) Hu) as (R1 & R2 & _ & C' & R4 & R5).
  cbv zeta. split; [exact R1|split; [exact R2|]]. pose proof (run_total c rs ts G n d data Hne 0%nat w (ls s) Hw Hl Hts Wd Wn Hu) as T.
  destruct (predictive_recorded c rs s data G Hz Hi Hr) as (Ns & _ & P1 & P2 & P3). rewrite P1 in P2. intros i Hin.
  replace (4 * length data + d + 1)%nat with (2 * (0 + 2 * length data) + (d + 1))%nat by lia.
  replace (wt (run c s (updates rs 0 data)) i) with (wt s i * path_lik c rs 0 data (ls s) i / predictive c rs s data) by (rewrite <- (P3 i Hin); field; lra).
  apply (proportional_close n (0 + 2 * length data) (d + 1) (fun j => nth j (fst (f_run c rs ts 0 w (ls s) data)) 0) (fun j => wt s j * path_lik c rs 0 data (ls s) j) C'); try assumption.
  intros j. apply Rmult_le_pos; [apply W0|now apply path_nonneg].
Qed.
(** The normalisation recorded by the next update agrees with the exact probability of its outcome. *)
Theorem c120_normalisation s w data o e d : good_config c -> zthresh c < 1 -> full_inv s -> regular c rs 0 data s -> data <> [] ->
  length w = n_particles s -> Forall double w -> (exists C, 0 < C /\ forall i, nth i w 0 = C * wt s i) ->
  (forall j, sums_all (n_particles s) (ts j) /\ (depth (ts j) <= d)%nat) -> no_underflow c rs ts 0 w (ls s) (data ++ [(o, e)]) ->
  exists Ns N, snd (f_run c rs ts 0 w (ls s) (data ++ [(o, e)])) = Ns ++ [N] /\ length Ns = length data /\
    close (4 * length data + 2 * d + 2) N (evidence c (run c s (updates rs 0 data)) o e).
Proof.
  intros G Hz Hi Hr Hne Hw Wd HC Hts Hu. apply no_underflow_snoc in Hu. destruct Hu as [Hu Hn]. cbv zeta in Hn.
  destruct (c120_run s w data d G Hz Hi Hr Hne Hw Wd HC Hts Hu) as (R1 & R2 & R3). rewrite f_run_snoc. cbv zeta. cbn [fst snd]. eexists _, _. split; [reflexivity|split].
  - clear. generalize 0%nat. revert w. generalize (ls s). induction data as [|[o e] data IH]; intros l w idx; [reflexivity|]. cbn [f_run]. specialize (IH (timestep (md c) (rs idx) l e) (f_weights (ts idx) w (L_row c l o e)) (S idx)).
    destruct (f_run c rs ts (S idx) _ _ data) as [w' Ns]. cbn in IH |- *. now rewrite IH.
  - cbn [Nat.add]. set (w' := fst (f_run c rs ts 0 w (ls s) data)) in *. set (l' := locs_after c rs 0 (ls s) data) in *. set (L := L_row c l' o e) in *. set (b := run c s (updates rs 0 data)) in *.
    assert (Lb : ls b = l') by (unfold b, l'; now apply locs_after_run). assert (Ll : length l' = n_particles s) by (unfold l'; rewrite (locs_after_len c rs G); reflexivity).
    assert (HL : length L = length w') by (unfold L; rewrite L_row_len; congruence).
    assert (Ib : full_inv b) by (unfold b; apply (run_regular c rs G Hz data 0%nat s Hi Hr)).
    assert (Wb : forall i, 0 <= wt b i). { intros i. destruct Ib as [_ [H _]]. destruct (Nat.lt_ge_cases i (length (ws b))) as [Hj|Hj]; [|unfold wt; rewrite nth_overflow by assumption; lra]. rewrite Forall_forall in H. now apply H, nth_In. }
    assert (Wn : Forall (fun x => 0 <= x) w'). { apply Forall_nth_nonneg. intros i. destruct (Nat.lt_ge_cases i (n_particles s)) as [Hj|Hj]; [|rewrite nth_overflow by lia; lra]. apply (close_nonneg _ _ _ (R3 i Hj) (Wb i)). }
    assert (Ln : Forall (fun x => 0 <= x) L) by (apply L_row_nonneg; exact G).
    destruct (Hts (length data)) as [Ht Hd]. assert (Ht' : sums_all (length w') (ts (length data))) by (rewrite R1; exact Ht).
    destruct (norm_facts (ts (length data)) w' L HL Ht' Wn Ln) as (_ & _ & _ & S0 & CN).
    unfold evidence. replace (n_particles b) with (n_particles s) by (unfold n_particles; rewrite Lb; symmetry; exact Ll). rewrite R1 in CN, S0.
    assert (Ev : 0 <= Sum (n_particles s) (fun i => wt b i * lik (md c) o (at_ b i) e)) by (apply Sum_nonneg; intros i _; apply Rmult_le_pos; [apply Wb|apply (lik_nonneg c G)]).
    apply close_mono with (d + (4 * length data + d + 1 + 1))%nat; [lia|exact Ev|].
    apply close_trans with (Sum (n_particles s) (fun i => nth i (f_hyp w' L) 0)); [exact Ev|apply close_mono with (depth (ts (length data))); assumption|].
    apply Sum_close. intros i Hin. rewrite hyp_nth by (try assumption; lia). assert (Eq : nth i L 0 = lik (md c) o (at_ b i) e) by (unfold L, at_; rewrite L_row_nth by lia; now rewrite Lb).
    replace (4 * length data + d + 1 + 1)%nat with (1 + (4 * length data + d + 1 + 0))%nat by lia. pose proof (lik_nonneg c G o (at_ b i) e) as Lk.
    apply close_trans with (nth i w' 0 * nth i L 0); [apply Rmult_le_pos; [apply Wb|exact Lk]|apply rnd_close, Hn; lia|]. rewrite Eq. apply close_mult; [apply Wb|exact Lk|now apply R3|now apply close_refl].
Qed.
(** A condition under which nothing underflows: likelihoods between p and 1, weights no smaller than k, and k (p/4)^n a normal number. *)
Theorem c120_no_underflow n d p k w l data : good_config c -> (forall j, sums_all n (ts j) /\ (depth (ts j) <= d)%nat) -> INR (d + 1) * uro <= / 8 ->
  8 * eps <= p <= 1 -> (forall o x e, p <= lik (md c) o x e <= 1) -> length w = n -> length l = n -> Forall double w -> (forall i, (i < n)%nat -> k <= nth i w 0) ->
  1 / 2 <= Sum n (fun i => nth i w 0) <= 3 / 2 -> 0 < k -> least_normal <= k * (p / 4) ^ length data -> no_underflow c rs ts 0 w l data.
Proof. intros. now apply (no_underflow_suff c rs ts H n d p) with (k := k). Qed.
End Runs.

(** Effective sample size: close to 1 / sum of squares and, up to the same roundings, between 1 and the number of particles. *)
Theorem c120_ness t w m : sums_all (length w) t -> Forall (fun x => 0 <= x) w -> (forall i, normal (nth i w 0 * nth i w 0)) ->
  close m (Sum (length w) (fun i => nth i w 0)) 1 -> INR (2 * m + depth t + 1) * uro <= / 8 ->
  let k := (depth t + 2)%nat in
  close k (f_ness t w) (1 / Sum (length w) (fun i => nth i w 0 * nth i w 0)) /\
  1 <= f_ness t w * (1 + uro) ^ (2 * m + k) /\ f_ness t w <= INR (length w) * (1 + uro) ^ (2 * m + k).
Proof.
  intros Ht Wn Hs Hm Hk. cbv zeta. set (n := length w) in *. set (x := fun i => nth i w 0) in *. set (S1 := Sum n x) in *. set (S2 := Sum n (fun i => x i * x i)) in *.
  assert (X0 : forall i, 0 <= x i). { intros i. unfold x. destruct (Nat.lt_ge_cases i n) as [H|H]; [|rewrite nth_overflow by assumption; lra]. rewrite Forall_forall in Wn. now apply Wn, nth_In. }
  assert (A1 : S2 <= S1 * S1).
  { unfold S1. rewrite <- Sum_scal_r. apply Sum_le. intros i Hi. apply Rmult_le_compat_l; [apply X0|]. 
    clear - Hi X0. revert Hi. generalize n as k. induction k as [|k IH]; intros Hi; [lia|]. rewrite Sum_end. assert (Hn : 0 <= Sum k x) by (apply Sum_nonneg; intros; apply X0).
    destruct (Nat.eq_dec i k) as [->|]; [lra|]. specialize (IH ltac:(lia)). specialize (X0 k). lra. }
  assert (A2 : S1 * S1 <= INR n * S2).
  { pose proof (cauchy_schwarz (fun _ => 1) x (fun _ => 1) (seq 0 n) (fun _ _ => Rle_0_1)) as CS. unfold S1, S2. rewrite !Sum_rsum.
    assert (Cst : forall l : list nat, rsum (map (fun _ => 1 * (1 * 1)) l) = INR (length l)) by (induction l as [|a l IH]; [reflexivity|]; cbn [map]; rewrite rsum_cons, IH; cbn [length]; rewrite S_INR; ring).
    rewrite Cst, seq_length in CS. replace (map (fun i => 1 * (x i * 1)) (seq 0 n)) with (map x (seq 0 n)) in CS by (apply map_ext; intros; ring).
    replace (map (fun i => 1 * (x i * x i)) (seq 0 n)) with (map (fun i => x i * x i) (seq 0 n)) in CS by (apply map_ext; intros; ring). lra. }
  assert (S1p : 0 < S1) by (apply (close_pos m S1 1 Hm); lra). assert (NN : 0 <= INR n) by apply pos_INR.
  assert (S20 : 0 <= S2) by (apply Sum_nonneg; intros; apply Rmult_le_pos; apply X0). assert (S2p : 0 < S2) by nra.
  destruct (c120_sum n t (fun i => rnd (x i * x i)) Ht) as (_ & _ & C1); [intros; apply rnd_double|intros; apply rnd_nonneg, Rmult_le_pos; apply X0|].
  assert (C2 : close (depth t + 1) (fsum t (fun i => rnd (x i * x i))) S2) by (apply close_trans with (2 := C1); [lra|]; apply Sum_close; intros i _; apply rnd_close, Hs).
  set (q := fsum t (fun i => rnd (x i * x i))) in *. pose proof (close_pos _ _ _ C2 S2p) as Qp.
  assert (Pm : (1 + uro) ^ m * ((1 + uro) ^ m * (1 + uro) ^ (depth t + 1)) <= 8 / 7) by (rewrite <- !pow_add; replace (m + (m + (depth t + 1)))%nat with (2 * m + depth t + 1)%nat by lia; now apply pow_small).
  assert (Q2 : q <= 2).
  { destruct C2 as [_ C2]. destruct Hm as [_ Hm]. pose proof (upow_pos m). pose proof (upow_pos (depth t + 1)).
    apply Rle_trans with (1 := C2). apply Rle_trans with (((1 + uro) ^ m * (1 + uro) ^ m) * (1 + uro) ^ (depth t + 1)); [|lra].
    apply Rmult_le_compat_r; [lra|]. apply Rle_trans with (1 := A1). apply Rmult_le_compat; lra. }
  assert (C3 : close (depth t + 2) (f_ness t w) (1 / S2)).
  { replace (depth t + 2)%nat with (1 + (0 + (depth t + 1)))%nat by lia. apply close_trans with (1 / q); [apply Rlt_le, Rdiv_lt_0_compat; lra| |apply close_div; [lra|exact S2p|apply close_refl; lra|exact C2]].
    unfold f_ness. apply rnd_close. right. unfold least_normal, Rdiv. rewrite Rmult_1_l. apply Rinv_le_contravar; [exact Qp|]. apply Rle_trans with (1 := Q2). replace 2 with (2 ^ 1) at 1 by ring. apply Rle_pow; [lra|lia]. }
  split; [exact C3|]. rewrite pow_add. pose proof (upow_pos (depth t + 2)) as PD. pose proof (upow_pos m) as PM. replace (2 * m)%nat with (m + m)%nat by lia. rewrite pow_add.
  assert (I2 : / S2 * S2 = 1) by (field; lra). assert (IS : 0 < / S2) by now apply Rinv_0_lt_compat. destruct C3 as [C3 C4]. destruct Hm as [M1 M2].
  set (a := (1 + uro) ^ m) in *. set (b := (1 + uro) ^ (depth t + 2)) in *. set (f := f_ness t w) in *. unfold Rdiv in C3, C4. rewrite Rmult_1_l in C3, C4. clearbody a b f. split.
  - assert (1 <= (a * a) * / S2). { apply Rmult_le_reg_r with S2; [exact S2p|]. rewrite Rmult_assoc, I2. assert (S1 * S1 <= a * a) by (apply Rmult_le_compat; lra). lra. }
    apply Rle_trans with (1 := H). replace (f * (a * a * b)) with ((a * a) * (f * b)) by ring. apply Rmult_le_compat_l; [nra|exact C3].
  - assert (/ S2 <= INR n * (a * a)). { apply Rmult_le_reg_r with S2; [exact S2p|]. rewrite I2. apply Rle_trans with ((S1 * a) * (S1 * a)); [apply Rle_trans with (1 * 1); [lra|apply Rmult_le_compat; lra]|].
      replace (S1 * a * (S1 * a)) with ((S1 * S1) * (a * a)) by ring. replace (INR n * (a * a) * S2) with (INR n * S2 * (a * a)) by ring. apply Rmult_le_compat_r; [nra|exact A2]. }
    apply Rle_trans with (1 := C4). replace (INR n * (a * a * b)) with (INR n * (a * a) * b) by ring. apply Rmult_le_compat_r; lra.
Qed.

(** Posterior mean (distributions.py:337-348), one component: a dot product of weights and locations of any sign. *)
Theorem c120_mean n t (w x : nat -> R) : sums_all n t -> (forall i, 0 <= w i) -> (forall i, normal (Rabs (w i * x i))) ->
  Rabs (fsum t (fun i => rnd (w i * x i)) - Sum n (fun i => w i * x i)) <= ((1 + uro) ^ (depth t + 1) - 1) * Sum n (fun i => w i * Rabs (x i)).
Proof.
  intros Ht Hw Hn. pose proof uro_pos as U. assert (Rp : forall i, Rabs (rnd (w i * x i) - w i * x i) <= uro * (w i * Rabs (x i)) /\ Rabs (rnd (w i * x i)) <= (1 + uro) * (w i * Rabs (x i))).
  { intros i. assert (A : Rabs (w i * x i) = w i * Rabs (x i)) by (rewrite Rabs_mult, (Rabs_pos_eq (w i)) by apply Hw; reflexivity). rewrite <- A. apply rnd_signed, Hn. }
  destruct (fsum_signed (fun i => rnd (w i * x i)) t (fun i _ => rnd_double _)) as [_ B]. rewrite !(sums_all_Sum n) in B by assumption.
  set (Q := Sum n (fun i => w i * Rabs (x i))). pose proof (upow_ge1 (depth t)) as P1.
  assert (D1 : Rabs (Sum n (fun i => rnd (w i * x i)) - Sum n (fun i => w i * x i)) <= uro * Q).
  { unfold Q. rewrite <- Sum_minus, <- Sum_scal. eapply Rle_trans; [apply Sum_Rabs|]. apply Sum_le. intros i _. apply Rp. }
  assert (D2 : Sum n (fun i => Rabs (rnd (w i * x i))) <= (1 + uro) * Q) by (unfold Q; rewrite <- Sum_scal; apply Sum_le; intros i _; apply Rp).
  set (a := fsum t (fun i => rnd (w i * x i))) in *. set (b := Sum n (fun i => rnd (w i * x i))) in *. set (z := Sum n (fun i => w i * x i)) in *.
  replace (a - z) with ((a - b) + (b - z)) by ring. eapply Rle_trans; [apply Rabs_triang|]. rewrite pow_add, pow_1.
  assert (D3 : Rabs (a - b) <= ((1 + uro) ^ depth t - 1) * ((1 + uro) * Q)) by (apply Rle_trans with (1 := B); apply Rmult_le_compat_l; lra). lra.
Qed.

(** Two coins (RateProps) and any record of up to a hundred tosses: nothing underflows, so the weights agree with the exact ones up to 4n + 2 roundings. *)
Example c120_example data : (0 < length data <= 100)%nat ->
  forall i, (i < 2)%nat -> close (4 * length data + 2) (nth i (fst (f_run (ex_config coin) (fun _ => tt) (fun _ => SNode (SLeaf 0) (SLeaf 1)) 0 [1 / 2; 1 / 2] [[0]; [1]] data)) 0)
    (wt (run (ex_config coin) ex_state (updates (fun _ => tt) 0 data)) i).
Proof.
  intros [H1 H2] i Hi. assert (G : good_config (ex_config coin)) by (apply ex_good; intros o x e; pose proof (coin_low o x e); lra).
  assert (F : full_inv (@ex_state Z)) by (split; [reflexivity|split; [repeat constructor; lra|cbn; rewrite !rsum_cons, rsum_nil; lra]]).
  assert (Ep : eps <= 1/1024). { unfold eps. replace (1/1024) with (/ 2 ^ 10) by lra. apply Rinv_le_contravar; [apply pow_lt; lra|]. apply Rle_pow; [lra|lia]. }
  assert (D : double (1 / 2)) by (exists 1%Z, (-1)%Z; split; [unfold powerRZ; change (Pos.to_nat 1) with 1%nat; rewrite pow_1; lra|split; reflexivity || lia]).
  assert (Ts : forall j : nat, sums_all 2 (SNode (SLeaf 0) (SLeaf 1)) /\ (depth (SNode (SLeaf 0) (SLeaf 1)) <= 1)%nat) by (intros; split; [apply Permutation_refl|reflexivity]).
  replace (4 * length data + 2)%nat with (4 * length data + 1 + 1)%nat by lia.
  apply (c120_run (ex_config coin) (fun _ => tt) (fun _ => SNode (SLeaf 0) (SLeaf 1)) ex_state [1 / 2; 1 / 2] data 1); try assumption; try reflexivity.
  - cbn. lra.
  - apply regular_bounded; [assumption|cbn; lra| |assumption]. intros o e x _. cbn. pose proof (coin_low o x e). lra.
  - destruct data; [cbn in H1; lia|discriminate].
  - repeat constructor; exact D.
  - exists 1. split; [lra|]. intros j. unfold wt. cbn [ws ex_state]. ring.
  - apply (c120_no_underflow (ex_config coin) (fun _ => tt) (fun _ => SNode (SLeaf 0) (SLeaf 1)) 2 1 (1/10) (1/2)); try assumption; try reflexivity; try lra.
    + pose proof uro_small. cbn. lra.
    + intros o x e. cbn. split; [apply coin_low|]. unfold coin. destruct x as [|a [|b x]]; try lra. destruct (Rltb a (1/2)), (Z.eqb o 1); lra.
    + repeat constructor; exact D.
    + intros [|[|j]] Hj; cbn; try lra; lia.
    + rewrite Sum_rsum. cbn [seq map nth]. rewrite !rsum_cons, rsum_nil. lra.
    + unfold least_normal. apply Rle_trans with (/ 2 ^ 601).
      * apply Rinv_le_contravar; [apply pow_lt; lra|]. apply Rle_pow; [lra|lia].
      * replace (/ 2 ^ 601) with (1 / 2 * (/ 2 ^ 6) ^ 100) by (rewrite pow_inv, <- pow_mult; change (6 * 100)%nat with 600%nat; change 601%nat with (1 + 600)%nat; rewrite pow_add, pow_1, Rinv_mult; lra).
        apply Rmult_le_compat_l; [lra|]. apply Rle_trans with ((1 / 10 / 4) ^ 100); [apply pow_incr; lra|].
        replace 100%nat with (length data + (100 - length data))%nat at 1 by lia. rewrite pow_add. rewrite <- (Rmult_1_r ((1 / 10 / 4) ^ length data)) at 2. apply Rmult_le_compat_l; [apply pow_le; lra|].
        apply Rle_trans with (1 ^ (100 - length data)); [apply pow_incr; lra|rewrite pow1; lra].
Qed.
Print Assumptions c120_sum.
Print Assumptions c120_weights.
Print Assumptions c120_total.
Print Assumptions c120_not_taken_for_zero.
Print Assumptions c120_below_eps.
Print Assumptions c120_run.
Print Assumptions c120_normalisation.
Print Assumptions c120_no_underflow.
Print Assumptions c120_ness.
Print Assumptions c120_mean.
