(** Proofs about the estimators of simple_est.py. *)
From Coq Require Import String.
From Verif Require Import Base RList Ext SmcModel SmcSpec SmcProofs SmcProofs2 SimpleModel.
From Coq Require Import List.

Section Batch.
Context {O E RND : Type}.
Notation state := (@state O).
Notation config := (@config O E RND).
Implicit Types (c : config) (s : state).

(** Likelihood of a whole data set at one location *)
Definition total_lik c (x : loc) (data : list (O * E)) : R := rprod (map (fun p => lik (md c) (fst p) x (snd p)) data).

Lemma maybe_count c r s : (fst (maybe_resample c r s) = s /\ maybe_resample c r s = (s, None)) \/ rcnt (fst (maybe_resample c r s)) = S (rcnt s).
Proof. unfold maybe_resample. destruct (xltb _ _); [right; apply resample_count|left; now split]. Qed.
Lemma batch_count c rs k data : forall idx s, (rcnt s <= rcnt (fst (batch_loop c rs k idx data s)))%nat.
Proof.
  intros idx s. set (m := rcnt s). apply (batch_loop_ind c (fun t => (m <= rcnt t)%nat)); [| |lia].
  - intros r t o e H. now rewrite (proj1 (update_nocheck_counters c r t o e)).
  - intros r t H. destruct (maybe_count c r t) as [[-> _]| ->]; lia.
Qed.
Lemma no_error_evidence c r s o e s1 : zpolicy c = PError -> eps <= zthresh c -> (forall o x e, 0 <= lik (md c) o x e) ->
  length (ws s) = length (ls s) -> Forall (fun x => 0 <= x) (ws s) -> update c r s o e false = (s1, None) -> eps <= evidence c s o e.
Proof.
  intros Hp Ht HL Hlen Hw H. destruct (Rle_lt_dec eps (evidence c s o e)) as [Hle|Hlt]; [assumption|exfalso].
  assert (H0 : 0 <= evidence c s o e). { rewrite <- norm_scale_evidence by assumption. apply rsum_nonneg, hyp_row_nonneg; assumption. }
  rewrite update_unfold, Hlen, Nat.eqb_refl in H. cbv zeta in H. unfold new_weights in H. rewrite clip_negative_id in H by now apply norm_row_nonneg.
  rewrite norm_row_sum_small in H by (rewrite norm_scale_evidence by assumption; lra).
  rewrite Rleb_true, Hp in H; [discriminate|]. fold (norm_scale c (ws s) (ls s) o e). rewrite norm_scale_evidence by assumption. lra.
Qed.

Lemma batch_bayes c rs : zpolicy c = PError -> eps <= zthresh c -> zthresh c < 1 -> (forall o x e, 0 <= lik (md c) o x e) -> (forall r l e, timestep (md c) r l e = l) ->
  forall data idx s s', length (ws s) = length (ls s) -> Forall (fun x => 0 <= x) (ws s) -> rsum (ws s) = 1 ->
  batch_loop c rs 1 idx data s = (s', None) -> rcnt s' = rcnt s ->
  ls s' = ls s /\ length (ws s') = length (ls s) /\ rsum (ws s') = 1 /\
  exists k, 0 < k /\ forall i, (i < n_particles s)%nat -> wt s' i = k * (wt s i * total_lik c (at_ s i) data).
Proof.
  intros Hp Ht Ht1 HL Hid. induction data as [|[o e] data IH]; intros idx s s' Hlen Hw Hs Hb Hr.
  - injection Hb as <-. repeat split; auto. exists 1. split; [lra|]. intros i _. unfold total_lik. cbn. unfold rprod; cbn. ring.
  - cbn [batch_loop] in Hb. destruct (update c (rs idx) s o e false) as [s1 [x|]] eqn:Eu; [discriminate|].
    pose proof (no_error_evidence c (rs idx) s o e s1 Hp Ht HL Hlen Hw Eu) as He.
    destruct (c01_lem c (rs idx) s o e Hlen Hw HL Ht1 He) as (s1' & Eu' & Hl1 & Hw1 & Hls1 & _). rewrite Eu in Eu'. injection Eu' as <-.
    rewrite Hid in Hls1. pose proof (proj1 (update_nocheck_counters c (rs idx) s o e)) as Hc. rewrite Eu in Hc. cbn [fst] in Hc.
    replace (Z.of_nat (S idx) mod 1)%Z with 0%Z in Hb by (now rewrite Z.mod_1_r). cbn [Z.eqb] in Hb.
    destruct (maybe_count c (rs idx) s1) as [[_ Em]|Em].
    2:{ exfalso. destruct (maybe_resample c (rs idx) s1) as [s2 [x|]]; [discriminate|]. cbn [fst] in Em. pose proof (batch_count c rs 1 data (S idx) s2). rewrite Hb in H. cbn [fst] in H. lia. }
    rewrite Em in Hb.
    assert (Hev : 0 < evidence c s o e) by (pose proof eps_pos; lra).
    assert (Hwn : forall i, (i < n_particles s)%nat -> wt s1 i = / evidence c s o e * (wt s i * lik (md c) o (at_ s i) e)).
    { intros i Hi. rewrite Hw1 by assumption. unfold bayes. fold (evidence c s o e). field. lra. }
    assert (Hnn : Forall (fun x => 0 <= x) (ws s1)).
    { apply Forall_forall. intros x Hx. apply (In_nth _ _ 0) in Hx. destruct Hx as (i & Hi & <-). fold (wt s1 i). rewrite Hwn by (unfold n_particles; lia).
      apply Rmult_le_pos; [left; now apply Rinv_0_lt_compat|]. apply Rmult_le_pos; [|apply HL]. rewrite Forall_forall in Hw. apply Hw, nth_In. lia. }
    assert (Hsum : rsum (ws s1) = 1).
    { rewrite rsum_index. rewrite Hl1, Hlen. rewrite (Sum_ext _ _ (fun i => / evidence c s o e * (wt s i * lik (md c) o (at_ s i) e))) by (intros i Hi; now apply Hwn).
      rewrite Sum_scal. fold (n_particles s). fold (evidence c s o e). field. lra. }
    assert (Hlen1 : length (ws s1) = length (ls s1)) by (rewrite Hl1, Hls1; assumption).
    destruct (IH (S idx) s1 s' Hlen1 Hnn Hsum Hb ltac:(lia)) as (A1 & A2 & A3 & k & Hk & A4). rewrite Hls1 in *.
    split; [assumption|]. split; [assumption|]. split; [assumption|]. exists (k * / evidence c s o e). split; [apply Rmult_lt_0_compat; [assumption|now apply Rinv_0_lt_compat]|].
    intros i Hi. rewrite A4 by (unfold n_particles in *; rewrite Hls1; assumption). rewrite Hwn by assumption. unfold at_. rewrite Hls1. unfold total_lik. cbn [map fst snd]. rewrite rprod_cons. ring.
Qed.

(** From uniform weights: the normalised likelihoods *)
Lemma batch_from_uniform c rs : zpolicy c = PError -> eps <= zthresh c -> zthresh c < 1 -> (forall o x e, 0 <= lik (md c) o x e) -> (forall r l e, timestep (md c) r l e = l) ->
  forall data idx s s', (0 < length (ls s))%nat -> ws s = uniform_weights (length (ls s)) ->
  batch_loop c rs 1 idx data s = (s', None) -> rcnt s' = rcnt s ->
  let T := Sum (length (ls s)) (fun j => total_lik c (at_ s j) data) in
  0 < T /\ ls s' = ls s /\ length (ws s') = length (ls s) /\ forall i, (i < length (ls s))%nat -> wt s' i = total_lik c (at_ s i) data / T.
Proof.
  intros Hp Ht Ht1 HL Hid data idx s s' Hn Hw Hb Hr T. set (n := length (ls s)) in *.
  destruct (uniform_prob n Hn) as [Hnn Hsum].
  assert (Hun : forall i, (i < n)%nat -> wt s i = / INR n). { intros i Hi. unfold wt. rewrite Hw. unfold uniform_weights. rewrite (nth_indep _ 0 (/ INR n)) by (now rewrite repeat_length). apply nth_repeat. }
  assert (Hlen : length (ws s) = length (ls s)). { rewrite Hw. unfold uniform_weights. now rewrite repeat_length. }
  destruct (batch_bayes c rs Hp Ht Ht1 HL Hid data idx s s' Hlen ltac:(rewrite Hw; assumption) ltac:(rewrite Hw; assumption) Hb Hr) as (A1 & A2 & A3 & k & Hk & A4).
  assert (Hi0 : 0 < / INR n) by (apply Rinv_0_lt_compat; apply lt_0_INR; lia).
  assert (Hone : 1 = k * / INR n * T).
  { rewrite <- A3, rsum_index, A2. unfold T. rewrite <- Sum_scal. apply Sum_ext. intros i Hi. fold (wt s' i). rewrite A4 by assumption. rewrite Hun by assumption. ring. }
  assert (HT : 0 < T).
  { assert (0 <= T). { apply Sum_nonneg. intros i _. apply rprod_nonneg. apply Forall_forall. intros x Hx. apply in_map_iff in Hx. destruct Hx as (p & <- & _). apply HL. }
    destruct H; [assumption|]. rewrite <- H, Rmult_0_r in Hone. lra. }
  split; [assumption|]. split; [assumption|]. split; [assumption|]. intros i Hi. rewrite A4 by assumption. rewrite Hun by assumption.
  clearbody T. apply (Rmult_eq_reg_r T); [|lra]. replace (total_lik c (at_ s i) data / T * T) with (1 * total_lik c (at_ s i) data) by (field; lra). rewrite Hone. ring.
Qed.
End Batch.
