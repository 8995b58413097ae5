(** Proofs about the SMC updater model, third part: statements in the form used by SmcProps.v. *)
From Verif Require Import Base RList Ext SmcModel SmcSpec SmcProofs SmcProofs2 RiskModel RiskSpec RiskProofs.

Section Proofs.
Context {O E RND : Type}.
Notation state := (@state O).
Notation config := (@config O E RND).
Notation op := (@op O E RND).
Implicit Types (c : config) (s : state).

Definition nonneg (w : list R) := Forall (fun x => 0 <= x) w.

(** ** C08 *)
Lemma c08_error_skip c r s o e check : good_config c -> length (ws s) = length (ls s) -> Forall (fun x => 0 <= x) (ws s) ->
  new_total c s o e <= zthresh c ->
  zpolicy c <> PIgnore -> zpolicy c <> PWarn -> zpolicy c <> PReset ->
  let s' := fst (update c r s o e check) in
  ws s' = ws s /\ ls s' = ls s /\ nrec s' = nrec s /\ mness s' = mness s /\ rcnt s' = rcnt s /\
  drec s' = drec s ++ [o] /\
  snd (update c r s o e check) =
    match zpolicy c with PError => Some RuntimeError | PSkip => None | _ => Some ValueError end.
Proof.
  intros G Hlen Hw Ht H1 H2 H3. rewrite <- new_weights_total in Ht by (auto; apply (lik_nonneg c G)).
  rewrite c08_divert by assumption. cbn. repeat split.
Qed.

Lemma c08_above c p q r s o e check : good_config c -> length (ws s) = length (ls s) -> Forall (fun x => 0 <= x) (ws s) ->
  zthresh c < new_total c s o e ->
  update (with_policy c p) r s o e check = update (with_policy c q) r s o e check.
Proof.
  intros G Hlen Hw Ht. rewrite <- new_weights_total in Ht by (auto; apply (lik_nonneg c G)). now apply c08_no_influence.
Qed.

Lemma c08_ignore_warn c r s o e check p : length (ws s) = length (ls s) -> (p = PIgnore \/ p = PWarn) ->
  zpolicy c = p ->
  exists s1, update c r s o e check = (if check then maybe_resample c r s1 else (s1, None)) /\
    nrec s1 = nrec s ++ [evidence c s o e] /\ ls s1 = timestep (md c) r (ls s) e /\
    (good_config c -> Forall (fun x => 0 <= x) (ws s) -> rsum (ws s1) = new_total c s o e).
Proof.
  intros Hlen Hp Hz. rewrite c08_carry_on by (auto; rewrite Hz; assumption). unfold install.
  set (s1 := Build_state _ _ _ _ _ _ _ _). exists s1. repeat split.
  intros G Hw. unfold s1. cbn [ws]. apply new_weights_total; auto. apply (lik_nonneg c G).
Qed.

(** What the 'reset' policy does: fresh locations, but the vanishing weights are written over
    the uniform ones. *)
Lemma c08_reset_actual c r s o e : good_config c -> length (ws s) = length (ls s) -> Forall (fun x => 0 <= x) (ws s) ->
  zpolicy c = PReset -> new_total c s o e <= zthresh c ->
  let s' := fst (update c r s o e false) in
  ls s' = timestep (md c) r (if canonize c then canon (md c) (prior c r (n_particles s)) else prior c r (n_particles s)) e /\
  nrec s' = nrec s ++ [evidence c s o e] /\
  rsum (ws s') = new_total c s o e /\
  (forall i, (i < n_particles s)%nat -> evidence c s o e < eps -> wt s' i = wt s i * lik (md c) o (at_ s i) e).
Proof.
  intros G Hlen Hw Hz Ht. pose proof Ht as Ht'. rewrite <- new_weights_total in Ht' by (auto; apply (lik_nonneg c G)).
  rewrite update_unfold, Hlen, Nat.eqb_refl. cbv zeta. rewrite Rleb_true by assumption. rewrite Hz.
  rewrite install_nocheck. cbn [fst ws ls nrec recorded reset]. rewrite norm_scale_evidence by assumption.
  repeat split.
  - apply new_weights_total; auto. apply (lik_nonneg c G).
  - intros i Hi He. unfold wt at 1. cbn [ws]. unfold new_weights.
    rewrite clip_negative_id by (apply norm_row_nonneg; auto; apply (lik_nonneg c G)).
    rewrite norm_row_sum_small.
    + unfold hyp_row, L_row. rewrite map2_map_r. rewrite (nth_map2 _ _ _ _ 0 [] 0) by (auto; rewrite Hlen; exact Hi). reflexivity.
    + rewrite norm_scale_evidence by assumption. split; [|assumption].
      apply evidence_nonneg; auto. apply (lik_nonneg c G).
Qed.

(** ** C10 *)
Lemma c10_update c r s o e : good_config c -> length (ws s) = length (ls s) -> Forall (fun x => 0 <= x) (ws s) ->
  applied c (new_total c s o e) ->
  let s1 := fst (update c r s o e false) in
  let s2 := fst (update c r s o e true) in
  (ess_low c s1 = true -> update c r s o e true = resample c r s1 /\ rcnt s2 = S (rcnt s) /\ jr s2 = true) /\
  (ess_low c s1 = false -> update c r s o e true = (s1, None) /\ rcnt s2 = rcnt s /\ jr s2 = false).
Proof.
  intros G Hlen Hw Ha s1 s2.
  rewrite <- new_weights_total in Ha by (auto; apply (lik_nonneg c G)).
  assert (update c r s o e true = maybe_resample c r s1 /\ update c r s o e false = (s1, None)) as [E1 E2].
  { unfold s1. rewrite !update_unfold, Hlen, Nat.eqb_refl. cbv zeta.
    destruct (Rleb_spec (rsum (new_weights c s o e)) (zthresh c)) as [Hle|Hgt]; [|split; reflexivity].
    destruct Ha as [Ha|[Ha|[Ha|Ha]]]; [lra|rewrite Ha; split; reflexivity..]. }
  destruct (update_nocheck_counters c r s o e) as [C1 C2]. fold s1 in C1, C2.
  unfold s2. rewrite E1. split; intros Hess.
  - rewrite maybe_resample_true by exact Hess. destruct (resample_count c r s1) as [-> ->]. rewrite C1. auto.
  - rewrite maybe_resample_false by exact Hess. auto.
Qed.

Lemma c10_not_applied c r s o e : good_config c -> Forall (fun x => 0 <= x) (ws s) ->
  length (ws s) <> length (ls s) \/ ~ applied c (new_total c s o e) ->
  rcnt (fst (update c r s o e true)) = rcnt s /\ jr (fst (update c r s o e true)) = false.
Proof.
  intros G Hw Hna. rewrite update_unfold.
  destruct (Nat.eqb_spec (length (ws s)) (length (ls s))) as [Hlen|_]; [|split; reflexivity].
  destruct Hna as [?|Hna]; [contradiction|]. rewrite <- new_weights_total in Hna by (auto; apply (lik_nonneg c G)). cbv zeta.
  destruct (Rleb_spec (rsum (new_weights c s o e)) (zthresh c)) as [Hle|Hgt].
  - destruct (zpolicy c) eqn:Ep; try (split; reflexivity); exfalso; apply Hna; unfold applied; auto.
  - exfalso. apply Hna. left. lra.
Qed.

Lemma step_rcnt c s x : good_config c -> Forall (fun x => 0 <= x) (ws s) -> no_batch x ->
  (resamples c s x /\ rcnt (fst (step c s x)) = S (rcnt s)) \/ (~ resamples c s x /\ rcnt (fst (step c s x)) = rcnt s).
Proof.
  intros G Hw Hx. destruct x as [r o e ck|rs os es k|r|r|r np only rw|os es]; cbn [step resamples].
  - destruct ck.
    + destruct (Nat.eq_dec (length (ws s)) (length (ls s))) as [Hl|Hl].
      * destruct (applied_dec c (new_total c s o e)) as [Ha|Ha].
        -- destruct (c10_update c r s o e G Hl Hw Ha) as [H1 H2].
           destruct (ess_low c (fst (update c r s o e false))) eqn:Ee.
           ++ left. destruct (H1 eq_refl) as (_ & H3 & _). auto.
           ++ right. destruct (H2 eq_refl) as (_ & H3 & _). split; [|assumption]. intros (_ & _ & ?). discriminate.
        -- right. split; [intros (_ & ? & _); contradiction|]. apply c10_not_applied; auto.
      * right. split; [intros (? & _); contradiction|]. apply c10_not_applied; auto.
    + right. split; [auto|]. apply update_nocheck_counters.
  - destruct Hx.
  - left. split; [exact I|]. apply resample_count.
  - unfold maybe_resample. fold (ess_low c s). destruct (ess_low c s).
    + left. split; [reflexivity|]. apply resample_count.
    + right. split; [discriminate|reflexivity].
  - right. split; [auto|]. unfold reset. destruct np, only; reflexivity.
  - right. split; [auto|]. unfold hypothetical_update. destruct (negb _); reflexivity.
Qed.

Lemma run_rcnt c xs : good_config c -> Forall no_batch xs -> forall s, Forall (fun x => 0 <= x) (ws s) ->
  exists k, resample_total c s xs k /\ rcnt (run c s xs) = (rcnt s + k)%nat.
Proof.
  intros G. induction 1 as [|x xs Hx Hxs IH]; intros s Hw.
  - exists 0%nat. split; [constructor|cbn; lia].
  - destruct (IH _ (step_nonneg c s x G Hw)) as (k & Hk & Hr). unfold run in *. cbn [fold_left].
    destruct (step_rcnt c s x G Hw Hx) as [[H1 H2]|[H1 H2]]; rewrite Hr, H2.
    + exists (S k). split; [now constructor|lia].
    + exists k. split; [now apply rt_no|lia].
Qed.

Lemma c10_history c xs s : good_config c -> Forall (fun x => 0 <= x) (ws s) ->
  exists ms k, expands xs ms /\ run c s xs = run c s ms /\ resample_total c s ms k /\
    rcnt (run c s xs) = (rcnt s + k)%nat.
Proof.
  intros G Hw. destruct (expand_exists c xs s) as (ms & Hms & Hrun).
  destruct (run_rcnt c ms G (expands_no_batch xs ms Hms) s Hw) as (k & H1 & H2).
  exists ms, k. rewrite Hrun. auto.
Qed.

(** just_resampled after each single call *)
Lemma c10_flag c s x : good_config c -> Forall (fun x => 0 <= x) (ws s) -> no_batch x ->
  match x with
  | OUpdate _ _ _ _ | OResample _ => jr (fst (step c s x)) = true <-> resamples c s x
  | OCheck _ => jr (fst (step c s x)) = true <-> jr s = true \/ resamples c s x
  | _ => jr (fst (step c s x)) = jr s
  end.
Proof.
  intros G Hw Hx. destruct x as [r o e ck|rs os es k|r|r|r np only rw|os es]; cbn [step resamples]; try exact I.
  - destruct ck.
    + destruct (Nat.eq_dec (length (ws s)) (length (ls s))) as [Hl|Hl].
      * destruct (applied_dec c (new_total c s o e)) as [Ha|Ha].
        -- destruct (c10_update c r s o e G Hl Hw Ha) as [H1 H2].
           destruct (ess_low c (fst (update c r s o e false))) eqn:Ee.
           ++ destruct (H1 eq_refl) as (_ & _ & ->). split; auto.
           ++ destruct (H2 eq_refl) as (_ & _ & ->). split; [discriminate|]. intros (_ & _ & ?). discriminate.
        -- rewrite (proj2 (c10_not_applied c r s o e G Hw (or_intror Ha))). split; [discriminate|intros (_ & ? & _); contradiction].
      * rewrite (proj2 (c10_not_applied c r s o e G Hw (or_introl Hl))). split; [discriminate|intros (? & _); contradiction].
    + rewrite (proj2 (update_nocheck_counters c r s o e)). split; [discriminate|intros []].
  - destruct Hx.
  - rewrite (proj2 (resample_count c r s)). split; auto.
  - unfold maybe_resample. fold (ess_low c s). destruct (ess_low c s).
    + rewrite (proj2 (resample_count c r s)). split; auto.
    + cbn [fst]. split; [auto|]. intros [?|?]; [assumption|discriminate].
  - unfold reset. destruct np, only; reflexivity.
  - unfold hypothetical_update. destruct (negb _); reflexivity.
Qed.

(** ** C11 *)
Lemma c11_full c r s np rw : 
  let n := match np with Some n => n | None => n_particles s end in
  let s' := fst (reset c r s np None rw) in
  snd (reset c r s np None rw) = None /\
  ws s' = (if rw then repeat (/ INR n) n else ws s) /\
  ls s' = (if canonize c then canon (md c) (prior c r n) else prior c r n) /\
  drec s' = drec s /\ nrec s' = nrec s /\ rcnt s' = rcnt s.
Proof. unfold reset, uniform_weights. destruct np; cbn; repeat split. Qed.

Lemma c11_only c r s sel rw d :
  good_config c -> NoDup sel -> (forall j, In j sel -> (j < d)%nat) ->
  (forall row, In row (ls s) -> length row = d) ->
  (forall m, (forall row, In row m -> length row = length sel) ->
     forall row, In row (canon (md c) m) -> length row = length sel) ->
  let s' := fst (reset c r s None (Some sel) rw) in
  let fresh := map (fun row => map (fun j => nth j row 0) sel) (prior c r (n_particles s)) in
  length (ls s') = length (ls s) /\
  ws s' = (if rw then repeat (/ INR (n_particles s)) (n_particles s) else ws s) /\
  (forall i j, (i < n_particles s)%nat -> ~ In j sel -> nth j (at_ s' i) 0 = nth j (at_ s i) 0) /\
  (forall i k, (i < n_particles s)%nat -> (k < length sel)%nat ->
     nth (nth k sel 0%nat) (at_ s' i) 0
     = nth k (nth i (if canonize c then canon (md c) fresh else fresh) []) 0).
Proof.
  intros G Hnd Hsel Hrows Hcan s' fresh. unfold s', reset, at_. cbn [fst ls ws].
  fold fresh. change (get_cols sel (prior c r (n_particles s))) with fresh.
  set (l1 := set_cols sel (ls s) fresh).
  assert (Hfl : length fresh = length (ls s)) by (unfold fresh; rewrite map_length; apply (prior_len c G)).
  assert (Hl1 : length l1 = length (ls s)) by (apply set_cols_length; now symmetry).
  assert (Hrow1 : forall i, (i < n_particles s)%nat -> nth i l1 [] = set_row sel (nth i (ls s) []) (nth i fresh [])).
  { intros i Hi. apply set_cols_nth; [now symmetry|exact Hi]. }
  assert (Hlen0 : forall i, (i < n_particles s)%nat -> length (nth i (ls s) []) = d) by (intros; apply Hrows, nth_In; assumption).
  assert (Hfrow : forall row, In row fresh -> length row = length sel).
  { intros row Hr. unfold fresh in Hr. apply in_map_iff in Hr. destruct Hr as (x & <- & _). apply map_length. }
  assert (Hg : get_cols sel l1 = fresh).
  { apply (nth_ext _ _ [] []).
    - rewrite get_cols_length. congruence.
    - rewrite get_cols_length, Hl1. intros i Hi.
      unfold get_cols. rewrite (nth_indep _ [] ((fun row => map (fun j => nth j row 0) sel) [])) by (rewrite map_length, Hl1; exact Hi).
      rewrite (map_nth (fun row => map (fun j => nth j row 0) sel)). rewrite Hrow1 by exact Hi.
      assert (Hfi : length (nth i fresh []) = length sel) by (apply Hfrow, nth_In; rewrite Hfl; exact Hi).
      apply (nth_ext _ _ 0 0); [rewrite map_length; now symmetry|]. rewrite map_length. intros k Hk.
      rewrite (nth_indep _ 0 ((fun j => nth j (set_row sel (nth i (ls s) []) (nth i fresh [])) 0) 0%nat)) by now rewrite map_length.
      rewrite (map_nth (fun j => nth j (set_row sel (nth i (ls s) []) (nth i fresh [])) 0)).
      apply set_row_same; auto. intros j Hj. rewrite Hlen0 by exact Hi. auto. }
  assert (Hcl : length (canon (md c) (get_cols sel l1)) = length l1) by (rewrite (canon_len c G); apply get_cols_length).
  assert (Hrowlen : forall i, (i < n_particles s)%nat -> length (nth i l1 []) = d).
  { intros i Hi. rewrite Hrow1 by exact Hi. rewrite set_row_length. auto. }
  split; [|split; [|split]].
  - destruct (canonize c); [rewrite set_cols_length; [assumption|now symmetry]|assumption].
  - reflexivity.
  - intros i j Hi Hj. assert (nth j (nth i l1 []) 0 = nth j (nth i (ls s) []) 0) as E1.
    { rewrite Hrow1 by exact Hi. now apply set_row_other. }
    destruct (canonize c); [|exact E1]. rewrite set_cols_nth; [|now symmetry|rewrite Hl1; exact Hi].
    rewrite set_row_other by assumption. exact E1.
  - intros i k Hi Hk. destruct (canonize c).
    + rewrite set_cols_nth; [|now symmetry|rewrite Hl1; exact Hi]. rewrite Hg in *.
      apply set_row_same; auto.
      * apply (Hcan fresh Hfrow). apply nth_In. rewrite (canon_len c G), Hfl. exact Hi.
      * intros j Hj. rewrite Hrowlen by exact Hi. auto.
    + rewrite Hrow1 by exact Hi. apply set_row_same; auto.
      * apply Hfrow, nth_In. rewrite Hfl. exact Hi.
      * intros j Hj. rewrite Hlen0 by exact Hi. auto.
Qed.

(** ** C12, Bayes risk *)
Lemma xadd_comm a b : xadd a b = xadd b a.
Proof. destruct a, b; simpl; try reflexivity. now rewrite Rplus_comm. Qed.
Lemma xadd_assoc a b d : xadd a (xadd b d) = xadd (xadd a b) d.
Proof. destruct a, b, d; simpl; try reflexivity. now rewrite Rplus_assoc. Qed.
Lemma xsum_perm l m : Permutation l m -> xsum l = xsum m.
Proof.
  induction 1; rewrite ?xsum_cons in *; try congruence.
  rewrite !xadd_assoc. f_equal. apply xadd_comm.
Qed.

Section Perm.
Variables (c : config) (Q : list R) (p : list nat) (s : state).
Hypothesis (Hlen : length (ws s) = length (ls s)) (Hp : Permutation p (seq 0 (length (ls s)))).

Let Hpw : Permutation p (seq 0 (length (ws s))). Proof. now rewrite Hlen. Qed.

Lemma last_raw_perm os e : last_raw c (permute p (ws s) 0) (permute p (ls s) []) os e = permute p (last_raw c (ws s) (ls s) os e) 0.
Proof. unfold last_raw. apply permute_map2; [assumption|]. apply perm_bound, Hpw. Qed.

Lemma xdot_perm (wh : list ext) (f : ext -> loc -> ext) d : length wh = length (ls s) ->
  xsum (map2 f (permute p wh d) (permute p (ls s) [])) = xsum (map2 f wh (ls s)).
Proof.
  intros Hw. rewrite (permute_map2 _ _ _ _ _ _ NaN); [|assumption|apply perm_bound; rewrite Hw; assumption].
  apply xsum_perm, permute_Permutation. rewrite map2_length by assumption. now rewrite Hw.
Qed.

Lemma var_hyp_perm wh : length wh = length (ls s) ->
  var_hyp Q (permute p wh NaN) (permute p (ls s) []) = var_hyp Q wh (ls s).
Proof.
  intros Hw. unfold var_hyp. rewrite <- (xdot_perm wh _ NaN) by assumption. f_equal.
  apply map2_ext. intros a x. do 2 f_equal. apply map_ext. intros j. cbv zeta.
  assert (mu_hyp (permute p wh NaN) (permute p (ls s) []) j = mu_hyp wh (ls s) j) as ->; [|reflexivity].
  unfold mu_hyp. now apply xdot_perm.
Qed.

Lemma bayes_risk_perm os e :
  bayes_risk1 c Q (permute p (ws s) 0) (permute p (ls s) []) os e = bayes_risk1 c Q (ws s) (ls s) os e.
Proof.
  assert (Hlr : length (last_raw c (ws s) (ls s) os e) = length (ws s)) by (unfold last_raw; now apply map2_length).
  assert (Hsum : rsum (permute p (last_raw c (ws s) (ls s) os e) 0) = rsum (last_raw c (ws s) (ls s) os e)).
  { apply rsum_perm, permute_Permutation. rewrite Hlr. exact Hpw. }
  unfold bayes_risk1, risk_N, risk_w. f_equal. rewrite !map2_app by now rewrite !map_length. f_equal.
  - rewrite !map2_map_l, !map2_map_r, !map2_same. apply map_ext. intros o.
    rewrite norm_scale_perm, norm_row_perm by assumption. f_equal.
    assert (length (norm_row c (ws s) (ls s) o e) = length (ls s)) as Hnl by (unfold norm_row; rewrite map_length, hyp_row_length; assumption).
    rewrite (permute_map _ _ _ _ NaN) by (apply perm_bound; now rewrite Hnl).
    apply var_hyp_perm. now rewrite map_length.
  - cbn [map2]. rewrite last_raw_perm, Hsum. do 2 f_equal.
    rewrite (permute_map _ _ _ _ NaN) by (apply perm_bound; rewrite Hlr; exact Hpw).
    apply var_hyp_perm. rewrite map_length. congruence.
Qed.
End Perm.
End Proofs.
