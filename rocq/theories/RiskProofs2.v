(** Expected information gain: when it is defined. *)
From Verif Require Import Base RList Ext SmcModel SmcSpec SmcProofs SmcProofs2 RiskModel RiskSpec RiskProofs.
Section Proofs.
Context {O E RND : Type}.
Variable c : @config O E RND.

(** The last outcome, whose weights are the complement of the others. *)
Lemma c14_nan_last s os e o_last i : length (ws s) = length (ls s) -> prob_vector (ws s) -> (forall o x e, 0 <= lik (md c) o x e) ->
  os = removelast os ++ [o_last] -> lik_normalised c s os e -> (i < n_particles s)%nat ->
  wt s i * lik (md c) o_last (at_ s i) e = 0 -> eig1 c (ws s) (ls s) os e = NaN.
Proof.
  intros Hlen Hp HL Hos Hnorm Hi H0.
  pose proof (last_raw_evidence c s os o_last e Hlen Hos Hnorm) as Hraw.
  assert (HNl : rsum (hyp_row c (ws s) (ls s) o_last e) = evidence c s o_last e) by (now apply norm_scale_evidence).
  destruct (Req_dec (evidence c s o_last e) 0) as [Z|NZ].
  - now apply (c13_nan c [] s os e o_last).
  - unfold eig1. apply xsum_NaN. unfold risk_N, risk_w. rewrite Hraw, HNl.
    rewrite map2_app by now rewrite !map_length. apply in_or_app. right. cbn [map2]. left.
    rewrite (kld_zero_nan _ _ i); [apply xmul_NaN_r|now rewrite map_length, hyp_row_length|rewrite Hlen; exact Hi| |apply wt_nonneg, Hp].
    rewrite (nth_indep _ _ (xdiv (Fin 0) (Fin (evidence c s o_last e)))) by (rewrite map_length, hyp_row_length, Hlen by assumption; exact Hi).
    rewrite (map_nth (fun x => xdiv (Fin x) (Fin (evidence c s o_last e))) _ 0).
    unfold hyp_row, L_row. rewrite map2_map_r. rewrite (nth_map2 _ _ _ _ 0 [] 0) by (auto; rewrite Hlen; exact Hi).
    fold (wt s i). fold (at_ s i). rewrite H0, xdiv_Fin by assumption. f_equal. unfold Rdiv. ring.
Qed.

(** Either every particle allows every outcome and the number is the mutual information, or the number is NaN. *)
Lemma c14_dichotomy s os e o_last : length (ws s) = length (ls s) -> prob_vector (ws s) -> (forall o x e, 0 <= lik (md c) o x e) ->
  os = removelast os ++ [o_last] -> lik_normalised c s os e -> (forall o, In o (removelast os) -> eps <= evidence c s o e) ->
  ((forall o i, In o os -> (i < n_particles s)%nat -> 0 < wt s i * lik (md c) o (at_ s i) e) /\ eig1 c (ws s) (ls s) os e = Fin (mutual_information c s os e)) \/
  ((exists o i, In o os /\ (i < n_particles s)%nat /\ wt s i * lik (md c) o (at_ s i) e = 0) /\ eig1 c (ws s) (ls s) os e = NaN).
Proof.
  intros Hlen Hp HL Hos Hnorm He.
  assert (D : forall p : O * nat, {0 < wt s (snd p) * lik (md c) (fst p) (at_ s (snd p)) e} + {~ 0 < wt s (snd p) * lik (md c) (fst p) (at_ s (snd p)) e}) by (intros; apply Rlt_dec).
  destruct (Forall_Exists_dec _ D (list_prod os (seq 0 (n_particles s)))) as [F|X].
  - left. rewrite Forall_forall in F.
    assert (P : forall o i, In o os -> (i < n_particles s)%nat -> 0 < wt s i * lik (md c) o (at_ s i) e).
    { intros o i Ho Hi. apply (F (o, i)). apply in_prod; [assumption|]. apply in_seq. lia. }
    split; [exact P|]. assert (Hl : In o_last os) by (rewrite Hos; apply in_or_app; right; now left).
    assert (Hw : forall i, (i < n_particles s)%nat -> 0 < wt s i).
    { intros i Hi. pose proof (P o_last i Hl Hi) as Q. pose proof (wt_nonneg s i (proj1 Hp)) as W. destruct (Req_dec (wt s i) 0) as [Z|Z]; [rewrite Z, Rmult_0_l in Q; lra|lra]. }
    apply (c14_value c s os e o_last); try assumption.
    + apply Forall_forall. intros x Hx. apply (In_nth _ _ 0) in Hx as (i & Hi & <-). apply (Hw i). unfold n_particles. lia.
    + intros o x Ho Hx. apply (In_nth _ _ []) in Hx as (i & Hi & <-). pose proof (P o i Ho Hi) as Q. fold (at_ s i). pose proof (HL o (at_ s i) e). destruct (Req_dec (lik (md c) o (at_ s i) e) 0) as [Z|Z]; [rewrite Z, Rmult_0_r in Q; lra|lra].
  - right. apply Exists_exists in X as ((o & i) & Hin & N). cbn [fst snd] in N. apply in_prod_iff in Hin as [Ho Hi]. apply in_seq in Hi.
    assert (Z : wt s i * lik (md c) o (at_ s i) e = 0).
    { pose proof (Rmult_le_pos _ _ (wt_nonneg s i (proj1 Hp)) (HL o (at_ s i) e)). lra. }
    split; [exists o, i; repeat split; [assumption|lia|assumption]|].
    rewrite Hos in Ho. apply in_app_or in Ho as [Ho|[<-|[]]].
    + apply (c14_nan c s os e o i); [assumption|apply Hp|assumption|lia|assumption].
    + apply (c14_nan_last s os e o_last i); try assumption. lia.
Qed.
End Proofs.
