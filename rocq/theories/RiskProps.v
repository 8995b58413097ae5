(** C13, continued: outcomes whose evidence is positive but below machine epsilon. *)
From Verif Require Import Base RList Ext Sums SmcModel SmcSpec SmcProofs SmcProofs2 RiskModel RiskSpec RiskProofs.
From Coq Require Import List.

Lemma variance_bounds n a f B : (forall i, (i < n)%nat -> 0 <= a i) -> Sum n a <= 1 -> (forall i, (i < n)%nat -> Rabs (f i) <= B) -> 0 <= variance n a f <= B ^ 2.
Proof.
  intros Ha Hn Hf. split; [now apply variance_nonneg|]. set (N := Sum n a) in *. set (M := Sum n (fun k => a k * f k)).
  assert (E1 : variance n a f = Sum n (fun i => a i * f i ^ 2) - 2 * M * M + M ^ 2 * N).
  { unfold variance. fold M. unfold N. rewrite (Sum_ext _ _ (fun i => a i * f i ^ 2 - 2 * M * (a i * f i) + M ^ 2 * a i)) by (intros; ring). rewrite Sum_plus, Sum_minus, !Sum_scal. fold M. ring. }
  assert (N0 : 0 <= N) by (apply Sum_nonneg; exact Ha).
  assert (E2 : Sum n (fun i => a i * f i ^ 2) <= B ^ 2 * N).
  { unfold N. rewrite <- Sum_scal. apply Sum_le. intros i Hi. specialize (Hf i Hi). specialize (Ha i Hi). assert (f i ^ 2 <= B ^ 2) by (rewrite <- (pow2_abs (f i)); apply pow_incr; split; [apply Rabs_pos|assumption]). nra. }
  rewrite E1. assert (0 <= M ^ 2) by apply pow2_ge_0. assert (0 <= B ^ 2) by apply pow2_ge_0. nra.
Qed.

Lemma Sum_abs_le n : forall f, Rabs (Sum n f) <= Sum n (fun i => Rabs (f i)).
Proof. induction n as [|n IH]; intros f; [rewrite !Sum_0, Rabs_R0; lra|]. rewrite !Sum_S. eapply Rle_trans; [apply Rabs_triang|]. apply Rplus_le_compat_l, IH. Qed.

Section Small.
Context {O E RND : Type}.
Variables (c : @config O E RND) (Q : list R).
Definition small (s : @state O) (e : E) (o : O) : bool := Rltb 0 (evidence c s o e) && Rltb (evidence c s o e) eps.
(** What one parameter contributes to the size of the scale matrix on the cloud *)
Definition size (B : nat -> R) : R := Sum (length Q) (fun j => nth j Q 0 * B j ^ 2).

Lemma small_term s o e B : length (ws s) = length (ls s) -> prob_vector (ws s) -> (forall o x e, 0 <= lik (md c) o x e) -> Forall (fun x => 0 <= x) Q ->
  (forall i j, (i < n_particles s)%nat -> (j < length Q)%nat -> Rabs (nth j (at_ s i) 0) <= B j) -> 0 < evidence c s o e < eps ->
  Rabs (evidence c s o e * rvar Q (norm_row c (ws s) (ls s) o e) (ls s) - evidence c s o e * loss Q s (posterior c s o e)) <= evidence c s o e * size B.
Proof.
  intros Hlen [Hw H1] HL HQ HB [P0 P1]. rewrite <- Rmult_minus_distr_l, Rabs_mult, (Rabs_pos_eq (evidence c s o e)) by lra. apply Rmult_le_compat_l; [lra|].
  assert (Hnr : norm_row c (ws s) (ls s) o e = hyp_row c (ws s) (ls s) o e).
  { unfold norm_row, fix_norm. rewrite norm_scale_evidence by assumption. rewrite Rltb_true by (rewrite Rabs_pos_eq; lra). rewrite (map_ext _ (fun x => x)) by (intros; field). apply map_id. }
  rewrite Hnr. rewrite rvar_loss by (now rewrite hyp_row_length). unfold loss, size. rewrite <- Sum_minus.
  set (a := fun i => nth i (hyp_row c (ws s) (ls s) o e) 0).
  assert (Ea : forall i, (i < n_particles s)%nat -> a i = wt s i * lik (md c) o (at_ s i) e).
  { intros i Hi. unfold a, hyp_row, L_row. rewrite map2_map_r. rewrite (nth_map2 _ _ _ _ 0 [] 0); [reflexivity| |assumption]. rewrite Hlen. exact Hi. }
  assert (Wn : forall i, (i < n_particles s)%nat -> 0 <= wt s i) by (intros i Hi; rewrite Forall_forall in Hw; apply Hw, nth_In; rewrite Hlen; exact Hi).
  assert (An : forall i, (i < n_particles s)%nat -> 0 <= a i) by (intros i Hi; rewrite Ea by assumption; apply Rmult_le_pos; [now apply Wn|apply HL]).
  assert (Sa : Sum (n_particles s) a = evidence c s o e) by (unfold evidence; apply Sum_ext; intros i Hi; now apply Ea).
  assert (eps_small : eps <= 1) by (unfold eps; apply Rle_trans with (/ 2); [apply Rinv_le_contravar; [lra|]; pose proof (pow_R1_Rle 2 51 ltac:(lra)); rewrite <- (pow_1 2) at 1; apply Rle_pow; [lra|lia]|lra]).
  apply Rle_trans with (Sum (length Q) (fun j => Rabs (nth j Q 0 * variance (n_particles s) a (fun i => nth j (at_ s i) 0) - nth j Q 0 * variance (n_particles s) (posterior c s o e) (fun i => nth j (at_ s i) 0)))).
  - apply Sum_abs_le.
  - apply Sum_le. intros j Hj. rewrite <- Rmult_minus_distr_l, Rabs_mult. assert (Qj : 0 <= nth j Q 0) by (rewrite Forall_forall in HQ; now apply HQ, nth_In). rewrite (Rabs_pos_eq _ Qj). apply Rmult_le_compat_l; [assumption|].
    assert (V1 := variance_bounds (n_particles s) a (fun i => nth j (at_ s i) 0) (B j) An ltac:(lra) (fun i Hi => HB i j Hi Hj)).
    assert (V2 : 0 <= variance (n_particles s) (posterior c s o e) (fun i => nth j (at_ s i) 0) <= B j ^ 2).
    { apply variance_bounds; [| |intros i Hi; now apply HB].
      - intros i Hi. unfold posterior, bayes. fold (evidence c s o e). apply Rmult_le_pos; [rewrite <- Ea by assumption; auto|left; apply Rinv_0_lt_compat; lra].
      - rewrite (Sum_ext _ _ (fun i => a i * / evidence c s o e)) by (intros i Hi; unfold posterior, bayes; fold (evidence c s o e); rewrite <- Ea by assumption; reflexivity). rewrite Sum_scal_r, Sa. right. field. lra. }
    apply Rabs_le. lra.
Qed.

(** With any evidences of the other outcomes, the risk that is returned misses the expected posterior loss by at most the total evidence of the outcomes below
    machine epsilon times the size of the scale matrix on the cloud. *)
Theorem c13_any_evidence s os e o_last B :
  length (ws s) = length (ls s) -> prob_vector (ws s) -> (forall o x e, 0 <= lik (md c) o x e) -> os = removelast os ++ [o_last] ->
  (forall i, (i < n_particles s)%nat -> SumL os (fun o => lik (md c) o (at_ s i) e) = 1) -> 0 < evidence c s o_last e ->
  Forall (fun x => 0 <= x) Q -> (forall i j, (i < n_particles s)%nat -> (j < length Q)%nat -> Rabs (nth j (at_ s i) 0) <= B j) ->
  exists r, bayes_risk1 c Q (ws s) (ls s) os e = Fin r /\
    Rabs (r - expected_posterior_loss c Q s os e) <= SumL (filter (small s e) (removelast os)) (fun o => evidence c s o e) * size B.
Proof.
  intros Hlen [Hw Hsum1] HL Hos Hnorm Hlast HQ HB. pose proof (last_raw_evidence c s os o_last e Hlen Hos Hnorm) as Hraw.
  assert (HNl : rsum (hyp_row c (ws s) (ls s) o_last e) = evidence c s o_last e) by (now apply norm_scale_evidence).
  set (term := fun o => evidence c s o e * loss Q s (posterior c s o e)). set (coded := fun o => evidence c s o e * rvar Q (norm_row c (ws s) (ls s) o e) (ls s)).
  exists (SumL (removelast os) coded + term o_last). split.
  - unfold bayes_risk1, risk_N, risk_w. rewrite Hraw, HNl. rewrite map2_app by now rewrite !map_length. rewrite map2_map_l, map2_map_r, map2_same. cbn [map2].
    assert (map (fun x => xdiv (Fin x) (Fin (evidence c s o_last e))) (hyp_row c (ws s) (ls s) o_last e) = map Fin (map (fun x => x / evidence c s o_last e) (hyp_row c (ws s) (ls s) o_last e))) as ->.
    { rewrite map_map. apply map_ext. intros x. apply xdiv_Fin. lra. }
    assert (map (fun o => xmul (Fin (norm_scale c (ws s) (ls s) o e)) (var_hyp Q (map Fin (norm_row c (ws s) (ls s) o e)) (ls s))) (removelast os) = map Fin (map coded (removelast os))) as ->.
    { rewrite map_map. apply map_ext_in. intros o Ho. rewrite var_hyp_Fin. cbn [xmul]. f_equal. now rewrite norm_scale_evidence. }
    rewrite var_hyp_Fin. cbn [xmul].
    assert (evidence c s o_last e * rvar Q (map (fun x => x / evidence c s o_last e) (hyp_row c (ws s) (ls s) o_last e)) (ls s) = term o_last) as ->.
    { unfold term. f_equal. rewrite rvar_loss by (now rewrite map_length, hyp_row_length). unfold loss. apply Sum_ext. intros j _. f_equal. apply variance_ext. intros i Hi.
      unfold posterior, bayes. fold (evidence c s o_last e). unfold hyp_row, L_row. rewrite map2_map_r, map_map2. rewrite (nth_map2 _ _ _ _ 0 [] 0); [reflexivity| |assumption]. rewrite Hlen; exact Hi. }
    change [Fin (term o_last)] with (map Fin [term o_last]). rewrite <- map_app, xsum_Fin. f_equal. rewrite rsum_app, SumL_rsum. f_equal. rewrite rsum_cons, rsum_nil. ring.
  - unfold expected_posterior_loss. fold term. rewrite Hos at 2. rewrite SumL_app. replace (SumL [o_last] term) with (term o_last) by (unfold SumL; cbn; ring).
    replace (SumL (removelast os) coded + term o_last - (SumL (removelast os) term + term o_last)) with (SumL (removelast os) coded - SumL (removelast os) term) by ring.
    clear Hos Hraw Hnorm. induction (removelast os) as [|o r IH].
    + unfold SumL. cbn. rewrite Rminus_0_r, Rabs_R0. lra.
    + change (SumL (o :: r) ?h) with (h o + SumL r h). replace (coded o + SumL r coded - (term o + SumL r term)) with ((coded o - term o) + (SumL r coded - SumL r term)) by ring.
      eapply Rle_trans; [apply Rabs_triang|]. cbn [filter]. assert (E0 : 0 <= evidence c s o e).
      { unfold evidence. apply Sum_nonneg. intros i Hi. apply Rmult_le_pos; [rewrite Forall_forall in Hw; apply Hw, nth_In; rewrite Hlen; exact Hi|apply HL]. }
      unfold small at 1. destruct (Rltb_spec 0 (evidence c s o e)) as [P0|P0], (Rltb_spec (evidence c s o e) eps) as [P1|P1]; cbn [andb].
      * change (SumL (o :: filter (small s e) r) ?h) with (h o + SumL (filter (small s e) r) h). rewrite Rmult_plus_distr_r. apply Rplus_le_compat; [|exact IH]. apply small_term; try assumption; split; assumption.
      * replace (coded o - term o) with 0; [rewrite Rabs_R0; lra|]. unfold coded, term. rewrite (risk_term c Q s o e Hlen Hw HL) by (right; lra). ring.
      * replace (coded o - term o) with 0; [rewrite Rabs_R0; lra|]. unfold coded, term. replace (evidence c s o e) with 0 by lra. ring.
      * replace (coded o - term o) with 0; [rewrite Rabs_R0; lra|]. unfold coded, term. replace (evidence c s o e) with 0 by lra. ring.
Qed.
End Small.

(** One particle at 1, two outcomes, the first of evidence [N]. *)
Definition rare (N : R) : @config bool unit unit :=
  {| md := {| lik := fun (o : bool) (_ : loc) (_ : unit) => if o then N else 1 - N; timestep := fun (_ : unit) l (_ : unit) => l; canon := fun l => l |};
     prior := fun _ n => repeat [1] n; rsmp := fun _ w l => Ok (w, l); rthresh := 1 / 2; zpolicy := PError; zthresh := 10 * eps; canonize := true |}.
Definition lone : @state bool := {| ws := [1]; ls := [[1]]; drec := []; nrec := []; mness := Fin 1; rcnt := 0; jr := false; calls := 0 |}.

Lemma rare_evidence N o : evidence (rare N) lone o tt = if o then N else 1 - N.
Proof. unfold evidence, n_particles, lone, Sum, wt, at_. cbn. destruct o; ring. Qed.

(** The weights of an outcome whose evidence is below machine epsilon stay unnormalised, so the risk of a cloud of one particle, whose posterior never spreads, is positive. *)
Theorem c13_small_evidence_refuted : exists (c : @config bool unit unit) (s : @state bool) r,
  prob_vector (ws s) /\ length (ws s) = length (ls s) /\ (forall o x e, 0 <= lik (md c) o x e) /\ lik_normalised c s [true; false] tt /\
  0 < evidence c s true tt /\ 0 < evidence c s false tt /\
  bayes_risk1 c [1] (ws s) (ls s) [true; false] tt = Fin r /\ 0 < r /\ expected_posterior_loss c [1] s [true; false] tt = 0.
Proof.
  assert (Hp := eps_pos). assert (eps_small : eps <= 1 / 2) by (unfold eps; apply Rle_trans with (/ 2); [apply Rinv_le_contravar; [lra|]; rewrite <- (pow_1 2) at 1; apply Rle_pow; [lra|lia]|lra]).
  set (N := eps / 2). assert (HN : 0 < N < eps) by (unfold N; lra). clearbody N.
  exists (rare N), lone, (N ^ 2 * (1 - N) ^ 2).
  split; [split; [constructor; [lra|constructor]|unfold lone; cbn [ws]; rewrite rsum_cons, rsum_nil; ring]|].
  split; [reflexivity|]. split; [intros [|] x e; cbn; lra|]. split; [intros i Hi; unfold SumL; cbn; ring|].
  rewrite !rare_evidence. split; [lra|]. split; [lra|]. split; [|split].
  - unfold bayes_risk1, risk_N, risk_w. cbn [removelast map app map2 lone ws ls].
    assert (Hl : last_raw (rare N) [1] [[1]] [true; false] tt = [1 - N]).
    { unfold last_raw. cbn [removelast map map2 rare md lik]. rewrite rsum_cons, rsum_nil. f_equal. ring. }
    rewrite Hl. rewrite rsum_cons, rsum_nil, Rplus_0_r. cbn [map]. rewrite xdiv_Fin by lra.
    assert (Hn : norm_scale (rare N) [1] [[1]] true tt = N).
    { change (norm_scale (rare N) (ws lone) (ls lone) true tt = N). rewrite norm_scale_evidence by (try reflexivity). apply (rare_evidence N true). }
    assert (Hr : norm_row (rare N) [1] [[1]] true tt = [N]).
    { unfold norm_row, fix_norm. rewrite Hn. rewrite Rltb_true by (rewrite Rabs_pos_eq; lra). unfold hyp_row, L_row. cbn. f_equal. field. }
    rewrite Hn, Hr. change (map Fin [N]) with (map Fin [N]). change [Fin ((1 - N) / (1 - N))] with (map Fin [(1 - N) / (1 - N)]). rewrite !var_hyp_Fin. cbn [xmul].
    change [Fin (N * rvar [1] [N] [[1]]); Fin ((1 - N) * rvar [1] [(1 - N) / (1 - N)] [[1]])] with (map Fin [N * rvar [1] [N] [[1]]; (1 - N) * rvar [1] [(1 - N) / (1 - N)] [[1]]]).
    rewrite xsum_Fin. f_equal. rewrite !rsum_cons, rsum_nil. replace ((1 - N) / (1 - N)) with 1 by (field; lra).
    assert (Hv : forall a, rvar [1] [a] [[1]] = a * (1 - a) ^ 2).
    { intros a. unfold rvar, rdot, col. cbn [map2 map seq length nth]. rewrite !rsum_cons, !rsum_nil. ring. }
    rewrite !Hv. ring.
  - apply Rmult_lt_0_compat; apply pow_lt; lra.
  - unfold expected_posterior_loss, SumL. cbn [fold_right]. rewrite !rare_evidence.
    assert (Hz : forall o, loss [1] lone (posterior (rare N) lone o tt) = 0).
    { intros o. unfold loss. cbn [length]. rewrite Sum_S, Sum_0. unfold variance, n_particles. cbn [length lone ls]. rewrite !Sum_S, !Sum_0. unfold posterior, bayes. cbn [n_particles lone ls length]. rewrite Sum_S, Sum_0.
      unfold wt, at_. cbn. destruct o; field; lra. }
    rewrite !Hz. ring.
Qed.

(** The bound holds of this cloud, with one outcome below machine epsilon. *)
Example ex_c13_any : exists r, bayes_risk1 (rare (eps / 2)) [1] (ws lone) (ls lone) [true; false] tt = Fin r /\
  Rabs (r - expected_posterior_loss (rare (eps / 2)) [1] lone [true; false] tt) <= eps / 2.
Proof.
  assert (Hp := eps_pos). assert (eps_small : eps <= 1 / 2) by (unfold eps; apply Rle_trans with (/ 2); [apply Rinv_le_contravar; [lra|]; rewrite <- (pow_1 2) at 1; apply Rle_pow; [lra|lia]|lra]).
  destruct (c13_any_evidence (rare (eps / 2)) [1] lone [true; false] tt false (fun _ => 1)) as (r & E1 & E2).
  - reflexivity.
  - split; [constructor; [lra|constructor]|unfold lone; cbn [ws]; rewrite rsum_cons, rsum_nil; ring].
  - intros [|] x e; cbn; lra.
  - reflexivity.
  - intros i Hi. unfold SumL. cbn. ring.
  - rewrite rare_evidence. lra.
  - constructor; [lra|constructor].
  - intros [|i] [|j] Hi Hj; cbn in Hi, Hj; try lia. cbn. rewrite Rabs_R1. lra.
  - exists r. split; [exact E1|]. eapply Rle_trans; [exact E2|]. cbn [removelast filter]. unfold small. rewrite !rare_evidence. rewrite !Rltb_true by lra. cbn [andb]. unfold SumL. cbn [fold_right]. rewrite rare_evidence. unfold size. cbn [length]. rewrite Sum_S, Sum_0. cbn. lra.
Qed.

Print Assumptions c13_any_evidence.
Print Assumptions c13_small_evidence_refuted.
