(** Proofs about the SMC updater model. *)
From Verif Require Import Base RList Ext SmcModel SmcSpec.

Section Proofs.
Context {O E RND : Type}.
Notation state := (@state O).
Notation config := (@config O E RND).
Notation op := (@op O E RND).
Implicit Types (c : config) (s : state).

Lemma L_row_length c l o e : length (L_row c l o e) = length l.
Proof. apply map_length. Qed.
Lemma hyp_row_length c w l o e : length w = length l -> length (hyp_row c w l o e) = length w.
Proof. intros H. unfold hyp_row. apply map2_length. now rewrite L_row_length. Qed.
Lemma hyp_row_nonneg c w l o e : Forall (fun x => 0 <= x) w -> (forall o x e, 0 <= lik (md c) o x e) ->
  Forall (fun x => 0 <= x) (hyp_row c w l o e).
Proof.
  intros Hw HL. unfold hyp_row. apply Forall_map2. intros a b Ha Hb.
  rewrite Forall_forall in Hw. unfold L_row in Hb. apply in_map_iff in Hb. destruct Hb as [x [<- _]].
  apply Rmult_le_pos; auto.
Qed.

Lemma norm_scale_evidence c s o e : length (ws s) = length (ls s) ->
  norm_scale c (ws s) (ls s) o e = evidence c s o e.
Proof.
  intros H. unfold norm_scale, hyp_row, L_row, evidence, n_particles. rewrite map2_map_r.
  rewrite (rsum_map2_index _ _ _ 0 []) by assumption. rewrite H. reflexivity.
Qed.

Lemma fix_norm_pos N : eps <= N -> fix_norm N = N.
Proof. intros H. unfold fix_norm. pose proof eps_pos. rewrite Rltb_false; [reflexivity|]. rewrite Rabs_pos_eq; lra. Qed.
Lemma fix_norm_small N : 0 <= N < eps -> fix_norm N = 1.
Proof. intros H. unfold fix_norm. rewrite Rltb_true; [reflexivity|]. rewrite Rabs_pos_eq; lra. Qed.

Lemma norm_row_nonneg c w l o e : Forall (fun x => 0 <= x) w -> (forall o x e, 0 <= lik (md c) o x e) ->
  Forall (fun x => 0 <= x) (norm_row c w l o e).
Proof.
  intros Hw HL. unfold norm_row. pose proof (hyp_row_nonneg c w l o e Hw HL) as H.
  pose proof (rsum_nonneg _ H) as HN. fold (norm_scale c w l o e) in HN.
  rewrite Forall_map. eapply Forall_impl; [|exact H]. intros a Ha; cbv beta.
  pose proof eps_pos. unfold fix_norm. rb.
  - unfold Rdiv. rewrite Rinv_1. lra.
  - rewrite Rabs_pos_eq in n by assumption. apply Rmult_le_pos; [assumption|].
    left. apply Rinv_0_lt_compat. lra.
Qed.

Lemma norm_row_sum c w l o e : eps <= norm_scale c w l o e -> rsum (norm_row c w l o e) = 1.
Proof.
  intros H. pose proof eps_pos. unfold norm_row. rewrite fix_norm_pos by assumption.
  unfold Rdiv. rewrite rsum_map_scal_r, map_id. fold (norm_scale c w l o e).
  apply Rinv_r. lra.
Qed.
Lemma norm_row_sum_small c w l o e : 0 <= norm_scale c w l o e < eps ->
  norm_row c w l o e = hyp_row c w l o e.
Proof.
  intros H. unfold norm_row. rewrite fix_norm_small by assumption.
  rewrite <- (map_id (hyp_row c w l o e)) at 2. apply map_ext. intros a. field.
Qed.

Lemma clip_negative_id w : Forall (fun x => 0 <= x) w -> clip_negative w = w.
Proof.
  intros H. unfold clip_negative. replace (forallb _ w) with true; [reflexivity|].
  symmetry. apply forallb_forall. rewrite Forall_forall in H. intros x Hx. apply Rleb_true; auto.
Qed.
Lemma clip_negative_nonneg w : Forall (fun x => 0 <= x) (clip_negative w).
Proof.
  unfold clip_negative. destruct (forallb _ w) eqn:Eq.
  - rewrite forallb_forall in Eq. apply Forall_forall. intros x Hx. specialize (Eq x Hx). rb; [assumption|discriminate].
  - rewrite Forall_map. apply Forall_forall. intros x _. apply clip_bounds; lra.
Qed.
Lemma clip_negative_length w : length (clip_negative w) = length w.
Proof. unfold clip_negative. destruct (forallb _ w); [reflexivity|apply map_length]. Qed.

(** The state in which the new weights are installed. *)
Definition recorded s (o : O) : state :=
  {| ws := ws s; ls := ls s; drec := drec s ++ [o]; nrec := nrec s; mness := mness s;
     rcnt := rcnt s; jr := false; calls := calls s + length (ls s) |}.

Definition new_weights c s o e : list R := clip_negative (norm_row c (ws s) (ls s) o e).

Lemma update_unfold c r s o e check :
  update c r s o e check =
  if Nat.eqb (length (ws s)) (length (ls s)) then
    let w := new_weights c s o e in
    let N := norm_scale c (ws s) (ls s) o e in
    let s1 := recorded s o in
    if Rleb (rsum w) (zthresh c) then
      match zpolicy c with
      | PIgnore | PWarn => install c r s1 w N e check
      | PSkip => (s1, None)
      | PError => (s1, Some RuntimeError)
      | PReset => install c r (fst (reset c r s1 None None true)) w N e check
      | POther => (s1, Some ValueError)
      end
    else install c r s1 w N e check
  else (recorded s o, Some ValueError).
Proof.
  unfold update, hypothetical_update. cbn [ws ls length].
  replace (1 * length (ls s) * 1)%nat with (length (ls s)) by lia.
  destruct (Nat.eqb (length (ws s)) (length (ls s))) eqn:Eq; reflexivity.
Qed.

Lemma update_regular c r s o e check :
  length (ws s) = length (ls s) -> Forall (fun x => 0 <= x) (ws s) ->
  (forall o x e, 0 <= lik (md c) o x e) -> zthresh c < 1 -> eps <= evidence c s o e ->
  update c r s o e check =
  install c r (recorded s o) (norm_row c (ws s) (ls s) o e) (evidence c s o e) e check.
Proof.
  intros Hlen Hw HL Ht He. rewrite update_unfold, Hlen, Nat.eqb_refl. cbv zeta.
  rewrite <- norm_scale_evidence in * by assumption.
  unfold new_weights. rewrite clip_negative_id by now apply norm_row_nonneg.
  rewrite norm_row_sum by assumption. now rewrite Rleb_false by assumption.
Qed.

Lemma norm_row_nth c s o e i : length (ws s) = length (ls s) -> (i < n_particles s)%nat ->
  eps <= evidence c s o e ->
  nth i (norm_row c (ws s) (ls s) o e) 0
  = bayes (n_particles s) (wt s) (fun i => lik (md c) o (at_ s i) e) i.
Proof.
  intros Hlen Hi He. unfold norm_row, bayes. rewrite norm_scale_evidence by assumption.
  rewrite fix_norm_pos by assumption. fold (evidence c s o e).
  unfold hyp_row, L_row. rewrite map2_map_r, map_map2.
  rewrite (nth_map2 _ _ _ _ 0 [] 0); [reflexivity| |assumption].
  rewrite Hlen. exact Hi.
Qed.

(** ** C01 *)
Lemma install_nocheck c r s w N e :
  install c r s w N e false =
  ({| ws := w; ls := timestep (md c) r (ls s) e; drec := drec s; nrec := nrec s ++ [N];
      mness := if xleb (n_ess w) (mness s) then n_ess w else mness s;
      rcnt := rcnt s; jr := jr s; calls := calls s |}, None).
Proof. reflexivity. Qed.

Lemma update_check_split c r s o e :
  update c r s o e true =
  match update c r s o e false with
  | (s1, Some x) => (s1, Some x)
  | (s1, None) => if Rleb (rsum (new_weights c s o e)) (zthresh c) then
                    match zpolicy c with PSkip => (s1, None) | _ => maybe_resample c r s1 end
                  else maybe_resample c r s1
  end.
Proof.
  rewrite !update_unfold. destruct (Nat.eqb _ _); [|reflexivity]. cbv zeta.
  destruct (Rleb _ _).
  - destruct (zpolicy c); unfold install; reflexivity.
  - unfold install. reflexivity.
Qed.

Lemma c01_lem c r s o e :
  length (ws s) = length (ls s) -> Forall (fun x => 0 <= x) (ws s) ->
  (forall o x e, 0 <= lik (md c) o x e) -> zthresh c < 1 -> eps <= evidence c s o e ->
  exists s', update c r s o e false = (s', None) /\
    length (ws s') = length (ws s) /\
    (forall i, (i < n_particles s)%nat ->
       wt s' i = bayes (n_particles s) (wt s) (fun i => lik (md c) o (at_ s i) e) i) /\
    ls s' = timestep (md c) r (ls s) e /\
    update c r s o e true = maybe_resample c r s'.
Proof.
  intros Hlen Hw HL Ht He. rewrite update_regular by assumption. rewrite install_nocheck. eexists. split; [reflexivity|].
  cbn [ws ls recorded]. repeat split.
  - unfold norm_row. rewrite map_length. apply hyp_row_length. assumption.
  - intros i Hi. unfold wt at 1. cbn [ws]. now apply norm_row_nth.
  - rewrite update_regular by assumption. reflexivity.
Qed.

(** ** C02 *)
Definition cloud_ok s : Prop := prob_vector (ws s) /\ ls s <> [].

Lemma nonempty_len {A} (l : list A) : l <> [] <-> (0 < length l)%nat.
Proof. destruct l; simpl; split; intros; try lia; try congruence. Qed.

Lemma resample_ok c r s : good_config c -> cloud_ok s -> cloud_ok (fst (resample c r s)).
Proof.
  intros G [H1 H2]. unfold resample. destruct (rsmp c r (ws s) (ls s)) as [[w' l']|x] eqn:Eq; simpl; [|split; assumption].
  destruct (rsmp_ok c G _ _ _ _ _ Eq) as (_ & Hl & Hp). specialize (Hp H2). split; cbn [ws ls]; [assumption|].
  pose proof (prob_vector_nonempty _ Hp). apply nonempty_len. destruct (canonize c); rewrite ?(canon_len c G); lia.
Qed.
Lemma maybe_resample_ok c r s : good_config c -> cloud_ok s -> cloud_ok (fst (maybe_resample c r s)).
Proof. intros G H. unfold maybe_resample. destruct (xltb _ _); [now apply resample_ok|exact H]. Qed.

Lemma install_ok c r s w N e check : good_config c -> prob_vector w -> ls s <> [] ->
  cloud_ok (fst (install c r s w N e check)).
Proof.
  intros G Hw Hl. unfold install.
  set (s1 := Build_state _ _ _ _ _ _ _ _).
  assert (cloud_ok s1).
  { split; [exact Hw|]. cbn. apply nonempty_len. rewrite (step_len c G). now apply nonempty_len. }
  destruct check; [now apply maybe_resample_ok|assumption].
Qed.


Lemma update_ok c r s o e check : good_config c -> eps <= zthresh c -> strict_policy c ->
  cloud_ok s -> cloud_ok (fst (update c r s o e check)).
Proof.
  intros G Ht Hp [[Hw Hs] Hl]. rewrite update_unfold.
  destruct (Nat.eqb_spec (length (ws s)) (length (ls s))) as [Hlen|_]; [|split; [split|]; assumption].
  cbv zeta. unfold new_weights. rewrite clip_negative_id by (apply norm_row_nonneg; [assumption|apply (lik_nonneg c G)]).
  pose proof (norm_row_nonneg c _ (ls s) o e Hw (lik_nonneg c G)) as Hnn.
  destruct (Rleb_spec (rsum (norm_row c (ws s) (ls s) o e)) (zthresh c)) as [Hle|Hgt].
  - destruct Hp as [Hp|[Hp|Hp]]; rewrite Hp; (split; [split|]; assumption).
  - apply install_ok; [assumption| |assumption]. split; [assumption|].
    pose proof (rsum_nonneg _ (hyp_row_nonneg c _ (ls s) o e Hw (lik_nonneg c G))) as HN.
    fold (norm_scale c (ws s) (ls s) o e) in HN.
    destruct (Rlt_le_dec (norm_scale c (ws s) (ls s) o e) eps) as [Hlt|Hge]; [|now apply norm_row_sum].
    exfalso. rewrite norm_row_sum_small in Hgt by lra. fold (norm_scale c (ws s) (ls s) o e) in Hgt. lra.
Qed.

Lemma set_cols_length sel a b : length a = length b -> length (set_cols sel a b) = length a.
Proof. apply map2_length. Qed.
Lemma get_cols_length sel a : length (get_cols sel a) = length a.
Proof. apply map_length. Qed.

Lemma reset_ok c r s np only rw : good_config c -> np <> Some 0%nat -> cloud_ok s ->
  cloud_ok (fst (reset c r s np only rw)).
Proof.
  intros G Hnp [Hw Hl]. apply nonempty_len in Hl.
  assert (Hcw : forall n b, (0 < n)%nat -> prob_vector (if b : bool then uniform_weights n else ws s)).
  { intros n [|] Hn; [now apply uniform_prob|assumption]. }
  unfold reset, cloud_ok, n_particles. destruct np as [m|]; destruct only as [sel|]; cbn [fst ws ls]; rewrite nonempty_len.
  - split; assumption.
  - assert (0 < m)%nat by (destruct m; [congruence|lia]). split; [now apply Hcw|].
    destruct (canonize c); rewrite ?(canon_len c G), ?(prior_len c G); assumption.
  - split; [now apply Hcw|].
    destruct (canonize c); rewrite ?set_cols_length; rewrite ?(canon_len c G), ?get_cols_length, ?(prior_len c G), ?set_cols_length;
      rewrite ?get_cols_length, ?(prior_len c G); auto.
  - split; [now apply Hcw|].
    destruct (canonize c); rewrite ?(canon_len c G), ?(prior_len c G); assumption.
Qed.

Lemma batch_loop_ind c (P : state -> Prop) rs k :
  (forall r s o e, P s -> P (fst (update c r s o e false))) ->
  (forall r s, P s -> P (fst (maybe_resample c r s))) ->
  forall data idx s, P s -> P (fst (batch_loop c rs k idx data s)).
Proof.
  intros Hu Hm. induction data as [|[o e] data IH]; intros idx s Hs; [exact Hs|].
  cbn [batch_loop]. pose proof (Hu (rs idx) s o e Hs) as H1.
  destruct (update c (rs idx) s o e false) as [s1 [x|]]; [exact H1|]. cbn [fst] in H1.
  destruct (Z.eqb k 0); [exact H1|]. destruct (Z.eqb _ 0).
  - pose proof (Hm (rs idx) s1 H1) as H2. destruct (maybe_resample c (rs idx) s1) as [s2 [x|]]; [exact H2|].
    now apply IH.
  - now apply IH.
Qed.
Lemma batch_update_ind c (P : state -> Prop) :
  (forall r s o e, P s -> P (fst (update c r s o e false))) ->
  (forall r s, P s -> P (fst (maybe_resample c r s))) ->
  forall rs s os es k, P s -> P (fst (batch_update c rs s os es k)).
Proof.
  intros Hu Hm rs s os es k Hs. unfold batch_update. destruct (Nat.eqb _ _); [|exact Hs].
  now apply batch_loop_ind.
Qed.

Lemma step_ok c s x : good_config c -> eps <= zthresh c -> strict_policy c -> op_ok x ->
  cloud_ok s -> cloud_ok (fst (step c s x)).
Proof.
  intros G Ht Hp Hx Hs. destruct x as [r o e ck|rs os es k|r|r|r np only rw|os es]; cbn [step].
  - now apply update_ok.
  - apply batch_update_ind; [|..]; auto; intros; [now apply update_ok|now apply maybe_resample_ok].
  - now apply resample_ok.
  - now apply maybe_resample_ok.
  - apply reset_ok; try assumption. intros ->. exact Hx.
  - unfold hypothetical_update. destruct (negb _); exact Hs.
Qed.

Lemma run_ind c (P : state -> Prop) (Q : op -> Prop) :
  (forall s x, Q x -> P s -> P (fst (step c s x))) ->
  forall xs s, Forall Q xs -> P s -> P (run c s xs).
Proof.
  intros H. unfold run. induction xs as [|x xs IH]; intros s HQ Hs; [exact Hs|].
  inversion HQ; subst. cbn [fold_left]. apply IH; auto.
Qed.

Lemma init_ok c r n s : good_config c -> (0 < n)%nat -> init c r n false = Ok s -> cloud_ok s.
Proof.
  intros G Hn H. unfold init in H. injection H as <-. cbn [reset fst]. split; cbn [ws ls].
  - now apply uniform_prob.
  - apply nonempty_len. destruct (canonize c); rewrite ?(canon_len c G), (prior_len c G); assumption.
Qed.

Lemma c02_lem c r n s0 xs :
  good_config c -> eps <= zthresh c -> strict_policy c ->
  (0 < n)%nat -> init c r n false = Ok s0 -> Forall op_ok xs ->
  prob_vector (ws (run c s0 xs)).
Proof.
  intros G Ht Hp Hn Hi Hxs. apply (run_ind c cloud_ok op_ok).
  - intros s x Hx Hs. now apply step_ok.
  - assumption.
  - eapply init_ok; eassumption.
Qed.

(** ** C03 *)

Lemma hyp_same c s os es : same_but_calls s (fst (hypothetical_update c s os es)).
Proof. unfold hypothetical_update. destruct (negb _); repeat split. Qed.

Lemma hyp_entries c s os es h :
  snd (hypothetical_update c s os es) = Ok h ->
  forall i j o e, nth_error os i = Some o -> nth_error es j = Some e ->
  exists h1 W N, snd (hypothetical_update c s [o] [e]) = Ok h1 /\
    h_weights h1 = [[W]] /\ h_norm h1 = [[N]] /\
    nth j (nth i (h_weights h) []) [] = W /\ nth j (nth i (h_norm h) []) 0 = N.
Proof.
  unfold hypothetical_update. destruct (negb _) eqn:Eq; cbn [snd]; intros H; [discriminate|].
  injection H as <-. intros i j o e Ho He. cbn [h_weights h_norm].
  do 3 eexists. split; [reflexivity|]. cbn [h_weights h_norm map]. repeat split.
  - pose proof (map_nth_error (fun o => map (fun e => norm_row c (ws s) (ls s) o e) es) i os Ho) as H1.
    apply nth_error_nth with (d := []) in H1. rewrite H1.
    pose proof (map_nth_error (fun e => norm_row c (ws s) (ls s) o e) j es He) as H2.
    apply nth_error_nth with (d := []) in H2. exact H2.
  - pose proof (map_nth_error (fun o => map (fun e => norm_scale c (ws s) (ls s) o e) es) i os Ho) as H1.
    apply nth_error_nth with (d := []) in H1. rewrite H1.
    pose proof (map_nth_error (fun e => norm_scale c (ws s) (ls s) o e) j es He) as H2.
    apply nth_error_nth with (d := 0) in H2. exact H2.
Qed.

Lemma hyp_predicts c r s o e W N h :
  snd (hypothetical_update c s [o] [e]) = Ok h -> h_weights h = [[W]] -> h_norm h = [[N]] ->
  Forall (fun x => 0 <= x) W -> zthresh c < rsum W ->
  forall s', fst (update c r s o e false) = s' ->
  ws s' = W /\ nrec s' = nrec s ++ [N] /\ snd (update c r s o e false) = None.
Proof.
  unfold hypothetical_update. destruct (Nat.eqb (length (ws s)) (length (ls s))) eqn:Eq; cbn [negb snd]; intros H; [|discriminate].
  injection H as <-. cbn [h_weights h_norm map]. intros HW HN Hnn Ht s' <-.
  injection HW as HW. injection HN as HN.
  rewrite update_unfold, Eq. cbv zeta. unfold new_weights. rewrite HW, HN.
  rewrite clip_negative_id by assumption. rewrite Rleb_false by assumption.
  rewrite install_nocheck. cbn. repeat split.
Qed.

(** ** C04 *)
Lemma resample_records c r s : drec (fst (resample c r s)) = drec s /\ nrec (fst (resample c r s)) = nrec s.
Proof. unfold resample. destruct (rsmp _ _ _ _) as [[w' l']|x]; split; reflexivity. Qed.
Lemma maybe_resample_records c r s : drec (fst (maybe_resample c r s)) = drec s /\ nrec (fst (maybe_resample c r s)) = nrec s.
Proof. unfold maybe_resample. destruct (xltb _ _); [apply resample_records|split; reflexivity]. Qed.
Lemma install_records c r s w N e check :
  drec (fst (install c r s w N e check)) = drec s /\ nrec (fst (install c r s w N e check)) = nrec s ++ [N].
Proof.
  unfold install. destruct check; [|split; reflexivity].
  set (s1 := Build_state _ _ _ _ _ _ _ _). destruct (maybe_resample_records c r s1) as [-> ->]. split; reflexivity.
Qed.
Lemma reset_records c r s np only rw :
  drec (fst (reset c r s np only rw)) = drec s /\ nrec (fst (reset c r s np only rw)) = nrec s.
Proof. unfold reset. destruct np, only; split; reflexivity. Qed.

Lemma update_drec c r s o e check : drec (fst (update c r s o e check)) = drec s ++ [o].
Proof.
  rewrite update_unfold. destruct (Nat.eqb _ _); [|reflexivity]. cbv zeta.
  destruct (Rleb _ _); [destruct (zpolicy c)|]; try reflexivity; rewrite (proj1 (install_records _ _ _ _ _ _ _)); reflexivity.
Qed.

Lemma update_nrec_applied c r s o e check :
  length (ws s) = length (ls s) -> applied c (rsum (new_weights c s o e)) ->
  nrec (fst (update c r s o e check)) = nrec s ++ [evidence c s o e].
Proof.
  intros Hlen Ha. rewrite update_unfold, Hlen, Nat.eqb_refl. cbv zeta.
  rewrite <- norm_scale_evidence by assumption.
  destruct (Rleb_spec (rsum (new_weights c s o e)) (zthresh c)) as [Hle|Hgt].
  - destruct Ha as [Ha|[Ha|[Ha|Ha]]]; [lra|rewrite Ha; rewrite (proj2 (install_records _ _ _ _ _ _ _)); reflexivity..].
  - rewrite (proj2 (install_records _ _ _ _ _ _ _)); reflexivity.
Qed.
Lemma update_nrec_not_applied c r s o e check :
  length (ws s) <> length (ls s) \/ ~ applied c (rsum (new_weights c s o e)) ->
  nrec (fst (update c r s o e check)) = nrec s.
Proof.
  intros Ha. rewrite update_unfold. destruct (Nat.eqb_spec (length (ws s)) (length (ls s))) as [Hlen|Hlen]; [|reflexivity].
  destruct Ha as [Ha|Ha]; [contradiction|]. cbv zeta.
  destruct (Rleb_spec (rsum (new_weights c s o e)) (zthresh c)) as [Hle|Hgt].
  - destruct (zpolicy c) eqn:Ep; try reflexivity; exfalso; apply Ha; unfold applied; auto.
  - exfalso. apply Ha. left. lra.
Qed.

(** C07: a batch is its plan run until the first exception. *)
Lemma batch_loop_plan c rs k data : k <> 0%Z -> forall idx s,
  batch_loop c rs k idx data s = run_until_exn c s (batch_plan rs k idx data).
Proof.
  intros Hk. induction data as [|[o e] data IH]; intros idx s; [reflexivity|].
  unfold batch_plan. cbn [length seq combine flat_map fst snd].
  fold (batch_plan rs k (S idx) data). cbn [batch_loop app run_until_exn step].
  destruct (update c (rs idx) s o e false) as [s1 [x|]]; [reflexivity|].
  destruct (Z.eqb_spec k 0) as [?|_]; [contradiction|].
  rewrite Nat2Z.inj_succ. change (Z.succ (Z.of_nat idx)) with (Z.of_nat idx + 1)%Z.
  destruct (Znumtheory.Zdivide_dec k (Z.of_nat idx + 1)) as [Hd|Hd].
  - apply Znumtheory.Zdivide_mod in Hd. rewrite Hd. cbn [Z.eqb app run_until_exn step].
    destruct (maybe_resample c (rs idx) s1) as [s2 [x|]]; [reflexivity|]. apply IH.
  - destruct (Z.eqb_spec ((Z.of_nat idx + 1) mod k) 0) as [H0|H0].
    + exfalso. apply Hd. now apply Znumtheory.Zmod_divide.
    + cbn [app]. apply IH.
Qed.

Lemma run_until_exn_prefix c xs : forall s,
  exists pre rest, xs = pre ++ rest /\ fst (run_until_exn c s xs) = run c s pre /\
    (snd (run_until_exn c s xs) = None -> rest = []).
Proof.
  induction xs as [|x xs IH]; intros s.
  - exists [], []. repeat split.
  - cbn [run_until_exn]. destruct (step c s x) as [s' [e|]] eqn:Eq.
    + exists [x], xs. repeat split; [|discriminate]. unfold run. cbn. now rewrite Eq.
    + destruct (IH s') as (pre & rest & -> & H1 & H2). exists (x :: pre), rest. repeat split; [|assumption].
      unfold run in *. cbn. rewrite Eq. exact H1.
Qed.

Lemma run_app c s xs ys : run c s (xs ++ ys) = run c (run c s xs) ys.
Proof. unfold run. apply fold_left_app. Qed.

Lemma batch_loop_prefix c rs k data idx s :
  exists pre rest, batch_plan rs k idx data = pre ++ rest /\ fst (batch_loop c rs k idx data s) = run c s pre.
Proof.
  destruct (Z.eq_dec k 0) as [->|Hk].
  - destruct data as [|[o e] data]; [exists [], []; split; reflexivity|].
    exists [OUpdate (rs idx) o e false], (batch_plan rs 0 (S idx) data). split.
    + unfold batch_plan. cbn [length seq combine flat_map fst snd app].
      destruct (Znumtheory.Zdivide_dec 0 (Z.of_nat idx + 1)) as [[q Hq]|_]; [lia|reflexivity].
    + cbn [batch_loop]. unfold run; cbn [fold_left step].
      destruct (update c (rs idx) s o e false) as [s1 [x|]]; reflexivity.
  - rewrite batch_loop_plan by assumption.
    destruct (run_until_exn_prefix c (batch_plan rs k idx data) s) as (pre & rest & Hp & H1 & _). eauto.
Qed.

Lemma expand_exists c xs : forall s, exists ms, expands xs ms /\ run c s xs = run c s ms.
Proof.
  induction xs as [|x xs IH]; intros s.
  - exists []. split; [constructor|reflexivity].
  - destruct (IH (fst (step c s x))) as (ms & Hms & Hrun).
    destruct x as [r o e ck|rs os es k|r|r|r np only rw|os es];
      try (eexists (_ :: ms); split; [apply ex_single; [intros; discriminate|exact Hms]|exact Hrun]).
    unfold run. cbn [fold_left]. change (fold_left (fun s0 x => fst (step c s0 x)) xs) with (fun s => run c s xs). cbv beta.
    cbn [step] in *. unfold batch_update in *. destruct (Nat.eqb (length es) (length os)).
    + destruct (batch_loop_prefix c rs k (combine os es) 0%nat s) as (pre & rest & Hp & H1).
      exists (pre ++ ms). split; [eapply ex_batch; eassumption|].
      change (fold_left (fun s0 x => fst (step c s0 x)) (pre ++ ms) s) with (run c s (pre ++ ms)).
      rewrite run_app, <- H1. exact Hrun.
    + cbn [fst] in *. exists ms. split; [|exact Hrun].
      apply (ex_batch rs os es k xs ms (batch_plan rs k 0 (combine os es)) []); [reflexivity|assumption].
Qed.

Lemma plan_no_batch (rs : nat -> RND) k (data : list (O * E)) : forall idx, Forall no_batch (batch_plan rs k idx data).
Proof.
  intros idx. unfold batch_plan. apply Forall_forall. intros x Hx. apply in_flat_map in Hx.
  destruct Hx as (p & _ & [<-|Hx]); [exact I|]. destruct (Znumtheory.Zdivide_dec _ _); [destruct Hx as [<-|[]]; exact I|destruct Hx].
Qed.
Lemma expands_no_batch (xs ms : list op) : expands xs ms -> Forall no_batch ms.
Proof.
  induction 1 as [|x xs ms Hx _ IH|rs os es k xs ms rest pre Hp _ IH].
  - constructor.
  - constructor; [|assumption]. destruct x; try exact I. exfalso. eapply Hx. reflexivity.
  - apply Forall_app. split; [|assumption]. pose proof (plan_no_batch rs k (combine os es) 0%nat) as HF. rewrite Hp in HF.
    apply Forall_app in HF. apply HF.
Qed.

Lemma outcomes_app (xs ys : list op) : outcomes_of (xs ++ ys) = outcomes_of xs ++ outcomes_of ys.
Proof. induction xs as [|x xs IH]; [reflexivity|]. cbn [app]. destruct x; cbn [outcomes_of]; rewrite IH; reflexivity. Qed.


Lemma step_drec c s x : no_batch x -> drec (fst (step c s x)) = drec s ++ outcomes_of [x].
Proof.
  intros Hx. destruct x; cbn [step outcomes_of]; rewrite ?app_nil_r.
  - apply update_drec.
  - destruct Hx.
  - apply resample_records.
  - apply maybe_resample_records.
  - apply reset_records.
  - unfold hypothetical_update. destruct (negb _); reflexivity.
Qed.
Lemma run_drec c xs : Forall no_batch xs -> forall s, drec (run c s xs) = drec s ++ outcomes_of xs.
Proof.
  induction 1 as [|x xs Hx Hxs IH]; intros s; [cbn; now rewrite app_nil_r|].
  unfold run in *. cbn [fold_left]. rewrite IH, step_drec by assumption.
  rewrite <- app_assoc. f_equal. symmetry. apply (outcomes_app [x] xs).
Qed.


Lemma step_nrec_other c s x : match x with OUpdate _ _ _ _ | OBatch _ _ _ _ => False | _ => True end ->
  nrec (fst (step c s x)) = nrec s.
Proof.
  intros Hx. destruct x; cbn [step]; try destruct Hx.
  - apply resample_records.
  - apply maybe_resample_records.
  - apply reset_records.
  - unfold hypothetical_update. destruct (negb _); reflexivity.
Qed.

Lemma applied_dec c t : {applied c t} + {~ applied c t}.
Proof.
  unfold applied. destruct (Rlt_dec (zthresh c) t); [left; auto|].
  destruct (zpolicy c) eqn:Ep; try (left; auto; fail); right; intros [?|[?|[?|?]]]; try congruence; contradiction.
Qed.

(** Weights stay non-negative whatever the policy. *)
Lemma reset_nonneg c r s np only rw : Forall (fun x => 0 <= x) (ws s) -> Forall (fun x => 0 <= x) (ws (fst (reset c r s np only rw))).
Proof.
  intros H. unfold reset. destruct np, only; try exact H; cbn [fst ws]; destruct rw; try exact H; apply uniform_weights_nonneg.
Qed.
Lemma resample_nonneg c r s : good_config c -> Forall (fun x => 0 <= x) (ws s) -> Forall (fun x => 0 <= x) (ws (fst (resample c r s))).
Proof.
  intros G H. unfold resample. destruct (rsmp c r (ws s) (ls s)) as [[w' l']|x] eqn:Eq; [|exact H].
  cbn. apply (proj1 (rsmp_ok c G _ _ _ _ _ Eq)).
Qed.
Lemma maybe_resample_nonneg c r s : good_config c -> Forall (fun x => 0 <= x) (ws s) -> Forall (fun x => 0 <= x) (ws (fst (maybe_resample c r s))).
Proof. intros G H. unfold maybe_resample. destruct (xltb _ _); [now apply resample_nonneg|exact H]. Qed.
Lemma install_nonneg c r s w N e ck : good_config c -> Forall (fun x => 0 <= x) w -> Forall (fun x => 0 <= x) (ws (fst (install c r s w N e ck))).
Proof. intros G H. unfold install. destruct ck; [apply maybe_resample_nonneg; [assumption|exact H]|exact H]. Qed.
Lemma update_nonneg c r s o e ck : good_config c -> Forall (fun x => 0 <= x) (ws s) -> Forall (fun x => 0 <= x) (ws (fst (update c r s o e ck))).
Proof.
  intros G H. rewrite update_unfold. destruct (Nat.eqb _ _); [|exact H]. cbv zeta.
  destruct (Rleb _ _); [destruct (zpolicy c)|]; try exact H; apply install_nonneg; try assumption; apply clip_negative_nonneg.
Qed.
Lemma step_nonneg c s x : good_config c -> Forall (fun x => 0 <= x) (ws s) -> Forall (fun x => 0 <= x) (ws (fst (step c s x))).
Proof.
  intros G H. destruct x as [r o e ck|rs os es k|r|r|r np only rw|os es]; cbn [step].
  - now apply update_nonneg.
  - apply (batch_update_ind c (fun s => Forall (fun x => 0 <= x) (ws s))); [intros; now apply update_nonneg|intros; now apply maybe_resample_nonneg|exact H].
  - now apply resample_nonneg.
  - now apply maybe_resample_nonneg.
  - now apply reset_nonneg.
  - unfold hypothetical_update. destruct (negb _); exact H.
Qed.

(** new weight totals in terms of the evidence *)
Lemma new_weights_total c s o e : length (ws s) = length (ls s) -> Forall (fun x => 0 <= x) (ws s) ->
  (forall o x e, 0 <= lik (md c) o x e) ->
  rsum (new_weights c s o e) = new_total c s o e.
Proof.
  intros Hlen Hw HL. unfold new_total. rewrite <- norm_scale_evidence by assumption.
  pose proof (rsum_nonneg _ (hyp_row_nonneg c _ (ls s) o e Hw HL)) as HN. fold (norm_scale c (ws s) (ls s) o e) in HN.
  unfold new_weights. rewrite clip_negative_id by now apply norm_row_nonneg.
  destruct (Rlt_dec _ _) as [Hlt|Hge].
  - rewrite norm_row_sum_small by lra. reflexivity.
  - apply norm_row_sum. lra.
Qed.

Lemma run_nrec c xs : good_config c -> Forall no_batch xs -> forall s, Forall (fun x => 0 <= x) (ws s) ->
  exists Ns, applied_norms c s xs Ns /\ nrec (run c s xs) = nrec s ++ Ns.
Proof.
  intros G. induction 1 as [|x xs Hx Hxs IH]; intros s Hnn.
  - exists []. split; [reflexivity|cbn; now rewrite app_nil_r].
  - destruct (IH (fst (step c s x)) (step_nonneg c s x G Hnn)) as (Ns & HNs & Hrun).
    unfold run in *. cbn [fold_left]. rewrite Hrun.
    assert (match x with OUpdate _ _ _ _ => True | _ => nrec (fst (step c s x)) = nrec s end) as Hother.
    { destruct x; try exact I; try (apply step_nrec_other; exact I). destruct Hx. }
    destruct x as [r o e ck|rs os es k|r|r|r np only rw|os es];
      try (rewrite Hother; exists Ns; split; [exact HNs|reflexivity]).
    destruct (Nat.eq_dec (length (ws s)) (length (ls s))) as [Hl|Hl].
    + pose proof (new_weights_total c s o e Hl Hnn (lik_nonneg c G)) as Ht.
      destruct (applied_dec c (rsum (new_weights c s o e))) as [Ha|Ha]; pose proof Ha as Ha'; rewrite Ht in Ha'.
      * exists (evidence c s o e :: Ns). split; [left; eauto|].
        cbn [step]. rewrite update_nrec_applied by assumption. now rewrite <- app_assoc.
      * exists Ns. split; [right; auto|]. cbn [step]. rewrite update_nrec_not_applied by auto. reflexivity.
    + exists Ns. split; [right; auto|]. cbn [step]. rewrite update_nrec_not_applied by auto. reflexivity.
Qed.

(** ** C05, C06 *)
Lemma log_total_exp s : Forall (fun x => 0 < x) (nrec s) ->
  log_total_likelihood s = Fin (ln (rprod (nrec s))).
Proof.
  unfold log_total_likelihood. induction 1 as [|x l Hx Hl IH].
  - cbn. change (rprod []) with 1. rewrite ln_1. reflexivity.
  - cbn [map]. rewrite xsum_cons, IH. simpl xln. rewrite Rltb_true by assumption.
    simpl. rewrite rprod_cons, ln_mult; [reflexivity|assumption|now apply rprod_pos].
Qed.





Lemma update_regular_inv c r s o e : good_config c -> zthresh c < 1 -> full_inv s -> eps <= evidence c s o e ->
  full_inv (fst (update c r s o e false)).
Proof.
  intros G Ht [Hlen [Hw Hs]] He. rewrite update_regular by (auto; apply (lik_nonneg c G)).
  rewrite install_nocheck. split; cbn [fst ws ls recorded].
  - rewrite (step_len c G). unfold norm_row. rewrite map_length, hyp_row_length; assumption.
  - split; [apply norm_row_nonneg; [assumption|apply (lik_nonneg c G)]|].
    apply norm_row_sum. now rewrite norm_scale_evidence.
Qed.

Lemma run_updates_cons c rs idx o e data s :
  run c s (updates rs idx ((o, e) :: data)) = run c (fst (update c (rs idx) s o e false)) (updates rs (S idx) data).
Proof. reflexivity. Qed.

Lemma run_regular c rs : good_config c -> zthresh c < 1 -> forall data idx s,
  full_inv s -> regular c rs idx data s ->
  let s' := run c s (updates rs idx data) in
  full_inv s' /\ n_particles s' = n_particles s /\
  exists Ns, nrec s' = nrec s ++ Ns /\ Forall (fun x => 0 < x) Ns /\
    (forall i, (i < n_particles s)%nat -> wt s' i * rprod Ns = wt s i * path_lik c rs idx data (ls s) i).
Proof.
  intros G Ht. induction data as [|[o e] data IH]; intros idx s Hinv Hreg s'.
  - split; [exact Hinv|]. split; [reflexivity|]. exists []. split; [cbn; now rewrite app_nil_r|]. split; [constructor|].
    intros i Hi. cbn. unfold s', run; cbn. unfold rprod; cbn. lra.
  - destruct Hreg as [He Hreg]. pose proof (update_regular_inv c (rs idx) s o e G Ht Hinv He) as Hinv1.
    specialize (IH (S idx) _ Hinv1 Hreg). cbv zeta in IH. destruct IH as (IH1 & IH2 & Ns & IH3 & IH4 & IH5).
    unfold s'. rewrite run_updates_cons. split; [exact IH1|].
    assert (Hn : n_particles (fst (update c (rs idx) s o e false)) = n_particles s).
    { destruct Hinv as [Hlen [Hw Hs]]. rewrite update_regular by (auto; apply (lik_nonneg c G)).
      rewrite install_nocheck. unfold n_particles; cbn. apply (step_len c G). }
    split; [now rewrite IH2|]. exists (evidence c s o e :: Ns).
    destruct Hinv as [Hlen [Hw Hs]]. pose proof eps_pos.
    split; [|split].
    + rewrite IH3. rewrite update_regular by (auto; apply (lik_nonneg c G)). rewrite install_nocheck. cbn. now rewrite <- app_assoc.
    + constructor; [lra|assumption].
    + intros i Hi. rewrite rprod_cons. rewrite Hn in IH5. specialize (IH5 i Hi).
      cbn [path_lik]. rewrite <- Rmult_assoc, (Rmult_comm _ (evidence c s o e)), Rmult_assoc, IH5.
      rewrite update_regular by (auto; apply (lik_nonneg c G)). rewrite install_nocheck. unfold wt at 1. cbn [fst ws ls recorded].
      rewrite norm_row_nth by assumption. unfold bayes. fold (evidence c s o e). fold (at_ s i).
      field. lra.
Qed.

Lemma full_inv_Sum s : full_inv s -> Sum (n_particles s) (wt s) = 1.
Proof. intros [Hlen [_ Hs]]. rewrite <- Hs, (rsum_index (ws s)), Hlen. reflexivity. Qed.

Lemma c04_lem c xs s : good_config c -> Forall (fun x => 0 <= x) (ws s) ->
  exists ms Ns, expands xs ms /\ run c s xs = run c s ms /\
    drec (run c s xs) = drec s ++ outcomes_of ms /\
    applied_norms c s ms Ns /\ nrec (run c s xs) = nrec s ++ Ns.
Proof.
  intros G Hnn. destruct (expand_exists c xs s) as (ms & Hms & Hrun).
  pose proof (expands_no_batch xs ms Hms) as Hnb. destruct (run_nrec c ms G Hnb s Hnn) as (Ns & H1 & H2).
  exists ms, Ns. rewrite Hrun. repeat split; try assumption. now apply run_drec.
Qed.

Lemma c05_lem c rs data s : good_config c -> zthresh c < 1 -> full_inv s -> nrec s = [] ->
  regular c rs 0 data s ->
  exists x, log_total_likelihood (run c s (updates rs 0 data)) = Fin x /\
    exp x = Sum (n_particles s) (fun i => wt s i * path_lik c rs 0 data (ls s) i).
Proof.
  intros G Ht Hinv H0 Hreg. destruct (run_regular c rs G Ht data 0%nat s Hinv Hreg) as (H1 & H2 & Ns & H3 & H4 & H5).
  rewrite H0 in H3. cbn [app] in H3. exists (ln (rprod Ns)). split.
  - rewrite log_total_exp by now rewrite H3. now rewrite H3.
  - rewrite exp_ln by now apply rprod_pos. rewrite <- (Sum_ext _ _ _ H5).
    rewrite (Sum_ext _ _ (fun i => rprod Ns * wt (run c s (updates rs 0 data)) i)) by (intros; ring).
    rewrite Sum_scal. rewrite <- H2, full_inv_Sum by assumption. ring.
Qed.

(** no drift: the likelihood product of a particle is the product over the data *)
Lemma path_lik_static c rs data : (forall r l e, timestep (md c) r l e = l) ->
  forall idx l i, path_lik c rs idx data l i = rprod (map (fun d => lik (md c) (fst d) (nth i l []) (snd d)) data).
Proof.
  intros Hs. induction data as [|[o e] data IH]; intros idx l i; [reflexivity|].
  cbn [path_lik map]. rewrite rprod_cons, Hs, IH. reflexivity.
Qed.

Lemma list_eq_nth (l m : list R) : length l = length m -> (forall i, (i < length l)%nat -> nth i l 0 = nth i m 0) -> l = m.
Proof. intros H1 H2. apply (nth_ext l m 0 0); assumption. Qed.

Lemma run_static_ls c rs data : (forall r l e, timestep (md c) r l e = l) -> good_config c -> zthresh c < 1 ->
  forall idx s, full_inv s -> regular c rs idx data s -> ls (run c s (updates rs idx data)) = ls s.
Proof.
  intros Hst G Ht. induction data as [|[o e] data IH]; intros idx s Hinv Hreg; [reflexivity|].
  destruct Hreg as [He Hreg]. rewrite run_updates_cons.
  rewrite IH; [|now apply update_regular_inv|assumption].
  destruct Hinv as [Hlen [Hw Hs]]. rewrite update_regular by (auto; apply (lik_nonneg c G)).
  rewrite install_nocheck. cbn. apply Hst.
Qed.

Lemma c06_lem c rs rs' data data' s : good_config c -> zthresh c < 1 -> full_inv s ->
  (forall r l e, timestep (md c) r l e = l) -> Permutation data data' ->
  regular c rs 0 data s -> regular c rs' 0 data' s ->
  ws (run c s (updates rs 0 data)) = ws (run c s (updates rs' 0 data')) /\
  ls (run c s (updates rs 0 data)) = ls (run c s (updates rs' 0 data')).
Proof.
  intros G Ht Hinv Hst Hperm R1 R2.
  rewrite !run_static_ls by assumption. split; [|reflexivity].
  destruct (run_regular c rs G Ht data 0%nat s Hinv R1) as (A1 & A2 & NA & A3 & A4 & A5).
  destruct (run_regular c rs' G Ht data' 0%nat s Hinv R2) as (B1 & B2 & NB & B3 & B4 & B5).
  set (sa := run c s (updates rs 0 data)) in *. set (sb := run c s (updates rs' 0 data')) in *.
  assert (HP : forall i, (i < n_particles s)%nat -> wt sa i * rprod NA = wt sb i * rprod NB).
  { intros i Hi. rewrite A5, B5 by assumption. f_equal. rewrite !path_lik_static by assumption.
    apply rprod_perm. now apply Permutation_map. }
  assert (HN : rprod NA = rprod NB).
  { pose proof (full_inv_Sum sa A1) as Sa. pose proof (full_inv_Sum sb B1) as Sb. rewrite A2 in Sa. rewrite B2 in Sb.
    rewrite <- (Rmult_1_r (rprod NA)), <- (Rmult_1_r (rprod NB)). rewrite <- Sa at 1. rewrite <- Sb.
    rewrite <- !Sum_scal. apply Sum_ext. intros i Hi. specialize (HP i Hi). lra. }
  pose proof (rprod_pos _ A4) as HA.
  destruct A1 as [La _], B1 as [Lb _]. unfold n_particles in *.
  apply list_eq_nth; [congruence|]. intros i Hi.
  assert (i < length (ls s))%nat as Hi' by congruence. specialize (HP i Hi'). rewrite <- HN in HP.
  apply Rmult_eq_reg_r in HP; [exact HP|lra].
Qed.
End Proofs.
