(** C161: whose changes an updater sees, and whose changes its callers see. *)
From Coq Require Import Lia Lra.
From Verif Require Import Base RList Ext SmcModel SmcSpec SmcProofs SmcProofs2 SmcProofs3 SmcDemo SmcProps HeapModel HeapProofs.

Section P.
Context {O E RND : Type}.
Implicit Types (c : @config O E RND) (h : @hstate O).

(** every attribute refers to something that exists *)
Definition proper h : Prop := (wa h < length (wh h))%nat /\ (la h < length (lh h))%nat /\ (da h < length (dh h))%nat /\ (na h < length (nh h))%nat.

(** Sharing arrays makes no difference to the updater: over any history it sees what the updater of SmcModel.v computes, with the same exceptions. *)
Theorem c161_same_updater c h x : proper h -> proper (fst (h_step c h x)) /\ view (fst (h_step c h x)) = fst (step c (view h) x) /\ snd (h_step c h x) = snd (step c (view h) x).
Proof. intros H. destruct (sim_step c h x H) as (A & B & C). split; [apply A|auto]. Qed.
Theorem c161_same_history c h xs : proper h -> proper (h_run c h xs) /\ view (h_run c h xs) = run c (view h) xs.
Proof. intros H. destruct (moves_run c xs h H) as (A & B). split; [apply A|exact B]. Qed.

(** An array the updater no longer refers to is never written again and never comes back. *)
Theorem c161_given_up c h xs a : proper h ->
  ((a < length (wh h))%nat -> a <> wa h -> nth a (wh (h_run c h xs)) [] = nth a (wh h) [] /\ a <> wa (h_run c h xs)) /\
  ((a < length (lh h))%nat -> a <> la h -> nth a (lh (h_run c h xs)) [] = nth a (lh h) [] /\ a <> la (h_run c h xs)).
Proof.
  intros H. destruct (moves_run c xs h H) as ([] & _). split; intros H1 H2; (split; [auto|]); [destruct m_wa|destruct m_la]; lia.
Qed.
(** The normalization record handed out is the updater's own for ever; the data record handed out is a copy made then, which nobody changes. *)
Theorem c161_normalization_record c h xs : proper h -> na (h_run c h xs) = na h /\ nth (na h) (nh (h_run c h xs)) [] = nrec (run c (view h) xs).
Proof.
  intros H. destruct (moves_run c xs h H) as ([] & V). split; [assumption|]. rewrite <- V. unfold view, N. cbn [nrec]. now rewrite m_na.
Qed.
Theorem c161_data_record c h xs : proper h -> let h' := fst (data_record h) in let a := snd (data_record h) in
  proper h' /\ view h' = view h /\ nth a (dh h') [] = drec (view h) /\ nth a (dh (h_run c h' xs)) [] = drec (view h) /\ a <> da (h_run c h' xs).
Proof.
  intros (Hw & Hl & Hd & Hn). cbv zeta. unfold data_record. cbn [fst snd]. set (h' := {| wh := wh h |}).
  assert (P : proper h') by (unfold h', proper; cbn; rewrite app_length; cbn; repeat split; auto; lia).
  assert (A : nth (length (dh h)) (dh h') [] = D h) by (unfold h'; cbn; rewrite app_nth2, Nat.sub_diag by lia; reflexivity).
  split; [exact P|]. split; [unfold h', view, W, L, D, N; cbn; f_equal; now rewrite app_nth1|]. split; [exact A|].
  destruct (moves_run c xs h' P) as ([] & _). split.
  - rewrite m_d; [exact A| |]; unfold h'; cbn; [rewrite app_length; cbn; lia|lia].
  - rewrite m_da. unfold h'. cbn. lia.
Qed.

(** An update that is applied writes the new weights into the array the caller may hold (unless it resets, or resamples), and gives up the array of the
    locations, which keeps them. *)
Theorem c161_update_in_place c r h o e : proper h -> zpolicy c <> PReset -> let h' := fst (h_update c r h o e false) in
  wa h' = wa h /\ nth (wa h) (wh h') [] = ws (fst (update c r (view h) o e false)) /\
  nth (la h) (lh h') [] = ls (view h) /\ (nrec (view h') <> nrec (view h) -> la h' <> la h).
Proof.
  intros H Hz h'. destruct (sim_update c r h o e false H) as (A & B & _). fold h' in A, B.
  assert (K : wa h' = wa h /\ nth (la h) (lh h') [] = L h /\ ((la h' <> la h) \/ nrec (view h') = nrec (view h))).
  { unfold h', h_update, h_hyp. cbv zeta. match goal with |- context [snd (hypothetical_update c ?s ?o ?e)] => destruct (snd (hypothetical_update c s o e)) as [p|x] end; [|cbn; auto].
    destruct (h_weights p) as [|[|w0 [|]] [|]]; try (cbn; auto; fail). destruct (h_norm p) as [|[|nn [|]] [|]]; try (cbn; auto; fail).
    assert (I : forall u, wa u = wa h -> la u = la h -> lh u = lh h -> let h2 := fst (h_install c r u (clip_negative w0) nn e false) in
      wa h2 = wa h /\ nth (la h) (lh h2) [] = L h /\ (la h2 <> la h \/ nrec (view h2) = nrec (view h))).
    { intros u U1 U2 U3. unfold h_install. cbn. rewrite U1, U3. split; [reflexivity|]. destruct H as (_ & Hl & _). split; [now rewrite app_nth1|]. left. lia. }
    destruct (Rleb _ _); [destruct (zpolicy c); try contradiction|]; try (apply I; reflexivity); cbn; auto. }
  destruct K as (K1 & K2 & K3). split; [exact K1|]. split; [rewrite <- B; unfold view, W; cbn; now rewrite K1|]. split; [exact K2|]. intros Hn. destruct K3; [assumption|contradiction].
Qed.
(** Resampling binds both attributes to new arrays: what callers hold keeps the old cloud. *)
Theorem c161_resampling_keeps_old c r h : proper h -> snd (h_resample c r h) = None -> let h' := fst (h_resample c r h) in
  wa h' <> wa h /\ la h' <> la h /\ nth (wa h) (wh h') [] = ws (view h) /\ nth (la h) (lh h') [] = ls (view h).
Proof.
  intros (Hw & Hl & Hd & Hn) Hs h'. subst h'. unfold h_resample in *. cbv zeta in *. destruct (rsmp c r _ _) as [[w' l']|x]; [|discriminate]. clear Hs.
  destruct (canonize c); cbn; (split; [lia|]); (split; [lia|]); (split; [now rewrite app_nth1|]).
  - rewrite store_other by (rewrite ?app_length; cbn; lia). now rewrite app_nth1.
  - now rewrite app_nth1.
Qed.
(** A full reset gives up the locations and, if they are reset, the weights; a reset of some parameters writes into the array callers hold. *)
Theorem c161_reset c r h np rw : proper h -> let h' := fst (h_reset c r h np None rw) in
  la h' <> la h /\ nth (la h) (lh h') [] = ls (view h) /\ (if rw then wa h' <> wa h else wa h' = wa h) /\ nth (wa h) (wh h') [] = ws (view h).
Proof.
  intros (Hw & Hl & Hd & Hn) h'. subst h'. unfold h_reset. 
  assert (G : forall n, let h1 := if rw then bind_w (uniform_weights n) h else h in let h2 := bind_l (repeat [] n) h1 in let h3 := poke_l (la h2) (prior c r n) h2 in
     let h' := if canonize c then poke_l (la h3) (canon (md c) (L h3)) h3 else h3 in
     la h' <> la h /\ nth (la h) (lh h') [] = ls (view h) /\ (if rw then wa h' <> wa h else wa h' = wa h) /\ nth (wa h) (wh h') [] = ws (view h)).
  { intros n. cbv zeta.
    destruct rw, (canonize c); cbn; repeat split; try lia; repeat rewrite store_other by (rewrite ?store_length, ?app_length by (rewrite ?app_length; cbn; lia); rewrite ?app_length; cbn; lia); now rewrite ?app_nth1. }
  destruct np; apply G.
Qed.
Theorem c161_partial_reset c r h sel rw : proper h -> let h' := fst (h_reset c r h None (Some sel) rw) in
  la h' = la h /\ nth (la h) (lh h') [] = ls (fst (reset c r (view h) None (Some sel) rw)).
Proof.
  intros H h'. destruct (sim_reset c r h None (Some sel) rw H) as (A & B & _). fold h' in A, B. assert (K : la h' = la h) by (unfold h', h_reset; destruct rw, (canonize c); reflexivity).
  split; [exact K|]. rewrite <- B. change (ls (view h')) with (nth (la h') (lh h') []). now rewrite K.
Qed.

(** Callers who write only into what the updater has given up, and into copies of the data record, do not disturb it. *)
Definition ops (vs : list (@event O E RND)) : list (@op O E RND) := flat_map (fun v => match v with EOp x => [x] | _ => [] end) vs.
Fixpoint careful c h (vs : list event) : Prop :=
  match vs with
  | [] => True
  | v :: vs' => (match v with
                 | EPokeW a _ => (a < length (wh h))%nat /\ a <> wa h
                 | EPokeL a _ => (a < length (lh h))%nat /\ a <> la h
                 | EPokeD a _ => (a < length (dh h))%nat /\ a <> da h
                 | EPokeN a _ => (a < length (nh h))%nat /\ a <> na h
                 | _ => True
                 end) /\ careful c (happen c h v) vs'
  end.
(** Callers who besides write into the records. *)
Fixpoint keeps_off c h (vs : list event) : Prop :=
  match vs with
  | [] => True
  | v :: vs' => (match v with
                 | EPokeW a _ => (a < length (wh h))%nat /\ a <> wa h
                 | EPokeL a _ => (a < length (lh h))%nat /\ a <> la h
                 | EPokeD a _ => (a < length (dh h))%nat
                 | EPokeN a _ => (a < length (nh h))%nat
                 | _ => True
                 end) /\ keeps_off c (happen c h v) vs'
  end.
Lemma proper_happen c h v : proper h -> (match v with EPokeW a _ => (a < length (wh h))%nat | EPokeL a _ => (a < length (lh h))%nat | EPokeD a _ => (a < length (dh h))%nat | EPokeN a _ => (a < length (nh h))%nat | _ => True end) -> proper (happen c h v).
Proof.
  intros H Hv. destruct v as [x| |a x|a x|a x|a x]; cbn [happen].
  - now apply c161_same_updater.
  - destruct (c161_data_record c h [] H) as [P _]. exact P.
  - destruct H as (?&?&?&?). unfold proper; cbn; rewrite store_length by assumption; auto.
  - destruct H as (?&?&?&?). unfold proper; cbn; rewrite store_length by assumption; auto.
  - destruct H as (?&?&?&?). unfold proper; cbn; rewrite store_length by assumption; auto.
  - destruct H as (?&?&?&?). unfold proper; cbn; rewrite store_length by assumption; auto.
Qed.
Theorem c161_careful_callers c vs : forall h, proper h -> careful c h vs -> view (live c h vs) = run c (view h) (ops vs).
Proof.
  unfold live, run. induction vs as [|v vs IH]; intros h H C; [reflexivity|]. destruct C as [Cv C]. cbn [fold_left].
  assert (P : proper (happen c h v)) by (apply proper_happen; [exact H|destruct v; tauto]). rewrite (IH _ P C). unfold ops. cbn [flat_map]. rewrite fold_left_app. f_equal.
  destruct v as [x| |a x|a x|a x|a x]; cbn [happen fold_left].
  - now destruct (c161_same_updater c h x H) as (_ & -> & _).
  - now destruct (c161_data_record c h [] H) as (_ & -> & _).
  - unfold view, W, L, D, N; cbn. now rewrite store_other by (try apply Cv; intros <-; now apply Cv).
  - unfold view, W, L, D, N; cbn. now rewrite store_other by (try apply Cv; intros <-; now apply Cv).
  - unfold view, W, L, D, N; cbn. now rewrite store_other by (try apply Cv; intros <-; now apply Cv).
  - unfold view, W, L, D, N; cbn. now rewrite store_other by (try apply Cv; intros <-; now apply Cv).
Qed.
(** The updater never reads its records: whoever writes into them changes neither the posterior nor the counters, then or later. *)
Theorem c161_records_are_not_read c vs : forall h s, proper h -> keeps_off c h vs ->
  ws s = ws (view h) -> ls s = ls (view h) -> mness s = mness (view h) -> rcnt s = rcnt (view h) -> jr s = jr (view h) -> calls s = calls (view h) ->
  let s1 := view (live c h vs) in let s2 := run c s (ops vs) in
  ws s1 = ws s2 /\ ls s1 = ls s2 /\ mness s1 = mness s2 /\ rcnt s1 = rcnt s2 /\ jr s1 = jr s2 /\ calls s1 = calls s2.
Proof.
  intros h s H C E1 E2 E3 E4 E5 E6. assert (B : same_but_records s (view h)) by (constructor; auto). clear E1 E2 E3 E4 E5 E6. cbv zeta.
  assert (G : same_but_records (run c s (ops vs)) (view (live c h vs))); [|destruct G; auto 10].
  revert h s H C B. unfold live, run. induction vs as [|v vs IH]; intros h s H C B; [exact B|]. destruct C as [Cv C]. cbn [fold_left].
  assert (P : proper (happen c h v)) by (apply proper_happen; [exact H|destruct v; tauto]). unfold ops. cbn [flat_map]. rewrite fold_left_app. apply (IH _ _ P C). clear IH C P.
  destruct v as [x| |a x|a x|a x|a x]; cbn [happen fold_left].
  - destruct (c161_same_updater c h x H) as (_ & -> & _). apply (sbr_step c s (view h) x B).
  - destruct (c161_data_record c h [] H) as (_ & -> & _). exact B.
  - destruct B. constructor; auto. rewrite <- sb_w. unfold view, W; cbn. now rewrite store_other by (try apply Cv; intros <-; now apply Cv).
  - destruct B. constructor; auto. rewrite <- sb_l. unfold view, L; cbn. now rewrite store_other by (try apply Cv; intros <-; now apply Cv).
  - destruct B. constructor; auto.
  - destruct B. constructor; auto.
Qed.
End P.

(** Cases.  The updater of SmcDemo.v in a store. *)
Definition demo_h : @hstate nat := {| wh := [[1/2; 1/2]]; lh := [[[0]; [1]]]; dh := [[]]; nh := [[]]; wa := 0; la := 0; da := 0; na := 0; h_mness := Fin 2; h_rcnt := 0; h_jr := false; h_calls := 0 |}.
Example heap_demo : proper demo_h /\ view demo_h = demo_state.
Proof. split; [unfold proper; cbn; lia|reflexivity]. Qed.

(** Weights kept from before an update are not those from before: the caller reads the posterior in both. *)
Theorem c161_snapshot_refuted : exists c (h : @hstate nat), proper h /\ ws (view h) = [1/2; 1/2] /\ nth (wa h) (wh (fst (h_update c tt h 0%nat tt false))) [] = [1/4; 3/4].
Proof.
  exists (demo PWarn), demo_h. split; [apply heap_demo|]. split; [reflexivity|].
  assert (Hz : zpolicy (demo PWarn) <> PReset) by discriminate.
  destruct (c161_update_in_place (demo PWarn) tt demo_h 0%nat tt (proj1 heap_demo) Hz) as (_ & -> & _). change (view demo_h) with demo_state.
  assert (Ev : new_weights (demo PWarn) demo_state 0%nat tt = [1/4; 3/4]).
  { unfold new_weights. rewrite clip_negative_id by (apply norm_row_nonneg; [apply demo_inv|apply (lik_nonneg _ (demo_good PWarn))]).
    unfold norm_row, norm_scale, hyp_row, L_row, demo_state. cbn. rewrite Reqb_true by reflexivity. rewrite Reqb_false by lra. unfold fix_norm. 
    replace (rsum [1 / 2 * (1 / 4); 1 / 2 * (3 / 4)]) with (1/2) by (unfold rsum; cbn; lra). rewrite Rltb_false; [f_equal; [lra|f_equal; lra]|].
    rewrite Rabs_right by lra. pose proof eps_small_half. lra. }
  rewrite update_unfold. cbv zeta. rewrite Ev. cbn [length ws ls demo_state Nat.eqb]. destruct (Rleb _ _); reflexivity.
Qed.
(** Writing into the array of the weights, or into the normalization record, does reach the updater. *)
Theorem c161_caller_reaches_posterior_refuted : exists (h : @hstate nat), proper h /\ ws (view h) = [1/2; 1/2] /\ ws (view (poke_w (wa h) [1; 0] h)) = [1; 0].
Proof. exists demo_h. split; [apply heap_demo|]. split; reflexivity. Qed.
Theorem c161_caller_reaches_record_refuted : exists (h : @hstate nat) x, proper h /\ log_total_likelihood (view h) = Fin 0 /\
  log_total_likelihood (view (poke_n (na h) x h)) = NInf.
Proof.
  exists demo_h, [0]. split; [apply heap_demo|]. split; [reflexivity|]. unfold log_total_likelihood. change (nrec (view (poke_n (na demo_h) [0] demo_h))) with [0]. cbn [map]. unfold xln. rewrite !Rltb_false by lra. reflexivity.
Qed.
(** A careful caller: takes the data record, resamples, and overwrites the copy, the weights and the locations that the updater has given up. *)
Example heap_careful : careful (demo PWarn) demo_h [EData; EOp (OResample tt); EPokeD 1 [5%nat]; EPokeW 0 [1; 0]; EPokeL 0 []; EOp (OResample tt)] /\
  rcnt (view (live (demo PWarn) demo_h [EData; EOp (OResample tt); EPokeD 1 [5%nat]; EPokeW 0 [1; 0]; EPokeL 0 []; EOp (OResample tt)])) = 2%nat.
Proof. split; [|reflexivity]. cbn. repeat split; try lia. rewrite store_length; cbn; lia. Qed.
Example heap_keeps_off : keeps_off (demo PWarn) demo_h [EPokeN 0 [0; 0]; EPokeD 0 [7%nat]; EOp (OUpdate tt 0%nat tt true)].
Proof. cbn. repeat split; lia. Qed.

Print Assumptions c161_same_updater.
Print Assumptions c161_same_history.
Print Assumptions c161_given_up.
Print Assumptions c161_normalization_record.
Print Assumptions c161_data_record.
Print Assumptions c161_update_in_place.
Print Assumptions c161_resampling_keeps_old.
Print Assumptions c161_reset.
Print Assumptions c161_partial_reset.
Print Assumptions c161_careful_callers.
Print Assumptions c161_records_are_not_read.
Print Assumptions c161_snapshot_refuted.
Print Assumptions c161_caller_reaches_posterior_refuted.
Print Assumptions c161_caller_reaches_record_refuted.
