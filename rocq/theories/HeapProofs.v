(** Proofs about the store of HeapModel.v. *)
From Coq Require Import Lia Lra.
From Verif Require Import Base RList Ext SmcModel SmcSpec SmcProofs HeapModel.

Global Arguments store : simpl never.
Lemma store_length {T} a (x : T) h : (a < length h)%nat -> length (store a x h) = length h.
Proof. intros H. unfold store. rewrite app_length, firstn_length_le by lia. cbn [length]. rewrite skipn_length. lia. Qed.
Lemma store_same {T} a (x d : T) h : (a < length h)%nat -> nth a (store a x h) d = x.
Proof. intros H. unfold store. rewrite app_nth2; rewrite firstn_length_le by lia; [|lia]. now rewrite Nat.sub_diag. Qed.
Lemma store_other {T} a b (x d : T) h : (a < length h)%nat -> b <> a -> nth b (store a x h) d = nth b h d.
Proof.
  intros H N. unfold store. destruct (Nat.lt_ge_cases b a) as [Hb|Hb].
  - rewrite app_nth1 by (rewrite firstn_length_le; lia). rewrite <- (firstn_skipn a h) at 2. rewrite app_nth1 by (rewrite firstn_length_le; lia). reflexivity.
  - rewrite app_nth2 by (rewrite firstn_length_le; lia). rewrite firstn_length_le by lia. destruct (b - a)%nat as [|k] eqn:Q; [lia|]. cbn [nth].
    rewrite <- (firstn_skipn (S a) h) at 2. rewrite app_nth2 by (rewrite firstn_length_le; lia). rewrite firstn_length_le by lia. f_equal. lia.
Qed.

Section P.
Context {O E RND : Type}.
Implicit Types (c : @config O E RND) (h : @hstate O).

Definition wf h : Prop := (wa h < length (wh h))%nat /\ (la h < length (lh h))%nat /\ (da h < length (dh h))%nat /\ (na h < length (nh h))%nat.

Record moves h h' : Prop := {
  m_wf : wf h';
  m_wlen : (length (wh h) <= length (wh h'))%nat;
  m_llen : (length (lh h) <= length (lh h'))%nat;
  m_dlen : length (dh h') = length (dh h);
  m_nlen : length (nh h') = length (nh h);
  m_wa : wa h' = wa h \/ (length (wh h) <= wa h')%nat;
  m_la : la h' = la h \/ (length (lh h) <= la h')%nat;
  m_da : da h' = da h;
  m_na : na h' = na h;
  m_w : forall a, (a < length (wh h))%nat -> a <> wa h -> nth a (wh h') [] = nth a (wh h) [];
  m_l : forall a, (a < length (lh h))%nat -> a <> la h -> nth a (lh h') [] = nth a (lh h) [];
  m_d : forall a, (a < length (dh h))%nat -> a <> da h -> nth a (dh h') [] = nth a (dh h) [];
  m_n : forall a, (a < length (nh h))%nat -> a <> na h -> nth a (nh h') [] = nth a (nh h) []
}.
Lemma moves_refl h : wf h -> moves h h.
Proof. intros H. constructor; auto. Qed.
Lemma moves_trans h1 h2 h3 : moves h1 h2 -> moves h2 h3 -> moves h1 h3.
Proof.
  intros [] []. constructor; auto; try lia; try congruence.
  - intros a H1 H2. rewrite m_w1; [apply m_w0; assumption|lia|lia].
  - intros a H1 H2. rewrite m_l1; [apply m_l0; assumption|lia|lia].
  - intros a H1 H2. rewrite m_d1; [apply m_d0; assumption|lia|lia].
  - intros a H1 H2. rewrite m_n1; [apply m_n0; assumption|lia|lia].
Qed.
Ltac mv := intros [Hw [Hl [Hd Hn]]]; constructor; unfold wf in *; cbn; rewrite ?store_length, ?app_length by assumption; cbn; repeat split; auto; try lia;
  intros a Ha Na; try (apply store_other; assumption); try (apply app_nth1; assumption).
Lemma moves_pw x h : wf h -> moves h (poke_w (wa h) x h). Proof. mv. Qed.
Lemma moves_pl x h : wf h -> moves h (poke_l (la h) x h). Proof. mv. Qed.
Lemma moves_pd x h : wf h -> moves h (poke_d (da h) x h). Proof. mv. Qed.
Lemma moves_pn x h : wf h -> moves h (poke_n (na h) x h). Proof. mv. Qed.
Lemma moves_bw x h : wf h -> moves h (bind_w x h). Proof. mv. Qed.
Lemma moves_bl x h : wf h -> moves h (bind_l x h). Proof. mv. Qed.
Lemma moves_sc m k j n h : wf h -> moves h (scalars m k j n h). Proof. intros H. constructor; auto. Qed.

Definition v_w x (s : @state O) : @state O := {| ws := x; ls := ls s; drec := drec s; nrec := nrec s; mness := mness s; rcnt := rcnt s; jr := jr s; calls := calls s |}.
Definition v_l x (s : @state O) : @state O := {| ws := ws s; ls := x; drec := drec s; nrec := nrec s; mness := mness s; rcnt := rcnt s; jr := jr s; calls := calls s |}.
Definition v_d x (s : @state O) : @state O := {| ws := ws s; ls := ls s; drec := x; nrec := nrec s; mness := mness s; rcnt := rcnt s; jr := jr s; calls := calls s |}.
Definition v_n x (s : @state O) : @state O := {| ws := ws s; ls := ls s; drec := drec s; nrec := x; mness := mness s; rcnt := rcnt s; jr := jr s; calls := calls s |}.
Definition v_sc m k j n (s : @state O) : @state O := {| ws := ws s; ls := ls s; drec := drec s; nrec := nrec s; mness := m; rcnt := k; jr := j; calls := n |}.
Ltac vw := intros [Hw [Hl [Hd Hn]]]; unfold view, v_w, v_l, v_d, v_n, W, L, D, N; cbn; f_equal; rewrite ?store_same by assumption; try reflexivity; rewrite app_nth2, Nat.sub_diag by lia; reflexivity.
Lemma view_pw x h : wf h -> view (poke_w (wa h) x h) = v_w x (view h). Proof. vw. Qed.
Lemma view_pl x h : wf h -> view (poke_l (la h) x h) = v_l x (view h). Proof. vw. Qed.
Lemma view_pd x h : wf h -> view (poke_d (da h) x h) = v_d x (view h). Proof. vw. Qed.
Lemma view_pn x h : wf h -> view (poke_n (na h) x h) = v_n x (view h). Proof. vw. Qed.
Lemma view_bw x h : wf h -> view (bind_w x h) = v_w x (view h). Proof. vw. Qed.
Lemma view_bl x h : wf h -> view (bind_l x h) = v_l x (view h). Proof. vw. Qed.
Lemma view_sc m k j n h : view (scalars m k j n h) = v_sc m k j n (view h). Proof. reflexivity. Qed.
Lemma W_view h : W h = ws (view h). Proof. reflexivity. Qed.
Lemma L_view h : L h = ls (view h). Proof. reflexivity. Qed.

(** An operation of the store that shows the updater what the operation of SmcModel.v computes *)
Definition sim h (p : @hstate O * option exn) (q : @state O * option exn) : Prop := moves h (fst p) /\ view (fst p) = fst q /\ snd p = snd q.
Lemma sim_resample c r h : wf h -> sim h (h_resample c r h) (resample c r (view h)).
Proof.
  intros H. unfold h_resample, resample. cbv zeta. pose proof (moves_sc (h_mness h) (S (h_rcnt h)) true (h_calls h) h H) as M1.
  set (h1 := scalars _ _ _ _ h) in *. change (W h1) with (ws (view h)). change (L h1) with (ls (view h)).
  destruct (rsmp c r (ws (view h)) (ls (view h))) as [[w' l']|x]; [|split; [exact M1|split; reflexivity]].
  pose proof (moves_bw w' h1 (m_wf _ _ M1)) as M2. pose proof (moves_bl l' _ (m_wf _ _ M2)) as M3. set (h3 := bind_l l' (bind_w w' h1)) in *.
  assert (V : view h3 = v_l l' (v_w w' (view h1))) by (unfold h3; rewrite view_bl by apply (m_wf _ _ M2); rewrite view_bw by apply (m_wf _ _ M1); reflexivity).
  assert (M : moves h h3) by (eapply moves_trans; [exact M1|]; eapply moves_trans; eassumption).
  destruct (canonize c); (split; [|split; [|reflexivity]]); cbn [fst].
  - eapply moves_trans; [exact M|]. apply moves_pl, (m_wf _ _ M).
  - rewrite view_pl by apply (m_wf _ _ M). rewrite L_view, V. reflexivity.
  - exact M.
  - rewrite V. reflexivity.
Qed.
Lemma sim_maybe c r h : wf h -> sim h (h_maybe_resample c r h) (maybe_resample c r (view h)).
Proof.
  intros H. unfold h_maybe_resample, maybe_resample. rewrite W_view, L_view. unfold n_particles. destruct (xltb _ _); [now apply sim_resample|].
  split; [now apply moves_refl|split; reflexivity].
Qed.
Lemma sim_reset c r h np only rw : wf h -> sim h (h_reset c r h np only rw) (reset c r (view h) np only rw).
Proof.
  intros H. unfold h_reset, reset.
  assert (G : forall n, n = match np with Some n => n | None => n_particles (view h) end -> 
    sim h (let h1 := if rw then bind_w (uniform_weights n) h else h in match only with
    | None => let h2 := bind_l (repeat [] n) h1 in let h3 := poke_l (la h2) (prior c r n) h2 in (if canonize c then poke_l (la h3) (canon (md c) (L h3)) h3 else h3, None)
    | Some sel => let h3 := poke_l (la h1) (set_cols sel (L h1) (get_cols sel (prior c r n))) h1 in
      (if canonize c then poke_l (la h3) (set_cols sel (L h3) (canon (md c) (get_cols sel (L h3)))) h3 else h3, None) end)
    ({| ws := if rw then uniform_weights n else ws (view h); ls := match only with None => if canonize c then canon (md c) (prior c r n) else prior c r n
        | Some sel => let l1 := set_cols sel (ls (view h)) (get_cols sel (prior c r n)) in if canonize c then set_cols sel l1 (canon (md c) (get_cols sel l1)) else l1 end;
        drec := drec (view h); nrec := nrec (view h); mness := mness (view h); rcnt := rcnt (view h); jr := jr (view h); calls := calls (view h) |}, None)).
  { intros n _. cbv zeta. assert (M1 : moves h (if rw then bind_w (uniform_weights n) h else h)) by (destruct rw; [now apply moves_bw|now apply moves_refl]).
    assert (V1 : view (if rw then bind_w (uniform_weights n) h else h) = v_w (if rw then uniform_weights n else ws (view h)) (view h)) by (destruct rw; [now apply view_bw|reflexivity]).
    set (h1 := if rw then bind_w _ h else h) in *. pose proof (m_wf _ _ M1) as F1. destruct only as [sel|].
    - pose proof (moves_pl (set_cols sel (L h1) (get_cols sel (prior c r n))) h1 F1) as M2. set (h3 := poke_l (la h1) _ h1) in *.
      assert (V3 : view h3 = v_l (set_cols sel (L h1) (get_cols sel (prior c r n))) (view h1)) by (unfold h3; now rewrite view_pl).
      assert (M : moves h h3) by (eapply moves_trans; eassumption).
      destruct (canonize c); (split; [|split; [|reflexivity]]); cbn [fst].
      + eapply moves_trans; [exact M|]. apply moves_pl, (m_wf _ _ M).
      + rewrite view_pl by apply (m_wf _ _ M). rewrite L_view, V3, L_view, V1. reflexivity.
      + exact M.
      + rewrite V3, L_view, V1. reflexivity.
    - pose proof (moves_bl (repeat [] n) h1 F1) as M2. set (h2 := bind_l _ h1) in *.
      assert (V2 : view h2 = v_l (repeat [] n) (view h1)) by (unfold h2; now rewrite view_bl).
      pose proof (moves_pl (prior c r n) h2 (m_wf _ _ M2)) as M3. assert (V3 : view (poke_l (la h2) (prior c r n) h2) = v_l (prior c r n) (view h2)) by (now rewrite view_pl by apply (m_wf _ _ M2)).
      set (h3 := poke_l (la h2) _ h2) in *. assert (M : moves h h3) by (eapply moves_trans; [exact M1|]; eapply moves_trans; eassumption).
      destruct (canonize c); (split; [|split; [|reflexivity]]); cbn [fst].
      + eapply moves_trans; [exact M|]. apply moves_pl, (m_wf _ _ M).
      + rewrite view_pl by apply (m_wf _ _ M). rewrite L_view, V3, V2, V1. reflexivity.
      + exact M.
      + rewrite V3, V2, V1. reflexivity. }
  destruct np as [n|], only as [sel|]; try (apply G; reflexivity). split; [now apply moves_refl|split; reflexivity].
Qed.
Lemma sim_hyp c h os es : wf h -> moves h (fst (h_hyp c h os es)) /\ view (fst (h_hyp c h os es)) = fst (hypothetical_update c (view h) os es) /\ snd (h_hyp c h os es) = snd (hypothetical_update c (view h) os es).
Proof.
  intros H. unfold h_hyp. cbn [fst snd]. split; [now apply moves_sc|]. split; [|reflexivity]. unfold hypothetical_update. destruct (negb _); reflexivity.
Qed.
Lemma sim_install c r h w norm e k : wf h -> sim h (h_install c r h w norm e k) (install c r (view h) w norm e k).
Proof.
  intros H. unfold h_install, install. cbv zeta. pose proof (moves_pw w h H) as M1. assert (V1 : view (poke_w (wa h) w h) = v_w w (view h)) by now apply view_pw.
  set (h1 := poke_w (wa h) w h) in *. pose proof (moves_pn (N h1 ++ [norm]) h1 (m_wf _ _ M1)) as M2.
  assert (V2 : view (poke_n (na h1) (N h1 ++ [norm]) h1) = v_n (N h1 ++ [norm]) (view h1)) by (apply view_pn, (m_wf _ _ M1)).
  set (h2 := poke_n (na h1) _ h1) in *. pose proof (moves_bl (timestep (md c) r (L h2) e) h2 (m_wf _ _ M2)) as M3.
  assert (V3 : view (bind_l (timestep (md c) r (L h2) e) h2) = v_l (timestep (md c) r (L h2) e) (view h2)) by (apply view_bl, (m_wf _ _ M2)).
  set (h3 := bind_l _ h2) in *.
  assert (M : moves h h3) by (eapply moves_trans; [exact M1|]; eapply moves_trans; eassumption).
  set (h4 := scalars _ _ _ _ h3). assert (M4 : moves h h4) by (eapply moves_trans; [exact M|]; apply moves_sc, (m_wf _ _ M)).
  match goal with |- sim h _ (if k then maybe_resample c r ?s1 else _) => assert (V4 : view h4 = s1) end.
  { unfold h4. rewrite view_sc. replace (W h3) with w by (rewrite W_view, V3, V2, V1; reflexivity). rewrite V3. change (L h2) with (ls (view h2)). rewrite V2. change (N h1) with (nrec (view h1)). rewrite V1. reflexivity. }
  destruct k; [|split; [exact M4|split; [exact V4|reflexivity]]]. rewrite <- V4. destruct (sim_maybe c r h4 (m_wf _ _ M4)) as (A & B & C). split; [|auto]. eapply moves_trans; eassumption.
Qed.
Lemma sim_trans h h1 p q : moves h h1 -> sim h1 p q -> sim h p q.
Proof. intros M (A & B & C). split; [eapply moves_trans; eassumption|auto]. Qed.
Lemma sim_update c r h o e k : wf h -> sim h (h_update c r h o e k) (update c r (view h) o e k).
Proof.
  intros H. unfold h_update, update. cbv zeta. pose proof (moves_pd (D h ++ [o]) h H) as M0. assert (V0 : view (poke_d (da h) (D h ++ [o]) h) = v_d (D h ++ [o]) (view h)) by now apply view_pd.
  set (h0 := poke_d (da h) _ h) in *. pose proof (moves_sc (h_mness h0) (h_rcnt h0) false (h_calls h0) h0 (m_wf _ _ M0)) as M1.
  set (h1 := scalars _ _ _ _ h0) in *. match goal with |- context [hypothetical_update c ?s [o] [e]] => assert (V1 : view h1 = s) by (unfold h1; rewrite view_sc, V0; reflexivity); rewrite <- V1 end.
  destruct (sim_hyp c h1 [o] [e] (m_wf _ _ M1)) as (M2 & V2 & S2). destruct (h_hyp c h1 [o] [e]) as [h2 y2], (hypothetical_update c (view h1) [o] [e]) as [s2 z2]. cbn [fst snd] in *. subst z2 s2.
  assert (M : moves h h2) by (eapply moves_trans; [exact M0|]; eapply moves_trans; eassumption). pose proof (m_wf _ _ M) as F.
  assert (K : forall x, sim h (h2, x) (view h2, x)) by (intros x; split; [exact M|split; reflexivity]).
  destruct y2 as [p|x]; [|apply K]. destruct (h_weights p) as [|[|w0 [|]] [|]]; try apply K. destruct (h_norm p) as [|[|nn [|]] [|]]; try apply K.
  destruct (Rleb _ _); [destruct (zpolicy c)|]; try apply K; try (eapply sim_trans; [exact M|]; now apply sim_install).
  destruct (sim_reset c r h2 None None true F) as (A & B & C). rewrite <- B. eapply sim_trans; [exact M|]. eapply sim_trans; [exact A|]. apply sim_install, (m_wf _ _ A).
Qed.
Lemma sim_batch c rs iv data : forall idx h, wf h -> sim h (h_batch_loop c rs iv idx data h) (batch_loop c rs iv idx data (view h)).
Proof.
  induction data as [|[o e] data IH]; intros idx h H; [split; [now apply moves_refl|split; reflexivity]|]. cbn [h_batch_loop batch_loop].
  destruct (sim_update c (rs idx) h o e false H) as (A & B & C). destruct (h_update c (rs idx) h o e false) as [h1 x1], (update c (rs idx) (view h) o e false) as [s1 y1].
  cbn [fst snd] in *. subst s1 y1. pose proof (m_wf _ _ A) as F. assert (K : forall x, sim h (h1, x) (view h1, x)) by (intros x; split; [exact A|split; reflexivity]).
  destruct x1; [apply K|]. destruct (Z.eqb iv 0); [apply K|]. destruct (Z.eqb (Z.of_nat (S idx) mod iv) 0); [|eapply sim_trans; [exact A|]; now apply IH].
  destruct (sim_maybe c (rs idx) h1 F) as (A2 & B2 & C2). destruct (h_maybe_resample c (rs idx) h1) as [h2 x2], (maybe_resample c (rs idx) (view h1)) as [s2 y2]. cbn [fst snd] in *. subst s2 y2.
  destruct x2; [split; [eapply moves_trans; eassumption|split; reflexivity]|]. eapply sim_trans; [exact A|]. eapply sim_trans; [exact A2|]. apply IH, (m_wf _ _ A2).
Qed.
Lemma sim_step c h x : wf h -> sim h (h_step c h x) (step c (view h) x).
Proof.
  intros H. destruct x; cbn [h_step step].
  - now apply sim_update.
  - unfold h_batch_update, batch_update. destruct (Nat.eqb _ _); [now apply sim_batch|split; [now apply moves_refl|split; reflexivity]].
  - now apply sim_resample.
  - now apply sim_maybe.
  - now apply sim_reset.
  - destruct (sim_hyp c h os es H) as (A & B & C). destruct (h_hyp c h os es) as [h' y], (hypothetical_update c (view h) os es) as [s' z]. cbn [fst snd] in *. subst s' z.
    destruct y; split; cbn [fst snd]; auto.
Qed.
Lemma moves_run c xs : forall h, wf h -> moves h (h_run c h xs) /\ view (h_run c h xs) = run c (view h) xs.
Proof.
  unfold h_run, run. induction xs as [|x xs IH]; intros h H; [split; [now apply moves_refl|reflexivity]|]. cbn [fold_left].
  destruct (sim_step c h x H) as (A & B & _). destruct (IH (fst (h_step c h x)) (m_wf _ _ A)) as [A2 B2]. split; [eapply moves_trans; eassumption|]. now rewrite B2, B.
Qed.

(** The records are never read. *)
Record same_but_records (s s' : @state O) : Prop := {
  sb_w : ws s' = ws s; sb_l : ls s' = ls s; sb_m : mness s' = mness s; sb_r : rcnt s' = rcnt s; sb_j : jr s' = jr s; sb_c : calls s' = calls s }.
Lemma sbr_refl s : same_but_records s s. Proof. constructor; reflexivity. Qed.
Lemma sbr_shape s s' : same_but_records s s' -> s' = v_n (nrec s') (v_d (drec s') s).
Proof. intros []. destruct s, s'; cbn in *. subst. reflexivity. Qed.
Definition sbp (p q : @state O * option exn) : Prop := same_but_records (fst p) (fst q) /\ snd q = snd p.
Lemma sbr_resample c r s s' : same_but_records s s' -> sbp (resample c r s) (resample c r s').
Proof. intros H. rewrite (sbr_shape _ _ H). unfold resample, sbp. cbn. destruct (rsmp c r (ws s) (ls s)) as [[? ?]|?]; cbn; split; try reflexivity; constructor; reflexivity. Qed.
Lemma sbr_maybe c r s s' : same_but_records s s' -> sbp (maybe_resample c r s) (maybe_resample c r s').
Proof.
  intros H. unfold maybe_resample. replace (ws s') with (ws s) by (symmetry; apply H). replace (n_particles s') with (n_particles s) by (unfold n_particles; now rewrite (sb_l _ _ H)).
  destruct (xltb _ _); [now apply sbr_resample|split; [exact H|reflexivity]].
Qed.
Lemma sbr_reset c r s s' np only rw : same_but_records s s' -> sbp (reset c r s np only rw) (reset c r s' np only rw).
Proof. intros H. rewrite (sbr_shape _ _ H). unfold reset, sbp. destruct np, only; cbn; split; try reflexivity; constructor; reflexivity. Qed.
Lemma sbr_hyp c s s' os es : same_but_records s s' -> same_but_records (fst (hypothetical_update c s os es)) (fst (hypothetical_update c s' os es)) /\
  snd (hypothetical_update c s' os es) = snd (hypothetical_update c s os es).
Proof. intros H. rewrite (sbr_shape _ _ H). unfold hypothetical_update. cbn. destruct (negb _); cbn; split; try reflexivity; constructor; reflexivity. Qed.
Lemma sbr_install c r s s' w n e k : same_but_records s s' -> sbp (install c r s w n e k) (install c r s' w n e k).
Proof.
  intros H. unfold install. cbv zeta. match goal with |- sbp (if k then maybe_resample c r ?a else _) (if k then maybe_resample c r ?b else _) => assert (G : same_but_records a b) end.
  { destruct H as [Hw0 Hl0 Hm0 Hr0 Hj0 Hc0]. constructor; cbn; rewrite ?Hl0, ?Hm0; auto. }
  destruct k; [now apply sbr_maybe|split; [exact G|reflexivity]].
Qed.
Lemma sbr_update c r s s' o e k : same_but_records s s' -> sbp (update c r s o e k) (update c r s' o e k).
Proof.
  intros H. unfold update. cbv zeta.
  set (a := {| ws := ws s; ls := ls s; drec := drec s ++ [o]; nrec := nrec s; mness := mness s; rcnt := rcnt s; jr := false; calls := calls s |}).
  set (b := {| ws := ws s'; ls := ls s'; drec := drec s' ++ [o]; nrec := nrec s'; mness := mness s'; rcnt := rcnt s'; jr := false; calls := calls s' |}).
  assert (G : same_but_records a b) by (destruct H as [Hw0 Hl0 Hm0 Hr0 Hj0 Hc0]; constructor; cbn; auto).
  destruct (sbr_hyp c a b [o] [e] G) as [A B]. destruct (hypothetical_update c a [o] [e]) as [s1 y1], (hypothetical_update c b [o] [e]) as [s2 y2]. cbn [fst snd] in *. subst y2.
  assert (K : forall x : option exn, sbp (s1, x) (s2, x)) by (intros; split; [exact A|reflexivity]).
  destruct y1 as [p|x]; [|apply K]. destruct (h_weights p) as [|[|w0 [|]] [|]]; try apply K. destruct (h_norm p) as [|[|nn [|]] [|]]; try apply K.
  destruct (Rleb _ _); [destruct (zpolicy c)|]; try apply K; try (now apply sbr_install). apply sbr_install. apply (sbr_reset c r s1 s2 None None true A).
Qed.
Lemma sbr_batch c rs iv data : forall idx s s', same_but_records s s' -> sbp (batch_loop c rs iv idx data s) (batch_loop c rs iv idx data s').
Proof.
  induction data as [|[o e] data IH]; intros idx s s' H; [split; [exact H|reflexivity]|]. cbn [batch_loop]. destruct (sbr_update c (rs idx) s s' o e false H) as [A B].
  destruct (update c (rs idx) s o e false) as [s1 y1], (update c (rs idx) s' o e false) as [s2 y2]. cbn [fst snd] in *. subst y2.
  assert (K : forall x : option exn, sbp (s1, x) (s2, x)) by (intros; split; [exact A|reflexivity]).
  destruct y1; [apply K|]. destruct (Z.eqb iv 0); [apply K|]. destruct (Z.eqb _ 0); [|now apply IH]. destruct (sbr_maybe c (rs idx) s1 s2 A) as [A2 B2].
  destruct (maybe_resample c (rs idx) s1) as [s3 y3], (maybe_resample c (rs idx) s2) as [s4 y4]. cbn [fst snd] in *. subst y4. destruct y3; [split; [exact A2|reflexivity]|now apply IH].
Qed.
Lemma sbr_step c s s' x : same_but_records s s' -> sbp (step c s x) (step c s' x).
Proof.
  intros H. destruct x; cbn [step]; [now apply sbr_update| |now apply sbr_resample|now apply sbr_maybe|now apply sbr_reset|].
  - unfold batch_update. destruct (Nat.eqb _ _); [now apply sbr_batch|split; [exact H|reflexivity]].
  - destruct (sbr_hyp c s s' os es H) as [A B]. destruct (hypothetical_update c s os es) as [s1 y1], (hypothetical_update c s' os es) as [s2 y2]. cbn [fst snd] in *. subst y2.
    destruct y1; split; cbn [fst snd]; auto.
Qed.
End P.
