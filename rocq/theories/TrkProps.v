(** C160: what an updater reports besides its posterior. *)
From Coq Require Import Lia Lra.
From Verif Require Import Base RList Ext Sums SmcModel SmcSpec SmcProofs SmcProofs2 SmcProofs3 SmcDemo SmcProps PartModel PartSpec RoModel RoSpec RoProofs RoProofs2 RoProps TrkModel.
From Verif Require LinProofs.

Section P.
Context {O E RND : Type}.
Implicit Types (c : @config O E RND) (opt : @options RND) (t : @tstate O).

Lemma t_resample_base c opt r t : base (fst (t_resample c opt r t)) = fst (resample c r (base t)) /\ snd (t_resample c opt r t) = snd (resample c r (base t)).
Proof. unfold t_resample. cbv zeta. destruct (resample c r (base t)) as [s' [x|]]; split; reflexivity. Qed.
Lemma t_maybe_base c opt r t : base (fst (t_maybe_resample c opt r t)) = fst (maybe_resample c r (base t)) /\ snd (t_maybe_resample c opt r t) = snd (maybe_resample c r (base t)).
Proof.
  unfold t_maybe_resample, maybe_resample. cbv zeta. set (t1 := if xleb _ _ then _ else t). assert (B : base t1 = base t) by (unfold t1; destruct (xleb _ _); reflexivity).
  destruct (xltb _ _); [|cbn; auto]. rewrite <- B. apply t_resample_base.
Qed.
Lemma t_install_base c opt r t w N e k : base (fst (t_install c opt r t w N e k)) = fst (install c r (base t) w N e k) /\ snd (t_install c opt r t w N e k) = snd (install c r (base t) w N e k).
Proof.
  unfold t_install. cbv zeta. destruct k; [|split; reflexivity]. destruct (t_maybe_base c opt r (with_base (fst (install c r (base t) w N e false)) t)) as [A B]. rewrite A, B. split; reflexivity.
Qed.
Lemma t_update_base c opt r t o e k : base (fst (t_update c opt r t o e k)) = fst (update c r (base t) o e k) /\ snd (t_update c opt r t o e k) = snd (update c r (base t) o e k).
Proof.
  unfold t_update, update. cbv zeta. match goal with |- context [hypothetical_update ?c ?s ?o ?e] => destruct (hypothetical_update c s o e) as [s1 [h|x]] end; [|split; reflexivity].
  destruct (h_weights h) as [|[|w0 [|]] [|]]; try (split; reflexivity). destruct (h_norm h) as [|[|N [|]] [|]]; try (split; reflexivity).
  set (t1 := if forallb _ w0 then _ else _). assert (B : base t1 = s1) by (unfold t1; destruct (forallb _ w0); reflexivity).
  destruct (Rleb _ _); [destruct (zpolicy c)|]; cbn [fst snd]; try (split; [exact B|reflexivity]); rewrite <- ?B.
  - apply t_install_base.
  - destruct (t_install_base c opt r (add_warn [WZero] t1) (clip_negative w0) N e k) as [-> ->]. split; reflexivity.
  - match goal with |- context [t_install c opt r ?t' _ _ _ _] => destruct (t_install_base c opt r t' (clip_negative w0) N e k) as [-> ->] end. split; reflexivity.
  - apply t_install_base.
Qed.
Lemma t_batch_base c opt rs iv data : forall idx t, base (fst (t_batch_loop c opt rs iv idx data t)) = fst (batch_loop c rs iv idx data (base t)) /\
  snd (t_batch_loop c opt rs iv idx data t) = snd (batch_loop c rs iv idx data (base t)).
Proof.
  induction data as [|[o e] data IH]; intros idx t; [split; reflexivity|]. cbn [t_batch_loop batch_loop].
  destruct (t_update_base c opt (rs idx) t o e false) as [A B]. destruct (t_update c opt (rs idx) t o e false) as [t1 x1], (update c (rs idx) (base t) o e false) as [s1 y1].
  cbn [fst snd] in A, B. subst y1. destruct x1; [split; [exact A|reflexivity]|]. destruct (Z.eqb iv 0); [split; [exact A|reflexivity]|].
  destruct (Z.eqb (Z.of_nat (S idx) mod iv) 0); [|rewrite <- A; apply IH].
  destruct (t_maybe_base c opt (rs idx) t1) as [A2 B2]. rewrite A in A2, B2. destruct (t_maybe_resample c opt (rs idx) t1) as [t2 x2], (maybe_resample c (rs idx) s1) as [s2 y2].
  cbn [fst snd] in A2, B2. subst y2. destruct x2; [split; [exact A2|reflexivity]|]. rewrite <- A2. apply IH.
Qed.

(** C160.  Tracking, debugging and a failing clear_cache change neither the posterior, the records and the counters nor the exceptions. *)
Theorem c160_step c opt t x : base (fst (t_step c opt t x)) = fst (step c (base t) x) /\ snd (t_step c opt t x) = snd (step c (base t) x).
Proof.
  destruct x; cbn [t_step step]; [apply t_update_base| |apply t_resample_base|apply t_maybe_base|destruct (reset c r (base t) np only reset_weights); split; reflexivity|].
  - unfold t_batch_update, batch_update. destruct (Nat.eqb _ _); [apply t_batch_base|split; reflexivity].
  - destruct (hypothetical_update c (base t) os es) as [s' [h|x]]; split; reflexivity.
Qed.
Theorem c160_history c opt xs : forall t, base (t_run c opt t xs) = run c (base t) xs.
Proof.
  unfold t_run, run. induction xs as [|x xs IH]; intros t; [reflexivity|]. cbn [fold_left]. rewrite IH. now destruct (c160_step c opt t x) as [-> _].
Qed.

(** Every part of an operation only appends to the reports. *)
Record grows (rsmp_total : Prop) t t' : Prop := {
  g_none : divs t = None -> divs t' = None;
  g_some : forall ds, divs t = Some ds -> exists new, divs t' = Some (ds ++ new) /\ (rcnt (base t) + length new <= rcnt (base t'))%nat /\
    (rsmp_total -> rcnt (base t') = (rcnt (base t) + length new)%nat);
  g_warn : exists new, warns t' = warns t ++ new
}.
Lemma grows_refl P t t' : divs t' = divs t -> rcnt (base t') = rcnt (base t) -> (exists new, warns t' = warns t ++ new) -> grows P t t'.
Proof.
  intros D C W. constructor; [congruence| |exact W]. intros ds H. exists []. rewrite app_nil_r, C. cbn. split; [congruence|]. split; [lia|intros; lia].
Qed.
Lemma grows_trans (P1 P2 P3 : Prop) t1 t2 t3 : (P3 -> P1) -> (P3 -> P2) -> grows P1 t1 t2 -> grows P2 t2 t3 -> grows P3 t1 t3.
Proof.
  intros Q1 Q2 [A1 B1 [w1 W1]] [A2 B2 [w2 W2]]. constructor; [auto| |exists (w1 ++ w2); now rewrite W2, W1, app_assoc].
  intros ds H. destruct (B1 ds H) as (n1 & D1 & L1 & T1). destruct (B2 _ D1) as (n2 & D2 & L2 & T2). exists (n1 ++ n2). rewrite D2, app_assoc, app_length.
  split; [reflexivity|]. split; [lia|]. intros HP. rewrite (T2 (Q2 HP)), (T1 (Q1 HP)). lia.
Qed.
Definition never_fails c : Prop := forall r w l, exists p, rsmp c r w l = Ok p.
(** No call raised, or no resampling can fail *)
Notation fine c r := (snd r = None \/ never_fails c).
Lemma grows_resample c opt r t : grows (fine c (t_resample c opt r t)) t (fst (t_resample c opt r t)).
Proof.
  unfold t_resample. cbv zeta. unfold resample. destruct (rsmp c r (ws (base t)) (ls (base t))) as [[w' l']|x] eqn:Q; cbn [fst snd].
  - constructor; cbn [divs base rcnt warns].
    + intros ->. reflexivity.
    + intros ds ->. eexists. split; [reflexivity|]. cbn. split; [lia|intros; lia].
    + eauto.
  - constructor; cbn [divs base rcnt warns].
    + auto.
    + intros ds ->. exists []. rewrite app_nil_r. split; [reflexivity|]. cbn. split; [lia|]. intros [T|T]; [discriminate|]. destruct (T r (ws (base t)) (ls (base t))) as [p Hp]. congruence.
    + eauto.
Qed.
Lemma add_warn_nil t : exists new, warns t = warns t ++ new. Proof. exists []. now rewrite app_nil_r. Qed.
Lemma grows_maybe c opt r t : grows (fine c (t_maybe_resample c opt r t)) t (fst (t_maybe_resample c opt r t)).
Proof.
  unfold t_maybe_resample. cbv zeta. set (t1 := if xleb _ _ then _ else t).
  assert (G : forall P, grows P t t1) by (intros P; unfold t1; destruct (xleb _ _); apply grows_refl; cbn; eauto using add_warn_nil).
  destruct (xltb _ _); [|apply G]. eapply grows_trans; [intros H; exact H|intros H; exact H|apply G|apply grows_resample].
Qed.
Lemma grows_with P s t : rcnt s = rcnt (base t) -> grows P t (with_base s t).
Proof. intros H. apply grows_refl; cbn; auto using add_warn_nil. Qed.
Lemma grows_add P l t : grows P t (add_warn l t).
Proof. apply grows_refl; cbn; eauto. Qed.
Lemma grows_same (P : Prop) t1 t2 t3 : (forall Q, grows Q t1 t2) -> grows P t2 t3 -> grows P t1 t3.
Proof. intros H1 H2. apply (grows_trans P P P t1 t2 t3); auto. Qed.
Lemma grows_install c opt r t w N e k : grows (fine c (t_install c opt r t w N e k)) t (fst (t_install c opt r t w N e k)).
Proof.
  unfold t_install. cbv zeta. assert (G : forall P, grows P t (with_base (fst (install c r (base t) w N e false)) t)) by (intros P; apply grows_with; reflexivity).
  destruct k; [|apply G]. eapply grows_same; [exact G|apply grows_maybe].
Qed.
Lemma grows_update c opt r t o e k : grows (fine c (t_update c opt r t o e k)) t (fst (t_update c opt r t o e k)).
Proof.
  unfold t_update. cbv zeta. match goal with |- context [hypothetical_update ?c ?s ?o ?e] => pose proof (eq_refl (rcnt (fst (hypothetical_update c s o e)))) as Rc; destruct (hypothetical_update c s o e) as [s1 [h|x]] eqn:Q end.
  - assert (R1 : rcnt s1 = rcnt (base t)).
    { unfold hypothetical_update in Q. destruct (negb _); injection Q as <- _; reflexivity. }
    destruct (h_weights h) as [|[|w0 [|]] [|]]; try (now apply grows_with). destruct (h_norm h) as [|[|N [|]] [|]]; try (now apply grows_with).
    set (t1 := if forallb _ w0 then _ else _).
    assert (G : forall P, grows P t t1) by (intros P; unfold t1; destruct (forallb _ w0); [now apply grows_with|eapply grows_same; [intros ?; apply (grows_with _ _ _ R1)|apply grows_add]]).
    assert (B1 : base t1 = s1) by (unfold t1; destruct (forallb _ w0); reflexivity).
    destruct (Rleb _ _); [destruct (zpolicy c)|]; cbn [fst]; try (apply G); (eapply grows_same; [exact G|]).
    + apply grows_install.
    + eapply grows_same; [intros ?; apply grows_add|apply grows_install].
    + eapply grows_same; [intros ?; apply (grows_add _ [WReset])|]. eapply grows_same; [|apply grows_install]. intros ?. apply grows_with. cbn [add_warn base]. rewrite B1. reflexivity.
    + apply grows_install.
  - apply grows_with. unfold hypothetical_update in Q. destruct (negb _); injection Q as <- _; reflexivity.
Qed.
Lemma grows_batch c opt rs iv data : forall idx t, grows (fine c (t_batch_loop c opt rs iv idx data t)) t (fst (t_batch_loop c opt rs iv idx data t)).
Proof.
  induction data as [|[o e] data IH]; intros idx t; [apply grows_refl; auto using add_warn_nil|]. cbn [t_batch_loop].
  pose proof (grows_update c opt (rs idx) t o e false) as G. destruct (t_update c opt (rs idx) t o e false) as [t1 [x1|]]; cbn [fst snd] in *; [exact G|].
  destruct (Z.eqb iv 0); [eapply grows_trans; [| |exact G|apply (grows_refl True); auto using add_warn_nil]; cbn [snd]; auto|]. destruct (Z.eqb _ 0); [|eapply grows_trans; [| |exact G|apply IH]; auto].
  pose proof (grows_maybe c opt (rs idx) t1) as G2. destruct (t_maybe_resample c opt (rs idx) t1) as [t2 [x2|]]; cbn [fst snd] in *; [eapply grows_trans; [| |exact G|exact G2]; auto|].
  eapply grows_trans; [| |exact G|]; [auto|intros H; exact H|]. eapply grows_trans; [| |exact G2|apply IH]; auto.
Qed.
Lemma grows_step c opt t x : grows (fine c (t_step c opt t x)) t (fst (t_step c opt t x)).
Proof.
  destruct x; cbn [t_step]; [apply grows_update| |apply grows_resample|apply grows_maybe| |].
  - unfold t_batch_update. destruct (Nat.eqb _ _); [apply grows_batch|apply grows_refl; auto using add_warn_nil].
  - cbn [step]. unfold reset. destruct np, only; cbn [fst]; apply grows_with; reflexivity.
  - cbn [step]. unfold hypothetical_update. destruct (negb _); cbn [fst]; apply grows_with; reflexivity.
Qed.
(** No call of the history raises. *)
Fixpoint quiet c opt t (xs : list op) : Prop := match xs with [] => True | x :: xs => snd (t_step c opt t x) = None /\ quiet c opt (fst (t_step c opt t x)) xs end.
Lemma grows_run c opt xs : forall t, grows (quiet c opt t xs \/ never_fails c) t (t_run c opt t xs).
Proof.
  unfold t_run. induction xs as [|x xs IH]; intros t; [apply grows_refl; auto using add_warn_nil|]. cbn [fold_left]. eapply grows_trans; [| |apply grows_step|apply IH]; cbn [quiet]; tauto.
Qed.

(** Without tracking there is never a list.  With tracking, the list only grows, has at most one number for each counted resampling, and
    exactly one if no call raises, or if no resampling fails. *)
Theorem c160_untracked c opt xs t : divs t = None -> divs (t_run c opt t xs) = None.
Proof. apply (grows_run c opt xs t). Qed.
Theorem c160_one_per_resampling c opt xs t ds : divs t = Some ds -> exists new, divs (t_run c opt t xs) = Some (ds ++ new) /\
  (rcnt (base t) + length new <= rcnt (base (t_run c opt t xs)))%nat /\
  (quiet c opt t xs \/ (forall r w l, exists p, rsmp c r w l = Ok p) -> rcnt (base (t_run c opt t xs)) = (rcnt (base t) + length new)%nat).
Proof. apply (grows_run c opt xs t). Qed.
(** A resampling that fails is counted but leaves no number. *)
Theorem c160_failed_resampling c opt r t x ds : rsmp c r (ws (base t)) (ls (base t)) = Err x -> divs t = Some ds ->
  divs (fst (t_resample c opt r t)) = Some ds /\ rcnt (base (fst (t_resample c opt r t))) = S (rcnt (base t)) /\ snd (t_resample c opt r t) = Some x.
Proof. intros H D. unfold t_resample, resample. rewrite H. cbn. auto. Qed.

(** The number added by a successful resampling with positive new weights is the divergence from the kernel density estimate of the old cloud
    (bandwidth 1/100 in distances weighted by the model's scale), plus the distortion that C78 found for bandwidths other than one. *)
Theorem c160_number c opt r t ds : divs t = Some ds -> snd (t_resample c opt r t) = None ->
  let s := base t in let s' := base (fst (t_resample c opt r t)) in
  Forall (fun x => 0 < x) (ws s') -> rsum (ws s') = 1 -> Forall (fun x => 0 <= x) (ws s) -> (exists j, (j < length (ws s))%nat /\ 0 < nth j (ws s) 0) ->
  let q i := Sum (length (ws s)) (fun j => nth j (ws s) 0 * (gauss 1 (100 * sqrt (Sum (ndim opt) (fun k =>
    (sqrt (nth k (scale opt) 0) * (nth k (nth i (ls s') []) 0 - nth k (nth j (ls s) []) 0)) ^ 2))) * 100)) in
  let p i := nth i (ws s') 0 in
  divs (fst (t_resample c opt r t)) = Some (ds ++ [Fin (Sum (length (ws s')) (fun i => p i * ln (p i / q i))
    - 99 * Sum (length (ws s')) (fun i => p i * ln (q i / 100)) + ln 100)]).
Proof.
  intros D Hok s s' Hp Hs Hn [j0 [Hj0 Hpos]] q p. subst s s' q p. unfold t_resample in *. cbv zeta in *.
  destruct (resample c r (base t)) as [s' [x|]]; cbn [fst snd base divs] in *; [discriminate|]. rewrite D. cbn [option_map]. do 3 f_equal.
  unfold divergence.
  assert (K : forall i j, std_normal (rescaled_distance (ndim opt) (Updater (ls s') (scale opt)) (Locs (ls (base t))) i j / (1 / 100)) / (1 / 100) =
    gauss 1 (100 * sqrt (Sum (ndim opt) (fun k => (sqrt (nth k (scale opt) 0) * (nth k (nth i (ls s') []) 0 - nth k (nth j (ls (base t)) []) 0)) ^ 2))) * 100).
  { intros i j. unfold rescaled_distance. cbn [side_locs side_Q]. rewrite <- Sum_rsum.
    rewrite (Sum_ext _ _ (fun k => (sqrt (nth k (scale opt) 0) * (nth k (nth i (ls s') []) 0 - nth k (nth j (ls (base t)) []) 0)) ^ 2)) by (intros; cbv beta; ring).
    set (x := sqrt _). unfold std_normal, norm_pdf, gauss. replace (- ((x / (1 / 100) - 0) / 1 * ((x / (1 / 100) - 0) / 1)) / 2) with (- (100 * x * (100 * x)) / (2 * (1 * 1))) by field.
    assert (0 < sqrt (2 * PI)) by (apply sqrt_lt_R0; pose proof PI_RGT_0; lra). field. lra. }
  assert (KQ : forall i, kde std_normal (1 / 100) (length (ws (base t))) (fun j => nth j (ws (base t)) 0) (rescaled_distance (ndim opt) (Updater (ls s') (scale opt)) (Locs (ls (base t))) i) =
    Sum (length (ws (base t))) (fun j => nth j (ws (base t)) 0 * (gauss 1 (100 * sqrt (Sum (ndim opt) (fun k => (sqrt (nth k (scale opt) 0) * (nth k (nth i (ls s') []) 0 - nth k (nth j (ls (base t)) []) 0)) ^ 2))) * 100))).
  { intros i. unfold kde. apply Sum_ext. intros j _. now rewrite K. }
  rewrite (c78_kl_partial (ndim opt) std_normal (1 / 100) (Updater (ls s') (scale opt)) (Locs (ls (base t))) (ws s') (ws (base t)) Hp Hs).
  - f_equal. replace (1 - 1 / (1 / 100)) with (-99) by field. replace (ln (1 / 100)) with (- ln 100) by (rewrite <- ln_Rinv by lra; f_equal; field).
    rewrite (Sum_ext _ (fun i => nth i (ws s') 0 * ln (nth i (ws s') 0 / _)) _ (fun i _ => f_equal (fun z => nth i (ws s') 0 * ln (nth i (ws s') 0 / z)) (KQ i))).
    rewrite (Sum_ext _ (fun i => nth i (ws s') 0 * ln (1 / 100 * _)) _ (fun i _ => f_equal (fun z => nth i (ws s') 0 * ln (1 / 100 * z)) (KQ i))). cbv beta.
    match goal with |- ?a + (-99 * ?b - - ln 100) = ?a' - 99 * ?b' + ln 100 => assert (Eb : b = b'); [apply Sum_ext; intros i _; do 2 f_equal; field|rewrite Eb; ring] end.
  - lra.
  - intros i _. rewrite KQ. rewrite Forall_forall in Hn.
    assert (G0 : forall x, 0 < gauss 1 x) by (intros x; unfold gauss; apply Rdiv_lt_0_compat; [apply exp_pos|]; assert (0 < sqrt (2 * PI)) by (apply sqrt_lt_R0; pose proof PI_RGT_0; lra); lra).
    eapply Rlt_le_trans; [|apply (Sum_le _ (fun j => if Nat.eqb j j0 then nth j (ws (base t)) 0 * (gauss 1 (100 * sqrt (Sum (ndim opt) (fun k => (sqrt (nth k (scale opt) 0) * (nth k (nth i (ls s') []) 0 - nth k (nth j (ls (base t)) []) 0)) ^ 2))) * 100) else 0))].
    + rewrite (LinProofs.Sum_single _ j0); [|assumption|intros k _ Hk; now rewrite (proj2 (Nat.eqb_neq k j0) Hk)]. rewrite Nat.eqb_refl. apply Rmult_lt_0_compat; [exact Hpos|]. apply Rmult_lt_0_compat; [apply G0|lra].
    + intros j Hj. destruct (Nat.eqb j j0); [lra|]. apply Rmult_le_pos; [apply Hn, nth_In, Hj|]. apply Rmult_le_pos; [left; apply G0|lra].
Qed.

(** Warnings. *)
Definition issued (P : warning -> Prop) t t' : Prop := exists new, warns t' = warns t ++ new /\ Forall P new.
Lemma issued_nil (P : warning -> Prop) t t' : warns t' = warns t -> issued P t t'. Proof. exists []. rewrite app_nil_r. auto. Qed.
Lemma issued_one (P : warning -> Prop) x t : P x -> issued P t (add_warn [x] t). Proof. exists [x]. split; [reflexivity|auto]. Qed.
Lemma issued_trans (P : warning -> Prop) t1 t2 t3 : issued P t1 t2 -> issued P t2 t3 -> issued P t1 t3.
Proof. intros (n1 & A1 & B1) (n2 & A2 & B2). exists (n1 ++ n2). rewrite A2, A1, app_assoc. split; [reflexivity|]. now apply Forall_app. Qed.

(** the causes a warning can have in an operation on [t] *)
Definition cause c opt t (again : bool) (x : warning) : Prop :=
  match x with
  | WSmall => True
  | WNegative => ~ (Forall (fun w => 0 <= w) (ws (base t)) /\ (forall o x e, 0 <= lik (md c) o x e))
  | WZero => zpolicy c = PWarn
  | WReset => zpolicy c = PReset
  | WAgain => again = true
  | WCache => exists r x, clear_cache opt r = Some x
  end.
Lemma cause_resample c opt r t t0 : issued (cause c opt t0 (jr (base t))) t (fst (t_resample c opt r t)).
Proof.
  unfold t_resample. cbv zeta. set (w1 := if jr (base t) then [WAgain] else []).
  assert (A1 : Forall (cause c opt t0 (jr (base t))) w1) by (unfold w1; destruct (jr (base t)); [repeat constructor|constructor]).
  destruct (resample c r (base t)) as [s' [x|]]; cbn [fst]; [exists w1; auto|]. eexists. split; [reflexivity|]. apply Forall_app. split; [exact A1|].
  destruct (clear_cache opt r) eqn:Q; [|constructor]. constructor; [|constructor]. cbn. eauto.
Qed.
Lemma cause_maybe c opt r t t0 : issued (cause c opt t0 (jr (base t))) t (fst (t_maybe_resample c opt r t)).
Proof.
  unfold t_maybe_resample. cbv zeta. set (t1 := if xleb _ _ then _ else t).
  assert (G : issued (cause c opt t0 (jr (base t))) t t1) by (unfold t1; destruct (xleb _ _); [now apply issued_one|now apply issued_nil]).
  destruct (xltb _ _); [|exact G]. eapply issued_trans; [exact G|]. replace (jr (base t)) with (jr (base t1)) by (unfold t1; destruct (xleb _ _); reflexivity). apply cause_resample.
Qed.
Lemma cause_install c opt r t w N e k t0 : issued (cause c opt t0 (jr (base t))) t (fst (t_install c opt r t w N e k)).
Proof.
  unfold t_install. cbv zeta. destruct k; [|now apply issued_nil]. eapply issued_trans; [|match goal with |- issued _ _ (fst (t_maybe_resample _ _ _ ?u)) => exact (cause_maybe c opt r u t0) end].
  now apply issued_nil.
Qed.
Lemma cause_update c opt r t o e k : issued (cause c opt t false) t (fst (t_update c opt r t o e k)).
Proof.
  unfold t_update. cbv zeta. match goal with |- context [hypothetical_update ?c ?s ?o ?e] => destruct (hypothetical_update c s o e) as [s1 [h|x]] eqn:Q end; [|now apply issued_nil].
  assert (J : jr s1 = false) by (unfold hypothetical_update in Q; destruct (negb _); injection Q as <- _; reflexivity).
  assert (W : h_weights h = [[norm_row c (ws (base t)) (ls (base t)) o e]]) by (unfold hypothetical_update in Q; destruct (negb _); [discriminate|]; injection Q as _ <-; reflexivity).
  rewrite W. destruct (h_norm h) as [|[|N [|]] [|]]; try (now apply issued_nil). set (w0 := norm_row _ _ _ _ _) in *.
  set (t1 := if forallb _ w0 then _ else _).
  assert (G : issued (cause c opt t false) t t1).
  { unfold t1. destruct (forallb (fun x => Rleb 0 x) w0) eqn:F; [now apply issued_nil|]. eapply issued_trans; [apply (issued_nil _ _ (with_base s1 t)); reflexivity|]. apply issued_one.
    cbn. intros [Hw Hl]. pose proof (norm_row_nonneg c (ws (base t)) (ls (base t)) o e Hw Hl) as NN. fold w0 in NN. assert (forallb (fun x => Rleb 0 x) w0 = true); [|congruence].
    apply forallb_forall. intros x Hx. rewrite Forall_forall in NN. specialize (NN x Hx). destruct (Rleb_spec 0 x); [reflexivity|lra]. }
  assert (B1 : jr (base t1) = false) by (unfold t1; destruct (forallb _ w0); exact J).
  assert (I : forall u, jr (base u) = false -> issued (cause c opt t false) u (fst (t_install c opt r u (clip_negative w0) N e k))) by (intros u <-; apply cause_install).
  destruct (Rleb _ _); [destruct (zpolicy c) eqn:Z|]; cbn [fst]; try exact G; eapply issued_trans; try exact G.
  - apply I, B1.
  - eapply issued_trans; [apply (issued_one _ WZero); cbn; exact Z|]. apply I, B1.
  - eapply issued_trans; [apply (issued_one _ WReset); cbn; exact Z|]. eapply issued_trans; [|apply I]; [now apply issued_nil|]. cbn. exact J.
  - apply I, B1.
Qed.
Lemma update_jr c opt r t o e : jr (base (fst (t_update c opt r t o e false))) = false.
Proof.
  unfold t_update. cbv zeta. match goal with |- context [hypothetical_update ?c ?s ?o ?e] => destruct (hypothetical_update c s o e) as [s1 [h|x]] eqn:Q end;
    (assert (J : jr s1 = false) by (unfold hypothetical_update in Q; destruct (negb _); injection Q as <- _; reflexivity)); [|exact J].
  destruct (h_weights h) as [|[|w0 [|]] [|]]; try exact J. destruct (h_norm h) as [|[|N [|]] [|]]; try exact J.
  set (t1 := if forallb _ w0 then _ else _). assert (B1 : jr (base t1) = false) by (unfold t1; destruct (forallb _ w0); exact J).
  destruct (Rleb _ _); [destruct (zpolicy c)|]; cbn [fst]; try exact B1. cbn. exact J.
Qed.
Lemma cause_weaken c opt t t' b x : (Forall (fun w => 0 <= w) (ws (base t)) -> (forall o x e, 0 <= lik (md c) o x e) -> Forall (fun w => 0 <= w) (ws (base t'))) ->
  cause c opt t' b x -> cause c opt t b x.
Proof. intros H. destruct x; cbn; auto. intros N [A1 A2]. apply N. auto. Qed.
Lemma issued_imp (P Q : warning -> Prop) t t' : (forall x, P x -> Q x) -> issued P t t' -> issued Q t t'.
Proof. intros H (n & A1 & A2). exists n. split; [exact A1|]. eapply Forall_impl; eauto. Qed.
Lemma base_update c opt r t o e k : base (fst (t_update c opt r t o e k)) = fst (step c (base t) (OUpdate r o e k)).
Proof. exact (proj1 (c160_step c opt t (OUpdate r o e k))). Qed.
Lemma base_check c opt r t : base (fst (t_maybe_resample c opt r t)) = fst (step c (base t) (OCheck r)).
Proof. exact (proj1 (c160_step c opt t (OCheck r))). Qed.
Lemma cause_batch c opt rs iv data : good_config c -> forall idx t, issued (cause c opt t false) t (fst (t_batch_loop c opt rs iv idx data t)).
Proof.
  intros GC. induction data as [|[o e] data IH]; intros idx t; [now apply issued_nil|]. cbn [t_batch_loop].
  pose proof (cause_update c opt (rs idx) t o e false) as G. pose proof (base_update c opt (rs idx) t o e false) as Bs. pose proof (update_jr c opt (rs idx) t o e) as J.
  destruct (t_update c opt (rs idx) t o e false) as [t1 [x1|]]; cbn [fst] in *; [exact G|].
  assert (N1 : Forall (fun w => 0 <= w) (ws (base t)) -> (forall o x e, 0 <= lik (md c) o x e) -> Forall (fun w => 0 <= w) (ws (base t1))) by (intros Hw _; rewrite Bs; now apply step_nonneg).
  destruct (Z.eqb iv 0); [exact G|]. destruct (Z.eqb _ 0).
  - pose proof (cause_maybe c opt (rs idx) t1 t) as G2. rewrite J in G2. pose proof (base_check c opt (rs idx) t1) as Bs2.
    destruct (t_maybe_resample c opt (rs idx) t1) as [t2 [x2|]]; cbn [fst] in *; [eapply issued_trans; eassumption|].
    eapply issued_trans; [exact G|]. eapply issued_trans; [exact G2|]. eapply issued_imp; [|apply IH]. intros x. apply cause_weaken. intros Hw Hl. rewrite Bs2. apply step_nonneg; auto.
  - eapply issued_trans; [exact G|]. eapply issued_imp; [|apply IH]. intros x. now apply cause_weaken.
Qed.
Lemma cause_step c opt t x : good_config c -> issued (cause c opt t (match x with OResample _ | OCheck _ => jr (base t) | _ => false end)) t (fst (t_step c opt t x)).
Proof.
  intros GC. destruct x; cbn [t_step]; [apply cause_update| |apply cause_resample|apply cause_maybe| |].
  - unfold t_batch_update. destruct (Nat.eqb _ _); [now apply cause_batch|now apply issued_nil].
  - cbn [step]. destruct (reset _ _ _ _ _ _). now apply issued_nil.
  - cbn [step]. destruct (hypothetical_update _ _ _ _) as [? [?|?]]; now apply issued_nil.
Qed.

(** No operation withdraws a warning.  With a proper configuration and nonnegative weights none complains about negative weights.  Zero weights are
    reported only under the policies 'warn' and 'reset', a second resampling only by [resample] itself or a bare check just after one,
    a failing cache only if the model's raises. *)
Theorem c160_causes c opt t x : good_config c -> Forall (fun w => 0 <= w) (ws (base t)) -> exists new, warns (fst (t_step c opt t x)) = warns t ++ new /\
  ~ In WNegative new /\ (In WZero new -> zpolicy c = PWarn) /\ (In WReset new -> zpolicy c = PReset) /\
  (In WAgain new -> jr (base t) = true /\ exists r, x = OResample r \/ x = OCheck r) /\ (In WCache new -> exists r e, clear_cache opt r = Some e).
Proof.
  intros GC Hw. destruct (cause_step c opt t x GC) as (new & A1 & A2). exists new. rewrite Forall_forall in A2. split; [exact A1|]. split; [|repeat split].
  - intros H. apply (A2 _ H). split; [exact Hw|apply (lik_nonneg c GC)].
  - exact (fun H => A2 _ H).
  - exact (fun H => A2 _ H).
  - specialize (A2 _ H). cbn in A2. destruct x; try discriminate; exact A2.
  - specialize (A2 _ H). cbn in A2. destruct x; try discriminate; eauto.
  - exact (fun H => A2 _ H).
Qed.
Theorem c160_no_negative_weights c opt xs : good_config c -> forall t, Forall (fun w => 0 <= w) (ws (base t)) -> exists new, warns (t_run c opt t xs) = warns t ++ new /\ ~ In WNegative new.
Proof.
  intros GC. unfold t_run. induction xs as [|x xs IH]; intros t Hw; [exists []; rewrite app_nil_r; auto|]. cbn [fold_left].
  destruct (c160_causes c opt t x GC Hw) as (n1 & A1 & B1 & _). destruct (IH (fst (t_step c opt t x))) as (n2 & A2 & B2); [rewrite (proj1 (c160_step c opt t x)); now apply step_nonneg|].
  exists (n1 ++ n2). rewrite A2, A1, app_assoc. split; [reflexivity|]. rewrite in_app_iff. tauto.
Qed.
(** A check on probabilities of at most ten particles always complains that they are few; one whose effective sample size exceeds ten never does, unless it resamples. *)
Theorem c160_few_particles c opt r t : prob_vector (ws (base t)) -> (length (ws (base t)) <= 10)%nat -> exists new, warns (fst (t_maybe_resample c opt r t)) = warns t ++ WSmall :: new.
Proof.
  intros Hp Hl. assert (X : xleb (n_ess (ws (base t))) (Fin 10) = true).
  { destruct (c09_n_ess_bounds (ws (base t)) Hp) as (v & Hv & [Hb1 Hb2] & _). rewrite Hv. cbn. destruct (Rleb_spec v 10); [reflexivity|]. exfalso. apply le_INR in Hl. replace (INR 10) with 10 in Hl by (cbn; lra). lra. }
  unfold t_maybe_resample. cbv zeta. rewrite X. destruct (xltb _ _); [|cbn; exists []; reflexivity].
  destruct (cause_resample c opt r (add_warn [WSmall] t) t) as (n & -> & _). exists n. cbn. now rewrite <- app_assoc.
Qed.
Theorem c160_enough_particles c opt r t : xltb (Fin 10) (n_ess (ws (base t))) = true -> rthresh c * INR (n_particles (base t)) <= 10 -> t_maybe_resample c opt r t = (t, None).
Proof.
  intros H1 H2. unfold t_maybe_resample. cbv zeta. destruct (n_ess (ws (base t))) as [v| | |]; cbn in *; try discriminate.
  - destruct (Rltb_spec 10 v); [|discriminate]. destruct (Rleb_spec v 10); [lra|]. rewrite Rltb_false by lra. reflexivity.
  - reflexivity.
Qed.
(** What an update adds by itself, exactly: a complaint about zero weights if the total is at or below the threshold and the policy says so. *)
Theorem c160_update_warnings c opt r t o e : good_config c -> length (ws (base t)) = length (ls (base t)) -> Forall (fun w => 0 <= w) (ws (base t)) ->
  (new_total c (base t) o e <= zthresh c -> warns (fst (t_update c opt r t o e false)) = warns t ++ match zpolicy c with PWarn => [WZero] | PReset => [WReset] | _ => [] end) /\
  (zthresh c < new_total c (base t) o e -> warns (fst (t_update c opt r t o e false)) = warns t).
Proof.
  intros GC Hl Hw. pose proof (new_weights_total c (base t) o e Hl Hw (lik_nonneg c GC)) as T. unfold new_weights in T.
  pose proof (norm_row_nonneg c (ws (base t)) (ls (base t)) o e Hw (lik_nonneg c GC)) as NN.
  assert (F : forallb (fun x => Rleb 0 x) (norm_row c (ws (base t)) (ls (base t)) o e) = true).
  { apply forallb_forall. intros x Hx. rewrite Forall_forall in NN. apply Rleb_true, NN, Hx. }
  unfold t_update, hypothetical_update. cbn [ws ls drec add_calls]. rewrite Hl, Nat.eqb_refl. cbn [negb h_weights h_norm map]. rewrite F, T.
  split; intros Hz.
  - rewrite Rleb_true by exact Hz. destruct (zpolicy c); cbn; now rewrite ?app_nil_r.
  - rewrite Rleb_false by exact Hz. reflexivity.
Qed.
(** What resampling adds, exactly. *)
Theorem c160_resample_warnings c opt r t : warns (fst (t_resample c opt r t)) = warns t ++ (if jr (base t) then [WAgain] else []) ++
  (match rsmp c r (ws (base t)) (ls (base t)), clear_cache opt r with Ok _, Some _ => [WCache] | _, _ => [] end).
Proof. unfold t_resample, resample. destruct (rsmp c r (ws (base t)) (ls (base t))) as [[w l]|x]; cbn; [reflexivity|now rewrite app_nil_r]. Qed.
(** Two resamplings in a row are carried out and counted both; the second warns. *)
Theorem c160_twice c opt r r' t : snd (t_resample c opt r t) = None -> exists new, warns (fst (t_resample c opt r' (fst (t_resample c opt r t)))) = warns (fst (t_resample c opt r t)) ++ WAgain :: new /\
  rcnt (base (fst (t_resample c opt r' (fst (t_resample c opt r t))))) = S (S (rcnt (base t))).
Proof.
  intros H. destruct (t_resample_base c opt r t) as [B1 B2]. rewrite H in B2. symmetry in B2.
  assert (C : forall r s, rcnt (fst (resample c r s)) = S (rcnt s)) by (intros r0 s0; unfold resample; destruct (rsmp c r0 (ws s0) (ls s0)) as [[? ?]|?]; reflexivity).
  assert (J : jr (base (fst (t_resample c opt r t))) = true) by (rewrite B1; unfold resample in *; destruct (rsmp c r (ws (base t)) (ls (base t))) as [[? ?]|?]; [reflexivity|discriminate]).
  rewrite c160_resample_warnings, J, (proj1 (t_resample_base c opt r' _)), C, B1, C. eexists. split; reflexivity.
Qed.
(** The debug log gets an entry only when asked for: the shift of the mean and the distance of the covariances. *)
Theorem c160_debug c opt r t : snd (t_resample c opt r t) = None -> let s := base t in let s' := base (fst (t_resample c opt r t)) in
  dlog (fst (t_resample c opt r t)) = if dbg opt then dlog t ++ [(map2 Rminus (est_mean (ndim opt) (ws s) (ls s)) (est_mean (ndim opt) (ws s') (ls s')), 
     sqrt (Sum (ndim opt) (fun m => Sum (ndim opt) (fun n => (particle_cov (ws s') (ls s') m n - particle_cov (ws s) (ls s) m n) ^ 2))))] else dlog t.
Proof.
  intros H s s'. subst s s'. unfold t_resample in *. cbv zeta in *. destruct (resample c r (base t)) as [s' [x|]]; [discriminate|]. cbn [fst base dlog]. destruct (dbg opt); [|reflexivity].
  do 4 f_equal. unfold cov_distance. f_equal. rewrite Sum_rsum. f_equal. apply map_ext. intros m. now rewrite Sum_rsum.
Qed.
(** Construction. *)
Theorem c160_new c r n both track t : t_init c r n both track = Ok t -> init c r n both = Ok (base t) /\ divs t = (if track then Some [] else None) /\ warns t = [] /\ dlog t = [].
Proof. unfold t_init. destruct (init c r n both); cbn; intros H; [|discriminate]. injection H as <-. cbn. auto. Qed.
End P.

(** Cases: the two-particle updater of SmcDemo.v with tracking, debugging and a failing cache.  Resampling twice gives two numbers, one warning of
    a second resampling and two of the cache; the check before an update warns of few particles. *)
Definition demo_opt : @options unit := {| dbg := true; ndim := 1; scale := [1]; clear_cache := fun _ => Some RuntimeError |}.
Definition demo_t : @tstate nat := {| base := demo_state; divs := Some []; warns := []; dlog := [] |}.
Example trk_init : t_init (demo PWarn) tt 2 false true = Ok demo_t.
Proof. unfold t_init. now rewrite demo_init. Qed.
Example trk_twice : exists a b, divs (t_run (demo PWarn) demo_opt demo_t [OResample tt; OResample tt]) = Some [a; b] /\
  warns (t_run (demo PWarn) demo_opt demo_t [OResample tt; OResample tt]) = [WCache; WAgain; WCache] /\ length (dlog (t_run (demo PWarn) demo_opt demo_t [OResample tt; OResample tt])) = 2%nat.
Proof. do 2 eexists. split; [reflexivity|]. split; reflexivity. Qed.
Example trk_number : exists v, divs (fst (t_resample (demo PWarn) demo_opt tt demo_t)) = Some [Fin v].
Proof.
  pose proof (c160_number (demo PWarn) demo_opt tt demo_t [] eq_refl eq_refl) as H. cbv zeta in H. eexists. apply H; cbn.
  - repeat constructor; lra.
  - unfold rsum; cbn; lra.
  - repeat constructor; lra.
  - exists 0%nat. cbn. split; [lia|lra].
Qed.
Example trk_few : exists new, warns (fst (t_maybe_resample (demo PWarn) demo_opt tt demo_t)) = WSmall :: new.
Proof.
  apply (c160_few_particles (demo PWarn) demo_opt tt demo_t); [|cbn; lia]. destruct demo_inv as (_ & H1 & H2). split; assumption.
Qed.
(** A datum no particle predicts, under the policies 'warn' and 'error'. *)
Example trk_zero : warns (fst (t_update (demo PWarn) demo_opt tt demo_t 2%nat tt false)) = [WZero] /\ warns (fst (t_update (demo PReset) demo_opt tt demo_t 2%nat tt false)) = [WReset] /\
  warns (fst (t_update (demo PError) demo_opt tt demo_t 2%nat tt false)) = [].
Proof.
  assert (Z : forall p, new_total (demo p) demo_state 2%nat tt <= zthresh (demo p)).
  { intros p. unfold new_total. rewrite demo_evidence2. cbn [zthresh demo]. assert (0 < eps) by (unfold eps; apply Rinv_0_lt_compat, pow_lt; lra). destruct (Rlt_dec 0 eps); lra. }
  assert (W : forall p, warns (fst (t_update (demo p) demo_opt tt demo_t 2%nat tt false)) = match p with PWarn => [WZero] | PReset => [WReset] | _ => [] end).
  { intros p. destruct demo_inv as (H0 & H1 & H2). exact (proj1 (c160_update_warnings (demo p) demo_opt tt demo_t 2%nat tt (demo_good p) H0 H1) (Z p)). }
  split; [|split]; apply W.
Qed.
Example trk_failure : let c0 := {| md := demo_model; prior := prior (demo PWarn); rsmp := fun _ _ _ => Err ResamplerError; rthresh := 1/2; zpolicy := PWarn; zthresh := 0; canonize := true |} in
  divs (t_run c0 demo_opt demo_t [OResample tt; OResample tt]) = Some [] /\ rcnt (base (t_run c0 demo_opt demo_t [OResample tt; OResample tt])) = 2%nat.
Proof. cbn. split; reflexivity. Qed.

Print Assumptions c160_step.
Print Assumptions c160_history.
Print Assumptions c160_untracked.
Print Assumptions c160_one_per_resampling.
Print Assumptions c160_failed_resampling.
Print Assumptions c160_number.
Print Assumptions c160_causes.
Print Assumptions c160_no_negative_weights.
Print Assumptions c160_few_particles.
Print Assumptions c160_enough_particles.
Print Assumptions c160_update_warnings.
Print Assumptions c160_resample_warnings.
Print Assumptions c160_twice.
Print Assumptions c160_debug.
Print Assumptions c160_new.
