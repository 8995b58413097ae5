(** Proofs for C138. *)
From Coq Require Import String List Bool Arith Lia.
From Verif Require Import Base ClsModel ClsSpec ClsProofs ClsProofs2 DueModel.
Import ListNotations.
Close Scope R_scope.
Open Scope string_scope.
Open Scope list_scope.

Lemma import_names_all offers : forall names b b', import_names offers names b = (b', None) ->
  b' = rev (map (fun x => (x, Real)) names) ++ b /\ forall x, In x names -> offers x = true.
Proof.
  induction names as [|x r IH]; cbn; intros b b' H; [injection H as <-; auto|]. destruct (offers x) eqn:O; [|discriminate].
  apply IH in H as (-> & H). split; [now rewrite <- app_assoc|]. intros y [<-|I]; auto.
Qed.
Lemma import_names_type offers : forall names b b' x, import_names offers names b = (b', Some x) -> x = {| x_type := "ImportError"; x_ordinary := true |} /\ exists y, In y names /\ offers y = false.
Proof.
  induction names as [|y r IH]; cbn; intros b b' x H; [discriminate|]. destruct (offers y) eqn:O.
  - apply IH in H as (-> & z & I & Z). eauto.
  - injection H as _ <-. eauto.
Qed.

(** ** Orders *)
Lemma from_split c m : In c m -> exists pre, m = pre ++ from c m /\ ~ In c pre /\ exists r, from c m = c :: r.
Proof.
  induction m as [|d m IH]; cbn; intros I; [tauto|]. destruct (String.eqb_spec c d) as [->|N].
  - exists []. cbn. eauto.
  - destruct I as [->|I]; [congruence|]. destruct (IH I) as (pre & E & NI & r & R). exists (d :: pre). cbn. rewrite <- E. split; [reflexivity|]. split; [intros [->|J]; [congruence|auto]|eauto].
Qed.
Lemma from_unique c pre r : ~ In c pre -> from c (pre ++ c :: r) = c :: r.
Proof. induction pre as [|d pre IH]; cbn; intros N; [now rewrite String.eqb_refl|]. destruct (String.eqb_spec c d) as [->|]; [tauto|]. apply IH. tauto. Qed.
Lemma from_none c m : ~ In c m -> from c m = [].
Proof. induction m as [|d m IH]; cbn; intros N; [reflexivity|]. destruct (String.eqb_spec c d) as [->|]; [tauto|]. apply IH. tauto. Qed.

(** ** Looking up constructors with assigned ones *)
Definition pinned (ps : pins) (c : string) : option string := option_map snd (find (fun p => String.eqb (fst p) c) ps).
Lemma holder_pinned e ps c : holder e ps c = match pinned ps c with Some d => Some d | None => holder e [] c end.
Proof. unfold holder, pinned. cbn. now destruct (find _ ps). Qed.
(** Assigned constructors are the ones that are found anyway, along every tail of the order. *)
Lemma find_init_same e ps m : (forall pre c r d, m = pre ++ c :: r -> pinned ps c = Some d -> find_init e [] (c :: r) = Some d) -> find_init e ps m = find_init e [] m.
Proof.
  induction m as [|c r IH]; intros H; [reflexivity|]. cbn [find_init]. rewrite holder_pinned. destruct (pinned ps c) as [d|] eqn:P.
  - symmetry. exact (H [] c r d eq_refl P).
  - rewrite IH; [reflexivity|]. intros pre c' r' d E. apply (H (c :: pre) c' r' d). now rewrite E.
Qed.
Definition harmless (e : env) (ps : pins) : Prop :=
  forall k c d, In k e -> pinned ps c = Some d -> In c (o_mro k) -> find_init e [] (from c (o_mro k)) = Some d.
Lemma harmless_tail p e ps o pre m : ok p e -> harmless e ps -> In o e -> o_mro o = pre ++ m -> find_init e ps m = find_init e [] m.
Proof.
  intros K H I E. apply find_init_same. intros pre' c r d E' P. rewrite <- (H o c d I P).
  - rewrite E, E', app_assoc, from_unique; [reflexivity|]. pose proof (ok_nodup p e K o I) as N. rewrite E, E', app_assoc in N.
    apply NoDup_remove_2 in N. intros J. apply N, in_or_app. now left.
  - rewrite E, E'. apply in_or_app. right. apply in_or_app. right. now left.
Qed.
Lemma run_init_same p e ps o : ok p e -> harmless e ps -> In o e -> forall n c, run_init n e ps (o_mro o) c = run_init n e [] (o_mro o) c.
Proof.
  intros K H I. induction n as [|n IH]; intros c; [reflexivity|]. cbn [run_init]. destruct (init_of e c) as [[| |]|]; try reflexivity.
  - destruct (in_dec string_dec c (o_mro o)) as [J|J].
    + destruct (from_split c _ J) as (pre & E & _ & r & R). rewrite R. cbn [tl].
      rewrite (harmless_tail p e ps o (pre ++ [c]) r K H I) by (rewrite <- app_assoc; cbn; congruence).
      destruct (find_init e [] r); [now rewrite IH|reflexivity].
    + now rewrite (from_none _ _ J).
  - destruct (get e d) as [o'|] eqn:G; [|reflexivity]. apply get_Some in G as (I' & _).
    rewrite (harmless_tail p e ps o' [] (o_mro o') K H I' eq_refl). destruct (find_init e [] (o_mro o')); [now rewrite IH|reflexivity].
Qed.
Lemma constructors_same p e ps o : ok p e -> harmless e ps -> In o e -> constructors e ps o = constructors e [] o.
Proof.
  intros K H I. unfold constructors. rewrite (harmless_tail p e ps o [] (o_mro o) K H I eq_refl). destruct (find_init e [] (o_mro o)); [|reflexivity].
  now apply (run_init_same p).
Qed.

(** ** Agreement with the chains of C130 *)
Lemma first_find e m : find_init e [] m = option_map (fun q => fst (fst q)) (first_init e m).
Proof. induction m as [|c r IH]; cbn; [reflexivity|]. unfold holder. cbn. destruct (init_of e c); [reflexivity|exact IH]. Qed.
Lemma first_split e m c h r : first_init e m = Some (c, h, r) -> exists pre, m = pre ++ c :: r /\ init_of e c = Some h.
Proof.
  induction m as [|d m IH]; cbn; intros H; [discriminate|]. destruct (init_of e d) eqn:D.
  - injection H as <- <- <-. exists []. auto.
  - destruct (IH H) as (pre & -> & Z). exists (d :: pre). auto.
Qed.
Lemma inits_run p e o : ok p e -> In o e -> (forall c d, In c (o_mro o) -> init_of e c = Some (Explicit d) -> In d (o_mro o)) ->
  forall n pre m l, o_mro o = pre ++ m -> inits n e (o_mro o) m = Some l ->
    match find_init e [] m with None => l = [] | Some k => run_init n e [] (o_mro o) k = Some l end.
Proof.
  intros K I X. induction n as [|n IH]; intros pre m l E H; [discriminate|]. cbn [inits] in H. rewrite first_find.
  destruct (first_init e m) as [[[c h] r]|] eqn:F; cbn [option_map fst]; [|now injection H as <-].
  destruct (first_split _ _ _ _ _ F) as (pre' & -> & J). cbn [run_init]. rewrite J.
  assert (Fr : from c (o_mro o) = c :: r).
  { rewrite E, app_assoc, from_unique; [reflexivity|]. pose proof (ok_nodup p e K o I) as N. rewrite E, app_assoc in N. apply NoDup_remove_2 in N. intros Q. apply N, in_or_app. now left. }
  destruct h.
  - rewrite Fr. cbn [tl]. destruct (inits n e (o_mro o) r) as [l'|] eqn:H'; cbn in H; [|discriminate]. injection H as <-.
    specialize (IH (pre ++ pre' ++ [c]) r l'). rewrite H' in IH. specialize (IH ltac:(rewrite E; now rewrite <- !app_assoc) eq_refl).
    destruct (find_init e [] r); [now rewrite IH|now subst].
  - destruct (get e d) as [o'|] eqn:G; [|discriminate]. apply get_Some in G as (I' & Nm). rewrite first_find.
    destruct (first_init e (o_mro o')) as [[[k hk] rk]|] eqn:Fk; cbn [option_map fst]; [|exact H].
    destruct (first_split _ _ _ _ _ Fk) as (pk & Ek & Jk).
    assert (Ic : In c (o_mro o)) by (rewrite E; apply in_or_app; right; apply in_or_app; right; now left).
    assert (Ik : In k (o_mro o)).
    { apply (Sub_In (o_mro o') (o_mro o)); [|rewrite Ek; apply in_or_app; right; now left]. apply (ok_mono p e K); [assumption..|]. rewrite Nm. exact (X c d Ic J). }
    destruct (from_split k _ Ik) as (pf & Ef & _ & rf & Rf). rewrite Rf in H.
    destruct (inits n e (o_mro o) (k :: rf)) as [l'|] eqn:H'; cbn in H; [|discriminate]. injection H as <-.
    specialize (IH pf (k :: rf) l'). rewrite H' in IH. rewrite Rf in Ef. specialize (IH Ef eq_refl).
    cbn [find_init] in IH. unfold holder in IH. cbn in IH. rewrite Jk in IH. now rewrite IH.
  - now injection H as <-.
Qed.
Lemma constructors_chain p e o l : ok p e -> In o e -> (forall c d, In c (o_mro o) -> init_of e c = Some (Explicit d) -> In d (o_mro o)) ->
  init_chain e o = Some l -> constructors e [] o = Some l.
Proof.
  intros K I X H. unfold init_chain in H. pose proof (inits_run p e o K I X _ [] (o_mro o) l eq_refl H) as Q. unfold constructors.
  destruct (find_init e [] (o_mro o)); [exact Q|now subst].
Qed.

(** ** One base *)
Lemma single_base p e s o b : ok p e -> class_new e s = Ok o -> s_bases s = [b] -> exists bo, In bo e /\ name_of bo = b /\ o_mro o = s_name s :: o_mro bo.
Proof.
  intros K H B. destruct (class_new_Ok _ _ _ H) as (bs & r & GA & ND & M & Es & Em & _ & _). unfold bases_of in GA, M. rewrite B in GA, M.
  cbn [get_all] in GA. destruct (get e b) as [bo|] eqn:G; [|discriminate]. injection GA as <-. apply get_Some in G as (Ib & Nb).
  exists bo. split; [assumption|]. split; [assumption|]. rewrite Em. f_equal. cbn [map app] in M.
  assert (NL : forall l, In l [o_mro bo; [b]] -> NoDup l).
  { intros l [<-|[<-|[]]]; [now apply (ok_nodup p e K)|]. constructor; [cbn; tauto|constructor]. }
  destruct (merge_sound _ _ _ M NL) as (Nr & Sr & Ir). symmetry. apply Sub_eq; [apply Sr; now left|].
  apply NoDup_incl_length; [assumption|]. intros x Ix. destruct (Ir x Ix) as (l & [<-|[<-|[]]] & J); [assumption|]. destruct J as [<-|[]].
  destruct (ok_head p e K bo Ib) as (t & Et). rewrite Et. left. exact Nb.
Qed.
Definition above (e : env) (c : string) (fc : list string) : Prop := forall k, In k e -> In c (o_mro k) -> exists pre, ~ In c pre /\ o_mro k = pre ++ fc.
Lemma above_exec c fc q : forall p e e', ok p e -> exec e q = Ok e' -> above e c fc -> (exists o, In o e /\ name_of o = c) ->
  (forall s, In s q -> ancestor (p ++ q) (s_name s) c -> exists b, s_bases s = [b]) -> above e' c fc.
Proof.
  induction q as [|s q IH]; intros p e e' K H A C Q; cbn [exec] in H; [now injection H as <-|].
  destruct (get e (s_name s)) eqn:G; [discriminate|]. destruct (class_new e s) as [o|] eqn:N; [|discriminate]. cbn [bind] in H.
  pose proof (ok_step p e s o K G N) as K'. apply (IH (p ++ [s]) (o :: e) e' K' H).
  - intros k [<-|I] J; [|now apply A].
    destruct (class_new_Ok _ _ _ N) as (_ & _ & _ & _ & _ & Es & _). assert (En : name_of o = s_name s) by (unfold name_of; now rewrite Es).
    assert (Anc : ancestor (p ++ s :: q) (s_name s) c).
    { rewrite <- En. apply (ancestor_more (p ++ [s])); [now apply (ok_anc _ _ K' o c (or_introl eq_refl))|]. intros x Ix. apply in_app_or in Ix as [Ix|[<-|[]]]; apply in_or_app; [now left|right; now left]. }
    destruct (Q s (or_introl eq_refl) Anc) as (b & B). destruct (single_base p e s o b K N B) as (bo & Ib & Nb & E). rewrite E in *.
    destruct C as (oc & Ioc & Nc). assert (Ne : s_name s <> c) by (rewrite <- Nc; intros X; now apply (get_None e _ oc G Ioc)).
    destruct J as [J|J]; [congruence|]. destruct (A bo Ib J) as (pre & NI & Ep). exists (s_name s :: pre). split; [intros [X|X]; congruence || auto|]. rewrite Ep. reflexivity.
  - destruct C as (oc & Ioc & Nc). exists oc. split; [now right|assumption].
  - intros s' Is' Anc. apply Q; [now right|]. now rewrite <- app_assoc in Anc.
Qed.
Lemma find_init_ext e e' ps m : (forall c, In c m -> init_of e c = init_of e' c) -> find_init e ps m = find_init e' ps m.
Proof.
  induction m as [|c r IH]; cbn [find_init]; intros H; [reflexivity|]. unfold holder. rewrite <- (H c (or_introl eq_refl)).
  destruct (find _ ps); [reflexivity|]. destruct (init_of e c); [reflexivity|]. apply IH. intros c' I. apply H. now right.
Qed.
Lemma NoDup_tail {X} (l m : list X) : NoDup (l ++ m) -> NoDup m.
Proof. induction l as [|x l IH]; cbn; intros N; [assumption|]. inversion N; auto. Qed.
Lemma init_of_old n e c : (exists o, In o e /\ name_of o = c) -> NoDup (map name_of (n ++ e)) -> init_of (n ++ e) c = init_of e c.
Proof.
  intros (o & I & <-) N. unfold init_of. rewrite (get_In (n ++ e) o N) by (apply in_or_app; now right). rewrite (get_In e o); [reflexivity| |assumption].
  rewrite map_app in N. now apply NoDup_tail in N.
Qed.

Lemma run_init_first e : forall fuel ps full c l, run_init fuel e ps full c = Some l -> exists r, l = c :: r.
Proof.
  assert (Q : forall c f full ps k l, match find_init e ps k with None => Some [c] | Some k => option_map (cons c) (run_init f e ps full k) end = Some l -> exists r, l = c :: r).
  { intros c f full ps k l R. destruct (find_init e ps k) as [k'|]; [|injection R as <-; eauto]. destruct (run_init f e ps full k'); [|discriminate]. injection R as <-. eauto. }
  intros [|fuel] ps full c l R; [discriminate|]. cbn [run_init] in R. destruct (init_of e c) as [i|]; [|discriminate]. destruct i as [| d |].
  all: try (injection R as <-; eauto). all: try (exact (Q _ _ _ _ _ _ R)).
  destruct (get e d); [|discriminate]. exact (Q _ _ _ _ _ _ R).
Qed.
