(** Proofs about class definitions. *)
From Coq Require Import String List Bool Arith Lia.
From Verif Require Import Base ClsModel ClsSpec.
Import ListNotations.
Close Scope R_scope.

(** ** Sublists *)
Lemma Sub_refl {X} (l : list X) : Sub l l.
Proof. induction l; [constructor|now apply Sub_take]. Qed.
Lemma Sub_In {X} (l m : list X) x : Sub l m -> In x l -> In x m.
Proof. induction 1; cbn; [tauto|auto|intros [->|H']; auto]. Qed.
Lemma Sub_cons_inv {X} (x : X) l m : Sub (x :: l) m -> Sub l m.
Proof.
  intros H. remember (x :: l) as k. revert x l Heqk. induction H; intros y k E; [discriminate| |].
  - apply Sub_skip. now apply (IHSub y k).
  - injection E as -> ->. now apply Sub_skip.
Qed.
Lemma Sub_NoDup {X} (l m : list X) : Sub l m -> NoDup m -> NoDup l.
Proof.
  induction 1; intros N; [constructor| |].
  - apply IHSub. now inversion N.
  - inversion N; subst. constructor; [|now apply IHSub]. intros I. apply H2. now apply (Sub_In l).
Qed.

(** ** merge *)
Lemma mem_In x l : mem x l = true <-> In x l.
Proof.
  unfold mem. rewrite existsb_exists. split.
  - intros (y & I & E). apply String.eqb_eq in E. now subst.
  - intros I. exists x. split; [assumption|apply String.eqb_refl].
Qed.
Lemma in_tails_false x ls l : in_tails x ls = false -> In l ls -> ~ In x (tl l).
Proof.
  unfold in_tails. intros H I J. apply mem_In in J.
  assert (existsb (fun l => mem x (tl l)) ls = true) by (apply existsb_exists; exists l; auto). congruence.
Qed.
Lemma pick_Some heads all x : pick heads all = Some x -> in_tails x all = false /\ exists t, In (x :: t) heads.
Proof.
  induction heads as [|[|y t] r IH]; cbn; [discriminate| |].
  - intros H. destruct (IH H) as (? & t & ?). split; [assumption|]. exists t. auto.
  - destruct (in_tails y all) eqn:E.
    + intros H. destruct (IH H) as (? & t' & ?). split; [assumption|]. exists t'. auto.
    + intros [= <-]. split; [assumption|]. exists t. auto.
Qed.
Lemma pick_None heads all x t : pick heads all = None -> In (x :: t) heads -> in_tails x all = true.
Proof.
  induction heads as [|[|y u] r IH]; cbn; [tauto| |].
  - intros H [?|?]; [discriminate|auto].
  - destruct (in_tails y all) eqn:E; [|discriminate]. intros H [I|?]; [|auto]. now injection I as -> _.
Qed.
Lemma all_empty_true ls l : all_empty ls = true -> In l ls -> l = [].
Proof. unfold all_empty. rewrite forallb_forall. intros H I. specialize (H l I). now destruct l. Qed.
Lemma all_empty_false ls : all_empty ls = false -> exists x t, In (x :: t) ls.
Proof.
  unfold all_empty. induction ls as [|[|x t] r IH]; cbn; [discriminate| |].
  - intros H. destruct (IH H) as (x & t & ?). exists x, t. auto.
  - intros _. exists x, t. auto.
Qed.
Lemma drop_Sub x l : Sub (drop x l) l.
Proof. destruct l as [|y t]; [constructor|]. cbn. destruct (String.eqb x y); [constructor|]; apply Sub_refl. Qed.
Lemma Sub_trans {X} (l m n : list X) : Sub l m -> Sub m n -> Sub l n.
Proof.
  intros H J. revert l H. induction J; intros k H.
  - inversion H. constructor.
  - constructor. now apply IHJ.
  - inversion H; subst; [constructor| |].
    + apply Sub_skip. now apply IHJ.
    + apply Sub_take. now apply IHJ.
Qed.
Lemma drop_notin x l : NoDup l -> ~ In x (tl l) -> ~ In x (drop x l).
Proof.
  destruct l as [|y t]; cbn; [tauto|]. intros N H. destruct (String.eqb_spec x y); [assumption|].
  cbn. intros [?|?]; [congruence|tauto].
Qed.

Lemma merge_sound n : forall ls r, merge n ls = Some r -> (forall l, In l ls -> NoDup l) ->
  NoDup r /\ (forall l, In l ls -> Sub l r) /\ (forall x, In x r -> exists l, In l ls /\ In x l).
Proof.
  induction n as [|n IH]; intros ls r H N; cbn [merge] in H; destruct (all_empty ls) eqn:E.
  1,3: injection H as <-; split; [constructor|]; split; [|cbn; tauto]; intros l I; rewrite (all_empty_true ls l E I); constructor.
  - discriminate.
  - destruct (pick ls ls) as [x|] eqn:P; [|discriminate]. destruct (merge n (map (drop x) ls)) as [r'|] eqn:M; [|discriminate].
    injection H as <-. destruct (pick_Some _ _ _ P) as (T & t & I0).
    assert (N' : forall l, In l (map (drop x) ls) -> NoDup l).
    { intros l I. apply in_map_iff in I as (k & <- & I). apply (Sub_NoDup _ k); [apply drop_Sub|auto]. }
    destruct (IH _ _ M N') as (A & B & D). split; [|split].
    + constructor; [|assumption]. intros I. destruct (D x I) as (l & J & K). apply in_map_iff in J as (k & <- & J).
      revert K. apply drop_notin; [auto|]. now apply (in_tails_false x ls).
    + intros l I. specialize (B (drop x l) (in_map _ _ _ I)). destruct l as [|y u]; [constructor|]. cbn in B.
      destruct (String.eqb_spec x y); [subst; now apply Sub_take|now apply Sub_skip].
    + intros y [<-|I].
      * exists (x :: t). cbn. auto.
      * destruct (D y I) as (l & J & K). apply in_map_iff in J as (k & <- & J). exists k. split; [assumption|].
        now apply (Sub_In _ _ _ (drop_Sub x k)).
Qed.

Lemma first_common (P : string -> bool) (L : list string) x : In x L -> P x = true ->
  exists pre y post, L = pre ++ y :: post /\ P y = true /\ forall z, In z pre -> P z = false.
Proof.
  induction L as [|z L IH]; cbn; [tauto|]. intros I H. destruct (P z) eqn:E.
  - exists [], z, L. cbn. tauto.
  - destruct I as [->|I]; [congruence|]. destruct (IH I H) as (pre & y & post & -> & A & B).
    exists (z :: pre), y, post. cbn. repeat split; auto. intros w [<-|J]; auto.
Qed.
Lemma not_after (h : string) t y pre post : Sub (h :: t) (pre ++ y :: post) -> NoDup (pre ++ y :: post) -> ~ In h pre -> In y t -> False.
Proof.
  induction pre as [|p pre IH]; cbn; intros H N A I.
  - inversion N; subst. inversion H; subst.
    + apply H2. apply (Sub_In (h :: t)); [assumption|cbn; auto].
    + apply H2. now apply (Sub_In t).
  - inversion N; subst. inversion H; subst; [|tauto]. apply IH; auto.
Qed.
Lemma total_drop x ls t : In (x :: t) ls -> total (map (drop x) ls) < total ls.
Proof.
  unfold total. induction ls as [|l ls IH]; [cbn; tauto|]. intros I. cbn [map concat]. rewrite !app_length.
  assert (D : forall l, length (drop x l) <= length l).
  { intros k. destruct k as [|y u]; [cbn; lia|]. cbn. destruct (String.eqb x y); cbn; lia. }
  assert (E : length (concat (map (drop x) ls)) <= length (concat ls)).
  { clear. induction ls as [|k ls IH]; [cbn; lia|]. cbn [map concat]. rewrite !app_length.
    enough (length (drop x k) <= length k) by lia. destruct k as [|y u]; [cbn; lia|]. cbn. destruct (String.eqb x y); cbn; lia. }
  destruct I as [->|I].
  - cbn [drop length]. rewrite String.eqb_refl. lia.
  - specialize (IH I). specialize (D l). lia.
Qed.
Lemma merge_complete n : forall ls L, total ls <= n -> consistent ls L -> exists r, merge n ls = Some r.
Proof.
  induction n as [|n IH]; intros ls L T (N & Sb); cbn [merge]; destruct (all_empty ls) eqn:E; eauto.
  - destruct (all_empty_false _ E) as (x & t & I). exfalso.
    assert (In x (concat ls)) by (apply in_concat; exists (x :: t); cbn; auto).
    unfold total in T. destruct (concat ls); cbn in *; [tauto|lia].
  - destruct (pick ls ls) as [x|] eqn:P.
    + destruct (pick_Some _ _ _ P) as (A & t & I). pose proof (total_drop x ls t I).
      destruct (IH (map (drop x) ls) L) as (r & ->); [lia| |eauto]. split; [assumption|].
      intros l J. apply in_map_iff in J as (k & <- & J). apply (Sub_trans _ k); [apply drop_Sub|auto].
    + exfalso. destruct (all_empty_false _ E) as (x & t & I).
      destruct (first_common (fun z => mem z (concat ls)) L x) as (pre & y & post & -> & A & B).
      { apply (Sub_In (x :: t)); [auto|cbn; auto]. }
      { apply mem_In, in_concat. exists (x :: t). cbn. auto. }
      apply mem_In, in_concat in A as (l & J & K).
      assert (H : forall h u k, In (h :: u) ls -> In k (h :: u) -> ~ In k pre).
      { intros h u k I1 I2 I3. specialize (B k I3). cbn beta in B.
        assert (mem k (concat ls) = true) by (apply mem_In, in_concat; eauto). congruence. }
      destruct l as [|h u]; [destruct K|]. destruct K as [->|K].
      * pose proof (pick_None _ _ _ _ P J) as Q. unfold in_tails in Q. apply existsb_exists in Q as ([|h' u'] & I' & M); [discriminate|].
        cbn in M. apply mem_In in M. apply (not_after h' u' y pre post); auto. apply (H h' u'); cbn; auto.
      * apply (not_after h u y pre post); auto. apply (H h u); cbn; auto.
Qed.

(** ** Environments *)
Lemma get_Some e c o : get e c = Some o -> In o e /\ name_of o = c.
Proof. unfold get. intros H. apply find_some in H as (I & E). apply String.eqb_eq in E. auto. Qed.
Lemma get_In e o : NoDup (map name_of e) -> In o e -> get e (name_of o) = Some o.
Proof.
  unfold get. induction e as [|p e IH]; cbn [find map In]; [tauto|]. intros N. inversion N; subst. intros [->|I].
  - now rewrite String.eqb_refl.
  - destruct (String.eqb_spec (name_of p) (name_of o)) as [E|]; [|auto].
    exfalso. apply H1. rewrite E. now apply in_map.
Qed.
Lemma get_None e c o : get e c = None -> In o e -> name_of o <> c.
Proof. unfold get. intros H I E. pose proof (find_none _ _ H o I). cbn in H0. subst. now rewrite String.eqb_refl in H0. Qed.
Lemma get_all_spec e cs os : get_all e cs = Some os -> map name_of os = cs /\ forall o, In o os -> In o e.
Proof.
  revert os. induction cs as [|c cs IH]; cbn; intros os H.
  - injection H as <-. cbn. tauto.
  - destruct (get e c) eqn:G; [|discriminate]. destruct (get_all e cs) as [os'|]; [|discriminate]. injection H as <-.
    destruct (IH os' eq_refl) as (<- & I). apply get_Some in G as (J & <-). cbn. split; [reflexivity|]. intros o [<-|K]; auto.
Qed.
Lemma no_dup_spec l : no_dup l = true -> NoDup l.
Proof.
  induction l as [|x l IH]; cbn; [constructor|]. rewrite andb_true_iff, negb_true_iff. intros (A & B). constructor; [|auto].
  intros I. apply mem_In in I. congruence.
Qed.
Lemma no_dup_false l : no_dup l = false -> ~ NoDup l.
Proof.
  induction l as [|x l IH]; cbn; [discriminate|]. rewrite andb_false_iff, negb_false_iff. intros [A|A] N; inversion N; subst.
  - apply mem_In in A. contradiction.
  - now apply IH.
Qed.

(** ** What a successful class statement yields *)
Definition plain_of (s : stmt) (r : list string) (abc : bool) : pyclass := {| o_stmt := s; o_mro := s_name s :: r; o_abs := []; o_abc := abc |}.
Definition is_abs (e : env) (mro : list string) (x : string) : bool := match lookup e mro x with Some b => b | None => false end.
Lemma class_new_Ok e s o : class_new e s = Ok o -> exists bs r,
  get_all e (bases_of s) = Some bs /\ NoDup (bases_of s) /\ merge (total (map o_mro bs ++ [bases_of s])) (map o_mro bs ++ [bases_of s]) = Some r /\
  o_stmt o = s /\ o_mro o = s_name s :: r /\ o_abc o = s_meta s || existsb o_abc bs /\
  o_abs o = if o_abc o then filter (is_abs (plain_of s r (o_abc o) :: e) (o_mro o)) (map fst (s_body s)) ++
                            filter (is_abs (plain_of s r (o_abc o) :: e) (o_mro o)) (flat_map o_abs bs) else [].
Proof.
  unfold class_new. destruct (get_all e (bases_of s)) as [bs|]; [|discriminate].
  destruct (no_dup (bases_of s)) eqn:D; [|discriminate]. cbn [negb].
  destruct (merge _ _) as [r|] eqn:M; [|discriminate]. intros [= <-]. exists bs, r. cbn. repeat split; auto. now apply no_dup_spec.
Qed.

Record ok (p : list stmt) (e : env) : Prop := {
  ok_names : NoDup (map name_of e);
  ok_obj : In the_object e;
  ok_stmt : forall o, In o e -> o = the_object \/ In (o_stmt o) p;
  ok_prog : forall s, In s p -> exists o, In o e /\ o_stmt o = s /\ o <> the_object;
  ok_closed : forall o d, In o e -> In d (o_mro o) -> exists o', In o' e /\ name_of o' = d;
  ok_head : forall o, In o e -> exists r, o_mro o = name_of o :: r;
  ok_nodup : forall o, In o e -> NoDup (o_mro o);
  ok_mono : forall o o', In o e -> In o' e -> In (name_of o') (o_mro o) -> Sub (o_mro o') (o_mro o);
  ok_lpo : forall o, In o e -> o <> the_object -> Sub (bases_of (o_stmt o)) (o_mro o);
  ok_anc : forall o d, In o e -> (In d (o_mro o) <-> ancestor p (name_of o) d)
}.
Lemma ok_start : ok [] [the_object].
Proof.
  constructor.
  - cbn. constructor; [cbn; tauto|constructor].
  - cbn. auto.
  - cbn. intros o [<-|[]]. auto.
  - cbn. tauto.
  - cbn. intros o d [<-|[]] [<-|[]]. exists the_object. auto.
  - cbn. intros o [<-|[]]. exists []. reflexivity.
  - cbn. intros o [<-|[]]. cbn. constructor; [cbn; tauto|constructor].
  - cbn. intros o o' [<-|[]] [<-|[]] _. apply Sub_refl.
  - cbn. intros o [<-|[]]. tauto.
  - cbn. intros o d [<-|[]]. cbn. split.
    + intros [<-|[]]. constructor.
    + intros H. inversion H; subst; [auto|contradiction].
Qed.
Lemma ancestor_more p q c d : ancestor p c d -> (forall s, In s p -> In s q) -> ancestor q c d.
Proof. intros H I. induction H; [constructor|]. apply (anc_base q s b); auto. Qed.
Lemma ancestor_trans p a b c : ancestor p a b -> ancestor p b c -> ancestor p a c.
Proof. intros H J. induction H; [assumption|]. apply (anc_base p s b); auto. Qed.

Lemma ok_step p e s o : ok p e -> get e (s_name s) = None -> class_new e s = Ok o -> ok (p ++ [s]) (o :: e).
Proof.
  intros K G H. destruct (class_new_Ok _ _ _ H) as (bs & r & GA & ND & M & Es & Em & _ & _). clear H.
  destruct (get_all_spec _ _ _ GA) as (Nb & Ib). clear GA.
  assert (En : name_of o = s_name s) by (unfold name_of; now rewrite Es).
  assert (F : forall o', In o' e -> name_of o' <> s_name s) by (intros; now apply (get_None e)).
  assert (No : o <> the_object).
  { intros E. apply (F the_object (ok_obj p e K)). now rewrite <- E. }
  assert (NL : forall l, In l (map o_mro bs ++ [bases_of s]) -> NoDup l).
  { intros l I. apply in_app_or in I as [I|[<-|[]]]; [|assumption]. apply in_map_iff in I as (b & <- & I).
    apply (ok_nodup p e K). auto. }
  destruct (merge_sound _ _ _ M NL) as (Nr & Sr & Cr).
  (* every element of r lies in the order of some base *)
  assert (C : forall d, In d r -> exists b, In b bs /\ In d (o_mro b)).
  { intros d I. destruct (Cr d I) as (l & J & J'). apply in_app_or in J as [J|[<-|[]]].
    - apply in_map_iff in J as (b & <- & J). eauto.
    - rewrite <- Nb in J'. apply in_map_iff in J' as (b & <- & J'). exists b. split; [assumption|].
      destruct (ok_head p e K b (Ib b J')) as (r' & ->). cbn. auto. }
  assert (Ce : forall d, In d r -> exists o', In o' e /\ name_of o' = d).
  { intros d I. destruct (C d I) as (b & J & J'). apply (ok_closed p e K b); auto. }
  assert (An : forall c d, (exists o', In o' e /\ name_of o' = c) -> ancestor (p ++ [s]) c d -> ancestor p c d).
  { intros c d (o' & I' & <-) A. remember (name_of o') as c. revert o' I' Heqc. induction A as [c|s' b d Is Ibb A IH]; intros o' I' E; [constructor|].
    apply in_app_or in Is as [Is|[<-|[]]].
    - destruct (ok_prog p e K s' Is) as (o2 & I2 & E2 & N2). apply (anc_base p s' b); auto.
      assert (Ib2 : In b (o_mro o2)). { apply (Sub_In (bases_of (o_stmt o2))); [now apply (ok_lpo p e K)|]. now rewrite E2. }
      destruct (ok_closed p e K o2 b I2 Ib2) as (o3 & I3 & E3). apply (IH o3); auto.
    - exfalso. now apply (F o' I'). }
  constructor.
  - cbn. constructor; [|apply (ok_names p e K)]. rewrite En. intros I. apply in_map_iff in I as (o' & E' & I'). now apply (F o' I').
  - right. apply (ok_obj p e K).
  - intros o' [<-|I].
    + right. rewrite Es. apply in_or_app. cbn. auto.
    + destruct (ok_stmt p e K o' I); [auto|]. right. apply in_or_app. auto.
  - intros s' I. apply in_app_or in I as [I|[<-|[]]].
    + destruct (ok_prog p e K s' I) as (o' & ? & ? & ?). exists o'. cbn. auto.
    + exists o. cbn. auto.
  - intros o' d [<-|I] J.
    + rewrite Em in J. destruct J as [<-|J]; [exists o; cbn; auto|]. destruct (Ce d J) as (o' & ? & ?). exists o'. cbn. auto.
    + destruct (ok_closed p e K o' d I J) as (o2 & ? & ?). exists o2. cbn. auto.
  - intros o' [<-|I]; [exists r; now rewrite En|now apply (ok_head p e K)].
  - intros o' [<-|I]; [|now apply (ok_nodup p e K)]. rewrite Em. constructor; [|assumption].
    intros I. destruct (Ce _ I) as (o' & I' & E'). now apply (F o').
  - intros o1 o2 [<-|I1] [<-|I2] J.
    + apply Sub_refl.
    + rewrite Em in *. destruct J as [E|J]; [exfalso; now apply (F o2 I2)|]. constructor.
      destruct (C _ J) as (b & Bb & Jb). apply (Sub_trans _ (o_mro b)); [apply (ok_mono p e K); auto|].
      apply Sr. apply in_or_app. left. now apply in_map.
    + rewrite En in J. destruct (ok_closed p e K o1 _ I1 J) as (o3 & I3 & E3). exfalso. now apply (F o3).
    + now apply (ok_mono p e K).
  - intros o' [<-|I] N'; [|now apply (ok_lpo p e K)]. rewrite Em, Es. constructor. apply Sr. apply in_or_app. cbn. auto.
  - intros o' d [<-|I].
    + rewrite Em, En. split.
      * intros [<-|J]; [constructor|]. destruct (C d J) as (b & Bb & Jb).
        apply (anc_base _ s (name_of b)); [apply in_or_app; cbn; auto|rewrite <- Nb; now apply in_map|].
        apply (ancestor_more p); [now apply (ok_anc p e K); auto|]. intros; apply in_or_app; auto.
      * intros A. remember (s_name s) as c. revert Heqc. destruct A as [c|s' b d Is Ibb A]; intros E; [cbn; auto|].
        right. apply in_app_or in Is as [Is|[<-|[]]].
        { exfalso. destruct (ok_prog p e K s' Is) as (o2 & I2 & E2 & N2). apply (F o2 I2). unfold name_of. now rewrite E2. }
        rewrite <- Nb in Ibb. apply in_map_iff in Ibb as (ob & <- & Iob).
        apply (Sub_In (o_mro ob)); [apply Sr; apply in_or_app; left; now apply in_map|].
        apply (ok_anc p e K); auto. apply An; [exists ob; auto|assumption].
    + split.
      * intros J. apply (ancestor_more p); [now apply (ok_anc p e K)|]. intros; apply in_or_app; auto.
      * intros A. apply (ok_anc p e K); auto. apply An; [exists o'; auto|assumption].
Qed.
Lemma exec_ok q : forall p e e', ok p e -> exec e q = Ok e' -> ok (p ++ q) e'.
Proof.
  induction q as [|s q IH]; cbn; intros p e e' K H.
  - injection H as <-. now rewrite app_nil_r.
  - destruct (get e (s_name s)) eqn:G; [discriminate|]. destruct (class_new e s) as [o|] eqn:N; [|discriminate]. cbn in H.
    replace (p ++ s :: q) with ((p ++ [s]) ++ q) by now rewrite <- app_assoc.
    apply (IH _ (o :: e)); [|assumption]. now apply ok_step.
Qed.
Lemma run_ok p e : run p = Ok e -> ok p e.
Proof. intros H. apply (exec_ok p [] _ e ok_start H). Qed.
