(** Proofs about abstract methods, instances and constructors. *)
From Coq Require Import String List Bool Arith Lia.
From Verif Require Import Base ClsModel ClsSpec ClsProofs.
Import ListNotations.
Close Scope R_scope.

(** ** Bindings *)
Lemma find_app {X} (f : X -> bool) l m : find f (l ++ m) = match find f l with Some x => Some x | None => find f m end.
Proof. induction l as [|x l IH]; cbn; [reflexivity|]. now destruct (f x). Qed.
Lemma binding_Some s x b : binding s x = Some b <-> binds s x b.
Proof.
  unfold binding, binds. generalize (s_body s) as l. intros l. split.
  - induction l as [|[y c] l IH] using rev_ind; [discriminate|]. rewrite rev_app_distr. cbn [rev app find fst].
    destruct (String.eqb_spec y x) as [->|N].
    + cbn. intros [= ->]. exists l, []. cbn. tauto.
    + intros H. destruct (IH H) as (l1 & r & -> & I). exists l1, (r ++ [(y, c)]). rewrite <- app_assoc. split; [reflexivity|].
      rewrite map_app, in_app_iff. cbn. intuition.
  - intros (l1 & r & -> & I). rewrite rev_app_distr. cbn [rev]. rewrite <- app_assoc, find_app.
    replace (find _ (rev r)) with (@None (string * bool)).
    + cbn. now rewrite String.eqb_refl.
    + symmetry. destruct (find _ (rev r)) as [[y c]|] eqn:F; [|reflexivity]. exfalso. apply find_some in F as (J & E).
      apply String.eqb_eq in E. cbn in E. subst. apply I. apply in_map_iff. exists (x, c). split; [reflexivity|]. now apply in_rev.
Qed.
Lemma binding_None s x : binding s x = None <-> silent s x.
Proof.
  unfold binding, silent. split.
  - intros H I. apply in_map_iff in I as ([y b] & E & I). cbn in E. subst. destruct (find _ _) eqn:F; [discriminate|].
    pose proof (find_none _ _ F (x, b)). cbn in H0. rewrite String.eqb_refl in H0. discriminate H0. now apply in_rev in I.
  - intros H. destruct (find _ _) as [[y b]|] eqn:F; [|reflexivity]. exfalso. apply find_some in F as (J & E). apply String.eqb_eq in E.
    cbn in E. subst. apply H. apply in_map_iff. exists (x, b). split; [reflexivity|]. now apply in_rev.
Qed.
Lemma binding_In s x b : binding s x = Some b -> In x (map fst (s_body s)).
Proof. rewrite binding_Some. intros (l & r & -> & _). rewrite map_app, in_app_iff. cbn. auto. Qed.

(** ** Look-up *)
Lemma lookup_ext e e' m x : (forall c, In c m -> option_map o_stmt (get e c) = option_map o_stmt (get e' c)) -> lookup e m x = lookup e' m x.
Proof.
  induction m as [|c m IH]; cbn; intros H; [reflexivity|]. rewrite IH by auto. specialize (H c (or_introl eq_refl)).
  destruct (get e c) as [o|], (get e' c) as [o'|]; cbn in H; try discriminate; [|reflexivity]. injection H as ->. reflexivity.
Qed.
Lemma lookup_Some e m x b : lookup e m x = Some b -> exists pre c post o, m = pre ++ c :: post /\ get e c = Some o /\ binding (o_stmt o) x = Some b /\
  forall c' o', In c' pre -> get e c' = Some o' -> binding (o_stmt o') x = None.
Proof.
  induction m as [|c m IH]; cbn; [discriminate|].
  assert (R : lookup e m x = Some b -> (forall o, get e c = Some o -> binding (o_stmt o) x = None) ->
    exists pre c0 post o, c :: m = pre ++ c0 :: post /\ get e c0 = Some o /\ binding (o_stmt o) x = Some b /\
    forall c' o', In c' pre -> get e c' = Some o' -> binding (o_stmt o') x = None).
  { intros H N. destruct (IH H) as (pre & c0 & post & o & -> & A & B & D). exists (c :: pre), c0, post, o. repeat split; auto.
    intros c' o' [<-|I]; auto. now apply D. }
  destruct (get e c) as [o|] eqn:G.
  - destruct (binding (o_stmt o) x) as [b'|] eqn:B.
    + intros [= ->]. exists [], c, m, o. cbn. repeat split; auto. tauto.
    + intros H. apply R; [assumption|]. now intros o' [= <-].
  - intros H. apply R; [assumption|discriminate].
Qed.
Lemma lookup_decides e pre c post o x b : get e c = Some o -> binding (o_stmt o) x = Some b ->
  (forall c' o', In c' pre -> get e c' = Some o' -> binding (o_stmt o') x = None) -> lookup e (pre ++ c :: post) x = Some b.
Proof.
  intros G B. induction pre as [|p pre IH]; cbn; intros H.
  - now rewrite G, B.
  - destruct (get e p) as [o'|] eqn:E; [|now apply IH; eauto]. rewrite (H p o') by auto. apply IH. eauto.
Qed.
(** the first class that binds a name in a list is the first one in every sublist that still contains it *)
Lemma lookup_sub e l m x b pre c post o : Sub l m -> NoDup m -> m = pre ++ c :: post -> In c l -> get e c = Some o -> binding (o_stmt o) x = Some b ->
  (forall c' o', In c' pre -> get e c' = Some o' -> binding (o_stmt o') x = None) -> lookup e l x = Some b.
Proof.
  intros S. revert pre. induction S as [m|y l m S IH|y l m S IH]; intros pre N E I G B H; [destruct I| |].
  - inversion N; subst. destruct pre as [|p pre]; cbn in E; injection E as -> E.
    + exfalso. subst. apply H2. now apply (Sub_In l).
    + apply (IH pre); auto. intros c' o' J. apply H. now right.
  - inversion N; subst. destruct pre as [|p pre]; cbn in E; injection E as -> E.
    + cbn. now rewrite G, B.
    + cbn. destruct I as [->|I].
      { exfalso. subst m. apply H2. apply in_or_app. cbn. auto. }
      assert (L : lookup e l x = Some b) by (apply (IH pre); auto; intros c' o' J; apply H; now right).
      destruct (get e p) as [o'|] eqn:E'; [|assumption]. now rewrite (H p o') by (cbn; auto).
Qed.
Lemma decided_lookup p e m x b : ok p e -> (lookup e m x = Some b <-> decided e m x b).
Proof.
  intros K. pose proof (ok_names p e K) as N. split.
  - intros H. destruct (lookup_Some _ _ _ _ H) as (pre & c & post & o & -> & G & B & D). destruct (get_Some _ _ _ G) as (I & E).
    exists pre, c, post, o. repeat split; auto; [now apply binding_Some|]. intros o' I' J. apply binding_None. apply (D (name_of o')); auto.
    now apply get_In.
  - intros (pre & c & post & o & -> & I & <- & B & D). apply (lookup_decides e pre _ post o); [now apply get_In|now apply binding_Some|].
    intros c' o' J G. destruct (get_Some _ _ _ G) as (I' & <-). apply binding_None. now apply D.
Qed.

(** ** Abstract methods *)
Lemma lookup_old p e o m x : ok p e -> (forall o', In o' e -> name_of o' <> name_of o) ->
  (forall c, In c m -> exists o', In o' e /\ name_of o' = c) -> lookup (o :: e) m x = lookup e m x.
Proof.
  intros K F C. apply lookup_ext. intros c I. destruct (C c I) as (o' & I' & <-). unfold get. cbn [find].
  destruct (String.eqb_spec (name_of o) (name_of o')) as [E|]; [|reflexivity]. exfalso. now apply (F o').
Qed.
Definition abs_ok (e : env) : Prop := forall o x, In o e -> (In x (o_abs o) <-> lookup e (o_mro o) x = Some true).
Definition abc_ok (e : env) : Prop := forall o x, In o e -> In x (o_abs o) -> o_abc o = true.
Lemma abs_step p e s o : ok p e -> get e (s_name s) = None -> class_new e s = Ok o -> plain_classes_complete (o :: e) ->
  abs_ok e -> abc_ok e -> abs_ok (o :: e) /\ abc_ok (o :: e).
Proof.
  intros K G H PL A1 A2. pose proof (ok_step p e s o K G H) as K'.
  destruct (class_new_Ok _ _ _ H) as (bs & r & GA & ND & M & Es & Em & Ea & Eabs). clear H.
  destruct (get_all_spec _ _ _ GA) as (Nb & Ib). clear GA.
  assert (En : name_of o = s_name s) by (unfold name_of; now rewrite Es).
  assert (F : forall o', In o' e -> name_of o' <> name_of o) by (rewrite En; intros; now apply (get_None e)).
  assert (LX : forall x, lookup (plain_of s r (o_abc o) :: e) (o_mro o) x = lookup (o :: e) (o_mro o) x).
  { intros x. apply lookup_ext. intros c _. unfold get. cbn [find]. change (name_of (plain_of s r (o_abc o))) with (s_name s). rewrite En.
    destruct (String.eqb (s_name s) c); [cbn; now rewrite Es|reflexivity]. }
  assert (IA : forall x, is_abs (plain_of s r (o_abc o) :: e) (o_mro o) x = true <-> lookup (o :: e) (o_mro o) x = Some true).
  { intros x. unfold is_abs. rewrite LX. destruct (lookup (o :: e) (o_mro o) x) as [[|]|]; split; congruence. }
  assert (NL : forall l, In l (map o_mro bs ++ [bases_of s]) -> NoDup l).
  { intros l I. apply in_app_or in I as [I|[<-|[]]]; [|assumption]. apply in_map_iff in I as (b & <- & I).
    apply (ok_nodup p e K). auto. }
  destruct (merge_sound _ _ _ M NL) as (Nr & Sr & Cr).
  assert (C : forall d, In d r -> exists b, In b bs /\ In d (o_mro b)).
  { intros d I. destruct (Cr d I) as (l & J & J'). apply in_app_or in J as [J|[<-|[]]].
    - apply in_map_iff in J as (b & <- & J). eauto.
    - rewrite <- Nb in J'. apply in_map_iff in J' as (b & <- & J'). exists b. split; [assumption|].
      destruct (ok_head p e K b (Ib b J')) as (r' & ->). cbn. auto. }
  assert (OLD : forall o' x, In o' e -> lookup (o :: e) (o_mro o') x = lookup e (o_mro o') x).
  { intros o' x I. apply (lookup_old p); auto. intros c J. now apply (ok_closed p e K o'). }
  assert (B2 : abc_ok (o :: e)).
  { intros o' x [<-|I] J; [|now apply (A2 o' x)]. rewrite Eabs in J. destruct (o_abc o); [reflexivity|destruct J]. }
  split; [|assumption]. intros o' x [<-|I].
  - split.
    + intros J. rewrite Eabs in J. destruct (o_abc o) eqn:EA; [|destruct J].
      apply in_app_or in J as [J|J]; apply filter_In in J as (_ & J); now apply IA.
    + intros L. assert (IX : is_abs (plain_of s r (o_abc o) :: e) (o_mro o) x = true) by now apply IA.
      destruct (binding s x) as [b|] eqn:B.
      * assert (b = true). { rewrite Em in L. cbn in L. unfold get in L. cbn [find] in L. rewrite En, String.eqb_refl, Es, B in L. congruence. }
        subst b. assert (EA : o_abc o = true).
        { destruct (o_abc o) eqn:EA; [reflexivity|]. assert (true = false); [|congruence]. apply (PL o x true); [cbn; auto|assumption|].
          rewrite Es. now apply binding_Some. }
        rewrite Eabs, EA. apply in_or_app. left. apply filter_In. split; [now apply (binding_In s x true)|now rewrite EA in IX].
      * assert (L' : lookup e r x = Some true).
        { rewrite Em in L. cbn [lookup] in L. unfold get at 1 in L. cbn [find] in L. rewrite En, String.eqb_refl, Es, B in L.
          rewrite <- L. symmetry. apply (lookup_old p); auto. intros c J. destruct (C c J) as (b & ? & ?).
          now apply (ok_closed p e K b); auto. }
        destruct (lookup_Some _ _ _ _ L') as (pre & c & post & oc & Er & Gc & Bc & Dc).
        assert (Ic : In c r) by (rewrite Er; apply in_or_app; cbn; auto).
        destruct (C c Ic) as (b & Ibs & Icb).
        assert (Lb : lookup e (o_mro b) x = Some true).
        { apply (lookup_sub e (o_mro b) r x true pre c post oc); auto. apply Sr, in_or_app. left. now apply in_map. }
        apply A1 in Lb; [|auto].
        assert (EA : o_abc o = true).
        { rewrite Ea. apply orb_true_iff. right. apply existsb_exists. exists b. split; [assumption|]. apply (A2 b x); auto. }
        rewrite Eabs, EA. apply in_or_app. right. apply filter_In. split; [|now rewrite EA in IX]. apply in_flat_map. exists b. auto.
  - rewrite OLD by assumption. now apply A1.
Qed.
Lemma exec_grows q : forall e e', exec e q = Ok e' -> exists n, e' = n ++ e.
Proof.
  induction q as [|s q IH]; cbn; intros e e' H.
  - injection H as <-. now exists [].
  - destruct (get e (s_name s)); [discriminate|]. destruct (class_new e s) as [o|]; [|discriminate]. destruct (IH _ _ H) as (n & ->).
    exists (n ++ [o]). now rewrite <- app_assoc.
Qed.
Lemma plain_sub n e : plain_classes_complete (n ++ e) -> plain_classes_complete e.
Proof. intros H o x b I. apply H. apply in_or_app. auto. Qed.
Lemma exec_abs q : forall p e e', ok p e -> exec e q = Ok e' -> plain_classes_complete e' -> abs_ok e -> abc_ok e -> abs_ok e' /\ abc_ok e'.
Proof.
  induction q as [|s q IH]; cbn; intros p e e' K H PL A1 A2.
  - injection H as <-. auto.
  - destruct (get e (s_name s)) eqn:G; [discriminate|]. destruct (class_new e s) as [o|] eqn:N; [|discriminate]. cbn in H.
    destruct (exec_grows _ _ _ H) as (n & ->).
    destruct (abs_step p e s o K G N (plain_sub _ _ PL) A1 A2) as (B1 & B2).
    now apply (IH (p ++ [s]) (o :: e)); [apply ok_step|..].
Qed.
Lemma run_abs p e : run p = Ok e -> plain_classes_complete e -> abs_ok e.
Proof.
  intros H PL. apply (exec_abs p [] _ e ok_start H PL).
  - intros o x [<-|[]]. cbn. split; [tauto|]. unfold get. cbn. unfold binding. cbn [s_body o_stmt the_object rev app find fst].
    destruct (String.eqb "__init__" x); discriminate.
  - intros o x [<-|[]] [].
Qed.

(** ** Where each class of a program comes from *)
Lemma exec_split q : forall e e' s, exec e q = Ok e' -> In s q -> exists e1 o n, class_new (e1 ++ e) s = Ok o /\ e' = n ++ o :: e1 ++ e.
Proof.
  induction q as [|s0 q IH]; cbn; intros e e' s H I; [destruct I|].
  destruct (get e (s_name s0)) eqn:G; [discriminate|]. destruct (class_new e s0) as [o|] eqn:N; [|discriminate]. cbn in H. destruct I as [<-|I].
  - destruct (exec_grows _ _ _ H) as (n & ->). exists [], o, n. auto.
  - destruct (IH _ _ _ H I) as (e1 & o' & n & A & ->). exists (e1 ++ [o]), o', n. rewrite <- app_assoc. auto.
Qed.
Lemma exec_app q r : forall e e', exec e (q ++ r) = Ok e' -> exists m, exec e q = Ok m /\ exec m r = Ok e'.
Proof.
  induction q as [|s q IH]; cbn; intros e e' H; [eauto|].
  destruct (get e (s_name s)); [discriminate|]. destruct (class_new e s) as [o|]; [|discriminate]. cbn in *. now apply IH.
Qed.
Lemma run_app q r e : run (q ++ r) = Ok e -> exists m, run q = Ok m /\ exec m r = Ok e.
Proof. apply exec_app. Qed.
Lemma run_split p e s : run p = Ok e -> In s p -> exists e1 o n, class_new (e1 ++ [the_object]) s = Ok o /\ e = n ++ o :: e1 ++ [the_object].
Proof. apply exec_split. Qed.
Lemma get_all_in p e n cs os : ok p (n ++ e) -> get_all e cs = Some os -> get_all (n ++ e) cs = Some os.
Proof.
  intros K. revert os. induction cs as [|c cs IH]; cbn; intros os H; [assumption|].
  destruct (get e c) as [o|] eqn:G; [|discriminate]. destruct (get_all e cs) as [os'|]; [|discriminate]. injection H as <-.
  rewrite (IH os' eq_refl). apply get_Some in G as (I & <-). rewrite (get_In (n ++ e) o); [reflexivity|apply (ok_names p _ K)|].
  apply in_or_app. auto.
Qed.
Lemma Sub_length {X} (l m : list X) : Sub l m -> length l <= length m.
Proof. induction 1; cbn; lia. Qed.
Lemma Sub_eq {X} (l m : list X) : Sub l m -> length m <= length l -> l = m.
Proof.
  induction 1 as [m|x l m S IH|x l m S IH]; cbn; intros L.
  - destruct m; [reflexivity|cbn in L; lia].
  - apply Sub_length in S. lia.
  - f_equal. apply IH. lia.
Qed.
Lemma filter_none {X} (f : X -> bool) l : (forall x, In x l -> f x = false) -> filter f l = [].
Proof. induction l as [|x l IH]; cbn; intros H; [reflexivity|]. rewrite H by auto. apply IH. auto. Qed.
(** A class whose body makes every inherited abstract name ordinary, and adds none, can be instantiated. *)
Lemma subclass_ok p e s bs : run p = Ok e -> In s p -> get_all e (bases_of s) = Some bs -> (forall x, binding s x <> Some true) ->
  (forall b x, In b bs -> In x (o_abs b) -> binding s x = Some false) -> instantiate e (s_name s) = Ok tt.
Proof.
  intros H I GA N A. pose proof (run_ok p e H) as K. destruct (run_split p e s H I) as (e1 & o & n & Hn & E).
  destruct (class_new_Ok _ _ _ Hn) as (bs' & r & GA' & ND & M & Es & Em & Ea & Eabs).
  assert (En : name_of o = s_name s) by (unfold name_of; now rewrite Es).
  assert (Io : In o e) by (rewrite E; apply in_or_app; cbn; auto).
  assert (Eb : bs' = bs).
  { assert (G2 : get_all e (bases_of s) = Some bs'); [|congruence]. rewrite E in *. change (n ++ o :: e1 ++ [the_object]) with (n ++ [o] ++ (e1 ++ [the_object])) in *.
    rewrite app_assoc in *. now apply (get_all_in p). }
  subst bs'. unfold instantiate. rewrite <- En, (get_In e o) by (auto; apply (ok_names p e K)).
  rewrite Eabs. set (P := plain_of s r (o_abc o)). set (e0 := (e1 ++ [the_object])%list).
  assert (LK : forall x, is_abs (P :: e0) (o_mro o) x = match binding s x with Some b => b | None => is_abs (P :: e0) r x end).
  { intros x. unfold is_abs. rewrite Em. cbn [lookup]. unfold get at 1. cbn [find]. change (name_of P) with (s_name s). rewrite String.eqb_refl.
    change (o_stmt P) with s. now destruct (binding s x). }
  replace (if o_abc o then _ else _) with (@nil string); [reflexivity|]. symmetry.
  destruct (o_abc o) eqn:EA; [|reflexivity].
  rewrite (filter_none _ (map fst (s_body s))), (filter_none _ (flat_map o_abs bs)); [reflexivity| |]; intros x J; rewrite LK.
  - apply in_flat_map in J as (b & Ib & Ix). now rewrite (A b x Ib Ix).
  - destruct (binding s x) as [[|]|] eqn:B; [now destruct (N x)|reflexivity|]. now apply binding_None in B.
Qed.
(** A class that leaves an abstract name of its only base alone cannot. *)
Lemma subclass_abstract p e s b x : run p = Ok e -> plain_classes_complete e -> In s p -> get_all e (bases_of s) = Some [b] -> In x (o_abs b) ->
  binding s x = None -> instantiate e (s_name s) = Err TypeError.
Proof.
  intros H PL I GA A B. pose proof (run_ok p e H) as K. pose proof (run_abs p e H PL) as AB. destruct (run_split p e s H I) as (e1 & o & n & Hn & E).
  destruct (class_new_Ok _ _ _ Hn) as (bs' & r & GA' & ND & M & Es & Em & Ea & Eabs).
  assert (En : name_of o = s_name s) by (unfold name_of; now rewrite Es).
  assert (Io : In o e) by (rewrite E; apply in_or_app; cbn; auto).
  assert (Eb : bs' = [b]).
  { assert (G2 : get_all e (bases_of s) = Some bs'); [|congruence]. rewrite E in *. change (n ++ o :: e1 ++ [the_object]) with (n ++ [o] ++ (e1 ++ [the_object])) in *.
    rewrite app_assoc in *. now apply (get_all_in p). }
  subst bs'. destruct (get_all_spec _ _ _ GA) as (Nb & Ib).
  assert (Ibe : In b e) by (apply Ib; cbn; auto).
  assert (X : In x (o_abs o)).
  { apply AB; [assumption|]. rewrite Em. cbn [lookup]. rewrite <- En, (get_In e o), Es, B by (auto; apply (ok_names p e K)).
    apply (AB b x Ibe) in A. destruct (lookup_Some _ _ _ _ A) as (pre & c & post & oc & Er & Gc & Bc & Dc).
    assert (R : r = o_mro b).
    { assert (NL : forall l, In l (map o_mro [b] ++ [bases_of s]) -> NoDup l).
      { intros l [<-|[<-|[]]]; [now apply (ok_nodup p e K)|assumption]. }
      destruct (merge_sound _ _ _ M NL) as (Nr & Sr & Cr). symmetry. apply Sub_eq; [apply Sr; cbn; auto|].
      apply NoDup_incl_length; [assumption|]. intros d J. destruct (Cr d J) as (l & [<-|[<-|[]]] & J'); [assumption|].
      rewrite <- Nb in J'. destruct J' as [<-|[]]. destruct (ok_head p e K b Ibe) as (t & ->). cbn. auto. }
    rewrite R. exact A. }
  unfold instantiate. rewrite <- En, (get_In e o) by (auto; apply (ok_names p e K)). destruct (o_abs o); [destruct X|reflexivity].
Qed.

Lemma NoDup_app_l' {X} (l m : list X) : NoDup (l ++ m) -> NoDup l.
Proof. induction l as [|x l IH]; cbn; intros H; [constructor|]. inversion H; subst. constructor; [|auto]. intros I. apply H2. apply in_or_app. auto. Qed.
Lemma NoDup_snoc {X} (l : list X) x : NoDup l -> ~ In x l -> NoDup (l ++ [x]).
Proof.
  induction l as [|y l IH]; cbn; intros N I; [constructor; [tauto|constructor]|]. inversion N; subst. constructor; [|apply IH; tauto].
  rewrite in_app_iff. cbn. intuition.
Qed.
(** ** Constructors *)
Definition has_init (e : env) (c : string) : bool := match init_of e c with Some _ => true | None => false end.
Lemma inits_until e full pre z post : forall fuel, length (pre ++ z :: post) <= fuel -> init_of e z = Some Stops ->
  (forall c, In c pre -> init_of e c = None \/ init_of e c = Some Coop) -> inits fuel e full (pre ++ z :: post) = Some (filter (has_init e) pre ++ [z]).
Proof.
  enough (Q : forall n pre fuel, length pre <= n -> length (pre ++ z :: post) <= fuel -> init_of e z = Some Stops ->
    (forall c, In c pre -> init_of e c = None \/ init_of e c = Some Coop) -> inits fuel e full (pre ++ z :: post) = Some (filter (has_init e) pre ++ [z])).
  { intros fuel. now apply (Q (length pre)). }
  clear pre. induction n as [|n IH]; intros pre fuel L F Z C.
  - destruct pre; [|cbn in L; lia]. destruct fuel as [|fuel]; [cbn in F; lia|]. cbn [inits app first_init]. now rewrite Z.
  - induction pre as [|c pre IHp].
    + destruct fuel as [|fuel]; [cbn in F; lia|]. cbn [inits app first_init]. now rewrite Z.
    + cbn in L, F. destruct fuel as [|fuel]; [lia|]. cbn [inits app first_init]. cbn [filter]. unfold has_init at 1.
      destruct (C c (or_introl eq_refl)) as [E|E]; rewrite E.
      * rewrite <- (IH pre (S fuel)); [reflexivity|lia|lia|assumption|]. intros c' I. apply C. now right.
      * rewrite (IH pre fuel); [reflexivity|lia|lia|assumption|]. intros c' I. apply C. now right.
Qed.
