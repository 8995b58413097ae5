(** C138: citing a paper changes nothing. *)
From Coq Require Import String List Bool Arith Lia.
From Verif Require Import Base ClsModel ClsSpec ClsProofs ClsProofs2 ClsProps DueModel DueProofs.
Import ListNotations.
Close Scope R_scope.
Open Scope string_scope.
Open Scope list_scope.

(** ** The import *)
(** The package is used if it loads, offers the four names and its collector can cite. *)
Definition usable (p : package) : Prop :=
  exists offers, p = Loaded offers true /\ forall x, In x ["due"; "BibTeX"; "Doi"; "Url"] -> offers x = true.
(** Whatever ordinary error occurs, the import succeeds and binds all four names, all to the package or all to stubs. *)
Theorem c138_import p : (forall x, p = Broken x -> x_ordinary x = true) -> exists n, import_due p = inr n /\
  ((usable p /\ reported n = [] /\ forall x, In x ["due"; "BibTeX"; "Doi"; "Url"] -> value_of n x = Some Real) \/
   (~ usable p /\ forall x, In x ["due"; "BibTeX"; "Doi"; "Url"] -> value_of n x = Some Stub)).
Proof.
  intros O. unfold import_due. destruct p as [x|offers cite]; cbn [try_import].
  - rewrite (O x eq_refl). eexists. split; [reflexivity|]. right. split; [intros (f & E & _); discriminate|].
    intros y [<-|[<-|[<-|[<-|[]]]]]; reflexivity.
  - destruct (import_names offers wanted []) as [b [x|]] eqn:I.
    + destruct (import_names_type _ _ _ _ _ I) as (-> & y & Iy & Ny). cbn. eexists. split; [reflexivity|]. right. split.
      * intros (f & [= <- ->] & H). rewrite (H y Iy) in Ny. discriminate.
      * intros z [<-|[<-|[<-|[<-|[]]]]]; reflexivity.
    + destruct (import_names_all _ _ _ _ I) as (-> & H). cbn. destruct cite; cbn.
      * eexists. split; [reflexivity|]. left. split; [exists offers; auto|]. split; [reflexivity|]. intros z [<-|[<-|[<-|[<-|[]]]]]; reflexivity.
      * eexists. split; [reflexivity|]. right. split; [intros (f & E & _); discriminate|]. intros z [<-|[<-|[<-|[<-|[]]]]]; reflexivity.
Qed.
(** An error is reported exactly if the package raises something not called ImportError, or loads with a collector that cannot cite;
    the report names what went wrong. *)
Theorem c138_reported p n : import_due p = inr n ->
  reported n = match p with
               | Broken x => if string_dec (x_type x) "ImportError" then [] else [x_type x]
               | Loaded offers cite => if forallb offers ["due"; "BibTeX"; "Doi"; "Url"] && negb cite then ["RuntimeError"] else []
               end.
Proof.
  unfold import_due. destruct p as [x|offers cite]; cbn [try_import].
  - destruct (x_ordinary x); [|discriminate]. intros [= <-]. cbn. destruct (String.eqb_spec (x_type x) "ImportError"), (string_dec (x_type x) "ImportError"); congruence || reflexivity.
  - cbn [import_names wanted forallb]. destruct (offers "due"), (offers "BibTeX"), (offers "Doi"), (offers "Url"), cite; cbn; intros [= <-]; reflexivity.
Qed.
(** Errors that are no Exceptions (KeyboardInterrupt, SystemExit) are passed on. *)
Theorem c138_interrupt x : x_ordinary x = false -> import_due (Broken x) = inl x.
Proof. intros E. unfold import_due. cbn. now rewrite E. Qed.
(** A package that is not installed is no error before Python 3.6; since then it is reported as one at every import. *)
Theorem c138_absent_partial : exists n, import_due (not_installed Before36) = inr n /\ reported n = [].
Proof. eexists. split; reflexivity. Qed.
Theorem c138_absent_refuted : exists n, import_due (not_installed Since36) = inr n /\ reported n = ["ModuleNotFoundError"].
Proof. eexists. split; reflexivity. Qed.
(** Without a usable package decorated functions are the functions themselves. *)
Theorem c138_functions {F} (real : F -> F) p n s f : import_due p = inr n -> ~ usable p -> value_of n "due" = Some s -> dcite real s f = f.
Proof.
  intros H U V. assert (O : forall x, p = Broken x -> x_ordinary x = true).
  { intros x ->. unfold import_due in H. cbn in H. now destruct (x_ordinary x). }
  destruct (c138_import p O) as (n' & H' & [(U' & _)|(_ & S')]); [contradiction|]. rewrite H in H'. injection H' as <-.
  rewrite (S' "due" (or_introl eq_refl)) in V. injection V as <-. reflexivity.
Qed.
Example c138_partial_package : let p := Loaded (fun x => negb (String.eqb x "Url")) true in
  fst (try_import p) = [("Doi", Real); ("BibTeX", Real); ("due", Real)] /\ ~ usable p /\ exists n, import_due p = inr n /\ value_of n "due" = Some Stub.
Proof.
  cbv zeta. split; [reflexivity|]. split; [|eexists; split; reflexivity].
  intros (f & [= <-] & H). specialize (H "Url"). cbn in H. discriminate H. tauto.
Qed.

(** ** Constructors *)
(** Without decorators: the constructors of C130. *)
Theorem c138_undecorated p e o l : run p = Ok e -> In o e -> (forall c d, In c (o_mro o) -> init_of e c = Some (Explicit d) -> In d (o_mro o)) ->
  init_chain e o = Some l -> constructors e [] o = Some l.
Proof. intros H. apply constructors_chain with (p := p). now apply run_ok. Qed.
(** In the library the citations change no constructor. *)
Lemma lib_run : run library = Ok lib.
Proof. vm_compute. reflexivity. Qed.
Definition agree (a b c : option (list string)) : bool :=
  match a, b, c with Some a, Some b, Some c => (if list_eq_dec string_dec a b then true else false) && (if list_eq_dec string_dec b c then true else false) | _, _, _ => false end.
Lemma agree_spec a b c : agree a b c = true -> a = b /\ b = c /\ c <> None.
Proof.
  destruct a as [a|], b as [b|], c as [c|]; cbn; try discriminate. intros Q. apply andb_true_iff in Q as (Q1 & Q2).
  destruct (list_eq_dec string_dec a b); [|discriminate]. destruct (list_eq_dec string_dec b c); [|discriminate]. subst. split; [reflexivity|]. split; [reflexivity|discriminate].
Qed.
Lemma lib_agree : forallb (fun o => agree (constructors lib (library_pins (fun f => f) lib) o) (constructors lib [] o) (init_chain lib o)) lib = true.
Proof. vm_compute. reflexivity. Qed.
Theorem c138_library real o : In o lib -> constructors lib (library_pins (dcite real Stub) lib) o = constructors lib [] o /\
  constructors lib [] o = init_chain lib o /\ init_chain lib o <> None.
Proof. intros I. apply agree_spec. exact (proj1 (forallb_forall _ _) lib_agree o I). Qed.
(** The first class of an order with a constructor of its own *)
Definition first_constructor (e : env) (order : list string) (c : string) : Prop :=
  exists before after, order = before ++ c :: after /\ init_of e c <> None /\ forall d, In d before -> init_of e d = None.
Lemma first_constructor_find e order c : first_constructor e order c -> find_init e [] order = Some c.
Proof.
  intros (before & after & -> & H & N). induction before as [|d before IH]; cbn [app find_init]; unfold holder; cbn [find].
  - now destruct (init_of e c).
  - rewrite (N d (or_introl eq_refl)). apply IH. intros x I. apply N. now right.
Qed.
Lemma find_first_constructor e order c : find_init e [] order = Some c -> first_constructor e order c.
Proof.
  induction order as [|d r IH]; cbn [find_init]; [discriminate|]. unfold holder at 1. cbn [find]. destruct (init_of e d) eqn:D.
  - intros [= <-]. exists [], r. split; [reflexivity|]. split; [congruence|]. cbn. tauto.
  - intros H. destruct (IH H) as (b & a & -> & Q & N). exists (d :: b), a. split; [reflexivity|]. split; [assumption|]. intros x [<-|I]; auto.
Qed.
Opaque lib library.
Definition t2_order : list string := ["UnknownT2Model"; "FiniteOutcomeModel"; "Model"; "Simulatable"; "object"].
Lemma t2_class : exists o, get lib "UnknownT2Model" = Some o /\ o_mro o = t2_order.
Proof.
  assert (E : option_map o_mro (get lib "UnknownT2Model") = Some t2_order) by (vm_compute; reflexivity).
  destruct (get lib "UnknownT2Model") as [o|]; [|discriminate]. exists o. split; [reflexivity|]. now injection E.
Qed.
Lemma t2_own : find_init lib (fold_left (fun ps c => decorate_own (fun f => f) c ps) decorated_constructors []) t2_order = Some "FiniteOutcomeModel".
Proof. vm_compute. reflexivity. Qed.
Lemma t2_defined c : In c (t2_order ++ decorated_constructors) -> exists o, In o lib /\ name_of o = c.
Proof.
  assert (Q : forallb (fun c => if get lib c then true else false) (t2_order ++ decorated_constructors) = true) by (vm_compute; reflexivity).
  intros J. pose proof (proj1 (forallb_forall _ _) Q c J) as X. cbv beta in X. destruct (get lib c) as [o'|] eqn:G; [|discriminate]. destruct (get_Some _ _ _ G). eauto.
Qed.
Lemma t2_inits : init_of lib "UnknownT2Model" = None /\ init_of lib "FiniteOutcomeModel" <> None /\ forall c, In c decorated_constructors -> init_of lib c <> None.
Proof.
  split; [vm_compute; reflexivity|]. split; [vm_compute; discriminate|]. intros c [<-|[<-|[<-|[<-|[]]]]]; vm_compute; discriminate.
Qed.
Lemma t2_only k : In k lib -> In "UnknownT2Model" (o_mro k) -> o_mro k = t2_order.
Proof.
  assert (Q : forallb (fun k => negb (mem "UnknownT2Model" (o_mro k)) || if list_eq_dec string_dec (o_mro k) t2_order then true else false) lib = true) by (vm_compute; reflexivity).
  intros I J. pose proof (proj1 (forallb_forall _ _) Q k I) as X. cbv beta in X. apply mem_In in J. rewrite J in X. cbn [negb orb] in X.
  destruct (list_eq_dec string_dec (o_mro k) t2_order); [assumption|discriminate].
Qed.
Lemma run_after first l more e : run first = Ok l -> run (first ++ more) = Ok e -> exec l more = Ok e /\ exists n, e = n ++ l.
Proof.
  intros L H. apply run_app in H as (m & Hm & Hx). rewrite L in Hm. injection Hm as <-. split; [assumption|]. exact (exec_grows _ _ _ Hx).
Qed.
Lemma pins_of_extension more e : run (library ++ more) = Ok e -> exists n, e = n ++ lib /\ library_pins (fun f => f) e = ("UnknownT2Model", "FiniteOutcomeModel") :: map (fun c => (c, c)) (rev decorated_constructors).
Proof.
  intros H. pose proof (run_ok _ _ H) as K. destruct (run_after _ _ _ _ lib_run H) as (_ & n & ->). exists n. split; [reflexivity|].
  assert (N : NoDup (map name_of (n ++ lib))) by apply (ok_names _ _ K).
  destruct t2_class as (o & G & Mo). destruct (get_Some _ _ _ G) as (I & Nm). unfold library_pins. rewrite <- Nm. rewrite (get_In (n ++ lib) o N) by (apply in_or_app; now right). unfold decorate_init. rewrite Mo.
  rewrite (find_init_ext (n ++ lib) lib).
  - rewrite t2_own, Nm. reflexivity.
  - intros c J. apply init_of_old; [|assumption]. apply t2_defined, in_or_app. now left.
Qed.
(** In a program extending the library the citations change no constructor if, in the order of every class deriving from
    UnknownT2Model, no other class with a constructor comes between UnknownT2Model and FiniteOutcomeModel. *)
Theorem c138_extensions real more e o : run (library ++ more) = Ok e -> In o e ->
  (forall k before after, In k e -> o_mro k = before ++ "UnknownT2Model" :: after -> first_constructor e ("UnknownT2Model" :: after) "FiniteOutcomeModel") ->
  constructors e (library_pins (dcite real Stub) e) o = constructors e [] o.
Proof.
  intros H I C. cbn [dcite]. pose proof (run_ok _ _ H) as K. destruct (pins_of_extension more e H) as (n & En & P). rewrite P. apply (constructors_same _ e _ o K); [|assumption].
  intros k c d Ik Q J. unfold pinned in Q. cbn [find fst map rev decorated_constructors app] in Q.
  destruct (String.eqb_spec "UnknownT2Model" c) as [<-|].
  { injection Q as <-. destruct (from_split _ _ J) as (pre & E & _ & r & R). rewrite R in *. apply first_constructor_find. now apply (C k pre r). }
  assert (D : d = c /\ In c decorated_constructors).
  { repeat match type of Q with context [if String.eqb ?x c then _ else _] => destruct (String.eqb_spec x c) as [<-|] end; cbn in Q; try discriminate Q; injection Q as <-; (split; [reflexivity|cbn; tauto]). }
  destruct D as (-> & D). destruct (from_split _ _ J) as (pre & E & _ & r & R). rewrite R. cbn [find_init]. unfold holder. cbn [find].
  assert (X : init_of e c = init_of lib c).
  { subst e. apply init_of_old; [|apply (ok_names _ _ K)]. apply t2_defined, in_or_app. now right. }
  rewrite X. destruct t2_inits as (_ & _ & T). specialize (T c D). now destruct (init_of lib c).
Qed.
(** In particular with single inheritance below UnknownT2Model. *)
Theorem c138_single_inheritance real more e o : run (library ++ more) = Ok e -> In o e ->
  (forall s, In s more -> ancestor (library ++ more) (s_name s) "UnknownT2Model" -> exists b, s_bases s = [b]) ->
  constructors e (library_pins (dcite real Stub) e) o = constructors e [] o.
Proof.
  intros H I C. apply (c138_extensions real more); [assumption..|]. pose proof (run_ok _ _ H) as K. pose proof H as H0. destruct (run_after _ _ _ _ lib_run H) as (Hx & _).
  assert (A : above e "UnknownT2Model" t2_order).
  { apply (above_exec _ _ more library lib); [apply run_ok, lib_run|assumption| | |assumption].
    - intros k Ik J. exists []. split; [cbn; tauto|]. now apply t2_only.
    - apply t2_defined. now left. }
  intros k before after Ik E. destruct (A k Ik) as (pre & Np & Ep); [rewrite E; apply in_or_app; right; now left|].
  assert (Q : "UnknownT2Model" :: after = t2_order).
  { rewrite <- (from_unique "UnknownT2Model" before after), <- E, Ep; [exact (from_unique "UnknownT2Model" pre _ Np)|].
    pose proof (ok_nodup _ _ K k Ik) as N. rewrite E in N. apply NoDup_remove_2 in N. intros X. apply N, in_or_app. now left. }
  rewrite Q. destruct (exec_grows _ _ _ Hx) as (n & ->). exists ["UnknownT2Model"], ["Model"; "Simulatable"; "object"]. split; [reflexivity|].
  assert (X : forall c, In c t2_order -> init_of (n ++ lib) c = init_of lib c).
  { intros c D. apply init_of_old; [|apply (ok_names _ _ K)]. apply t2_defined, in_or_app. now left. }
  destruct t2_inits as (T1 & T2 & _). split; [rewrite X by (cbn; tauto); exact T2|]. intros d [<-|[]]. rewrite X by (cbn; tauto). exact T1.
Qed.
(** Otherwise they do: if no class before UnknownT2Model has a constructor and the next one after it is not FiniteOutcomeModel's, that
    constructor would run first and is skipped. *)
Theorem c138_skipped_refuted real more e o before after d : run (library ++ more) = Ok e -> In o e -> o_mro o = before ++ "UnknownT2Model" :: after ->
  (forall c, In c before -> init_of e c = None /\ ~ In c decorated_constructors) -> first_constructor e ("UnknownT2Model" :: after) d ->
  (forall l, constructors e [] o = Some l -> exists r, l = d :: r) /\
  (forall l, constructors e (library_pins (dcite real Stub) e) o = Some l -> exists r, l = "FiniteOutcomeModel" :: r).
Proof.
  intros H I E N F. cbn [dcite]. destruct (pins_of_extension more e H) as (n & En & P). rewrite P.
  assert (RI : forall fuel ps full c l, run_init fuel e ps full c = Some l -> exists r, l = c :: r) by apply run_init_first. clear En P H.
  unfold constructors. rewrite E. split; intros l.
  - replace (find_init e [] (before ++ "UnknownT2Model" :: after)) with (Some d); [apply RI|]. symmetry. apply first_constructor_find.
    destruct F as (b & a & -> & Q & M). exists (before ++ b), a. split; [now rewrite <- app_assoc|]. split; [assumption|]. intros c J. apply in_app_or in J as [J|J]; [now apply N|auto].
  - replace (find_init e _ (before ++ "UnknownT2Model" :: after)) with (Some "FiniteOutcomeModel"); [apply RI|]. clear E F. induction before as [|c before IH]; [reflexivity|].
    cbn [app find_init]. destruct (N c (or_introl eq_refl)) as (Z & D). unfold holder at 1.
    destruct (String.eqb_spec c "UnknownT2Model") as [->|Nc]; [reflexivity|].
    replace (find (fun p => String.eqb (fst p) c) _) with (@None (string * string)); [rewrite Z; apply IH; intros x J; apply N; now right|].
    symmetry. cbn [find fst map rev decorated_constructors app]. cbn in D.
    repeat match goal with |- context [if String.eqb ?x c then _ else _] => destruct (String.eqb_spec x c) as [X|]; [exfalso; subst c; tauto|] end. reflexivity.
Qed.
Transparent lib library.
(** A mixin with a constructor of its own beside UnknownT2Model: its constructor no longer runs. *)
Definition mixed : list stmt := [
  {| s_name := "Counting"; s_bases := ["FiniteOutcomeModel"]; s_meta := false; s_init := Coop; s_body := body [] ["__init__"] |};
  {| s_name := "CountingT2"; s_bases := ["UnknownT2Model"; "Counting"]; s_meta := false; s_init := Coop; s_body := body [] ["modelparam_names"] |}].
Example c138_mixin : exists e o, run (library ++ mixed) = Ok e /\ get e "CountingT2" = Some o /\
  constructors e [] o = Some ["Counting"; "FiniteOutcomeModel"; "Model"; "Simulatable"] /\
  constructors e (library_pins (fun f => f) e) o = Some ["FiniteOutcomeModel"; "Model"; "Simulatable"].
Proof.
  destruct (run (library ++ mixed)) as [e|] eqn:H; [|vm_compute in H; discriminate]. exists e.
  assert (Q : match run (library ++ mixed) with Ok e => match get e "CountingT2" with Some o => constructors e [] o = Some ["Counting"; "FiniteOutcomeModel"; "Model"; "Simulatable"] /\
    constructors e (library_pins (fun f => f) e) o = Some ["FiniteOutcomeModel"; "Model"; "Simulatable"] | None => False end | Err _ => False end) by (vm_compute; auto).
  rewrite H in Q. destruct (get e "CountingT2") as [o|] eqn:G; [|contradiction]. exists o. auto.
Qed.
(** A subclass by single inheritance is covered by [c138_single_inheritance]. *)
Definition slower : list stmt := [{| s_name := "Slower"; s_bases := ["UnknownT2Model"]; s_meta := false; s_init := Coop; s_body := body [] ["__init__"] |}].
Example c138_subclass : (exists e o, run (library ++ slower) = Ok e /\ get e "Slower" = Some o /\ constructors e (library_pins (fun f => f) e) o = Some ["Slower"; "FiniteOutcomeModel"; "Model"; "Simulatable"]) /\
  forall s, In s slower -> exists b, s_bases s = [b].
Proof.
  split; [|intros s [<-|[]]; cbn; eauto].
  destruct (run (library ++ slower)) as [e|] eqn:H; [|vm_compute in H; discriminate]. exists e.
  assert (Q : match run (library ++ slower) with Ok e => match get e "Slower" with Some o => constructors e (library_pins (fun f => f) e) o = Some ["Slower"; "FiniteOutcomeModel"; "Model"; "Simulatable"] | None => False end | Err _ => False end) by (vm_compute; auto).
  rewrite H in Q. destruct (get e "Slower") as [o|] eqn:G; [|contradiction]. exists o. auto.
Qed.

Print Assumptions c138_import.
Print Assumptions c138_reported.
Print Assumptions c138_interrupt.
Print Assumptions c138_absent_partial.
Print Assumptions c138_absent_refuted.
Print Assumptions c138_functions.
Print Assumptions c138_undecorated.
Print Assumptions c138_library.
Print Assumptions c138_extensions.
Print Assumptions c138_single_inheritance.
Print Assumptions c138_skipped_refuted.
