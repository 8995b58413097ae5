(** C130: which classes can be defined, which can be instantiated, and which constructors run. *)
From Coq Require Import String List Bool Arith Lia.
From Verif Require Import Base ClsModel ClsSpec ClsProofs ClsProofs2.
Import ListNotations.
Close Scope R_scope.
Open Scope string_scope.
Open Scope list_scope.

(** ** Class statements in general *)
(** However many class statements are executed: the order in which a class looks up its attributes starts with the class, contains
    exactly its ancestors, each once, lists its bases in the order in which the statement lists them, and agrees with the order of
    every ancestor. *)
Theorem c130_order p e o : run p = Ok e -> In o e ->
  (exists r, o_mro o = name_of o :: r) /\ NoDup (o_mro o) /\ (forall d, In d (o_mro o) <-> ancestor p (name_of o) d) /\
  (In (o_stmt o) p -> Sub (bases_of (o_stmt o)) (o_mro o)) /\
  (forall o', In o' e -> In (name_of o') (o_mro o) -> Sub (o_mro o') (o_mro o)).
Proof.
  intros H I. pose proof (run_ok p e H) as K. split; [now apply (ok_head p e K)|]. split; [now apply (ok_nodup p e K)|].
  split; [intros d; now apply (ok_anc p e K)|]. split; [|intros o'; now apply (ok_mono p e K)].
  intros J. apply (ok_lpo p e K); [assumption|]. intros ->. destruct (ok_prog p e K _ J) as (o' & I' & E & N). apply N.
  pose proof (get_In e o' (ok_names p e K) I') as G1. pose proof (get_In e _ (ok_names p e K) I) as G2.
  unfold name_of in G1, G2. rewrite E in G1. congruence.
Qed.
(** A statement whose bases exist is refused exactly if no order agrees with those of all bases and with the list of bases. *)
Theorem c130_refused p e s bs : run p = Ok e -> get_all e (bases_of s) = Some bs ->
  (class_new e s = Err TypeError <-> forall order, ~ consistent (map o_mro bs ++ [bases_of s]) order).
Proof.
  intros H G. pose proof (run_ok p e H) as K. unfold class_new. rewrite G. destruct (get_all_spec _ _ _ G) as (Nb & Ib).
  destruct (no_dup (bases_of s)) eqn:D; cbn [negb].
  - destruct (merge _ _) as [r|] eqn:M.
    + split; [discriminate|]. intros C. exfalso.
      assert (NL : forall l, In l (map o_mro bs ++ [bases_of s]) -> NoDup l).
      { intros l I. apply in_app_or in I as [I|[<-|[]]]; [|now apply no_dup_spec]. apply in_map_iff in I as (b & <- & I).
        apply (ok_nodup p e K). auto. }
      destruct (merge_sound _ _ _ M NL) as (Nr & Sr & _). now apply (C r).
    + split; [|reflexivity]. intros _ order C. destruct (merge_complete _ _ _ (le_n _) C) as (r & E). congruence.
  - split; [|reflexivity]. intros _ order (N & S). apply (no_dup_false _ D). apply (Sub_NoDup _ order); [|assumption].
    apply S, in_or_app. cbn. auto.
Qed.
(** A name is among the abstract methods of a class exactly if the first of its ancestors, in that order, that binds the name
    declares it abstract ... *)
Theorem c130_abstract p e o x : run p = Ok e -> plain_classes_complete e -> In o e -> (In x (o_abs o) <-> decided e (o_mro o) x true).
Proof. intros H PL I. rewrite (run_abs p e H PL o x I). apply (decided_lookup p). now apply run_ok. Qed.
(** ... and the class can be instantiated exactly if there is no such name. *)
Theorem c130_instances p e o : run p = Ok e -> plain_classes_complete e -> In o e ->
  (instantiate e (name_of o) = Ok tt <-> forall x, ~ decided e (o_mro o) x true) /\
  (instantiate e (name_of o) = Err TypeError <-> exists x, decided e (o_mro o) x true).
Proof.
  intros H PL I. pose proof (fun x => c130_abstract p e o x H PL I) as A. unfold instantiate.
  rewrite (get_In e o (ok_names p e (run_ok p e H)) I). destruct (o_abs o) as [|y l].
  - split; (split; [|try reflexivity; try discriminate]).
    + intros _ x D. apply A in D. destruct D.
    + discriminate.
    + intros (x & D). apply A in D. destruct D.
  - assert (D : decided e (o_mro o) y true) by (apply A; cbn; auto). split; (split; [|try reflexivity; try discriminate]).
    + discriminate.
    + intros N. now destruct (N y).
    + intros _. eauto.
Qed.

(** ** The classes of the library *)
Definition lib : env := match run library with Ok e => e | Err _ => [] end.
Lemma lib_run : run library = Ok lib.
Proof. vm_compute. reflexivity. Qed.
Definition plain_check (e : env) : bool := forallb (fun o => o_abc o || forallb (fun q => negb (snd q)) (s_body (o_stmt o))) e.
Lemma plain_check_ok e : plain_check e = true -> plain_classes_complete e.
Proof.
  unfold plain_check. rewrite forallb_forall. intros H o x b I E (l & r & B & _). specialize (H o I). rewrite E in H. cbn in H.
  rewrite forallb_forall in H. specialize (H (x, b)). rewrite B in H. destruct b; [|reflexivity].
  discriminate H. apply in_or_app. cbn. auto.
Qed.
Lemma lib_plain : plain_classes_complete lib.
Proof. apply plain_check_ok. vm_compute. reflexivity. Qed.
Definition class_of (c : string) : pyclass := match get lib c with Some o => o | None => the_object end.
Definition o_mixin := Eval vm_compute in class_of "SingleSampleMixin".
Definition o_distribution := Eval vm_compute in class_of "Distribution".
Definition o_model := Eval vm_compute in class_of "Model".
Definition o_simulatable := Eval vm_compute in class_of "Simulatable".
Lemma get_mixin : get lib "SingleSampleMixin" = Some o_mixin. Proof. vm_compute. reflexivity. Qed.
Lemma get_distribution : get lib "Distribution" = Some o_distribution. Proof. vm_compute. reflexivity. Qed.
Lemma get_model : get lib "Model" = Some o_model. Proof. vm_compute. reflexivity. Qed.
Lemma get_simulatable : get lib "Simulatable" = Some o_simulatable. Proof. vm_compute. reflexivity. Qed.
Lemma get_object : get lib "object" = Some the_object. Proof. vm_compute. reflexivity. Qed.
Opaque lib.
(** All class statements succeed.  Exactly these classes cannot be instantiated: the base classes and mixins ... *)
Definition base_classes := ["Simulatable"; "Model"; "LinearCostModelMixin"; "FiniteOutcomeModel"; "DifferentiableModel"; "DerivedModel"; "Distribution";
  "SingleSampleMixin"; "Domain"; "Heuristic"; "Resampler"; "DensityOperatorDistribution"; "StateTomographyHeuristic"; "ProcessTomographyHeuristic"].
(** ... and these, which declare no abstract method and are not documented as base classes. *)
Definition broken_classes := ["HilbertSchmidtUniform"; "QubitStatePauliModel"; "RebitStatePauliModel"; "MultiQubitStatePauliModel"; "HTCircuitModel";
  "UnstructuredFrequencyModel"].
Theorem c130_library_partial : run library = Ok lib /\
  forall s, In s library -> instantiate lib (s_name s) = if mem (s_name s) (base_classes ++ broken_classes) then Err TypeError else Ok tt.
Proof.
  split; [apply lib_run|]. intros s I.
  assert (C : forallb (fun s => match instantiate lib (s_name s), mem (s_name s) (base_classes ++ broken_classes) with
                                | Ok _, false => true | Err TypeError, true => true | _, _ => false end) library = true) by (vm_compute; reflexivity).
  rewrite forallb_forall in C. specialize (C s I). cbn beta in C. destruct (instantiate lib (s_name s)) as [[]|x], (mem _ _); try discriminate; try reflexivity;
    destruct x; try discriminate; reflexivity.
Qed.
Theorem c130_library_refuted :
  ~ (forall s, In s library -> mem (s_name s) base_classes = false -> instantiate lib (s_name s) = Ok tt) /\
  (forall c, In c broken_classes -> instantiate lib c = Err TypeError /\ exists s, In s library /\ s_name s = c /\ forall x, ~ binds s x true).
Proof.
  split.
  - intros H. assert (E : exists s, In s library /\ s_name s = "HilbertSchmidtUniform").
    { assert (F : find (fun s => String.eqb (s_name s) "HilbertSchmidtUniform") library <> None) by (vm_compute; discriminate).
      destruct (find _ library) as [s|] eqn:Fs; [|congruence]. apply find_some in Fs as (I & Q). apply String.eqb_eq in Q. eauto. }
    destruct E as (s & I & E). specialize (H s I). rewrite E in H. vm_compute in H. discriminate (H eq_refl).
  - assert (C : forallb (fun c => match instantiate lib c, find (fun s => String.eqb (s_name s) c) library with
        | Err TypeError, Some s => forallb (fun q => negb (snd q)) (s_body s) | _, _ => false end) broken_classes = true) by (vm_compute; reflexivity).
    intros c I. rewrite forallb_forall in C. specialize (C c I). cbn beta in C. destruct (instantiate lib c) as [|x]; [discriminate|].
    destruct x; try discriminate. split; [reflexivity|]. destruct (find _ library) as [s|] eqn:F; [|discriminate].
    apply find_some in F as (J & Q). apply String.eqb_eq in Q. exists s. repeat split; auto. intros x (l & r & B & _).
    rewrite forallb_forall in C. specialize (C (x, true)). rewrite B in C. discriminate C. apply in_or_app. cbn. auto.
Qed.

(** ** Classes that users derive from the library's *)
(** What a subclass has to define. *)
Definition contracts : list (string * list string) := [
  ("Simulatable", ["n_modelparams"; "expparams_dtype"; "n_outcomes"; "domain"; "are_models_valid"; "simulate_experiment"]);
  ("Model", ["n_modelparams"; "expparams_dtype"; "n_outcomes"; "domain"; "are_models_valid"; "simulate_experiment"; "likelihood"]);
  ("FiniteOutcomeModel", ["n_modelparams"; "expparams_dtype"; "n_outcomes"; "are_models_valid"; "likelihood"]);
  ("DifferentiableModel", ["n_modelparams"; "expparams_dtype"; "n_outcomes"; "domain"; "are_models_valid"; "simulate_experiment"; "likelihood"; "score"]);
  ("DerivedModel", ["likelihood"; "simulate_experiment"]);
  ("Distribution", ["n_rvs"; "sample"]);
  ("DensityOperatorDistribution", ["_sample_dm"]);
  ("Domain", ["is_continuous"; "is_finite"; "dtype"; "n_members"; "example_point"; "values"; "in_domain"]);
  ("Heuristic", ["__call__"]); ("StateTomographyHeuristic", ["_next_measurement"]); ("ProcessTomographyHeuristic", ["_next_prepmeas"]);
  ("Resampler", ["__call__"]); ("SMCUpdater", []); ("TomographyModel", []); ("SimpleInversionModel", []) ].
Lemma contracts_ok c names : In (c, names) contracts -> exists o, get lib c = Some o /\ forall x, In x (o_abs o) <-> In x names.
Proof.
  assert (C : forallb (fun q => match get lib (fst q) with
     | Some o => forallb (fun x => mem x (snd q)) (o_abs o) && forallb (fun x => mem x (o_abs o)) (snd q) | None => false end) contracts = true)
    by (vm_compute; reflexivity).
  intros I. rewrite forallb_forall in C. specialize (C _ I). cbn [fst snd] in C. destruct (get lib c) as [o|]; [|discriminate].
  apply andb_true_iff in C as (A & B). rewrite forallb_forall in A, B. exists o. split; [reflexivity|]. intros x. split; intros J.
  - apply mem_In. auto.
  - apply mem_In. auto.
Qed.
Lemma lib_extends more e : run (library ++ more) = Ok e -> exists n, e = n ++ lib.
Proof.
  intros H. destruct (run_app _ _ _ H) as (m & A & B). assert (m = lib) by (rewrite lib_run in A; congruence). subst m. now apply exec_grows in B.
Qed.
Lemma lib_get more e cs os : run (library ++ more) = Ok e -> get_all lib cs = Some os -> get_all e cs = Some os.
Proof.
  intros H G. destruct (lib_extends _ _ H) as (n & E). pose proof (run_ok _ _ H) as K. rewrite E in *. now apply (get_all_in (library ++ more)).
Qed.
(** Whatever else is defined, before or after: a class deriving from one of these that defines the names listed, and declares nothing
    abstract itself, can be instantiated; ... *)
Theorem c130_subclass more e s c names : run (library ++ more) = Ok e -> In s (library ++ more) -> s_bases s = [c] -> In (c, names) contracts ->
  (forall x, ~ binds s x true) -> (forall x, In x names -> binds s x false) -> instantiate e (s_name s) = Ok tt.
Proof.
  intros H I B C N D. destruct (contracts_ok c names C) as (o & G & A).
  apply (subclass_ok (library ++ more) e s [o]); auto.
  - apply (lib_get more); [assumption|]. unfold bases_of. rewrite B. cbn [get_all]. now rewrite G.
  - intros x. rewrite binding_Some. apply N.
  - intros b x [<-|[]] J. apply binding_Some, D, A, J.
Qed.
(** ... one that leaves out any of them cannot. *)
Theorem c130_missing_method more e s c names x : run (library ++ more) = Ok e -> plain_classes_complete e -> In s (library ++ more) -> s_bases s = [c] ->
  In (c, names) contracts -> In x names -> silent s x -> instantiate e (s_name s) = Err TypeError.
Proof.
  intros H PL I B C J S. destruct (contracts_ok c names C) as (o & G & A).
  apply (subclass_abstract (library ++ more) e s o x); auto; [|now apply A|now apply binding_None].
  apply (lib_get more); [assumption|]. unfold bases_of. rewrite B. cbn [get_all]. now rewrite G.
Qed.
(** A distribution that draws one sample at a time: the mixin has to be listed first ... *)
Lemma two_bases more e s a b oa ob r : run (library ++ more) = Ok e -> In s (library ++ more) -> s_bases s = [a; b] ->
  get lib a = Some oa -> get lib b = Some ob -> merge (total [o_mro oa; o_mro ob; [a; b]]) [o_mro oa; o_mro ob; [a; b]] = Some r ->
  exists o, get e (s_name s) = Some o /\ In o e /\ o_mro o = s_name s :: r /\ o_stmt o = s.
Proof.
  intros H I B Ga Gb M. pose proof (run_ok _ _ H) as K. destruct (run_split _ e s H I) as (e1 & o & n & Hn & E).
  destruct (class_new_Ok _ _ _ Hn) as (bs & r' & GA & ND & M' & Es & Em & _ & _).
  assert (En : name_of o = s_name s) by (unfold name_of; now rewrite Es).
  assert (Io : In o e) by (rewrite E; apply in_or_app; cbn; auto).
  assert (Eb : bs = [oa; ob]).
  { assert (G2 : get_all e (bases_of s) = Some bs).
    { rewrite E in *. change (n ++ o :: e1 ++ [the_object]) with (n ++ [o] ++ (e1 ++ [the_object])) in *.
      rewrite app_assoc in *. now apply (get_all_in (library ++ more)). }
    assert (G3 : get_all e (bases_of s) = Some [oa; ob]); [|congruence].
    apply (lib_get more); [assumption|]. unfold bases_of. rewrite B. cbn [get_all]. now rewrite Ga, Gb. }
  subst bs. exists o. split; [rewrite <- En; apply get_In; [apply (ok_names _ _ K)|assumption]|]. split; [assumption|]. split; [|assumption].
  unfold bases_of in M'. rewrite B in M'. cbn [map app] in M'. rewrite M in M'. injection M' as <-. exact Em.
Qed.
Lemma lookup_lib more e m x : run (library ++ more) = Ok e -> forallb (fun c => match get lib c with Some _ => true | None => false end) m = true ->
  lookup e m x = lookup lib m x.
Proof.
  intros H C. apply lookup_ext. intros c I. rewrite forallb_forall in C. specialize (C c I). destruct (get lib c) as [o|] eqn:G; [|discriminate].
  assert (G2 : get_all e [c] = Some [o]) by (apply (lib_get more); [assumption|]; cbn [get_all]; now rewrite G).
  cbn [get_all] in G2. destruct (get e c); [|discriminate]. now injection G2 as ->.
Qed.
Theorem c130_one_sample_at_a_time more e s : run (library ++ more) = Ok e -> plain_classes_complete e -> In s (library ++ more) ->
  s_bases s = ["SingleSampleMixin"; "Distribution"] -> (forall x, ~ binds s x true) -> binds s "_sample" false -> binds s "n_rvs" false ->
  instantiate e (s_name s) = Ok tt.
Proof.
  intros H PL I B N B1 B2.
  destruct (two_bases more e s "SingleSampleMixin" "Distribution" _ _ ["SingleSampleMixin"; "Distribution"; "object"] H I B get_mixin get_distribution eq_refl)
    as (o & G & Io & Em & Es).
  unfold instantiate. rewrite G. destruct (o_abs o) as [|x l] eqn:A; [reflexivity|]. exfalso.
  assert (L : lookup e (o_mro o) x = Some true) by (apply (run_abs _ e H PL); [assumption|rewrite A; cbn; auto]).
  rewrite Em in L. cbn [lookup] in L. rewrite G, Es in L. destruct (binding s x) as [[|]|] eqn:Bx.
  - now apply binding_Some, N in Bx.
  - discriminate.
  - change (lookup e ["SingleSampleMixin"; "Distribution"; "object"] x = Some true) in L. rewrite (lookup_lib more) in L by (auto; vm_compute; reflexivity).
    apply lookup_Some in L as (pre & c & post & oc & E & Gc & Bc & D).
    assert (J : In c ["SingleSampleMixin"; "Distribution"; "object"]) by (rewrite E; apply in_or_app; cbn; auto).
    apply binding_Some in B1, B2.
    assert (X : x = "_sample" \/ x = "n_rvs" \/ x = "sample").
    { pose proof (binding_In _ _ _ Bc) as Ix. destruct J as [<-|[<-|[<-|[]]]]; rewrite ?get_mixin, ?get_distribution, ?get_object in Gc; injection Gc as <-; cbn in Ix.
      - destruct Ix as [<-|[<-|[]]]; auto.
      - destruct Ix as [<-|[<-|[]]]; auto.
      - destruct Ix as [<-|[]]. discriminate Bc. }
    destruct X as [X|[X|X]]; subst x; [congruence|congruence|].
    destruct pre as [|p0 pre].
    + injection E as <- _. rewrite get_mixin in Gc. injection Gc as <-. discriminate Bc.
    + injection E as <- _. pose proof (D "SingleSampleMixin" o_mixin (or_introl eq_refl) get_mixin) as Q. discriminate Q.
Qed.
(** ... the other way round the abstract [sample] of Distribution hides the mixin's. *)
Theorem c130_mixin_last_refuted more e s : run (library ++ more) = Ok e -> plain_classes_complete e -> In s (library ++ more) ->
  s_bases s = ["Distribution"; "SingleSampleMixin"] -> silent s "sample" -> instantiate e (s_name s) = Err TypeError.
Proof.
  intros H PL I B N.
  destruct (two_bases more e s "Distribution" "SingleSampleMixin" _ _ ["Distribution"; "SingleSampleMixin"; "object"] H I B get_distribution get_mixin eq_refl)
    as (o & G & Io & Em & Es).
  assert (A : In "sample" (o_abs o)).
  { apply (run_abs _ e H PL); [assumption|]. rewrite Em. cbn [lookup]. rewrite G, Es. apply binding_None in N. rewrite N.
    change (lookup e ["Distribution"; "SingleSampleMixin"; "object"] "sample" = Some true). rewrite (lookup_lib more) by (auto; vm_compute; reflexivity).
    vm_compute. reflexivity. }
  unfold instantiate. rewrite G. destruct (o_abs o); [destruct A|reflexivity].
Qed.

(** ** Constructors *)
(** Constructors that continue with [super] run one after the other along the order of the class, up to the first that does not. *)
Theorem c130_constructors e o before z after : o_mro o = before ++ z :: after -> init_of e z = Some Stops ->
  (forall c, In c before -> init_of e c = None \/ init_of e c = Some Coop) ->
  init_chain e o = Some (filter (has_init e) before ++ [z])%list.
Proof. intros E Z C. unfold init_chain. rewrite E. apply inits_until; auto. Qed.
(** Every class derived from Model, in the library or by a user whose constructors continue with [super], runs the constructors that
    set up the counters: each once, Simulatable's last. *)
Theorem c130_models_are_initialised more e o : run (library ++ more) = Ok e -> In o e -> ancestor (library ++ more) (name_of o) "Model" ->
  (forall c, ancestor (library ++ more) (name_of o) c -> c <> "Simulatable" -> c <> "object" -> init_of e c = None \/ init_of e c = Some Coop) ->
  exists chain, init_chain e o = Some (chain ++ ["Simulatable"])%list /\ NoDup (chain ++ ["Simulatable"]) /\ In "Model" chain.
Proof.
  intros H I A C. pose proof (run_ok _ _ H) as K.
  assert (GE : forall c o', get lib c = Some o' -> get e c = Some o').
  { intros c o' G. assert (Q : get_all lib [c] = Some [o']) by (cbn [get_all]; now rewrite G).
    pose proof (lib_get more e _ _ H Q) as G2. cbn [get_all] in G2. destruct (get e c); [|discriminate]. congruence. }
  pose proof (GE _ _ get_model) as GM. pose proof (GE _ _ get_simulatable) as GS0.
  assert (GS : init_of e "Simulatable" = Some Stops) by (unfold init_of; now rewrite GS0).
  assert (HM : has_init e "Model" = true) by (unfold has_init, init_of; now rewrite GM).
  assert (MM : o_mro o_model = ["Model"; "Simulatable"; "object"]) by reflexivity.
  pose proof (proj1 (get_Some _ _ _ GM)) as IM.
  destruct (get_Some _ _ _ GM) as (_ & NM).
  pose proof (ok_nodup _ _ K o I) as ND. apply (ok_anc _ _ K o _ I) in A.
  assert (S : Sub ["Model"; "Simulatable"; "object"] (o_mro o)). { rewrite <- MM. apply (ok_mono _ _ K); [assumption|assumption|]. rewrite NM. assumption. }
  assert (IS : In "Simulatable" (o_mro o)) by (apply (Sub_In _ _ _ S); cbn; auto).
  apply in_split in IS as (before & after & E).
  assert (BM : In "Model" before).
  { destruct (in_dec string_dec "Model" before) as [|NB]; [assumption|exfalso].
    rewrite E in S, ND. clear - S ND NB. revert NB S ND. induction before as [|p before IH]; cbn; intros NB S ND.
    - inversion ND; subst. inversion S; subst. apply H1. apply (Sub_In ["Model"; "Simulatable"; "object"]); [assumption|cbn; auto].
    - inversion ND; subst. inversion S; subst; [apply IH; auto|tauto]. }
  assert (BO : ~ In "object" before).
  { intros BO. rewrite E in S, ND. clear - S ND BO. apply Sub_cons_inv in S. revert BO S ND. induction before as [|p before IH]; cbn; intros BO S ND; [tauto|].
    inversion ND; subst. inversion S; subst.
    - destruct BO as [->|BO]; [|now apply IH]. apply H1. apply (Sub_In ["Simulatable"; "object"]); [assumption|cbn; auto].
    - apply H1. apply in_or_app. cbn. auto. }
  exists (filter (has_init e) before). rewrite E in ND. split; [|split].
  - apply (c130_constructors e o before "Simulatable" after); auto. intros c J. apply C.
    + apply (ok_anc _ _ K o _ I). rewrite E. apply in_or_app. auto.
    + intros ->. apply NoDup_remove_2 in ND. apply ND. apply in_or_app. auto.
    + intros ->. contradiction.
  - apply NoDup_remove in ND as (N1 & N2). apply NoDup_app_l' in N1. rewrite in_app_iff in N2.
    apply NoDup_snoc; [now apply NoDup_filter|]. intros J. apply filter_In in J. tauto.
  - apply filter_In. auto.
Qed.
Definition init_check (e : env) (o : pyclass) : bool :=
  if mem "Model" (o_mro o) then match init_chain e o with
    | Some c => match rev c with z :: r => String.eqb z "Simulatable" && mem "Model" r && no_dup c | [] => false end | None => false end else true.
Lemma init_check_ok e o : init_check e o = true -> In "Model" (o_mro o) ->
  exists chain, init_chain e o = Some (chain ++ ["Simulatable"])%list /\ NoDup (chain ++ ["Simulatable"]) /\ In "Model" chain.
Proof.
  unfold init_check. intros C M. apply mem_In in M. rewrite M in C.
  destruct (init_chain e o) as [c|]; [|discriminate]. destruct (rev c) as [|z r] eqn:E; [discriminate|].
  apply andb_true_iff in C as (C & D). apply andb_true_iff in C as (Z & C). apply String.eqb_eq in Z. subst z.
  assert (Q : c = (rev r ++ ["Simulatable"])%list) by (rewrite <- (rev_involutive c), E; reflexivity).
  exists (rev r). rewrite Q in *. repeat split; [now apply no_dup_spec|]. rewrite <- in_rev. now apply mem_In.
Qed.
Lemma lib_init_check : forallb (init_check lib) lib = true.
Proof. vm_compute. reflexivity. Qed.
(** All model classes of the library do, including the one that calls the constructor of its base by name. *)
Theorem c130_library_models o : In o lib -> In "Model" (o_mro o) ->
  exists chain, init_chain lib o = Some (chain ++ ["Simulatable"])%list /\ NoDup (chain ++ ["Simulatable"]) /\ In "Model" chain.
Proof. intros I. apply init_check_ok. pose proof lib_init_check as C. rewrite forallb_forall in C. exact (C o I). Qed.

(** ** Examples *)
(** A user's coin: these names make it a model ... *)
Definition my_coin : stmt := {| s_name := "MyCoin"; s_bases := ["FiniteOutcomeModel"]; s_meta := false; s_init := Coop;
  s_body := body [] ["__init__"; "n_modelparams"; "expparams_dtype"; "n_outcomes"; "are_models_valid"; "likelihood"] |}.
Example c130_my_coin : exists e, run (library ++ [my_coin]) = Ok e /\ instantiate e "MyCoin" = Ok tt /\
  plain_check e = true /\ option_map (init_chain e) (get e "MyCoin") = Some (Some ["MyCoin"; "FiniteOutcomeModel"; "Model"; "Simulatable"]).
Proof. eexists. split; [vm_compute; reflexivity|]. vm_compute. auto. Qed.
(** ... and the hypotheses of the theorem on subclasses hold. *)
Example c130_my_coin_by_theorem e : run (library ++ [my_coin]) = Ok e -> instantiate e "MyCoin" = Ok tt.
Proof.
  intros H. apply (c130_subclass [my_coin] e my_coin "FiniteOutcomeModel" ["n_modelparams"; "expparams_dtype"; "n_outcomes"; "are_models_valid"; "likelihood"] H).
  - apply in_or_app. right. now left.
  - reflexivity.
  - do 2 right. now left.
  - intros x B. apply binding_Some in B. pose proof (binding_In _ _ _ B) as I. cbn in I.
    repeat (destruct I as [<-|I]; [discriminate B|]). destruct I.
  - intros x I. apply binding_Some. repeat (destruct I as [<-|I]; [reflexivity|]). destruct I.
Qed.
(** Constructors that do not continue leave a model without counters. *)
Example c130_lost_counters : exists e o, run (library ++ [{| s_name := "Bad"; s_bases := ["PGH"; "CoinModel"]; s_meta := false; s_init := Coop; s_body := [] |}]) = Ok e /\
  get e "Bad" = Some o /\ init_chain e o = Some ["PGH"; "Heuristic"].
Proof. eexists. eexists. split; [vm_compute; reflexivity|]. split; vm_compute; reflexivity. Qed.
(** No order agrees with a base listed before its own subclass. *)
Example c130_inconsistent : run (library ++ [{| s_name := "Bad"; s_bases := ["Model"; "FiniteOutcomeModel"]; s_meta := false; s_init := Coop; s_body := [] |}]) = Err TypeError.
Proof. vm_compute. reflexivity. Qed.
(** An abstract declaration in a class with the ordinary metaclass is without effect: the hypothesis of c130_abstract is needed. *)
Example c130_plain_mixin : exists e o, run [{| s_name := "Mixin"; s_bases := []; s_meta := false; s_init := Coop; s_body := [("f", true)] |};
    {| s_name := "C"; s_bases := ["Mixin"]; s_meta := true; s_init := Coop; s_body := [] |}] = Ok e /\ get e "C" = Some o /\ o_abs o = [] /\ lookup e (o_mro o) "f" = Some true.
Proof. eexists. eexists. split; [vm_compute; reflexivity|]. split; [vm_compute; reflexivity|]. split; vm_compute; reflexivity. Qed.

Print Assumptions c130_order.
Print Assumptions c130_refused.
Print Assumptions c130_abstract.
Print Assumptions c130_instances.
Print Assumptions c130_library_partial.
Print Assumptions c130_library_refuted.
Print Assumptions c130_subclass.
Print Assumptions c130_missing_method.
Print Assumptions c130_one_sample_at_a_time.
Print Assumptions c130_mixin_last_refuted.
Print Assumptions c130_constructors.
Print Assumptions c130_models_are_initialised.
Print Assumptions c130_library_models.
