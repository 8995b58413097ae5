(** C143: what the self-tests of src/qinfer/tests/base_test.py establish about the model they are run on. *)
From Coq Require Import String ZArith Lia Lra.
From Verif Require Import Base Ext RList DomModel DomProofs DomProps SimModel SimSpec SimProofs FmtModel Nd NdModel NdSpec NdProofs SelfModel SelfProofs.
From Coq Require Import List.
Close Scope string_scope.
Open Scope list_scope.

(** ** The sizes tell the axes apart *)
Theorem c143_sizes n_e : (0 < n_e)%nat -> NoDup [n_e; n_models n_e; n_outcomes n_e] /\ NoDup [n_repeat n_e; n_models n_e; n_e] /\ (2 <= n_repeat n_e)%nat.
Proof.
  intros H. unfold n_outcomes, n_repeat, repeat_from, n_models. destruct (Nat.eqb_spec n_e 20) as [->|C].
  - cbn. split; [|split]; [| |lia]; repeat (constructor; [intros K; cbn in K; lia|]); constructor.
  - split; [repeat (constructor; [intros K; cbn in K; lia|]); constructor|].
    destruct (Nat.eqb_spec 2 n_e) as [<-|C2]; cbn -[Nat.eqb].
    + replace (3 =? 2)%nat with false by reflexivity. replace (3 =? 20)%nat with false by reflexivity. cbn [orb]. split; [repeat (constructor; [intros K; cbn in K; lia|]); constructor|lia].
    + replace (2 =? 20)%nat with false by reflexivity. split; [repeat (constructor; [intros K; cbn in K; lia|]); constructor|lia].
Qed.
(** Without experiments, outcomes and models are equally many. *)
Theorem c143_sizes_refuted : n_outcomes 0 = n_models 0.
Proof. reflexivity. Qed.
Example c143_sizes_case : n_repeat 2 = 3%nat /\ n_models 20 = 21%nat /\ n_outcomes 20 = 41%nat. Proof. repeat split. Qed.

(** ** The outcomes that are tested: the values of the first experiment's domain over and over *)
Theorem c143_outcomes {E} (m : tested E) es d ds : t_domain m es = Ok (d :: ds) -> o_values d <> [] ->
  exists fuel0, forall fuel, (fuel0 <= fuel)%nat -> exists os, test_outcomes m es fuel = Some (Ok os) /\ shp os = [n_outcomes (length es)] /\
    forall i, (i < n_outcomes (length es))%nat -> get os [i] = nth (i mod length (o_values d)) (o_values d) 0%Z.
Proof.
  intros Ed Nv. exists (n_outcomes (length es)). intros fuel Hf. destruct (extend_done (n_outcomes (length es)) 0%Z fuel (o_values d) Nv ltac:(lia)) as (l & El & Ll & Nl).
  unfold test_outcomes. rewrite Ed, El. eexists. split; [reflexivity|]. cbn [vec shp get hd]. split; [now rewrite Ll|]. exact Nl.
Qed.
(** All values are tested exactly if there are no more than n_outcomes of them. *)
Theorem c143_every_value {E} (m : tested E) es d ds fuel os : t_domain m es = Ok (d :: ds) -> o_values d <> [] -> NoDup (o_values d) ->
  test_outcomes m es fuel = Some (Ok os) ->
  ((forall v, In v (o_values d) -> exists i, (i < n_outcomes (length es))%nat /\ get os [i] = v) <-> (length (o_values d) <= n_outcomes (length es))%nat).
Proof.
  intros Ed Nv ND H. unfold test_outcomes in H. rewrite Ed in H. destruct (extend fuel (n_outcomes (length es)) (o_values d)) as [l|] eqn:El; [|discriminate]. injection H as <-. cbn [vec get hd].
  set (n := n_outcomes (length es)) in *. set (vs := o_values d) in *.
  assert (K : length l = n /\ forall i, (i < n)%nat -> nth i l 0%Z = nth (i mod length vs) vs 0%Z).
  { destruct (extend_done n 0%Z (fuel + n) vs Nv ltac:(lia)) as (l' & El' & Ll' & Nl'). assert (M : forall f k os r, @extend Z f n os = Some r -> extend (f + k) n os = Some r).
    { clear. induction f as [|f IH]; intros k os r; cbn [extend plus].
      - destruct (Nat.ltb_spec (length os) n) as [C|C]; [discriminate|]. intros Hr. destruct k; cbn [extend]; now rewrite (proj2 (Nat.ltb_ge (length os) n)) by assumption.
      - destruct (Nat.ltb (length os) n); [apply IH|trivial]. }
    apply (M _ n) in El. rewrite El in El'. injection El' as ->. split; assumption. }
  destruct K as [Ll Nl]. assert (Lv : (0 < length vs)%nat) by (destruct vs; [congruence|cbn; lia]). split.
  - intros H. apply Nat.le_trans with (length (nodup Z.eq_dec l)).
    + apply NoDup_incl_length; [assumption|]. intros v Hv. apply nodup_In. destruct (H v Hv) as (i & Hi & <-). apply nth_In. lia.
    + rewrite <- Ll. clear. induction l as [|x l IH]; [apply le_n|]. cbn [nodup]. destruct (in_dec Z.eq_dec x l); cbn [length]; lia.
  - intros H v Hv. destruct (In_nth vs v 0%Z Hv) as (i & Hi & Ei). exists i. split; [lia|]. rewrite Nl by lia. now rewrite Nat.mod_small.
Qed.
(** A domain without values (an IntegerDomain with max < min) is never long enough. *)
Theorem c143_endless_refuted : exists (m : tested unit) es, es <> [] /\ (exists d ds, t_domain m es = Ok (d :: ds) /\ o_is_domain d = true /\ o_values d = id_values {| i_min := ZFin 1; i_max := ZFin 0 |}) /\
  forall prior fuel, test_model m prior es fuel = Ok None.
Proof.
  set (d := {| o_is_domain := true; o_values := id_values {| i_min := ZFin 1; i_max := ZFin 0 |}; o_in := fun _ => Ok true |}).
  exists {| t_simulatable := true; t_model := true; t_differentiable := false; t_n_modelparams := 1; t_constant := true; t_domain_none := Ok d; t_domain := fun es => Ok (map (fun _ => d) es);
    t_simulate := fun _ _ _ => Err ValueError; t_timestep := fun a es => default_timestep a es; t_valid := fun a => Ok (Nd [dim 0 a] (fun _ => true)); t_canonicalize := fun a => Ok a; t_likelihood := fun _ _ _ => Err ValueError;
    t_fisher := fun _ _ => Err ValueError; t_score := fun _ _ _ => Err ValueError; t_score_L := fun _ _ _ => Err ValueError |}, [tt]. split; [discriminate|]. split; [now exists d, []|].
  intros prior fuel. unfold test_model. cbn [t_differentiable t_model]. do 2 f_equal. unfold model_tests, test_likelihood, with_outcomes, test_outcomes. cbn [t_domain map o_values].
  change (o_values d) with (@nil Z). rewrite extend_empty by (unfold n_outcomes, n_models; cbn; lia). reflexivity.
Qed.

(** ** What passing means *)
Theorem c143_likelihood {E} (m : tested E) prior es fuel : (test_likelihood m prior es fuel = Some (Ok tt) <-> exists os mps L, test_outcomes m es fuel = Some (Ok os) /\ prior (n_models (length es)) = Ok mps /\
     t_likelihood m os mps es = Ok L /\ shp L = [n_outcomes (length es); n_models (length es); length es]).
Proof.
  unfold test_likelihood, with_outcomes. destruct (test_outcomes m es fuel) as [r|]; cbn [option_map].
  - split.
    + intros H. injection H as H. apply test_likelihood_iff in H. destruct H as (o & mps & L & -> & E2 & E3 & E4). now exists o, mps, L.
    + intros (os & mps & L & Eo & E2 & E3 & E4). injection Eo as ->. f_equal. apply test_likelihood_iff. exists os, mps, L. tauto.
  - split; [discriminate|intros (os & mps & L & Eo & _); discriminate].
Qed.
(** Every outcome is checked against the domain of its own experiment. *)
Theorem c143_simulate {E} (m : tested E) prior es (D : E -> Z -> bool) :
  (forall e, exists d, t_domain m [e] = Ok [d] /\ forall l, o_in d l = Ok (forallb (D e) l)) ->
  (test_simulate_experiment m prior es = Ok tt <-> exists mps a, prior (n_models (length es)) = Ok mps /\ t_simulate m mps es (n_repeat (length es)) = Ok a /\
     shp a = [n_repeat (length es); n_models (length es); length es] /\
     forall r i j e, (r < n_repeat (length es))%nat -> (i < n_models (length es))%nat -> nth_error es j = Some e -> D e (get a [r; i; j]) = true).
Proof.
  intros HD. rewrite test_simulate_iff. unfold modelparams.
  assert (SK : forall j e, nth_error es j = Some e -> firstn 1 (skipn j es) = [e]).
  { clear. induction es as [|x es IH]; intros [|j] e; cbn; try discriminate; [intros [= ->]; reflexivity|apply IH]. }
  split; intros (mps & a & E1 & E2 & E3 & H); exists mps, a; (split; [exact E1|split; [exact E2|split; [exact E3|]]]).
  - intros r i j e Hr Hi Hj. destruct (H j) as (d & ds & l & Ed & El & ->); [apply nth_error_Some; congruence|]. rewrite (SK j e Hj) in Ed. destruct (HD e) as (d' & Ed' & Id). rewrite Ed' in Ed. injection Ed as <- <-.
    rewrite Id in El. injection El as El. rewrite forallb_forall in El. apply El. eapply in_entries2; [reflexivity|]. exists r, i. split; [assumption|]. split; [assumption|reflexivity].
  - intros j Hj. destruct (nth_error es j) as [e|] eqn:Ej; [|apply nth_error_None in Ej; lia]. rewrite (SK j e Ej). destruct (HD e) as (d & Ed & Id). exists d, []. eexists. split; [exact Ed|]. split; [|reflexivity].
    rewrite Id. f_equal. apply forallb_forall. intros z Hz. eapply in_entries2 in Hz; [|reflexivity]. destruct Hz as (r & i & Hr & Hi & ->). apply (H r i j e); assumption.
Qed.
(** Every updated vector of parameters is checked, for every model and experiment. *)
Theorem c143_update_timestep {E} (m : tested E) V prior es :
  (forall a n, shp a = [n; t_n_modelparams m] -> is1 (t_valid m a) n (fun i => V (map (fun j => get a [i; j]) (seq 0 (t_n_modelparams m))))) -> es <> [] ->
  (test_update_timestep m prior es = Ok tt <-> exists mps a, prior (n_models (length es)) = Ok mps /\ t_timestep m mps es = Ok a /\
    shp a = [n_models (length es); t_n_modelparams m; length es] /\
    forall i e, (i < n_models (length es))%nat -> (e < length es)%nat -> V (map (fun j => get a [i; j; e]) (seq 0 (t_n_modelparams m))) = true).
Proof. intros HV Ne. now apply test_timestep_iff. Qed.
(** canonicalize need only give valid models: it may give other models than it was given. *)
Theorem c143_canonicalize {E} (m : tested E) V prior es :
  (forall a n, shp a = [n; t_n_modelparams m] -> is1 (t_valid m a) n (fun i => V (map (fun j => get a [i; j]) (seq 0 (t_n_modelparams m))))) ->
  forall mps c n, prior (n_models (length es)) = Ok mps -> t_canonicalize m mps = Ok c -> shp c = [n; t_n_modelparams m] ->
  (test_canonicalize m prior es = Ok tt <-> forall i, (i < n)%nat -> V (map (fun j => get c [i; j]) (seq 0 (t_n_modelparams m))) = true).
Proof.
  intros HV mps c n Ep Ec Sc. unfold test_canonicalize, modelparams. rewrite Ep. cbn [bind]. rewrite Ec. cbn [bind]. pose proof (HV c n Sc) as H. destruct H as (v & Ev & Sv & Gv). rewrite Ev. cbn [bind]. rewrite check_Ok.
  apply all_true_1. exists v. split; [reflexivity|]. split; assumption.
Qed.

(** Score and likelihood may be asked for together or apart: the answers agree to within 0.0015, and infinite entries exactly. *)
Definition close (x y : ext) : Prop := match x, y with Fin a, Fin b => Rabs (b - a) < 15 / 10000 | NaN, NaN | PInf, PInf | NInf, NInf => True | _, _ => False end.
Lemma close_iff x y : assert_almost_equal x y 3 = Ok tt <-> close x y.
Proof.
  destruct x as [a| | |], y as [b| | |]; cbn [assert_almost_equal close]; try (split; [discriminate|tauto]); try tauto. replace (15 / 10 * / 10 ^ 3) with (15 / 10000) by field.
  destruct (Rltb_spec (Rabs (b - a)) (15 / 10000)) as [B|B]; split; intros; try reflexivity; try assumption; try discriminate; exfalso; lra.
Qed.
Theorem c143_score {E} (m : tested E) prior es fuel os mps : test_outcomes m es fuel = Some (Ok os) -> prior (n_models (length es)) = Ok mps ->
  (test_score m prior es fuel = Some (Ok tt) <-> exists s1 s L1 L, t_score m os mps es = Ok s1 /\ t_likelihood m os mps es = Ok L1 /\ t_score_L m os mps es = Ok (s, L) /\
     shp s1 = shp s /\ shp L1 = shp L /\ shp s = [t_n_modelparams m; n_outcomes (length es); n_models (length es); length es] /\
     (forall ix, Forall2 lt ix (shp s1) -> close (get s1 ix) (get s ix)) /\ (forall ix, Forall2 lt ix (shp L1) -> Rabs (get L ix - get L1 ix) < 15 / 10000)).
Proof.
  intros Eo Ep. unfold test_score, with_outcomes. rewrite Eo. cbn [option_map]. unfold test_score_of, modelparams. rewrite Ep. cbn [bind]. split.
  - intros H. apply (f_equal (fun o => match o with Some x => x | None => Err ValueError end)) in H. cbv beta iota in H. apply bind_Ok_iff in H as (s1 & E1 & H). apply bind_Ok_iff in H as (L1 & E2 & H). apply bind_Ok_iff in H as ([s L] & E3 & H).
    apply bind_Ok_iff in H as (u1 & H1 & H). destruct u1. apply bind_Ok_iff in H as (u2 & H2 & H). destruct u2. rewrite check_Ok, list_eqb_true in H. apply almost_equal_iff in H1, H2. destruct H1 as [S1 C1], H2 as [S2 C2]. cbn [fst snd amap shp get] in *.
    exists s1, s, L1, L. repeat (split; [assumption|]). split; intros ix Hx; [apply close_iff; now apply C1|]. specialize (C2 ix Hx). now apply (close_iff (Fin (get L1 ix)) (Fin (get L ix))) in C2.
  - intros (s1 & s & L1 & L & E1 & E2 & E3 & S1 & S2 & S3 & C1 & C2). f_equal. rewrite E1. cbn [bind]. rewrite E2. cbn [bind]. rewrite E3. cbn [bind fst snd].
    rewrite (proj2 (almost_equal_iff s1 s)) by (split; [assumption|]; intros ix Hx; apply close_iff; now apply C1). cbn [bind].
    rewrite (proj2 (almost_equal_iff (amap Fin L1) (amap Fin L))) by (split; [assumption|]; intros ix Hx; apply close_iff; cbn [amap get close]; now apply C2). cbn [bind]. apply check_Ok, list_eqb_true. exact S3.
Qed.
Theorem c143_fisher {E} (m : tested E) prior es : test_fisher_information m prior es = Ok tt <-> exists mps f, prior (n_models (length es)) = Ok mps /\ t_fisher m mps es = Ok f /\
  shp f = [t_n_modelparams m; t_n_modelparams m; n_models (length es); length es].
Proof.
  unfold test_fisher_information, modelparams. split.
  - intros H. apply bind_Ok_iff in H as (mps & E1 & H). apply bind_Ok_iff in H as (f & E2 & H). rewrite check_Ok, list_eqb_true in H. exists mps, f. tauto.
  - intros (mps & f & -> & E2 & S). cbn [bind]. rewrite E2. cbn [bind]. apply check_Ok, list_eqb_true. exact S.
Qed.

(** One domain for each experiment, all of them domains; and one for all of them if the model says that it does not matter. *)
Theorem c143_domains {E} (m : tested E) es : test_domain m es = Ok tt <-> exists ds, t_domain m es = Ok ds /\ length ds = length es /\ forall d, In d ds -> o_is_domain d = true.
Proof.
  unfold test_domain. split.
  - intros H. apply bind_Ok_iff in H as (ds & E1 & H). apply bind_Ok_iff in H as (u & E2 & H). destruct u. rewrite check_Ok, Nat.eqb_eq in E2. rewrite check_Ok, forallb_forall in H. now exists ds.
  - intros (ds & -> & L & H). cbn [bind]. rewrite L, Nat.eqb_refl. cbn [check bind]. apply check_Ok, forallb_forall. exact H.
Qed.
Theorem c143_domain_of_none {E} (m : tested E) : test_domain_with_none m = Ok tt <-> (t_constant m = true -> exists d, t_domain_none m = Ok d /\ o_is_domain d = true).
Proof.
  unfold test_domain_with_none. destruct (t_constant m); [|split; [discriminate|reflexivity]]. split.
  - intros H _. apply bind_Ok_iff in H as (d & E1 & H). rewrite check_Ok in H. now exists d.
  - intros H. destruct (H eq_refl) as (d & -> & Hd). cbn [bind]. now apply check_Ok.
Qed.
(** are_models_valid need only answer: whether the prior's models are valid is not asked. *)
Theorem c143_models_valid {E} (m : tested E) prior es : test_are_models_valid m prior es = Ok tt <-> exists mps v, prior (n_models (length es)) = Ok mps /\ t_valid m mps = Ok v.
Proof.
  unfold test_are_models_valid, modelparams. split.
  - intros H. apply bind_Ok_iff in H as (mps & E1 & H). apply bind_Ok_iff in H as (v & E2 & _). now exists mps, v.
  - intros (mps & v & -> & E2). cbn [bind]. rewrite E2. reflexivity.
Qed.
(** All tests of the most special class that the object is of are run, and each result is reported under its test's name. *)
Theorem c143_report {E} (m : tested E) prior es fuel r v : test_model m prior es fuel = Ok (Some (r, v)) ->
  forall name result, In (name, result) r <->
    ((t_differentiable m = true \/ t_model m = true \/ t_simulatable m = true) /\
       ((name = "test_domain"%string /\ result = test_domain m es) \/ (name = "test_domain_with_none"%string /\ result = test_domain_with_none m) \/
        (name = "test_simulate_experiment"%string /\ result = test_simulate_experiment m prior es) \/ (name = "test_update_timestep"%string /\ result = test_update_timestep m prior es))) \/
    ((t_differentiable m = true \/ t_model m = true) /\
       ((name = "test_are_models_valid"%string /\ result = test_are_models_valid m prior es) \/ (name = "test_canonicalize"%string /\ result = test_canonicalize m prior es) \/
        (name = "test_likelihood"%string /\ test_likelihood m prior es fuel = Some result))) \/
    (t_differentiable m = true /\
       ((name = "test_fisher_information"%string /\ result = test_fisher_information m prior es) \/ (name = "test_score"%string /\ test_score m prior es fuel = Some result))).
Proof.
  assert (K : forall l, Ok (option_map (fun r => (r, PNone)) (run_suite l)) = Ok (Some (r, v)) -> forall name result, In (name, result) r <-> In (name, Some result) l).
  { intros l H name result. assert (Hl : run_suite l = Some r) by (destruct (run_suite l) as [q|]; cbn in H; [now injection H as <- _|discriminate]). clear H. revert r Hl. induction l as [|[n [x|]] l IH]; intros r Hl; cbn [run_suite] in Hl; [injection Hl as <-; tauto| |discriminate].
    destruct (run_suite l) as [q|]; [|discriminate]. cbn [option_map] in Hl. injection Hl as <-. cbn [In]. rewrite (IH q eq_refl). split; intros [H|H]; try (now right); left; congruence. }
  assert (SI : forall (n n' : string) (x y : res unit), (n, Some x) = (n', Some y) <-> n' = n /\ y = x) by (intros; split; [intros [= -> ->]; split; reflexivity|intros [-> ->]; reflexivity]).
  assert (SO : forall (n n' : string) (x : option (res unit)) (y : res unit), (n, x) = (n', Some y) <-> n' = n /\ x = Some y) by (intros; split; [intros [= -> ->]; split; reflexivity|intros [-> ->]; reflexivity]).
  unfold test_model. destruct (t_differentiable m), (t_model m), (t_simulatable m); intros H; try discriminate; intros name result; rewrite (K _ H name result); unfold differentiable_tests, model_tests, simulatable_tests; cbn [In]; rewrite ?SI, ?SO; intuition congruence.
Qed.

(** ** Axes in a wrong order are caught *)
Theorem c143_transposed_likelihood {E} (m : tested E) like p prior es fuel : es <> [] ->
  (forall os mps a, prior (n_models (length es)) = Ok mps -> like os mps es = Ok a -> shp os = [n_outcomes (length es)] -> shp a = [n_outcomes (length es); n_models (length es); length es]) ->
  t_likelihood m = (fun os mps es => bind (like os mps es) (transpose p)) ->
  test_likelihood m prior es fuel = Some (Ok tt) -> p = [0; 1; 2]%nat.
Proof.
  intros Ne HL Em H. unfold test_likelihood, with_outcomes in H. destruct (test_outcomes m es fuel) as [[os|x]|] eqn:Eo; cbn [option_map] in H; [|discriminate|discriminate]. apply (f_equal (fun o => match o with Some x => x | None => Err ValueError end)) in H. cbv beta iota in H. apply test_likelihood_iff in H.
  destruct H as (o & mps & L & Eo2 & E2 & E3 & E4). injection Eo2 as <-. rewrite Em in E3. apply bind_Ok_iff in E3 as (a & Ea & Et).
  assert (So : shp os = [n_outcomes (length es)]).
  { unfold test_outcomes in Eo. destruct (t_domain m es) as [[|d ds]|]; try discriminate. destruct (extend fuel (n_outcomes (length es)) (o_values d)) as [l|] eqn:El; [|discriminate]. injection Eo as <-. cbn [vec shp].
    clear - El Ne. revert El. generalize (o_values d) as vs. generalize (n_outcomes (length es)) as n. intros n. induction fuel as [|f IH]; intros vs; cbn [extend].
    - destruct (Nat.ltb_spec (length vs) n) as [C|C]; [discriminate|]. intros [= <-]. destruct (Nat.ltb_spec n (length vs)); [now rewrite firstn_length, Nat.min_l by lia|f_equal; lia].
    - destruct (Nat.ltb_spec (length vs) n) as [C|C]; [apply IH|]. intros [= <-]. destruct (Nat.ltb_spec n (length vs)); [now rewrite firstn_length, Nat.min_l by lia|f_equal; lia]. }
  pose proof (HL os mps a E2 Ea So) as Sa. destruct (c143_sizes (length es)) as [ND _]; [destruct es; [congruence|cbn; lia]|]. inversion ND as [|? ? N1 ND2]; subst. inversion ND2 as [|? ? N2 _]; subst. cbn in N1, N2.
  apply (permuted_shape a L p _ _ _ Et Sa); [intuition|intuition|intuition|exact E4].
Qed.
Theorem c143_transposed_simulate {E} (m : tested E) sim p prior es : es <> [] ->
  (forall mps a, prior (n_models (length es)) = Ok mps -> sim mps es (n_repeat (length es)) = Ok a -> shp a = [n_repeat (length es); n_models (length es); length es]) ->
  t_simulate m = (fun mps es r => bind (sim mps es r) (transpose p)) ->
  test_simulate_experiment m prior es = Ok tt -> p = [0; 1; 2]%nat.
Proof.
  intros Ne HS Em H. apply test_simulate_iff in H. destruct H as (mps & L & E1 & E2 & E3 & _). rewrite Em in E2. apply bind_Ok_iff in E2 as (a & Ea & Et). pose proof (HS mps a E1 Ea) as Sa.
  destruct (c143_sizes (length es)) as (_ & ND & _); [destruct es; [congruence|cbn; lia]|]. inversion ND as [|? ? N1 ND2]; subst. inversion ND2 as [|? ? N2 _]; subst. cbn in N1, N2.
  apply (permuted_shape a L p _ _ _ Et Sa); [intuition|intuition|intuition|exact E3].
Qed.
(** The parameters' axis is told apart only if their number is none of the others. *)
Theorem c143_transposed_timestep {E} (m : tested E) step p prior es V :
  (forall a n, shp a = [n; t_n_modelparams m] -> is1 (t_valid m a) n (fun i => V (map (fun j => get a [i; j]) (seq 0 (t_n_modelparams m))))) -> es <> [] ->
  t_n_modelparams m <> length es -> t_n_modelparams m <> n_models (length es) ->
  (forall mps a, prior (n_models (length es)) = Ok mps -> step mps es = Ok a -> shp a = [n_models (length es); t_n_modelparams m; length es]) ->
  t_timestep m = (fun mps es => bind (step mps es) (transpose p)) ->
  test_update_timestep m prior es = Ok tt -> p = [0; 1; 2]%nat.
Proof.
  intros HV Ne N1 N2 HS Em H. apply (test_timestep_iff m V prior es HV Ne) in H. destruct H as (mps & L & E1 & E2 & E3 & _). rewrite Em in E2. apply bind_Ok_iff in E2 as (a & Ea & Et). pose proof (HS mps a E1 Ea) as Sa.
  destruct (c143_sizes (length es)) as (ND & _ & _); [destruct es; [congruence|cbn; lia]|]. inversion ND as [|? ? N3 _]; subst. cbn in N3. apply (permuted_shape a L p _ _ _ Et Sa); [intuition|intuition|intuition|exact E3].
Qed.
Theorem c143_timestep_refuted : exists (m : tested unit) prior es mps a, t_n_modelparams m = length es /\ prior (n_models (length es)) = Ok mps /\
  t_timestep m mps es = bind (default_timestep mps es) (transpose [0; 2; 1]%nat) /\
  test_update_timestep m prior es = Ok tt /\ default_timestep mps es = Ok a /\ exists b, t_timestep m mps es = Ok b /\ get b [0; 0; 1]%nat <> get a [0; 0; 1]%nat.
Proof.
  set (m0 := @mock_model unit 2 (fun _ _ _ => 0)).
  set (m := {| t_simulatable := true; t_model := true; t_differentiable := false; t_n_modelparams := 2; t_constant := true; t_domain_none := t_domain_none m0; t_domain := t_domain m0; t_simulate := t_simulate m0;
    t_timestep := fun mps es => bind (default_timestep mps es) (transpose [0; 2; 1]%nat); t_valid := t_valid m0; t_canonicalize := t_canonicalize m0; t_likelihood := t_likelihood m0;
    t_fisher := t_fisher m0; t_score := t_score m0; t_score_L := t_score_L m0 |}).
  set (prior := fun n => Ok (Nd [n; 2]%nat (fun ix => INR (nth 1 ix 0%nat)))). set (mps := Nd [20; 2]%nat (fun ix => INR (nth 1 ix 0%nat))).
  destruct (timestep_arr mps [tt; tt] 20 2 eq_refl) as (a & Ea & Sa & Ga). exists m, prior, [tt; tt], mps, a. split; [reflexivity|]. split; [reflexivity|]. split; [reflexivity|].
  assert (TB : exists b, t_timestep m mps [tt; tt] = Ok b /\ shp b = [20; 2; 2]%nat /\ forall i j k, get b [i; j; k] = get a [i; k; j]).
  { cbn [t_timestep m]. rewrite Ea. cbn [bind]. unfold transpose, ndim. rewrite Sa. eexists. split; [reflexivity|]. split; [cbn [map shp nth]; reflexivity|]. intros; reflexivity. }
  destruct TB as (b & Eb & Sb & Gb). split.
  - apply (test_timestep_iff m (fun _ => true)); [|discriminate|].
    + intros c k Sc. exists (Nd [dim 0 c] (fun _ => true)). split; [reflexivity|]. unfold dim. rewrite Sc. split; reflexivity.
    + exists mps, b. split; [reflexivity|]. split; [exact Eb|]. split; [exact Sb|]. reflexivity.
  - split; [exact Ea|]. exists b. split; [exact Eb|]. rewrite Gb. rewrite !Ga by (cbn; lia). unfold mps. cbn [get nth INR]. lra.
Qed.

(** ** Simulated data on arrays: each entry is drawn from the distribution of its own model and experiment *)
Theorem c143_simulate_array {E} n like rand mps (es : list E) repeat nm f : dim 0 mps = nm -> (0 < n)%Z ->
  is3 (like (vec 0%Z (default_values n)) mps es) (Z.to_nat n) nm (length es) f ->
  (forall r i j, 0 <= rand r i j < 1) ->
  (forall i j, (i < nm)%nat -> (j < length es)%nat -> outcome_distribution n (fun d => f (Z.to_nat d) i j)) ->
  ~ (repeat = 1 /\ length es = 1 /\ nm = 1)%nat ->
  exists a, simulate_array (default_values n) like rand mps es repeat = Ok a /\ shp a = [repeat; nm; length es] /\
    forall r i j d, (r < repeat)%nat -> (i < nm)%nat -> (j < length es)%nat -> (0 <= d < n)%Z ->
      (get a [r; i; j] = d <-> mass_below (fun d => f (Z.to_nat d) i j) d <= rand r i j < mass_below (fun d => f (Z.to_nat d) i j) d + f (Z.to_nat d) i j).
Proof.
  intros Dm Hn HL Hr HD N1. assert (LV : length (default_values n) = Z.to_nat n) by apply default_values_length.
  assert (EP : forall i j, map (fun o => f o i j) (seq 0 (length (default_values n))) = map (fun d => f (Z.to_nat d) i j) (default_values n)).
  { intros i j. rewrite LV, default_values_eq, map_map. apply map_ext. intros k. now rewrite Nat2Z.id. }
  assert (PK : forall r i j, (i < nm)%nat -> (j < length es)%nat -> exists d, pick (default_values n) (map (fun o => f o i j) (seq 0 (length (default_values n)))) (rand r i j) = Ok d /\ (0 <= d < n)%Z /\
     forall d', (0 <= d' < n)%Z -> (d = d' <-> mass_below (fun d => f (Z.to_nat d) i j) d' <= rand r i j < mass_below (fun d => f (Z.to_nat d) i j) d' + f (Z.to_nat d') i j)).
  { intros r i j Hi Hj. rewrite EP. apply (pick_default n (fun d => f (Z.to_nat d) i j) (HD i j Hi Hj)). apply Hr. }
  destruct (simulate_arr (default_values n) like rand mps es repeat nm f Dm) as [C|(a & Ea & Sa & Ga)].
  - intros E0. rewrite E0 in LV. cbn in LV. lia.
  - rewrite LV. exact HL.
  - intros r i j _ Hi Hj. destruct (PK r i j Hi Hj) as (d & Ed & _). now exists d.
  - contradiction.
  - exists a. split; [exact Ea|]. split; [exact Sa|]. intros r i j d H1 H2 H3 H4. destruct (PK r i j H2 H3) as (d0 & Ed & Rd & Hd). rewrite (Ga r i j H1 H2 H3) in Ed. injection Ed as ->. now apply Hd.
Qed.

(** ** MockModel passes its own tests, and so does any likelihood of the right shape *)
Definition all_pass (r : list (string * res unit)) : Prop := Forall (fun p => snd p = Ok tt) r.
Definition with_likelihood {E} (m : tested E) (like : nd Z -> nd R -> list E -> res (nd R)) rand : tested E :=
  {| t_simulatable := true; t_model := true; t_differentiable := false; t_n_modelparams := t_n_modelparams m; t_constant := true; t_domain_none := t_domain_none m; t_domain := t_domain m;
     t_simulate := simulate_array (o_values mock_domain) like rand; t_timestep := t_timestep m; t_valid := t_valid m; t_canonicalize := t_canonicalize m; t_likelihood := like;
     t_fisher := t_fisher m; t_score := t_score m; t_score_L := t_score_L m |}.
Theorem c143_shape_is_enough {E} like n_mps rand prior (es : list E) : es <> [] -> (forall n, exists a, prior n = Ok a /\ shp a = [n; n_mps]) ->
  (forall os mps n_o n, shp os = [n_o] -> (0 < n_o)%nat -> shp mps = [n; n_mps] -> exists f, is3 (like os mps es) n_o n (length es) f) ->
  exists fuel0, forall fuel, (fuel0 <= fuel)%nat -> exists r, test_model (with_likelihood (mock_model n_mps rand) like rand) prior es fuel = Ok (Some (r, PNone)) /\ length r = 7%nat /\ all_pass r.
Proof.
  intros Ne HP HL. set (m := with_likelihood (mock_model n_mps rand) like rand). pose proof (n_models_pos (length es)) as Hm. destruct (HP (n_models (length es))) as (mps & Em & Sm).
  assert (Ed : exists d ds, t_domain m es = Ok (d :: ds) /\ o_values d = [0; 1]%Z). { destruct es as [|e es']; [congruence|]. cbn. eexists _, _. split; reflexivity. }
  destruct Ed as (d & ds & Ed & Vd). destruct (c143_outcomes m es d ds Ed) as (fuel0 & HO); [rewrite Vd; discriminate|]. exists fuel0. intros fuel Hf. destruct (HO fuel Hf) as (os & Eo & So & _).
  assert (He : (0 < length es)%nat) by (destruct es; [congruence|cbn; lia]). assert (HV : rowwise m (fun _ => true)) by (intros a k Sa; exists (Nd [dim 0 a] (fun _ => true)); split; [reflexivity|unfold dim; rewrite Sa; split; reflexivity]).
  assert (T1 : test_are_models_valid m prior es = Ok tt) by (unfold test_are_models_valid, modelparams; rewrite Em; reflexivity).
  assert (T2 : test_canonicalize m prior es = Ok tt).
  { unfold test_canonicalize, modelparams. rewrite Em. cbn -[check all_true]. apply check_Ok. apply (all_true_1 _ (dim 0 mps) (fun _ => true)); [|reflexivity]. eexists. split; [reflexivity|]. split; reflexivity. }
  assert (T3 : test_domain m es = Ok tt).
  { unfold test_domain. cbn [t_domain m with_likelihood mock_model bind]. rewrite map_length, Nat.eqb_refl. cbn [check bind]. apply check_Ok. apply forallb_forall. intros x Hx. apply in_map_iff in Hx. destruct Hx as (? & <- & _). reflexivity. }
  assert (T4 : test_domain_with_none m = Ok tt) by reflexivity.
  assert (T5 : test_likelihood m prior es fuel = Some (Ok tt)).
  { apply (c143_likelihood m prior es fuel). destruct (HL os mps (n_outcomes (length es)) (n_models (length es)) So) as (f & L & EL & SL & _); [unfold n_outcomes; lia|exact Sm|]. exists os, mps, L. split; [exact Eo|]. split; [exact Em|]. split; [exact EL|exact SL]. }
  assert (T6 : test_simulate_experiment m prior es = Ok tt).
  { destruct (HL (vec 0%Z (default_values 2)) mps 2%nat (n_models (length es)) eq_refl) as (f & HF); [lia|exact Sm|].
    assert (PK : forall r i j, exists z, pick (default_values 2) (map (fun o => f o i j) (seq 0 2)) (rand r i j) = Ok z /\ (0 <= z < 2)%Z) by (intros r i j; apply (pick_in_range 2); [lia|reflexivity]).
    destruct (simulate_arr (default_values 2) like rand mps es (n_repeat (length es)) (n_models (length es)) f) as [C|(a & Ea & Sa & Ga)].
    - unfold dim. now rewrite Sm.
    - discriminate.
    - exact HF.
    - intros r i j _ _ _. destruct (PK r i j) as (z & Hz & _). now exists z.
    - destruct (c143_sizes (length es) He) as (_ & _ & H). lia.
    - apply (c143_simulate m prior es (fun _ z => id_in_domain {| i_min := ZFin 0; i_max := ZFin 1 |} [PRe (Fin (IZR z))])).
      + intros e. exists mock_domain. split; [reflexivity|]. intros l. cbn [o_in mock_domain]. f_equal. rewrite id_in_all. clear. induction l as [|z l IH]; [reflexivity|]. cbn [map forallb]. now rewrite IH.
      + exists mps, a. split; [exact Em|]. split; [exact Ea|]. split; [exact Sa|]. intros r i j e Hr Hi Hj. assert (Hj' : (j < length es)%nat) by (apply nth_error_Some; congruence).
        pose proof (Ga r i j Hr Hi Hj') as G. destruct (PK r i j) as (z & Hz & Rz). change (length (default_values 2)) with 2%nat in G. rewrite G in Hz. injection Hz as ->. apply id_in_one. exists z. split; [reflexivity|]. cbn. lia. }
  assert (T7 : test_update_timestep m prior es = Ok tt).
  { apply (test_timestep_iff m (fun _ => true) prior es HV Ne). destruct (timestep_arr mps es _ _ Sm) as (a & Ea & Sa & _). exists mps, a. split; [exact Em|]. split; [exact Ea|]. split; [exact Sa|reflexivity]. }
  unfold test_model. cbn [t_differentiable t_model m with_likelihood]. fold m. unfold model_tests. rewrite T1, T2, T3, T4, T5, T6, T7. eexists. split; [reflexivity|]. split; [reflexivity|]. repeat constructor.
Qed.
Theorem c143_mock {E} n_mps rand prior (es : list E) : es <> [] -> (forall n, exists a, prior n = Ok a /\ shp a = [n; n_mps]) ->
  exists fuel0, forall fuel, (fuel0 <= fuel)%nat -> exists r, test_model (mock_model n_mps rand) prior es fuel = Ok (Some (r, PNone)) /\ length r = 7%nat /\ all_pass r.
Proof.
  intros Ne HP. destruct (c143_shape_is_enough mock_likelihood n_mps rand prior es Ne HP) as (fuel0 & H).
  - intros os mps n_o n So Ho Sm. exists (fun _ _ _ => / 2). now apply (mock_like os mps es n_o n n_mps).
  - exists fuel0. exact H.
Qed.
(** So a likelihood that is no probability at all passes every test. *)
Theorem c143_values_refuted : exists (m : tested unit) prior es fuel r, (forall os mps L i, t_likelihood m os mps es = Ok L -> get L i = 7) /\ (exists os mps L, t_likelihood m os mps es = Ok L) /\
  test_model m prior es fuel = Ok (Some (r, PNone)) /\ length r = 7%nat /\ all_pass r.
Proof.
  set (like := fun (os : nd Z) (mps : nd R) (es : list unit) => Ok (Nd [dim 0 os; dim 0 mps; length es] (fun _ => 7)) : res (nd R)).
  set (prior := fun n => Ok (Nd [n; 1]%nat (fun _ => 0)) : res (nd R)). destruct (c143_shape_is_enough like 1 (fun _ _ _ => 0) prior [tt]) as (fuel & H).
  - discriminate.
  - intros n. eexists. split; reflexivity.
  - intros os mps n_o n So _ Sm. exists (fun _ _ _ => 7). unfold like, dim. rewrite So, Sm. eexists. split; [reflexivity|]. split; reflexivity.
  - destruct (H fuel (le_n _)) as (r & Er & Lr & Pr). eexists _, prior, [tt], fuel, r. split; [|split; [|split; [exact Er|split; assumption]]].
    + intros os mps L i EL. cbn in EL. injection EL as <-. reflexivity.
    + exists (vec 0%Z [0%Z]), (Nd [1; 1]%nat (fun _ => 0)). eexists. reflexivity.
Qed.
(** Without experiments the mock model fails some of its own tests. *)
Theorem c143_no_experiments {E} n_mps rand prior fuel : (forall n, exists a, prior n = Ok a /\ shp a = [n; n_mps]) ->
  test_likelihood (@mock_model E n_mps rand) prior [] fuel = Some (Err IndexError) /\ test_update_timestep (@mock_model E n_mps rand) prior [] = Err ValueError.
Proof.
  intros HP. split; [reflexivity|]. unfold test_update_timestep, modelparams. destruct (HP (n_models 0)) as (mps & Em & Sm). cbn [length]. rewrite Em. cbn [bind]. destruct (timestep_arr mps (@nil E) _ _ Sm) as (a & Ea & Sa & _).
  cbn [t_timestep mock_model]. rewrite Ea. cbn [bind length] in *. rewrite Sa. cbn [t_n_modelparams]. rewrite list_eqb_refl. cbn [check bind]. unfold transpose, ndim. rewrite Sa. cbn [length]. replace (is_perm 3 [2; 0; 1]%nat) with true by reflexivity. reflexivity.
Qed.

(** ** The verdict is printed only *)
Theorem c143_returns_nothing {E} (m : tested E) prior es fuel r v : test_model m prior es fuel = Ok (Some (r, v)) -> v = PNone.
Proof.
  assert (K : forall l, Ok (option_map (fun r => (r, PNone)) (run_suite l)) = Ok (Some (r, v)) -> v = PNone).
  { intros l. destruct (run_suite l) as [q|]; cbn; [|discriminate]. now intros [= _ <-]. }
  unfold test_model. destruct (t_differentiable m), (t_model m), (t_simulatable m); try discriminate; apply K.
Qed.
Theorem c143_verdict_refuted : exists (good bad : tested unit) prior es fuel r1 r2 v, test_model good prior es fuel = Ok (Some (r1, v)) /\ all_pass r1 /\ test_model bad prior es fuel = Ok (Some (r2, v)) /\ ~ all_pass r2.
Proof.
  set (prior := fun n => Ok (Nd [n; 1]%nat (fun _ => 0)) : res (nd R)). set (m0 := @mock_model unit 1 (fun _ _ _ => 0)).
  destruct (@c143_mock unit 1 (fun _ _ _ => 0) prior [tt]) as (fuel & H); [discriminate|intros n; eexists; split; reflexivity|]. destruct (H fuel (le_n _)) as (r & Er & _ & Pr). fold m0 in Er.
  set (bad := {| t_simulatable := true; t_model := true; t_differentiable := false; t_n_modelparams := 1; t_constant := true; t_domain_none := t_domain_none m0; t_domain := t_domain m0; t_simulate := t_simulate m0;
    t_timestep := t_timestep m0; t_valid := t_valid m0; t_canonicalize := fun _ => Err ValueError; t_likelihood := t_likelihood m0; t_fisher := t_fisher m0; t_score := t_score m0; t_score_L := t_score_L m0 |}).
  assert (O : exists o, test_outcomes m0 [tt] fuel = Some o).
  { unfold test_model in Er. cbn [t_differentiable t_model m0 mock_model] in Er. fold m0 in Er. unfold model_tests, test_likelihood, with_outcomes in Er. destruct (test_outcomes m0 [tt] fuel) as [o|]; [now exists o|]. cbn in Er. discriminate. }
  destruct O as [o Eo]. assert (Eb : test_outcomes bad [tt] fuel = Some o) by exact Eo.
  assert (R2 : exists r2, test_model bad prior [tt] fuel = Ok (Some (r2, PNone)) /\ In ("test_canonicalize"%string, Err ValueError) r2).
  { unfold test_model. cbn [t_differentiable t_model bad]. fold bad. unfold model_tests, test_likelihood, with_outcomes. rewrite Eb. cbn [option_map run_suite]. eexists. split; [reflexivity|]. right. left. reflexivity. }
  destruct R2 as (r2 & E2 & I2). exists m0, bad, prior, [tt], fuel, r, r2, PNone. split; [exact Er|]. split; [exact Pr|]. split; [exact E2|]. intros C. unfold all_pass in C. rewrite Forall_forall in C. specialize (C _ I2). discriminate.
Qed.
Theorem c143_unknown_type {E} (m : tested E) prior es fuel : test_model m prior es fuel = Err ValueError <-> t_differentiable m = false /\ t_model m = false /\ t_simulatable m = false.
Proof. unfold test_model. destruct (t_differentiable m), (t_model m), (t_simulatable m); split; intros H; try discriminate; try tauto; destruct H as (? & ? & ?); discriminate. Qed.

(** ** assert_warns and MockDirectView *)
Theorem c143_assert_warns {W} (sub : W -> W -> bool) cat caught body : assert_warns sub cat caught body = Ok tt <-> body = Ok tt /\ exists w, In w caught /\ sub w cat = true.
Proof. unfold assert_warns. destruct body as [[]|x]; cbn [bind]; [|split; [discriminate|intros [H _]; discriminate]]. rewrite check_Ok, existsb_exists. tauto. Qed.
Theorem c143_assert_warns_exception {W} (sub : W -> W -> bool) cat caught x : assert_warns sub cat caught (Err x) = Err x.
Proof. reflexivity. Qed.
Fixpoint min_length {A} (n : nat) (l : list (list A)) : nat := match l with [] => n | s :: l' => Nat.min (length s) (min_length n l') end.
Lemma zip_spec {A} (d : A) : forall n seqs, zip_shortest n seqs = map (fun k => map (fun s => nth k s d) seqs) (seq 0 (min_length n seqs)).
Proof.
  assert (M0 : forall l : list (list A), min_length 0 l = 0%nat) by (induction l as [|s l IH]; cbn [min_length]; [reflexivity|lia]).
  induction n as [|n IH]; intros seqs; cbn [zip_shortest]; [now rewrite M0|]. destruct (forallb _ seqs) eqn:F.
  - assert (ML : min_length (S n) seqs = S (min_length n (map (@tl A) seqs)) /\ concat (map (firstn 1) seqs) = map (fun s => nth 0 s d) seqs).
    { clear IH. induction seqs as [|s l IHl]; [split; reflexivity|]. cbn [forallb] in F. apply andb_true_iff in F as [F1 F2]. destruct s as [|x s]; [discriminate|]. destruct (IHl F2) as [M C]. split; [cbn [min_length map tl length]; rewrite M; lia|]. cbn [map concat nth]. change (firstn 1 (x :: s)) with [x]. cbn [app]. now rewrite C. }
    destruct ML as [ML C]. rewrite ML, C, IH. cbn [seq map]. f_equal. rewrite <- seq_shift, map_map. apply map_ext. intros k. rewrite map_map. apply map_ext. intros [|x s]; [destruct k; reflexivity|reflexivity].
  - assert (ML : min_length (S n) seqs = 0%nat).
    { clear IH. induction seqs as [|s l IHl]; [discriminate|]. cbn [forallb min_length] in *. destruct s as [|x s]; [reflexivity|]. cbn [andb] in F. rewrite IHl by assumption. lia. }
    now rewrite ML.
Qed.
(** The results of map_sync: the function of the k-th entries, for every k that all sequences have *)
Theorem c143_map_sync {A B} (g : list A -> B) s seqs (d : A) : map_sync (fun args => Ok (g args)) (s :: seqs) =
  Ok (PList (map (fun k => g (map (fun s => nth k s d) (s :: seqs))) (seq 0 (min_length (length s) seqs)))).
Proof.
  unfold map_sync, mock_map, py_map. rewrite (mapM_ok _ g) by reflexivity. cbn [bind]. do 2 f_equal. rewrite (zip_spec d), map_map. f_equal. f_equal. cbn [min_length].
  assert (K : forall n (l : list (list A)), (min_length n l <= n)%nat) by (intros n l; induction l as [|x l IH]; cbn [min_length]; lia). specialize (K (length s) seqs). lia.
Qed.
(** map_async and the default of map lose the results. *)
Theorem c143_map_async_refuted {A B} (f : list A -> res B) seqs v : map_async f seqs = Ok v \/ mock_map f seqs None = Ok v -> v = PNone.
Proof. unfold map_async, mock_map. destruct (py_map f seqs); cbn; intros [H|H]; try discriminate; now injection H as <-. Qed.
Example c143_map_case : map_sync (fun args => Ok (fold_right Z.add 0%Z args)) [[1; 2; 3]; [10; 20]]%Z = Ok (PList [11; 22]%Z) /\ map_async (fun args => Ok (fold_right Z.add 0%Z args)) [[1; 2; 3]; [10; 20]]%Z = Ok PNone.
Proof. split; reflexivity. Qed.

(** ** The tests of a domain pass exactly for domains that have a point to show *)
Theorem c143_integer_domain d : Forall (fun r => r = Ok tt) (domain_tests (int_tested d)) <-> exists z, id_in_domain d [PRe (Fin (IZR z))] = true.
Proof.
  split.
  - intros H. exists (id_example d). inversion H as [|? ? _ H2]; subst. inversion H2 as [|? ? _ H3]; subst. inversion H3 as [|? ? H4 _]; subst. now apply check_Ok in H4.
  - intros (z & Hz). apply id_in_one in Hz. destruct Hz as (z' & Ez & H1 & H2). injection Ez as Ez. apply eq_IZR in Ez. subst z'.
    assert (EX : id_in_domain d [PRe (Fin (IZR (id_example d)))] = true).
    { apply id_in_one. exists (id_example d). split; [reflexivity|]. unfold id_example. destruct (i_min d), (i_max d); cbn in *; lia. }
    repeat constructor.
    + cbn. destruct (id_is_finite d); reflexivity.
    + apply check_Ok. exact EX.
    + unfold int_tested, u_members, u_values, u_in. rewrite map_length. assert (VV : forall v, In v (id_values d) -> id_in_domain d [PRe (Fin (IZR v))] = true).
      { intros v Hv. apply id_in_one. exists v. split; [reflexivity|]. unfold id_values, id_example in Hv. destruct (i_min d) as [|a|], (i_max d) as [|b|]; cbn in H1, H2; try (destruct Hv as [<-|[]]; cbn; lia); apply arange_In in Hv; cbn; lia. }
      replace (id_in_domain d (map (fun z0 : Z => PRe (Fin (IZR z0))) (id_values d))) with true.
      2:{ symmetry. rewrite id_in_all. apply forallb_forall. intros p Hp. apply in_map_iff in Hp. destruct Hp as (v & <- & Hv). now apply VV. }
      unfold id_n_members, id_values. destruct (i_min d) as [|a|], (i_max d) as [|b|]; cbn [bind check]; try reflexivity. rewrite arange_length. cbn in H1, H2. replace (Z.of_nat (Z.to_nat (b + 1 - a)) =? b - a + 1)%Z with true by (symmetry; apply Z.eqb_eq; lia). reflexivity.
Qed.
Theorem c143_real_domain d : Forall (fun r => r = Ok tt) (domain_tests (real_tested d)) <-> exists x, rd_in_domain d [PRe (Fin x)] = true.
Proof.
  split.
  - intros H. inversion H as [|? ? _ H2]; subst. inversion H2 as [|? ? _ H3]; subst. inversion H3 as [|? ? H4 _]; subst. apply check_Ok in H4. cbn [u_in real_tested u_example] in H4. pose proof H4 as H5. apply rd_in_one in H5. destruct H5 as (x & Ex & L1 & L2). injection Ex as Ex.
    assert (F : exists y, rd_example d = Fin y).
    { rewrite <- Ex in L1, L2. unfold rd_example in *. destruct (r_min d) as [a| | |] eqn:Ea; cbn [xinf negb] in *; try (eexists; reflexivity); destruct (r_max d) as [b| | |] eqn:Eb; cbn [xinf negb] in *; try (eexists; reflexivity); exfalso; unfold xle in *; cbn in *; discriminate. }
    destruct F as [y Ey]. exists y. now rewrite <- Ey.
  - intros (x & Hx). destruct (c85_example_point d x Hx) as [EX _]. repeat constructor.
    + apply check_Ok. exact EX.
    + cbn [u_members real_tested bind u_in u_values]. apply check_Ok. exact EX.
Qed.
Theorem c143_multinomial_domain d junk vals : (0 < m_k d)%nat -> md_values junk d = Ok vals -> Forall (fun r => r = Ok tt) (domain_tests (mult_tested d vals)).
Proof.
  intros Hk Ev. destruct (c30_lists_each_count_vector_once junk d Hk) as (vals' & Ev' & _ & HV & HL). rewrite Ev in Ev'. injection Ev' as <-. pose proof (c30_example_point d junk vals Hk Ev) as HE.
  repeat constructor.
  - apply check_Ok. apply (c30_membership d junk vals [md_example d] Hk Ev); [constructor; [apply HV in HE; tauto|constructor]|]. intros p [<-|[]]. exact HE.
  - cbn [u_members mult_tested u_values u_in]. rewrite HL, Z.eqb_refl. cbn [check bind]. apply check_Ok. apply (c30_membership d junk vals vals Hk Ev); [|trivial]. apply Forall_forall. intros p Hp. apply HV in Hp. tauto.
Qed.
Theorem c143_in_domain {P} (d : tested_domain P) good bad : test_in_domain d good bad = Ok tt <-> (forall v, In v good -> u_in d [v] = true) /\ (forall v, In v bad -> u_in d [v] = false).
Proof.
  unfold test_in_domain. split.
  - intros H. apply bind_Ok_iff in H as (us & Eg & H). apply bind_Ok_iff in H as (us2 & Eb & _). split; intros v Hv.
    + apply check_Ok. exact (proj1 (mapM_unit _ _) (ex_intro _ us Eg) v Hv).
    + apply negb_true_iff. apply check_Ok. exact (proj1 (mapM_unit (fun v => check (negb (u_in d [v]))) bad) (ex_intro _ us2 Eb) v Hv).
  - intros [Hg Hb]. destruct (proj2 (mapM_unit (fun v => check (u_in d [v])) good)) as [us ->]; [intros v Hv; apply check_Ok; now apply Hg|]. cbn [bind].
    destruct (proj2 (mapM_unit (fun v => check (negb (u_in d [v]))) bad)) as [us2 ->]; [intros v Hv; apply check_Ok, negb_true_iff; now apply Hb|]. reflexivity.
Qed.
Example c143_domain_case : (exists z, id_in_domain {| i_min := ZFin 2; i_max := ZPos |} [PRe (Fin (IZR z))] = true) /\ ~ (exists z, id_in_domain {| i_min := ZFin 2; i_max := ZFin 1 |} [PRe (Fin (IZR z))] = true).
Proof.
  split.
  - exists 3%Z. apply id_in_one. exists 3%Z. split; [reflexivity|]. cbn. lia.
  - intros (z & H). apply id_in_one in H. destruct H as (z' & _ & H1 & H2). cbn in *. lia.
Qed.

Print Assumptions c143_sizes.
Print Assumptions c143_sizes_refuted.
Print Assumptions c143_outcomes.
Print Assumptions c143_every_value.
Print Assumptions c143_endless_refuted.
Print Assumptions c143_likelihood.
Print Assumptions c143_simulate.
Print Assumptions c143_update_timestep.
Print Assumptions c143_canonicalize.
Print Assumptions c143_score.
Print Assumptions c143_fisher.
Print Assumptions c143_domains.
Print Assumptions c143_domain_of_none.
Print Assumptions c143_models_valid.
Print Assumptions c143_report.
Print Assumptions c143_transposed_likelihood.
Print Assumptions c143_transposed_simulate.
Print Assumptions c143_transposed_timestep.
Print Assumptions c143_timestep_refuted.
Print Assumptions c143_simulate_array.
Print Assumptions c143_shape_is_enough.
Print Assumptions c143_mock.
Print Assumptions c143_values_refuted.
Print Assumptions c143_no_experiments.
Print Assumptions c143_returns_nothing.
Print Assumptions c143_verdict_refuted.
Print Assumptions c143_unknown_type.
Print Assumptions c143_assert_warns.
Print Assumptions c143_assert_warns_exception.
Print Assumptions c143_map_sync.
Print Assumptions c143_map_async_refuted.
Print Assumptions c143_integer_domain.
Print Assumptions c143_real_domain.
Print Assumptions c143_multinomial_domain.
Print Assumptions c143_in_domain.
