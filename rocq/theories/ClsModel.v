(** Model of Python's class statements as the library uses them: the method resolution order (C3 linearisation, CPython's
    [mro_implementation] in Objects/typeobject.c), the abstract methods of a class (the [abc] module's [ABCMeta.__new__], lib/abc.py),
    the refusal to create instances of abstract classes, and which constructors run when an instance is created.  The table
    [library] lists every class of src/qinfer (without tests and exceptions) with its bases and the names bound in its body.

    Simplifications: classes are identified by their names, so a second class of the same name is refused; [with_metaclass] is a
    flag; what the bodies of methods do is left out, except for how [__init__] continues; constructor arguments are left out. *)
From Coq Require Import String List Bool Arith.
From Verif Require Import Base.
Import ListNotations.
Close Scope R_scope.

(** How an [__init__] continues: with [super(C, self).__init__(...)], with [D.__init__(self, ...)], or not at all. *)
Inductive how := Coop | Explicit (d : string) | Stops.
(** A class statement; the body binds names to abstract ([true]) or ordinary ([false]) attributes.  [s_init] matters only if the body
    binds [__init__]. *)
Record stmt := { s_name : string; s_bases : list string; s_meta : bool; s_init : how; s_body : list (string * bool) }.
Definition body (abstract ordinary : list string) : list (string * bool) :=
  map (fun x => (x, true)) abstract ++ map (fun x => (x, false)) ordinary.
(** A class without listed bases derives from [object]. *)
Definition bases_of (s : stmt) : list string := match s_bases s with [] => ["object"%string] | b => b end.
(** A class object: its statement, method resolution order, [__abstractmethods__], and whether its metaclass is ABCMeta. *)
Record pyclass := { o_stmt : stmt; o_mro : list string; o_abs : list string; o_abc : bool }.
Definition env := list pyclass.
Definition name_of (o : pyclass) : string := s_name (o_stmt o).
Definition get (e : env) (c : string) : option pyclass := find (fun o => String.eqb (name_of o) c) e.
Definition mem (x : string) (l : list string) : bool := existsb (String.eqb x) l.

(** ** C3 linearisation *)
Definition in_tails (x : string) (ls : list (list string)) : bool := existsb (fun l => mem x (tl l)) ls.
(** The first head that is in no tail. *)
Fixpoint pick (heads all : list (list string)) : option string :=
  match heads with
  | [] => None
  | [] :: r => pick r all
  | (x :: _) :: r => if in_tails x all then pick r all else Some x
  end.
Definition drop (x : string) (l : list string) : list string :=
  match l with y :: t => if String.eqb x y then t else l | [] => [] end.
Definition all_empty (ls : list (list string)) : bool := forallb (fun l => match l with [] => true | _ => false end) ls.
Definition total (ls : list (list string)) : nat := length (concat ls).
Fixpoint merge (fuel : nat) (ls : list (list string)) : option (list string) :=
  if all_empty ls then Some [] else
  match fuel with
  | O => None
  | S f => match pick ls ls with
           | None => None
           | Some x => match merge f (map (drop x) ls) with Some r => Some (x :: r) | None => None end
           end
  end.

(** ** Attribute look-up *)
(** What a body binds a name to: the last binding counts. *)
Definition binding (s : stmt) (x : string) : option bool :=
  option_map snd (find (fun p => String.eqb (fst p) x) (rev (s_body s))).
(** [getattr(cls, name)]: along the method resolution order. *)
Fixpoint lookup (e : env) (mro : list string) (x : string) : option bool :=
  match mro with
  | [] => None
  | c :: r => match get e c with
              | None => lookup e r x
              | Some o => match binding (o_stmt o) x with Some b => Some b | None => lookup e r x end
              end
  end.

(** ** The class statement *)
Fixpoint no_dup (l : list string) : bool := match l with [] => true | x :: r => negb (mem x r) && no_dup r end.
Fixpoint get_all (e : env) (cs : list string) : option (list pyclass) :=
  match cs with
  | [] => Some []
  | c :: r => match get e c, get_all e r with Some o, Some os => Some (o :: os) | _, _ => None end
  end.
(** A base that does not exist: NameError; a base listed twice or no consistent order: TypeError. *)
Definition class_new (e : env) (s : stmt) : res pyclass :=
  match get_all e (bases_of s) with
  | None => Err NameError
  | Some bs =>
      if negb (no_dup (bases_of s)) then Err TypeError else
      let ls := map o_mro bs ++ [bases_of s] in
      match merge (total ls) ls with
      | None => Err TypeError
      | Some r =>
          let mro := s_name s :: r in
          let abc := s_meta s || existsb o_abc bs in
          let plain := {| o_stmt := s; o_mro := mro; o_abs := []; o_abc := abc |} in
          let is_abstract x := match lookup (plain :: e) mro x with Some b => b | None => false end in
          Ok {| o_stmt := s; o_mro := mro; o_abc := abc;
                o_abs := if abc then filter is_abstract (map fst (s_body s)) ++ filter is_abstract (flat_map o_abs bs) else [] |}
      end
  end.
(** [object] itself; its own attributes are left out except for the constructor, which does nothing. *)
Definition the_object : pyclass :=
  {| o_stmt := {| s_name := "object"; s_bases := []; s_meta := false; s_init := Stops; s_body := [("__init__"%string, false)] |};
     o_mro := ["object"%string]; o_abs := []; o_abc := false |}.
(** Executing class statements one after the other; the newest class comes first. *)
Fixpoint exec (e : env) (prog : list stmt) : res env :=
  match prog with
  | [] => Ok e
  | s :: r => match get e (s_name s) with
              | Some _ => Err ValueError
              | None => bind (class_new e s) (fun o => exec (o :: e) r)
              end
  end.
Definition run (prog : list stmt) : res env := exec [the_object] prog.

(** ** Creating instances *)
(** [object.__new__] refuses a class with abstract methods. *)
Definition instantiate (e : env) (c : string) : res unit :=
  match get e c with None => Err NameError | Some o => match o_abs o with [] => Ok tt | _ => Err TypeError end end.
(** The classes whose [__init__] runs when [c] is created, in order.  [suffix] is what is left of the method resolution order. *)
Definition init_of (e : env) (c : string) : option how :=
  match get e c with
  | None => None
  | Some o => match binding (o_stmt o) "__init__" with Some _ => Some (s_init (o_stmt o)) | None => None end
  end.
Fixpoint first_init (e : env) (mro : list string) : option (string * how * list string) :=
  match mro with
  | [] => None
  | c :: r => match init_of e c with Some h => Some (c, h, r) | None => first_init e r end
  end.
Fixpoint from (c : string) (mro : list string) : list string :=
  match mro with [] => [] | d :: r => if String.eqb c d then mro else from c r end.
Fixpoint inits (fuel : nat) (e : env) (full suffix : list string) : option (list string) :=
  match fuel with
  | O => None
  | S f =>
      match first_init e suffix with
      | None => Some []
      | Some (c, Stops, _) => Some [c]
      | Some (c, Coop, r) => option_map (cons c) (inits f e full r)
      | Some (c, Explicit d, _) =>
          match get e d with
          | None => None
          | Some o => match first_init e (o_mro o) with
                      | None => Some [c]
                      | Some (k, _, _) => option_map (cons c) (inits f e full (from k full))
                      end
          end
      end
  end.
Definition init_chain (e : env) (o : pyclass) : option (list string) := inits (S (length (o_mro o))) e (o_mro o) (o_mro o).

(** ** The classes of the library, in an order in which bases come first *)
Definition library : list stmt := [
  (** _due.py:31-46 *)
  {| s_name := "InactiveDueCreditCollector"%string; s_bases := []%string; s_meta := false; s_init := Coop;
     s_body := body []%string ["_donothing"; "dcite"; "cite"; "load"; "add"; "__repr__"]%string |};
  (** abstract_model.py:66-395 *)
  {| s_name := "Simulatable"%string; s_bases := []%string; s_meta := true; s_init := Stops;
     s_body := body ["n_modelparams"; "expparams_dtype"; "n_outcomes"; "domain"; "are_models_valid"; "simulate_experiment"]%string ["__init__"; "is_n_outcomes_constant"; "model_chain"; "base_model"; "underlying_model"; "sim_count"; "Q"; "modelparam_names"; "_repr_html_"; "are_expparam_dtypes_consistent"; "clear_cache"; "experiment_cost"; "distance"; "update_timestep"; "canonicalize"]%string |};
  (** abstract_model.py:397-528 *)
  {| s_name := "Model"%string; s_bases := ["Simulatable"]%string; s_meta := false; s_init := Coop;
     s_body := body ["likelihood"]%string ["__init__"; "call_count"; "allow_identical_outcomes"; "outcome_warning_threshold"; "is_model_valid"]%string |};
  (** abstract_model.py:531-542 *)
  {| s_name := "LinearCostModelMixin"%string; s_bases := ["Model"]%string; s_meta := false; s_init := Coop;
     s_body := body []%string ["_field"; "experiment_cost"]%string |};
  (** abstract_model.py:544-686 *)
  {| s_name := "FiniteOutcomeModel"%string; s_bases := ["Model"]%string; s_meta := false; s_init := Coop;
     s_body := body []%string ["__init__"; "n_outcomes_cutoff"; "domain"; "simulate_experiment"; "pr0_to_likelihood_array"]%string |};
  (** abstract_model.py:688-761 *)
  {| s_name := "DifferentiableModel"%string; s_bases := ["Model"]%string; s_meta := true; s_init := Coop;
     s_body := body ["score"]%string ["fisher_information"]%string |};
  (** derived_models.py:82-144 *)
  {| s_name := "DerivedModel"%string; s_bases := ["Model"]%string; s_meta := false; s_init := Coop;
     s_body := body []%string ["_underlying_model"; "__init__"; "underlying_model"; "base_model"; "model_chain"; "n_modelparams"; "expparams_dtype"; "modelparam_names"; "Q"; "clear_cache"; "n_outcomes"; "are_models_valid"; "domain"; "are_expparam_dtypes_consistent"; "update_timestep"; "canonicalize"]%string |};
  (** ale.py:66-162 *)
  {| s_name := "ALEApproximateModel"%string; s_bases := ["DerivedModel"]%string; s_meta := false; s_init := Coop;
     s_body := body []%string ["__init__"; "sim_count"; "simulate_experiment"; "likelihood"]%string |};
  (** derived_models.py:148-220 *)
  {| s_name := "PoisonedModel"%string; s_bases := ["DerivedModel"]%string; s_meta := false; s_init := Coop;
     s_body := body []%string ["__init__"; "likelihood"; "simulate_experiment"]%string |};
  (** derived_models.py:222-360 *)
  {| s_name := "BinomialModel"%string; s_bases := ["DerivedModel"]%string; s_meta := false; s_init := Coop;
     s_body := body []%string ["__init__"; "decorated_model"; "expparams_dtype"; "is_n_outcomes_constant"; "n_outcomes"; "domain"; "are_expparam_dtypes_consistent"; "likelihood"; "simulate_experiment"; "update_timestep"]%string |};
  (** derived_models.py:362-383 *)
  {| s_name := "DifferentiableBinomialModel"%string; s_bases := ["BinomialModel"; "DifferentiableModel"]%string; s_meta := false; s_init := (Explicit "BinomialModel"%string);
     s_body := body []%string ["__init__"; "score"; "fisher_information"]%string |};
  (** derived_models.py:385-508 *)
  {| s_name := "GaussianHyperparameterizedModel"%string; s_bases := ["DerivedModel"]%string; s_meta := false; s_init := Coop;
     s_body := body []%string ["__init__"; "decorated_model"; "modelparam_names"; "n_modelparams"; "domain"; "are_expparam_dtypes_consistent"; "are_models_valid"; "underlying_likelihood"; "likelihood"; "simulate_experiment"]%string |};
  (** derived_models.py:510-678 *)
  {| s_name := "MultinomialModel"%string; s_bases := ["DerivedModel"]%string; s_meta := false; s_init := Coop;
     s_body := body []%string ["__init__"; "decorated_model"; "expparams_dtype"; "is_n_outcomes_constant"; "n_sides"; "underlying_domain"; "n_outcomes"; "domain"; "are_expparam_dtypes_consistent"; "likelihood"; "simulate_experiment"]%string |};
  (** derived_models.py:681-703 *)
  {| s_name := "MLEModel"%string; s_bases := ["DerivedModel"]%string; s_meta := false; s_init := Coop;
     s_body := body []%string ["__init__"; "simulate_experiment"; "likelihood"]%string |};
  (** derived_models.py:705-741 *)
  {| s_name := "RandomWalkModel"%string; s_bases := ["DerivedModel"]%string; s_meta := false; s_init := Coop;
     s_body := body []%string ["__init__"; "likelihood"; "simulate_experiment"; "update_timestep"]%string |};
  (** derived_models.py:743-963 *)
  {| s_name := "GaussianRandomWalkModel"%string; s_bases := ["DerivedModel"]%string; s_meta := false; s_init := Coop;
     s_body := body []%string ["__init__"; "modelparam_names"; "n_modelparams"; "is_n_outcomes_constant"; "are_models_valid"; "likelihood"; "simulate_experiment"; "est_update_covariance"; "update_timestep"]%string |};
  (** distributions.py:101-127 *)
  {| s_name := "Distribution"%string; s_bases := []%string; s_meta := true; s_init := Coop;
     s_body := body ["n_rvs"; "sample"]%string []%string |};
  (** distributions.py:129-143 *)
  {| s_name := "SingleSampleMixin"%string; s_bases := []%string; s_meta := true; s_init := Coop;
     s_body := body ["_sample"]%string ["sample"]%string |};
  (** distributions.py:148-259 *)
  {| s_name := "MixtureDistribution"%string; s_bases := ["Distribution"]%string; s_meta := false; s_init := Coop;
     s_body := body []%string ["__init__"; "_dist_arg"; "_dist_kw_arg"; "n_rvs"; "n_dist"; "sample"]%string |};
  (** distributions.py:261-751 *)
  {| s_name := "ParticleDistribution"%string; s_bases := ["Distribution"]%string; s_meta := false; s_init := Coop;
     s_body := body []%string ["__init__"; "n_particles"; "n_ess"; "n_rvs"; "sample"; "particle_mean"; "particle_covariance_mtx"; "est_mean"; "est_meanfn"; "est_covariance_mtx"; "est_entropy"; "_kl_divergence"; "est_kl_divergence"; "est_cluster_moments"; "est_cluster_covs"; "est_cluster_metric"; "est_credible_region"; "region_est_hull"; "region_est_ellipsoid"; "in_credible_region"]%string |};
  (** distributions.py:753-781 *)
  {| s_name := "ProductDistribution"%string; s_bases := ["Distribution"]%string; s_meta := false; s_init := Stops;
     s_body := body []%string ["__init__"; "n_rvs"; "sample"]%string |};
  (** distributions.py:792-827 *)
  {| s_name := "UniformDistribution"%string; s_bases := ["Distribution"]%string; s_meta := false; s_init := Stops;
     s_body := body []%string ["__init__"; "n_rvs"; "sample"; "grad_log_pdf"]%string |};
  (** distributions.py:829-846 *)
  {| s_name := "ConstantDistribution"%string; s_bases := ["Distribution"]%string; s_meta := false; s_init := Stops;
     s_body := body []%string ["__init__"; "n_rvs"; "sample"]%string |};
  (** distributions.py:848-880 *)
  {| s_name := "NormalDistribution"%string; s_bases := ["Distribution"]%string; s_meta := false; s_init := Stops;
     s_body := body []%string ["__init__"; "n_rvs"; "sample"; "grad_log_pdf"]%string |};
  (** distributions.py:882-908 *)
  {| s_name := "MultivariateNormalDistribution"%string; s_bases := ["Distribution"]%string; s_meta := false; s_init := Stops;
     s_body := body []%string ["__init__"; "n_rvs"; "sample"; "grad_log_pdf"]%string |};
  (** distributions.py:911-948 *)
  {| s_name := "SlantedNormalDistribution"%string; s_bases := ["Distribution"]%string; s_meta := false; s_init := Stops;
     s_body := body []%string ["__init__"; "n_rvs"; "sample"]%string |};
  (** distributions.py:950-970 *)
  {| s_name := "LogNormalDistribution"%string; s_bases := ["Distribution"]%string; s_meta := false; s_init := Stops;
     s_body := body []%string ["__init__"; "n_rvs"; "sample"]%string |};
  (** distributions.py:972-1009 *)
  {| s_name := "BetaDistribution"%string; s_bases := ["Distribution"]%string; s_meta := false; s_init := Stops;
     s_body := body []%string ["__init__"; "n_rvs"; "sample"]%string |};
  (** distributions.py:1011-1034 *)
  {| s_name := "DirichletDistribution"%string; s_bases := ["Distribution"]%string; s_meta := false; s_init := Stops;
     s_body := body []%string ["__init__"; "alpha"; "n_rvs"; "sample"]%string |};
  (** distributions.py:1036-1082 *)
  {| s_name := "BetaBinomialDistribution"%string; s_bases := ["Distribution"]%string; s_meta := false; s_init := Stops;
     s_body := body []%string ["__init__"; "n_rvs"; "sample"]%string |};
  (** distributions.py:1084-1119 *)
  {| s_name := "GammaDistribution"%string; s_bases := ["Distribution"]%string; s_meta := false; s_init := Stops;
     s_body := body []%string ["__init__"; "n_rvs"; "sample"]%string |};
  (** distributions.py:1121-1146 *)
  {| s_name := "MVUniformDistribution"%string; s_bases := ["Distribution"]%string; s_meta := false; s_init := Stops;
     s_body := body []%string ["__init__"; "n_rvs"; "sample"]%string |};
  (** distributions.py:1148-1166 *)
  {| s_name := "DiscreteUniformDistribution"%string; s_bases := ["Distribution"]%string; s_meta := false; s_init := Stops;
     s_body := body []%string ["__init__"; "n_rvs"; "sample"]%string |};
  (** distributions.py:1168-1220 *)
  {| s_name := "HilbertSchmidtUniform"%string; s_bases := ["SingleSampleMixin"; "Distribution"]%string; s_meta := false; s_init := Stops;
     s_body := body []%string ["__init__"; "n_rvs"; "sample"; "make_Paulis"]%string |};
  (** distributions.py:1223-1267 *)
  {| s_name := "HaarUniform"%string; s_bases := ["SingleSampleMixin"; "Distribution"]%string; s_meta := false; s_init := Stops;
     s_body := body []%string ["__init__"; "n_rvs"; "_sample"]%string |};
  (** distributions.py:1269-1301 *)
  {| s_name := "GinibreUniform"%string; s_bases := ["SingleSampleMixin"; "Distribution"]%string; s_meta := false; s_init := Stops;
     s_body := body []%string ["__init__"; "n_rvs"; "_sample"]%string |};
  (** distributions.py:1304-1350 *)
  {| s_name := "PostselectedDistribution"%string; s_bases := ["Distribution"]%string; s_meta := false; s_init := Stops;
     s_body := body []%string ["__init__"; "n_rvs"; "sample"; "grad_log_pdf"]%string |};
  (** distributions.py:1352-1389 *)
  {| s_name := "InterpolatedUnivariateDistribution"%string; s_bases := ["Distribution"]%string; s_meta := false; s_init := Stops;
     s_body := body []%string ["__init__"; "_generate_interp"; "n_rvs"; "sample"]%string |};
  (** distributions.py:1391-1417 *)
  {| s_name := "ConstrainedSumDistribution"%string; s_bases := ["Distribution"]%string; s_meta := false; s_init := Coop;
     s_body := body []%string ["__init__"; "underlying_distribution"; "n_rvs"; "sample"]%string |};
  (** domains.py:70-160 *)
  {| s_name := "Domain"%string; s_bases := []%string; s_meta := true; s_init := Coop;
     s_body := body ["is_continuous"; "is_finite"; "dtype"; "n_members"; "example_point"; "values"; "in_domain"]%string ["is_discrete"]%string |};
  (** domains.py:162-302 *)
  {| s_name := "ProductDomain"%string; s_bases := ["Domain"]%string; s_meta := false; s_init := Stops;
     s_body := body []%string ["__init__"; "is_continuous"; "is_finite"; "dtype"; "n_members"; "example_point"; "values"; "_mytype"; "to_regular_arrays"; "from_regular_arrays"; "in_domain"]%string |};
  (** domains.py:307-422 *)
  {| s_name := "RealDomain"%string; s_bases := ["Domain"]%string; s_meta := false; s_init := Stops;
     s_body := body []%string ["__init__"; "min"; "max"; "is_continuous"; "is_finite"; "dtype"; "n_members"; "example_point"; "values"; "in_domain"]%string |};
  (** domains.py:424-556 *)
  {| s_name := "IntegerDomain"%string; s_bases := ["Domain"]%string; s_meta := false; s_init := Stops;
     s_body := body []%string ["__init__"; "min"; "max"; "is_continuous"; "is_finite"; "dtype"; "n_members"; "example_point"; "values"; "in_domain"]%string |};
  (** domains.py:558-700 *)
  {| s_name := "MultinomialDomain"%string; s_bases := ["Domain"]%string; s_meta := false; s_init := Stops;
     s_body := body []%string ["__init__"; "n_meas"; "n_elements"; "is_continuous"; "is_finite"; "dtype"; "n_members"; "example_point"; "values"; "to_regular_array"; "from_regular_array"; "in_domain"]%string |};
  (** expdesign.py:76-91 *)
  {| s_name := "Heuristic"%string; s_bases := []%string; s_meta := true; s_init := Stops;
     s_body := body ["__call__"]%string ["__init__"]%string |};
  (** expdesign.py:93-109 *)
  {| s_name := "EnsembleHeuristic"%string; s_bases := ["Heuristic"]%string; s_meta := false; s_init := Stops;
     s_body := body []%string ["__init__"; "__call__"]%string |};
  (** expdesign.py:111-152 *)
  {| s_name := "ExpSparseHeuristic"%string; s_bases := ["Heuristic"]%string; s_meta := false; s_init := Coop;
     s_body := body []%string ["__init__"; "__call__"]%string |};
  (** expdesign.py:154-225 *)
  {| s_name := "PGH"%string; s_bases := ["Heuristic"]%string; s_meta := false; s_init := Coop;
     s_body := body []%string ["__init__"; "__call__"]%string |};
  (** expdesign.py:227-438 *)
  {| s_name := "ExperimentDesigner"%string; s_bases := []%string; s_meta := false; s_init := Stops;
     s_body := body []%string ["__init__"; "new_exp"; "design_expparams_field"]%string |};
  (** finite_difference.py:57-91 *)
  {| s_name := "FiniteDifference"%string; s_bases := []%string; s_meta := false; s_init := Stops;
     s_body := body []%string ["__init__"; "central"; "__call__"]%string |};
  (** gpu_models.py:97-195 *)
  {| s_name := "AcceleratedPrecessionModel"%string; s_bases := ["FiniteOutcomeModel"]%string; s_meta := false; s_init := Coop;
     s_body := body []%string ["__init__"; "n_modelparams"; "expparams_dtype"; "is_n_outcomes_constant"; "are_models_valid"; "n_outcomes"; "likelihood"]%string |};
  (** ipy.py:56-122 *)
  {| s_name := "IPythonProgressBar"%string; s_bases := []%string; s_meta := false; s_init := Stops;
     s_body := body []%string ["__init__"; "description"; "start"; "update"; "finished"]%string |};
  (** parallel.py:76-287 *)
  {| s_name := "DirectViewParallelizedModel"%string; s_bases := ["DerivedModel"]%string; s_meta := false; s_init := Coop;
     s_body := body []%string ["__init__"; "__getstate__"; "_serial_model"; "n_engines"; "clear_cache"; "likelihood"; "simulate_experiment"]%string |};
  (** perf_testing.py:65-95 *)
  {| s_name := "Timer"%string; s_bases := []%string; s_meta := false; s_init := Stops;
     s_body := body []%string ["_tic"; "_toc"; "__init__"; "stop"; "__repr__"; "__str__"; "delta_t"]%string |};
  (** perf_testing.py:276-294 *)
  {| s_name := "apply_serial"%string; s_bases := []%string; s_meta := false; s_init := Stops;
     s_body := body []%string ["_value"; "_done"; "__init__"; "get"]%string |};
  (** rb.py:81-247 *)
  {| s_name := "RandomizedBenchmarkingModel"%string; s_bases := ["FiniteOutcomeModel"; "DifferentiableModel"]%string; s_meta := false; s_init := Coop;
     s_body := body []%string ["__init__"; "n_modelparams"; "modelparam_names"; "is_n_outcomes_constant"; "expparams_dtype"; "n_outcomes"; "are_models_valid"; "likelihood"; "score"]%string |};
  (** resamplers.py:73-95 *)
  {| s_name := "Resampler"%string; s_bases := []%string; s_meta := true; s_init := Coop;
     s_body := body ["__call__"]%string []%string |};
  (** resamplers.py:97-169 *)
  {| s_name := "ClusteringResampler"%string; s_bases := []%string; s_meta := false; s_init := Stops;
     s_body := body []%string ["__init__"; "__call__"]%string |};
  (** resamplers.py:171-392 *)
  {| s_name := "LiuWestResampler"%string; s_bases := ["Resampler"]%string; s_meta := false; s_init := Stops;
     s_body := body []%string ["__init__"; "_override_h"; "a"; "__call__"]%string |};
  (** score.py:50-124 *)
  {| s_name := "ScoreMixin"%string; s_bases := []%string; s_meta := false; s_init := Coop;
     s_body := body []%string ["_h"; "h"; "score"]%string |};
  (** smc.py:97-906 *)
  {| s_name := "SMCUpdater"%string; s_bases := ["ParticleDistribution"]%string; s_meta := false; s_init := Coop;
     s_body := body []%string ["__init__"; "resample_count"; "just_resampled"; "normalization_record"; "log_total_likelihood"; "min_n_ess"; "data_record"; "resampling_divergences"; "_maybe_resample"; "reset"; "hypothetical_update"; "update"; "batch_update"; "resample"; "bayes_risk"; "expected_information_gain"; "risk"; "posterior_marginal"; "plot_posterior_marginal"; "plot_covariance"; "posterior_mesh"; "plot_posterior_contour"; "_repr_html_"]%string |};
  (** smc.py:909-1045 *)
  {| s_name := "MixedApproximateSMCUpdater"%string; s_bases := ["SMCUpdater"]%string; s_meta := false; s_init := Coop;
     s_body := body []%string ["__init__"; "hypothetical_update"]%string |};
  (** smc.py:1047-1241 *)
  {| s_name := "SMCUpdaterBCRB"%string; s_bases := ["SMCUpdater"]%string; s_meta := false; s_init := (Explicit "SMCUpdater"%string);
     s_body := body []%string ["__init__"; "_bim"; "current_bim"; "adaptive_bim"; "track_adaptive"; "prior_bayes_information"; "posterior_bayes_information"; "update"]%string |};
  (** test_models.py:64-166 *)
  {| s_name := "SimpleInversionModel"%string; s_bases := ["FiniteOutcomeModel"; "DifferentiableModel"]%string; s_meta := false; s_init := Coop;
     s_body := body []%string ["__init__"; "n_modelparams"; "modelparam_names"; "expparams_dtype"; "is_n_outcomes_constant"; "are_models_valid"; "n_outcomes"; "likelihood"; "score"]%string |};
  (** test_models.py:169-213 *)
  {| s_name := "SimplePrecessionModel"%string; s_bases := ["SimpleInversionModel"]%string; s_meta := false; s_init := Coop;
     s_body := body []%string ["expparams_dtype"; "likelihood"; "score"]%string |};
  (** test_models.py:222-259 *)
  {| s_name := "UnknownT2Model"%string; s_bases := ["FiniteOutcomeModel"]%string; s_meta := false; s_init := Coop;
     s_body := body []%string ["n_modelparams"; "modelparam_names"; "expparams_dtype"; "n_outcomes"; "are_models_valid"; "likelihood"]%string |};
  (** test_models.py:262-345 *)
  {| s_name := "CoinModel"%string; s_bases := ["FiniteOutcomeModel"; "DifferentiableModel"]%string; s_meta := false; s_init := Coop;
     s_body := body []%string ["__init__"; "n_modelparams"; "modelparam_names"; "expparams_dtype"; "is_outcomes_constant"; "are_models_valid"; "n_outcomes"; "likelihood"; "score"]%string |};
  (** test_models.py:347-401 *)
  {| s_name := "NoisyCoinModel"%string; s_bases := ["FiniteOutcomeModel"]%string; s_meta := false; s_init := Coop;
     s_body := body []%string ["__init__"; "n_modelparams"; "expparams_dtype"; "is_n_outcomes_constant"; "are_models_valid"; "n_outcomes"; "likelihood"]%string |};
  (** test_models.py:403-472 *)
  {| s_name := "NDieModel"%string; s_bases := ["FiniteOutcomeModel"]%string; s_meta := false; s_init := Coop;
     s_body := body []%string ["__init__"; "n_modelparams"; "expparams_dtype"; "is_n_outcomes_constant"; "are_models_valid"; "n_outcomes"; "likelihood"]%string |};
  (** tomography/bases.py:180-374 *)
  {| s_name := "TomographyBasis"%string; s_bases := []%string; s_meta := false; s_init := Stops;
     s_body := body []%string ["data"; "dims"; "labels"; "__init__"; "__repr__"; "_repr_html_"; "__getitem__"; "__iter__"; "__len__"; "dim"; "name"; "flat"; "state_to_modelparams"; "modelparams_to_state"; "covariance_mtx_to_superop"]%string |};
  (** tomography/distributions.py:90-141 *)
  {| s_name := "DensityOperatorDistribution"%string; s_bases := ["SingleSampleMixin"; "Distribution"]%string; s_meta := false; s_init := Stops;
     s_body := body ["_sample_dm"]%string ["__init__"; "n_rvs"; "dim"; "basis"; "_sample"]%string |};
  (** tomography/distributions.py:143-165 *)
  {| s_name := "TensorProductDistribution"%string; s_bases := ["DensityOperatorDistribution"]%string; s_meta := false; s_init := Coop;
     s_body := body []%string ["__init__"; "_sample_dm"]%string |};
  (** tomography/distributions.py:168-196 *)
  {| s_name := "GinibreDistribution"%string; s_bases := ["DensityOperatorDistribution"]%string; s_meta := false; s_init := Coop;
     s_body := body []%string ["__init__"; "__repr__"; "_sample_dm"]%string |};
  (** tomography/distributions.py:198-217 *)
  {| s_name := "GinibreReditDistribution"%string; s_bases := ["DensityOperatorDistribution"]%string; s_meta := false; s_init := Coop;
     s_body := body []%string ["__init__"; "_sample_dm"]%string |};
  (** tomography/distributions.py:219-248 *)
  {| s_name := "BCSZChoiDistribution"%string; s_bases := ["DensityOperatorDistribution"]%string; s_meta := false; s_init := Coop;
     s_body := body []%string ["__init__"; "_sample_dm"]%string |};
  (** tomography/distributions.py:250-296 *)
  {| s_name := "GADFLIDistribution"%string; s_bases := ["DensityOperatorDistribution"]%string; s_meta := false; s_init := Coop;
     s_body := body []%string ["__init__"; "_sample_dm"]%string |};
  (** tomography/expdesign.py:84-107 *)
  {| s_name := "StateTomographyHeuristic"%string; s_bases := ["Heuristic"]%string; s_meta := false; s_init := Stops;
     s_body := body ["_next_measurement"]%string ["__init__"; "__call__"]%string |};
  (** tomography/expdesign.py:110-131 *)
  {| s_name := "RandomStabilizerStateHeuristic"%string; s_bases := ["StateTomographyHeuristic"]%string; s_meta := false; s_init := Coop;
     s_body := body []%string ["__init__"; "_next_measurement"]%string |};
  (** tomography/expdesign.py:134-160 *)
  {| s_name := "RandomPauliHeuristic"%string; s_bases := ["StateTomographyHeuristic"]%string; s_meta := false; s_init := Coop;
     s_body := body []%string ["__init__"; "_next_measurement"]%string |};
  (** tomography/expdesign.py:163-191 *)
  {| s_name := "ProcessTomographyHeuristic"%string; s_bases := ["Heuristic"]%string; s_meta := false; s_init := Stops;
     s_body := body ["_next_prepmeas"]%string ["__init__"; "__call__"]%string |};
  (** tomography/expdesign.py:193-213 *)
  {| s_name := "ProductHeuristic"%string; s_bases := ["ProcessTomographyHeuristic"]%string; s_meta := false; s_init := Coop;
     s_body := body []%string ["__init__"; "_next_prepmeas"]%string |};
  (** tomography/expdesign.py:215-244 *)
  {| s_name := "BestOfKMetaheuristic"%string; s_bases := ["Heuristic"]%string; s_meta := false; s_init := Stops;
     s_body := body []%string ["__init__"; "__call__"]%string |};
  (** tomography/legacy.py:75-110 *)
  {| s_name := "GinibreQubitDistribution"%string; s_bases := ["SingleSampleMixin"; "Distribution"]%string; s_meta := false; s_init := Stops;
     s_body := body []%string ["__init__"; "n_rvs"; "_sample"]%string |};
  (** tomography/legacy.py:112-171 *)
  {| s_name := "BCSZQubitDistribution"%string; s_bases := ["SingleSampleMixin"; "Distribution"]%string; s_meta := false; s_init := Stops;
     s_body := body []%string ["__init__"; "n_rvs"; "_sample"; "to_qobj"]%string |};
  (** tomography/legacy.py:173-231 *)
  {| s_name := "QubitStatePauliModel"%string; s_bases := ["Model"]%string; s_meta := false; s_init := Coop;
     s_body := body []%string ["n_modelparams"; "expparams_dtype"; "are_models_valid"; "n_outcomes"; "likelihood"]%string |};
  (** tomography/legacy.py:233-287 *)
  {| s_name := "RebitStatePauliModel"%string; s_bases := ["Model"]%string; s_meta := false; s_init := Coop;
     s_body := body []%string ["n_modelparams"; "expparams_dtype"; "are_models_valid"; "n_outcomes"; "likelihood"]%string |};
  (** tomography/legacy.py:290-341 *)
  {| s_name := "MultiQubitStatePauliModel"%string; s_bases := ["Model"]%string; s_meta := false; s_init := Coop;
     s_body := body []%string ["__init__"; "n_modelparams"; "expparams_dtype"; "are_models_valid"; "n_outcomes"; "likelihood"]%string |};
  (** tomography/legacy.py:343-415 *)
  {| s_name := "HTCircuitModel"%string; s_bases := ["Model"]%string; s_meta := false; s_init := Coop;
     s_body := body []%string ["__init__"; "n_modelparams"; "expparams_dtype"; "is_n_outcomes_constant"; "are_models_valid"; "n_outcomes"; "likelihood"; "simulate_experiment"]%string |};
  (** tomography/models.py:82-226 *)
  {| s_name := "TomographyModel"%string; s_bases := ["FiniteOutcomeModel"]%string; s_meta := false; s_init := Coop;
     s_body := body []%string ["__init__"; "dim"; "basis"; "n_modelparams"; "modelparam_names"; "is_n_outcomes_constant"; "expparams_dtype"; "n_outcomes"; "are_models_valid"; "canonicalize"; "trunc_neg_eigs"; "renormalize"; "likelihood"]%string |};
  (** tomography/models.py:228-272 *)
  {| s_name := "DiffusiveTomographyModel"%string; s_bases := ["TomographyModel"]%string; s_meta := false; s_init := Coop;
     s_body := body []%string ["n_modelparams"; "expparams_dtype"; "modelparam_names"; "are_models_valid"; "canonicalize"; "likelihood"; "update_timestep"]%string |};
  (** unstructured_models.py:57-67 *)
  {| s_name := "UnstructuredFrequencyModel"%string; s_bases := ["Model"]%string; s_meta := false; s_init := Coop;
     s_body := body []%string []%string |}
].
