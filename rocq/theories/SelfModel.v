(** Model of the self-tests that qinfer offers for models and domains (src/qinfer/tests/base_test.py) and of
    FiniteOutcomeModel.simulate_experiment on arrays (src/qinfer/abstract_model.py:632-658).

    Simplifications: every test method starts from the same seed, so that the prior's sample is a function of its size; domains
    list their values in one-index arrays; a test passes ([Ok tt]), raises an exception, or is still running ([None]) when [fuel]
    rounds of a while loop are over; what unittest prints is the list of results.  The error messages are left out. *)
From Coq Require Import String ZArith.
From Verif Require Import Base Ext DomModel SimModel FmtModel Nd NdModel.
From Coq Require Import List.
Close Scope string_scope.
Open Scope list_scope.

Definition check (b : bool) : res unit := if b then Ok tt else Err AssertionError.

(** ** abstract_model.py 632-658 with a constant number of outcomes *)
(** [np.cumsum(a, axis=0)] *)
Definition cumsum0 (a : nd R) : nd R := Nd (shp a) (fun ix => nth (hd 0%nat ix) (cumsum (map (fun o => get a (o :: tl ix)) (seq 0 (dim 0 a)))) 0).
(** [np.argmax(a, axis=1)] of booleans; an axis without entries has none *)
Definition argmax1 (a : nd bool) : res (nd nat) :=
  if Nat.eqb (dim 1 a) 0 then Err ValueError else
  Ok (Nd (firstn 1 (shp a) ++ skipn 2 (shp a)) (fun ix => argmax_bool (map (fun o => get a (firstn 1 ix ++ o :: skipn 1 ix)) (seq 0 (dim 1 a))))).
(** [values[a]] for an array of indices *)
Definition index_all (values : list Z) (a : nd Z) : res (nd Z) :=
  bind (mapM (np_index values) (entries a)) (fun _ => Ok (amap (fun i => match np_index values i with Ok z => z | Err _ => 0%Z end) a)).
(** [rand] is np.random.random((repeat, 1, n_models, n_experiments)). *)
Definition simulate_array {E} (values : list Z) (like : nd Z -> nd R -> list E -> res (nd R)) (rand : nat -> nat -> nat -> R)
  (mps : nd R) (es : list E) (repeat : nat) : res (nd Z) :=
  bind (like (vec 0%Z values) mps es) (fun probabilities =>
  let cdf := cumsum0 probabilities in
  let randnum := Nd [repeat; 1; dim 0 mps; length es]%nat (fun ix => rand (nth 0 ix 0%nat) (nth 2 ix 0%nat) (nth 3 ix 0%nat)) in
  bind (op2 (fun c u => Rltb u c) (Ok cdf) (Ok randnum)) (fun above =>
  bind (argmax1 above) (fun k =>
  bind (index_all values (amap Z.of_nat k)) (fun outcome_idxs =>
  bind (index_all values outcome_idxs) (fun outcomes =>
  Ok (if Nat.eqb repeat 1 && Nat.eqb (length es) 1 && Nat.eqb (dim 0 mps) 1 then scal (get outcomes [0; 0; 0]%nat) else outcomes)))))).

(** ** base_test.py 276-331, how much is tested *)
Definition n_models (n_e : nat) : nat := if Nat.eqb n_e 20 then 21%nat else 20%nat.
Definition n_outcomes (n_e : nat) : nat := (n_models n_e + n_e)%nat.
(** 343-345; three rounds are enough, see c143_sizes *)
Fixpoint repeat_from (fuel n_e r : nat) : nat :=
  match fuel with
  | O => r
  | S f => if Nat.eqb r n_e || Nat.eqb r (n_models n_e) then repeat_from f n_e (S r) else r
  end.
Definition n_repeat (n_e : nat) : nat := repeat_from 3 n_e 2.
(** 324-329 *)
Fixpoint extend {O} (fuel n : nat) (os : list O) : option (list O) :=
  if Nat.ltb (length os) n then match fuel with 0%nat => None | S f => extend f n (os ++ os) end
  else Some (if Nat.ltb n (length os) then firstn n os else os).

(** ** The model, the prior and the experiments under test *)
Record domain_obj := { o_is_domain : bool; o_values : list Z; o_in : list Z -> res bool }.
Record tested (E : Type) := {
  t_simulatable : bool; t_model : bool; t_differentiable : bool;     (* isinstance of the three classes *)
  t_n_modelparams : nat;
  t_constant : bool;                                                  (* is_n_outcomes_constant *)
  t_domain_none : res domain_obj;                                     (* domain(None) *)
  t_domain : list E -> res (list domain_obj);
  t_simulate : nd R -> list E -> nat -> res (nd Z);
  t_timestep : nd R -> list E -> res (nd R);
  t_valid : nd R -> res (nd bool);
  t_canonicalize : nd R -> res (nd R);
  t_likelihood : nd Z -> nd R -> list E -> res (nd R);
  t_fisher : nd R -> list E -> res (nd ext);
  t_score : nd Z -> nd R -> list E -> res (nd ext);                   (* return_L=False *)
  t_score_L : nd Z -> nd R -> list E -> res (nd ext * nd R)           (* return_L=True *)
}.
Arguments t_simulatable {E}. Arguments t_model {E}. Arguments t_differentiable {E}. Arguments t_n_modelparams {E}. Arguments t_constant {E}. Arguments t_domain_none {E}.
Arguments t_domain {E}. Arguments t_simulate {E}. Arguments t_timestep {E}. Arguments t_valid {E}. Arguments t_canonicalize {E}. Arguments t_likelihood {E}. Arguments t_fisher {E}.
Arguments t_score {E}. Arguments t_score_L {E}.

Section Tests.
Context {E : Type}.
Variables (m : tested E) (prior : nat -> res (nd R)) (es : list E) (fuel : nat).
Let n_e := length es.
(** 300-311 *)
Definition modelparams : res (nd R) := prior (n_models n_e).
(** 313-331; the outer [option] is the loop *)
Definition test_outcomes : option (res (nd Z)) :=
  match t_domain m es with
  | Err x => Some (Err x)
  | Ok [] => Some (Err IndexError)
  | Ok (d :: _) => match extend fuel (n_outcomes n_e) (o_values d) with None => None | Some l => Some (Ok (vec 0%Z l)) end
  end.
(** [a.all()] *)
Definition all_true (a : nd bool) : bool := forallb (fun b => b) (entries a).
(** [a.reshape(n, -1)] *)
Definition reshape_rest {A} (n : nat) (a : nd A) : res (nd A) :=
  if Nat.eqb n 0 then Err ValueError else if Nat.eqb (size a mod n) 0 then reshape [n; (size a / n)%nat] a else Err ValueError.
(** 336-358 *)
Definition test_simulate_experiment : res unit :=
  let repeat := n_repeat n_e in
  bind modelparams (fun mps => bind (t_simulate m mps es repeat) (fun outcomes =>
  bind (check (list_eqb (shp outcomes) [repeat; n_models n_e; n_e])) (fun _ =>
  bind (mapM (fun idx =>
          bind (t_domain m (firstn 1 (skipn idx es))) (fun ds =>
          match ds with
          | [] => Err IndexError
          | d :: _ => bind (take 2 idx outcomes) (fun o => bind (o_in d (entries o)) check)
          end)) (seq 0 n_e)) (fun _ => Ok tt)))).
(** 361-376 *)
Definition test_update_timestep : res unit :=
  bind modelparams (fun mps => bind (t_timestep m mps es) (fun mps =>
  bind (check (list_eqb (shp mps) [n_models n_e; t_n_modelparams m; n_e])) (fun _ =>
  bind (transpose [2; 0; 1]%nat mps) (fun a => bind (reshape_rest (n_models n_e * n_e) a) (fun rows =>
  bind (t_valid m rows) (fun v => check (all_true v))))))).
(** 378-385 *)
Definition test_domain_with_none : res unit :=
  if t_constant m then bind (t_domain_none m) (fun d => check (o_is_domain d)) else Ok tt.
(** 388-396 *)
Definition test_domain : res unit :=
  bind (t_domain m es) (fun ds => bind (check (Nat.eqb (length ds) n_e)) (fun _ => check (forallb o_is_domain ds))).
(** 406-411 *)
Definition test_are_models_valid : res unit := bind modelparams (fun mps => bind (t_valid m mps) (fun _ => Ok tt)).
(** 413-420 *)
Definition test_canonicalize : res unit :=
  bind modelparams (fun mps => bind (t_canonicalize m mps) (fun c => bind (t_valid m c) (fun v => check (all_true v)))).
(** 423-435 *)
Definition test_likelihood_of (os : res (nd Z)) : res unit :=
  bind os (fun os => bind modelparams (fun mps => bind (t_likelihood m os mps es) (fun L => check (list_eqb (shp L) [n_outcomes n_e; n_models n_e; n_e])))).
(** 445-457 *)
Definition test_fisher_information : res unit :=
  bind modelparams (fun mps => bind (t_fisher m mps es) (fun f => check (list_eqb (shp f) [t_n_modelparams m; t_n_modelparams m; n_models n_e; n_e]))).
(** numpy.testing.assert_almost_equal(a, b, 3) of two arrays *)
Definition almost_equal (a b : nd ext) : res unit :=
  bind (check (list_eqb (shp a) (shp b))) (fun _ => bind (mapM (fun p => assert_almost_equal (fst p) (snd p) 3) (combine (entries a) (entries b))) (fun _ => Ok tt)).
(** 459-479 *)
Definition test_score_of (os : res (nd Z)) : res unit :=
  bind os (fun os => bind modelparams (fun mps =>
  bind (t_score m os mps es) (fun score1 => bind (t_likelihood m os mps es) (fun L1 => bind (t_score_L m os mps es) (fun sL =>
  bind (almost_equal score1 (fst sL)) (fun _ => bind (almost_equal (amap Fin L1) (amap Fin (snd sL))) (fun _ =>
  check (list_eqb (shp (fst sL)) [t_n_modelparams m; n_outcomes n_e; n_models n_e; n_e])))))))).
Definition with_outcomes (f : res (nd Z) -> res unit) : option (res unit) := option_map f test_outcomes.
Definition test_likelihood : option (res unit) := with_outcomes test_likelihood_of.
Definition test_score : option (res unit) := with_outcomes test_score_of.

(** What unittest's loader finds, in its (alphabetical) order *)
Definition simulatable_tests : list (string * option (res unit)) :=
  [("test_domain", Some test_domain); ("test_domain_with_none", Some test_domain_with_none);
   ("test_simulate_experiment", Some test_simulate_experiment); ("test_update_timestep", Some test_update_timestep)]%string.
Definition model_tests : list (string * option (res unit)) :=
  [("test_are_models_valid", Some test_are_models_valid); ("test_canonicalize", Some test_canonicalize); ("test_domain", Some test_domain);
   ("test_domain_with_none", Some test_domain_with_none); ("test_likelihood", test_likelihood);
   ("test_simulate_experiment", Some test_simulate_experiment); ("test_update_timestep", Some test_update_timestep)]%string.
Definition differentiable_tests : list (string * option (res unit)) :=
  [("test_are_models_valid", Some test_are_models_valid); ("test_canonicalize", Some test_canonicalize); ("test_domain", Some test_domain);
   ("test_domain_with_none", Some test_domain_with_none); ("test_fisher_information", Some test_fisher_information); ("test_likelihood", test_likelihood);
   ("test_score", test_score); ("test_simulate_experiment", Some test_simulate_experiment); ("test_update_timestep", Some test_update_timestep)]%string.
(** One test after the other: an endless one ends it all. *)
Fixpoint run_suite (l : list (string * option (res unit))) : option (list (string * res unit)) :=
  match l with
  | [] => Some []
  | (n, Some r) :: l' => option_map (cons (n, r)) (run_suite l')
  | (_, None) :: _ => None
  end.
(** 56-87.  What is printed, and what is returned: [runner.run] gives a result object which is dropped. *)
Inductive pyvalue := PNone | PList {A : Type} (l : list A).
Definition test_model : res (option (list (string * res unit) * pyvalue)) :=
  let go l := Ok (option_map (fun r => (r, PNone)) (run_suite l)) in
  if t_differentiable m then go differentiable_tests
  else if t_model m then go model_tests
  else if t_simulatable m then go simulatable_tests
  else Err ValueError.
End Tests.

(** ** 89-106, assert_warns: the categories of the warnings given by the body, and how the body ended; [sub] is issubclass *)
Definition assert_warns {W} (sub : W -> W -> bool) (category : W) (caught : list W) (body : res unit) : res unit :=
  bind body (fun _ => check (existsb (fun w => sub w category) caught)).

(** ** 110-144, MockModel *)
Definition mock_domain : domain_obj :=
  {| o_is_domain := true; o_values := default_values 2; o_in := fun l => Ok (id_in_domain {| i_min := ZFin 0; i_max := ZFin 1 |} (map (fun z => PRe (Fin (IZR z))) l)) |}.
Definition mock_likelihood {E} (outcomes : nd Z) (mps : nd R) (es : list E) : res (nd R) :=
  pr0_to_likelihood_array outcomes (amap (fun x => x / 2) (Nd [dim 0 mps; length es] (fun _ => 1))).
Definition mock_model {E} (n_mps : nat) (rand : nat -> nat -> nat -> R) : tested E :=
  {| t_simulatable := true; t_model := true; t_differentiable := false; t_n_modelparams := n_mps; t_constant := true;
     t_domain_none := Ok mock_domain; t_domain := fun es => Ok (map (fun _ => mock_domain) es);
     t_simulate := simulate_array (o_values mock_domain) mock_likelihood rand;
     t_timestep := default_timestep; t_valid := fun mps => Ok (Nd [dim 0 mps] (fun _ => true)); t_canonicalize := fun mps => Ok mps;
     t_likelihood := mock_likelihood; t_fisher := fun _ _ => Err AttributeError; t_score := fun _ _ _ => Err AttributeError; t_score_L := fun _ _ _ => Err AttributeError |}.

(** ** 154-192, MockDirectView.  Python's [map]: the arguments stop with the shortest sequence; there must be one. *)
Fixpoint zip_shortest {A} (n : nat) (seqs : list (list A)) : list (list A) :=
  match n with
  | O => []
  | S k => if forallb (fun s => match s with [] => false | _ => true end) seqs
           then concat (map (firstn 1) seqs) :: zip_shortest k (map (@tl A) seqs) else []
  end.
Definition py_map {A B} (f : list A -> res B) (seqs : list (list A)) : res (list B) :=
  match seqs with [] => Err TypeError | s :: _ => mapM f (zip_shortest (length s) seqs) end.
(** 182-186.  MockAsyncMapResult (150-152) is defined with [def]: a function whose body defines another function and returns nothing. *)
Definition mock_async_map_result {A} (value : list A) : pyvalue := PNone.
Definition mock_map {A B} (f : list A -> res B) (seqs : list (list A)) (block : option bool) : res pyvalue :=
  bind (py_map f seqs) (fun l => Ok (if match block with Some b => b | None => false end then PList l else mock_async_map_result l)).
Definition map_sync {A B} (f : list A -> res B) (seqs : list (list A)) : res pyvalue := mock_map f seqs (Some true).
Definition map_async {A B} (f : list A -> res B) (seqs : list (list A)) : res pyvalue := mock_map f seqs (Some false).

(** ** 483-596, the tests of a domain *)
Record tested_domain (P : Type) := { u_continuous : bool; u_finite : bool; u_members : option Z; u_example : P; u_values : list P; u_in : list P -> bool }.
Arguments u_continuous {P}. Arguments u_finite {P}. Arguments u_members {P}. Arguments u_example {P}. Arguments u_values {P}. Arguments u_in {P}.
(** 546-578; that the example point has the domain's dtype is left out *)
Definition domain_tests {P} (d : tested_domain P) : list (res unit) :=
  let discrete := negb (u_continuous d) in
  [ check (negb (Bool.eqb (u_continuous d) discrete));
    (if u_finite d then check discrete else Ok tt);
    check (u_in d [u_example d]);
    bind (match u_members d with Some n => check (Z.of_nat (length (u_values d)) =? n)%Z | None => Ok tt end) (fun _ => check (u_in d (u_values d))) ].
(** 580-596 *)
Definition test_in_domain {P} (d : tested_domain P) (good bad : list P) : res unit :=
  bind (mapM (fun v => check (u_in d [v])) good) (fun _ => bind (mapM (fun v => check (negb (u_in d [v]))) bad) (fun _ => Ok tt)).
Definition int_tested (d : int_domain) : tested_domain pt :=
  {| u_continuous := false; u_finite := id_is_finite d; u_members := id_n_members d; u_example := PRe (Fin (IZR (id_example d)));
     u_values := map (fun z => PRe (Fin (IZR z))) (id_values d); u_in := id_in_domain d |}.
(** domains.py 341-405 *)
Definition real_tested (d : real_domain) : tested_domain pt :=
  {| u_continuous := true; u_finite := false; u_members := None; u_example := PRe (rd_example d); u_values := [PRe (rd_example d)]; u_in := rd_in_domain d |}.
Definition mult_tested (d : mult_domain) (values : list (list Z)) : tested_domain (list Z) :=
  {| u_continuous := false; u_finite := true; u_members := Some (Z.of_nat (md_n_members d)); u_example := md_example d; u_values := values; u_in := md_in_domain d |}.
