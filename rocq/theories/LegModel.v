(** Model of the models in src/qinfer/tomography/legacy.py: QubitStatePauliModel, RebitStatePauliModel, MultiQubitStatePauliModel and
    HTCircuitModel.  Arrays are lists; NumPy broadcasting of two arrays along one axis is [bc].  Uniform and integer variates are
    arguments. *)
From Coq Require Import String.
From Verif Require Import Base Sums TwoModel TomoModel StateModel.
From Coq Require Import List.
Close Scope string_scope.

(** ** Class tables: which names a class defines and which it declares abstract.
    abstract_model.py 66-395 (Simulatable), 397-529 (Model); only names relevant for instantiation and for [Model.*] look-ups. *)
Definition cls_Simulatable := {| c_defines := ["__init__"; "sim_count"; "Q"; "modelparam_names"; "is_n_outcomes_constant"; "clear_cache"; "experiment_cost"; "distance"; "update_timestep"; "canonicalize"; "are_expparam_dtypes_consistent"; "model_chain"; "base_model"; "underlying_model"; "_repr_html_"]%string;
  c_abstract := ["n_modelparams"; "expparams_dtype"; "n_outcomes"; "domain"; "are_models_valid"; "simulate_experiment"]%string |}.
Definition cls_Model := {| c_defines := ["__init__"; "call_count"; "allow_identical_outcomes"; "outcome_warning_threshold"; "is_model_valid"]%string; c_abstract := ["likelihood"]%string |}.
(** abstract_model.py 544-686 *)
Definition cls_FiniteOutcome := {| c_defines := ["__init__"; "n_outcomes_cutoff"; "domain"; "simulate_experiment"; "pr0_to_likelihood_array"]%string; c_abstract := [] |}.
(** legacy.py 173-231, 233-287, 290-341, 343-415 *)
Definition legacy_names := ["n_modelparams"; "expparams_dtype"; "are_models_valid"; "n_outcomes"; "likelihood"]%string.
Definition mro_Qubit := [{| c_defines := legacy_names; c_abstract := [] |}; cls_Model; cls_Simulatable].
Definition mro_Rebit := [{| c_defines := legacy_names; c_abstract := [] |}; cls_Model; cls_Simulatable].
Definition mro_MultiQubit := [{| c_defines := "__init__"%string :: legacy_names; c_abstract := [] |}; cls_Model; cls_Simulatable].
Definition mro_HTCircuit := [{| c_defines := ["__init__"; "is_n_outcomes_constant"; "simulate_experiment"]%string ++ legacy_names; c_abstract := [] |}; cls_Model; cls_Simulatable].
(** Attribute access on a class: the name is looked up along the MRO. *)
Definition has_attr (mro : list pyclass) (name : string) : bool :=
  existsb (fun k => existsb (String.eqb name) (c_abstract k ++ c_defines k)) mro.
(** [Model.pr0_to_likelihood_array(outcomes, pr0)] as the legacy models call it: the class is Model, not FiniteOutcomeModel. *)
Definition to_likelihood_of (mro : list pyclass) (os : list Z) (pr0 : list (list R)) : res (list (list (list R))) :=
  if has_attr mro "pr0_to_likelihood_array" then Ok (map (fun o => map (map (fun p => pr0_like p o)) pr0) os) else Err AttributeError.
Definition model_to_likelihood := to_likelihood_of [cls_Model; cls_Simulatable].
(** The same call on FiniteOutcomeModel, where the method lives now (abstract_model.py 665-686). *)
Definition finite_to_likelihood := to_likelihood_of [cls_FiniteOutcome; cls_Model; cls_Simulatable].

(** ** Broadcasting along the first axis *)
Definition bc {A B} (l : list A) (m : list B) : res (list (A * B)) :=
  match l, m with
  | _, [y] => Ok (map (fun x => (x, y)) l)
  | [x], _ => Ok (map (fun y => (x, y)) m)
  | _, _ => if Nat.eqb (length l) (length m) then Ok (combine l m) else Err ValueError
  end.

Section Conv.
(** What happens at the end of each [likelihood]. *)
Variable conv : list Z -> list (list R) -> res (list (list (list R))).

(** An experiment of the single-qubit models: axis and visibility. *)
Definition axis := list R.
(** legacy.py 201-231: pr0 = 0.5*(1 + np.sum(modelparams*expparams['axis'],1)), the visibility, a new last axis *)
Definition qubit_pr0 (mps : list (list R)) (eps_ : list (axis * R)) : res (list (list R)) :=
  bind (bc mps (map fst eps_)) (fun prs =>
  bind (bc (map snd eps_) (map (fun p => (1/2) * (1 + rdot (fst p) (snd p))) prs)) (fun vs =>
  Ok (map (fun v => [fst v * snd v + (1 - fst v) * (1/2)]) vs))).
Definition qubit_likelihood (os : list Z) mps eps_ := bind (qubit_pr0 mps eps_) (conv os).
(** legacy.py 254-287: clipping to the unit interval; the visibility is not used *)
Definition rebit_pr0 (mps : list (list R)) (eps_ : list (axis * R)) : res (list (list R)) :=
  bind (bc mps (map fst eps_)) (fun prs => Ok (map (fun p => [clip 0 1 ((1/2) * (1 + rdot (fst p) (snd p)))]) prs)).
Definition rebit_likelihood (os : list Z) mps eps_ := bind (rebit_pr0 mps eps_) (conv os).
(** legacy.py 317-341: modelparams[:, expparams['pauli']], clipped, then the visibility; a Python index, negative ones from the end *)
Definition py_index (row : list R) (i : Z) : res R :=
  let n := Z.of_nat (length row) in
  if ((- n <=? i) && (i <? n))%Z then Ok (nth (Z.to_nat (if (i <? 0)%Z then i + n else i)) row 0) else Err IndexError.
Definition multi_pr0 (mps : list (list R)) (eps_ : list (Z * R)) : res (list (list R)) :=
  map_res (fun row => map_res (fun e => bind (py_index row (fst e)) (fun x =>
    Ok (snd e * clip 0 1 ((1/2) * (1 + x)) + (1 - snd e) * (1/2)))) eps_) mps.
Definition multi_likelihood (os : list Z) mps eps_ := bind (multi_pr0 mps eps_) (conv os).

(** ** HTCircuitModel, legacy.py 343-415 *)
Variables (m : nat) (f : list Z).
(** f[:2**m] and f[-2**m:] *)
Definition F0 : list Z := firstn (2 ^ m) f.
Definition F1 : list Z := skipn (length f - 2 ^ m) f.
(** np.sum((F+1) % 2) *)
Definition count_even (F : list Z) : Z := fold_right Z.add 0%Z (map (fun z => ((z + 1) mod 2)%Z) F).
(** 374-389; one column per model whatever the experiments *)
Definition ht_pr0 (lam : R) : R := lam * IZR (count_even F0) / 2 ^ m + (1 - lam) * IZR (count_even F1) / 2 ^ m.
Definition ht_likelihood (os : list Z) (mps : list R) : res (list (list (list R))) := conv os (map (fun l => [ht_pr0 l]) mps).
(** 391-415 with use_like=False: [us] are the uniform variates with the model parameter they are compared with, in the order in which
    NumPy traverses the array; [xs0], [xs1] the integers drawn for the entries selected and not selected by idx_zeros. *)
Definition ht_select (u lam : R) : bool := Rltb (1/2 * (1 - lam)) u.
Definition pick (F : list Z) (x : nat) : res Z := match nth_error F x with Some z => Ok (z mod 2)%Z | None => Err IndexError end.
Fixpoint ht_fill (us : list (R * R)) (xs0 xs1 : list nat) : res (list Z) :=
  match us with
  | [] => Ok []
  | (u, lam) :: us' =>
      if ht_select u lam
      then match xs0 with x :: xs0' => bind (pick F0 x) (fun z => bind (ht_fill us' xs0' xs1) (fun zs => Ok (z :: zs))) | [] => Err ValueError end
      else match xs1 with x :: xs1' => bind (pick F1 x) (fun z => bind (ht_fill us' xs0 xs1') (fun zs => Ok (z :: zs))) | [] => Err ValueError end
  end.
End Conv.
