(** Model of FiniteOutcomeModel.domain and FiniteOutcomeModel.simulate_experiment
    (src/qinfer/abstract_model.py:568-580, 614-658).  The counters of the superclass call are
    modelled in StackModel.v; the likelihood is a function of outcome, model and experiment. *)
From Verif Require Import Base DomModel.

Section Sim.
  Context {M E : Type}.

  (** What simulate_experiment uses of a model. *)
  Record fmodel := {
    fm_constant : bool;                 (* is_n_outcomes_constant *)
    fm_values : list Z;                 (* domain(None).values, when the number of outcomes is constant *)
    fm_n_outcomes : E -> Z;             (* n_outcomes of one experiment *)
    fm_like : Z -> M -> E -> R          (* likelihood *)
  }.
  (** 577-579 and 626-628: [domain(None)] is IntegerDomain(min=0, max=n_outcomes(None)-1) unless overridden *)
  Definition default_values (n : Z) : list Z := id_values {| i_min := ZFin 0; i_max := ZFin (n - 1) |}.

  (** numpy indexing of a one-dimensional array: negative indices count from the end *)
  Definition np_index {A} (l : list A) (i : Z) : res A :=
    let n := Z.of_nat (length l) in
    let j := if (i <? 0)%Z then (i + n)%Z else i in
    if (0 <=? j)%Z && (j <? n)%Z then
      match nth_error l (Z.to_nat j) with Some x => Ok x | None => Err IndexError end
    else Err IndexError.

  (** 640-644 for one draw: cumsum, argmax of cdf > randnum, and the double indexing *)
  Definition pick (values : list Z) (probs : list R) (u : R) : res Z :=
    match values with
    | [] => Err ValueError                (* argmax of an empty axis *)
    | _ =>
      let k := argmax_bool (map (fun c => Rltb u c) (cumsum probs)) in
      bind (np_index values (Z.of_nat k)) (fun outcome_idx => np_index values outcome_idx)
    end.

  Inductive sim_out := Scalar (z : Z) | Tensor (t : list (list (list Z))).

  (** 638-658.  [rand r i j] is the uniform draw for repetition r, model i, experiment j. *)
  Definition simulate_experiment (m : fmodel) (mps : list M) (eps : list E) (repeat : nat) (rand : nat -> nat -> nat -> R)
    : res sim_out :=
    if fm_constant m then
      bind (mapM (fun r => mapM (fun im => mapM (fun je =>
             pick (fm_values m) (map (fun o => fm_like m o (snd im) (snd je)) (fm_values m)) (rand r (fst im) (fst je)))
             (combine (seq 0 (length eps)) eps)) (combine (seq 0 (length mps)) mps)) (seq 0 repeat))
        (fun t => match repeat, eps, mps with
                  | 1%nat, [_], [_] => match t with [[[z]]] => Ok (Scalar z) | _ => Err IndexError end
                  | _, _, _ => Ok (Tensor t)
                  end)
    else
      match eps with
      | [] => Err IndexError              (* 649: expparams[0, np.newaxis] *)
      | _ => Err AttributeError           (* 652: self.domain(single_expparams) is a list and has no attribute values *)
      end.
End Sim.
