(** Model of stacks of derived models: src/qinfer/derived_models.py (DerivedModel and its subclasses),
    the counters and chain properties of src/qinfer/abstract_model.py, and the counting part of
    src/qinfer/parallel.py.  Numerical results are modelled elsewhere; here a call is known by its sizes. *)
From Verif Require Import Base.

(** What the stack code uses of a stand-alone model.  [E] are experiments. *)
Record base (E : Type) := {
  b_tag : nat;                             (* object identity *)
  b_n_modelparams : nat;
  b_names : list nat;                      (* modelparam_names, as opaque labels *)
  b_constant : bool;                       (* is_n_outcomes_constant *)
  b_n_outcomes : option E -> nat;          (* n_outcomes, [None] for the argument None *)
  b_valid : list R -> bool;                (* are_models_valid of one row *)
  b_counts : bool                          (* does likelihood() call the superclass, which counts?  False for
                                              UnknownT2Model (test_models.py:246) and NoisyCoinModel (test_models.py:390) *)
}.
Arguments b_tag {E}. Arguments b_n_modelparams {E}. Arguments b_names {E}. Arguments b_constant {E}.
Arguments b_n_outcomes {E}. Arguments b_valid {E}. Arguments b_counts {E}.

Inductive wrapper :=
| Poisoned                                 (* derived_models.py:148-220 *)
| Binomial                                 (* 222-360, and its subclass DifferentiableBinomialModel 362-383 *)
| GaussHyper                               (* 385-508 *)
| Multinomial (n_sides : nat)              (* 510-678; n_sides as stored by __init__ *)
| MLE                                      (* 681-703 *)
| RandomWalk                               (* 705-741 *)
| GaussRW (srw : list nat) (diag : bool)   (* 743-963; names of the appended parameters (none for a fixed covariance) *)
| Parallel (serial_threshold : nat).       (* parallel.py:76-287 *)

Inductive model (E : Type) :=
| MBase (b : base E)
| MDerived (w : wrapper) (u : model E).
Arguments MBase {E}. Arguments MDerived {E}.

Section Chain.
  Context {E : Type}.
  Variable n_meas : E -> nat.              (* expparams['n_meas'] *)

  (** abstract_model.py:134-141; derived_models.py:103-105 *)
  Fixpoint model_chain (m : model E) : list (model E) :=
    match m with
    | MBase _ => []
    | MDerived _ u => model_chain u ++ [u]
    end.
  (** abstract_model.py:143-149; derived_models.py:99-101 *)
  Fixpoint base_model (m : model E) : model E :=
    match m with
    | MBase _ => m
    | MDerived _ u => base_model u
    end.
  (** abstract_model.py:151-158 [model_chain[-1] if model_chain else None]; derived_models.py:95-97 *)
  Definition underlying_model (m : model E) : option (model E) :=
    match m with
    | MBase _ => match rev (model_chain m) with [] => None | x :: _ => Some x end
    | MDerived _ u => Some u
    end.

  (** modelparam_names: 116-118; 410-415; 865-867.  The four names added by the hyperparameterized model are labels 1..4. *)
  Fixpoint modelparam_names (m : model E) : list nat :=
    match m with
    | MBase b => b_names b
    | MDerived GaussHyper u => modelparam_names u ++ [1; 2; 3; 4]%nat
    | MDerived (GaussRW srw _) u => modelparam_names u ++ srw
    | MDerived _ u => modelparam_names u
    end.
  (** n_modelparams: 107-110; 417-419; 869-871 *)
  Fixpoint n_modelparams (m : model E) : nat :=
    match m with
    | MBase b => b_n_modelparams b
    | MDerived GaussHyper _ | MDerived (GaussRW _ _) _ => length (modelparam_names m)
    | MDerived _ u => n_modelparams u
    end.

  (** is_n_outcomes_constant: DerivedModel does not override it, so Simulatable's default True (abstract_model.py:123-131)
      applies except in BinomialModel 261-270, MultinomialModel 559-569 and GaussianRandomWalkModel 873-875. *)
  Definition is_n_outcomes_constant (m : model E) : bool :=
    match m with
    | MBase b => b_constant b
    | MDerived Binomial _ | MDerived (Multinomial _) _ | MDerived (GaussRW _ _) _ => false
    | MDerived _ _ => true
    end.

  (** n_outcomes: 127-128; 274-283; 584-597 (scipy is not imported as a name: NameError) *)
  Fixpoint n_outcomes (m : model E) (e : option E) : res nat :=
    match m with
    | MBase b => Ok (b_n_outcomes b e)
    | MDerived Binomial _ => match e with Some x => Ok (n_meas x + 1)%nat | None => Err TypeError end
    | MDerived (Multinomial _) _ => match e with Some x => Err NameError | None => Err TypeError end
    | MDerived _ u => n_outcomes u e
    end.

  (** are_models_valid of one row: 130-131; 429-436; 879-887 *)
  Fixpoint are_models_valid (m : model E) (x : list R) : bool :=
    match m with
    | MBase b => b_valid b x
    | MDerived GaussHyper u =>
        let n := n_modelparams u in
        are_models_valid u (firstn n x) && forallb (fun s => Rltb 0 s) (firstn 2 (skipn (n + 2) x))
    | MDerived (GaussRW srw diag) u =>
        let n := n_modelparams u in
        match srw with
        | [] => are_models_valid u (firstn n x)
        | _ => if diag then are_models_valid u (firstn n x) && forallb (fun s => Rleb 0 s) (firstn (length srw) (skipn n x))
               else are_models_valid u (firstn n x)
        end
    | MDerived _ u => are_models_valid u x
    end.

  (** ** Constructors that check their argument *)
  (** 238-242, 401-402: [if not (u.is_n_outcomes_constant and u.n_outcomes(None) == 2): raise ValueError] *)
  Definition two_outcome_check (w : wrapper) (u : model E) : res (model E) :=
    if is_n_outcomes_constant u then
      match n_outcomes u None with
      | Ok n => if Nat.eqb n 2 then Ok (MDerived w u) else Err ValueError
      | Err x => Err x
      end
    else Err ValueError.
  Definition new_binomial := two_outcome_check Binomial.
  Definition new_gauss_hyper := two_outcome_check GaussHyper.
  (** 362-369, DifferentiableBinomialModel.__init__; [d] says whether the model is a DifferentiableModel *)
  Definition new_differentiable_binomial (d : bool) (u : model E) : res (model E) :=
    if d then new_binomial u else Err TypeError.
  (** 705-724, RandomWalkModel.__init__ *)
  Definition new_random_walk (u : model E) (n_rvs : nat) : res (model E) :=
    if Nat.eqb (n_modelparams u) n_rvs then Ok (MDerived RandomWalk u) else Err TypeError.
End Chain.

(** ** Counters *)
Inductive call :=
| CLike (n_o n_m n_e : nat)                (* a call of likelihood with these sizes (safe_shape of each argument) *)
| CSim (n_m n_e repeat : nat).             (* a call of simulate_experiment *)

(** One model of the stack: its two counters, and (for specification only) the calls made to its methods. *)
Record lstate := { calls : nat; sims : nat; log : list call }.
Definition fresh : lstate := {| calls := 0; sims := 0; log := [] |}.
Definition enter (c : call) (s : lstate) : lstate := {| calls := calls s; sims := sims s; log := log s ++ [c] |}.
(** abstract_model.py:466-468, Model.likelihood *)
Definition count_like (n_o n_m n_e : nat) (s : lstate) : lstate :=
  {| calls := calls s + n_o * n_m * n_e; sims := sims s; log := log s |}.
(** abstract_model.py:306, Simulatable.simulate_experiment *)
Definition count_sim (n_m n_e repeat : nat) (s : lstate) : lstate :=
  {| calls := calls s; sims := sims s + n_m * n_e * repeat; log := log s |}.

Section Counters.
  Context {E : Type}.
  (** The state of a stack: outermost model first. *)
  Definition head (f : lstate -> lstate) (ss : list lstate) : list lstate :=
    match ss with [] => [] | s :: r => f s :: r end.
  Definition tail_do (f : list lstate -> list lstate) (ss : list lstate) : list lstate :=
    match ss with [] => [] | s :: r => s :: f r end.

  (** likelihood *)
  Fixpoint like (m : model E) (n_o n_m n_e : nat) (ss : list lstate) : list lstate :=
    let ss := head (enter (CLike n_o n_m n_e)) ss in
    match m with
    | MBase b => if b_counts b then head (count_like n_o n_m n_e) ss else ss
    | MDerived w u =>
      match w with
      | Poisoned | RandomWalk | GaussRW _ _ =>                       (* 186-206; 728-730; 889-891 *)
          tail_do (like u n_o n_m n_e) (head (count_like n_o n_m n_e) ss)
      | Binomial => tail_do (like u 1 n_m n_e) (head (count_like n_o n_m n_e) ss)      (* 313-328 *)
      | GaussHyper => tail_do (like u 2 n_m n_e) (head (count_like n_o n_m n_e) ss)    (* 446-482 *)
      | Multinomial k => tail_do (like u (k - 1) n_m n_e) (head (count_like n_o n_m n_e) ss)   (* 628-651 *)
      | MLE => tail_do (like u n_o n_m n_e) ss                       (* 701-703: the superclass is not called *)
      | Parallel t =>                                                (* parallel.py:178-215; larger calls go to copies *)
          let ss := head (count_like n_o n_m n_e) ss in
          if Nat.leb n_m t then tail_do (like u n_o n_m n_e) ss else ss
      end
    end.

  (** simulate_experiment *)
  Fixpoint sim (m : model E) (n_m n_e repeat : nat) (ss : list lstate) : list lstate :=
    let ss := head (enter (CSim n_m n_e repeat)) ss in
    match m with
    | MBase b =>                                                     (* abstract_model.py:632-641 *)
        like m (b_n_outcomes b None) n_m n_e (head (count_sim n_m n_e repeat) ss)
    | MDerived w u =>
      match w with
      | Poisoned | MLE | RandomWalk | GaussRW _ _ =>                 (* 208-220; 697-699; 732-734; 893-895 *)
          tail_do (sim u n_m n_e repeat) (head (count_sim n_m n_e repeat) ss)
      | Binomial => tail_do (like u 1 n_m n_e) ss                    (* 330-353: the superclass call is commented out *)
      | GaussHyper => tail_do (sim u n_m n_e repeat) (head (count_sim n_m n_e 1) ss)   (* 484-508: repeat not passed on *)
      | Multinomial k => tail_do (like u (k - 1) n_m n_e) (head (count_sim n_m n_e 1) ss)   (* 653-668: repeat not passed on *)
      | Parallel t =>                                                (* parallel.py:217-254, split_by_modelparams=True *)
          let ss := head (count_sim n_m n_e repeat) ss in
          if Nat.leb n_m t then tail_do (sim u n_m n_e repeat) ss else ss
      end
    end.

  Definition do_call (m : model E) (ss : list lstate) (c : call) : list lstate :=
    match c with
    | CLike n_o n_m n_e => like m n_o n_m n_e ss
    | CSim n_m n_e r => sim m n_m n_e r ss
    end.
  (** The models of a stack, outermost first, and the state after construction. *)
  Fixpoint layers (m : model E) : list (model E) :=
    match m with
    | MBase _ => [m]
    | MDerived _ u => m :: layers u
    end.
  Definition start_counters (m : model E) : list lstate := repeat fresh (length (layers m)).
  (** After any sequence of calls to the outermost model. *)
  Definition run_calls (m : model E) (cs : list call) : list lstate := fold_left (do_call m) cs (start_counters m).
End Counters.
