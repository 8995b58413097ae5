(** Model of experiment arrays and the dtypes that models declare for them: src/qinfer/derived_models.py (rmfield,
    expparams_dtype and the field accesses of the derived models), and the expparams_dtype properties and field accesses of
    the models in test_models.py, rb.py, tomography/models.py and gpu_models.py.  Stacks of derived models are those of
    StackModel.v. *)
From Coq Require Import String.
From Verif Require Import Base StackModel.
Open Scope string_scope.
Open Scope list_scope.

(** Formats of fields, and the argument of np.empty(..., dtype=...): a string, or a list of named fields. *)
Inductive fmt := FFloat | FInt | FUint | FBool | FVec (n : nat).
Inductive dtype := DStr (f : fmt) | DList (fs : list (string * fmt)).
Definition names_of (fs : list (string * fmt)) : list string := map fst fs.

(** One-dimensional arrays of experiments, plain or with named fields.  [V] are field values; every row has one value for
    each name. *)
Inductive earr (V : Type) := APlain (xs : list V) | ARec (names : list string) (rows : list (list V)).
Arguments APlain {V}. Arguments ARec {V}.

Section Arrays.
  Context {V : Type}.
  Definition shape0 (a : earr V) : nat := match a with APlain xs => length xs | ARec _ rows => length rows end.

  (** Position of a name among the names of an array. *)
  Fixpoint index_of (f : string) (names : list string) : option nat :=
    match names with
    | [] => None
    | g :: r => if String.eqb f g then Some 0%nat else option_map S (index_of f r)
    end.
  (** One element of a row; rows of a NumPy array are never too short. *)
  Fixpoint cell (i : nat) (row : list V) : res V :=
    match row, i with
    | [], _ => Err IndexError
    | v :: _, O => Ok v
    | _ :: r, S i' => cell i' r
    end.
  Fixpoint column (i : nat) (rows : list (list V)) : res (list V) :=
    match rows with
    | [] => Ok []
    | row :: rest => bind (cell i row) (fun v => bind (column i rest) (fun c => Ok (v :: c)))
    end.
  (** [a['name']]: a plain array cannot be indexed by a string, a record array raises ValueError for an unknown field *)
  Definition getfield (f : string) (a : earr V) : res (list V) :=
    match a with
    | APlain _ => Err IndexError
    | ARec names rows => match index_of f names with Some i => column i rows | None => Err ValueError end
    end.

  (** [np.empty(n, dtype=d)] and [np.array(rows, dtype=d)]: NumPy refuses a dtype in which a name occurs twice *)
  Fixpoint occurs_twice (names : list string) : bool :=
    match names with
    | [] => false
    | f :: r => existsb (String.eqb f) r || occurs_twice r
    end.
  Definition new_array (d : dtype) (rows : list (list V)) : res (earr V) :=
    match d with
    | DStr _ => bind (column 0 rows) (fun xs => Ok (APlain xs))
    | DList fs => if occurs_twice (names_of fs) then Err ValueError else Ok (ARec (names_of fs) rows)
    end.

  (** [a[[name, ...]]]: the chosen fields, in the order of the list *)
  Fixpoint row_fields (names keep : list string) (row : list V) : res (list V) :=
    match keep with
    | [] => Ok []
    | f :: r => match index_of f names with
                | Some i => bind (cell i row) (fun v => bind (row_fields names r row) (fun l => Ok (v :: l)))
                | None => Err KeyError
                end
    end.
  Fixpoint rows_fields (names keep : list string) (rows : list (list V)) : res (list (list V)) :=
    match rows with
    | [] => Ok []
    | row :: rest => bind (row_fields names keep row) (fun x => bind (rows_fields names keep rest) (fun xs => Ok (x :: xs)))
    end.
  (** derived_models.py:75-77, rmfield; [a.dtype.names] is None for a plain array, which cannot be iterated *)
  Definition rmfield (a : earr V) (remove : list string) : res (earr V) :=
    match a with
    | APlain _ => Err TypeError
    | ARec names rows =>
        let keep := filter (fun f => negb (existsb (String.eqb f) remove)) names in
        bind (rows_fields names keep rows) (fun r => Ok (ARec keep r))
    end.

  (** What a base model's likelihood takes from the array: one list of values per experiment. *)
  Fixpoint zip2 (a b : list V) : list (list V) :=
    match a, b with x :: a', y :: b' => [x; y] :: zip2 a' b' | _, _ => [] end.
  Definition read1 (f : string) (a : earr V) : res (list (list V)) := bind (getfield f a) (fun c => Ok (map (fun x => [x]) c)).
  Definition read2 (f g : string) (a : earr V) : res (list (list V)) :=
    bind (getfield f a) (fun c => bind (getfield g a) (fun c' => Ok (zip2 c c'))).
End Arrays.

(** ** The library's base models *)
Inductive known :=
| SimpleInversion                          (* test_models.py:68-163 *)
| SimplePrecession                         (* test_models.py:165-216 *)
| UnknownT2                                (* test_models.py:225-261 *)
| Coin                                     (* test_models.py:263-344 *)
| NoisyCoin                                (* test_models.py:346-397 *)
| NDie                                     (* test_models.py:399-470 *)
| RB (interleaved : bool)                  (* rb.py:78-200 *)
| Tomography (dim : nat)                   (* tomography/models.py:77-226 *)
| DiffusiveTomography (dim : nat)          (* tomography/models.py:228-290 *)
| AccPrecession.                           (* gpu_models.py:97-225 *)

(** expparams_dtype: test_models.py:92-94, 184-186, 240-242, 285-287, 375-377, 430-434; rb.py:140-144;
    tomography/models.py:134-138, 233-237; gpu_models.py:126-128 *)
Definition tomography_dtype (dim : nat) : list (string * fmt) := [("meas", FVec (dim * dim))].
Definition known_dtype (k : known) : dtype :=
  match k with
  | SimpleInversion => DList [("t", FFloat); ("w_", FFloat)]
  | SimplePrecession => DStr FFloat
  | UnknownT2 => DList [("t", FFloat)]
  | Coin => DList []
  | NoisyCoin => DList [("alpha", FFloat); ("beta", FFloat)]
  | NDie => DList [("exp_num", FInt)]
  | RB il => DList ([("m", FUint)] ++ if il then [("reference", FBool)] else [])
  | Tomography dim => DList (tomography_dtype dim)
  | DiffusiveTomography dim => DList (tomography_dtype dim ++ [("t", FFloat)])
  | AccPrecession => DStr FFloat
  end.

Section Reads.
  Context {V : Type}.
  Variable zero : V.                       (* the 0 that SimplePrecessionModel stores in the field w_ *)
  (** test_models.py:188-196: [new_eps['t'] = expparams] fails with ValueError for a record array, and the field 't' of the
      array is taken instead; the superclass then reads 't' and 'w_' of the new array *)
  Definition precession_eps (a : earr V) : res (earr V) :=
    bind (match a with
          | APlain xs => Ok xs
          | ARec _ _ => getfield "t" a
          end) (fun ts => Ok (ARec ["t"; "w_"] (map (fun t => [t; zero]) ts))).
  (** The field accesses of likelihood(): test_models.py:133-134, 188-197, 252, 320, 391-392, 467-470; rb.py:192-197;
      tomography/models.py:216-223 (inherited by DiffusiveTomographyModel); gpu_models.py:183-206 *)
  Definition known_reads (k : known) (a : earr V) : res (list (list V)) :=
    match k with
    | SimpleInversion => read2 "t" "w_" a
    | SimplePrecession => bind (precession_eps a) (read2 "t" "w_")
    | UnknownT2 => read1 "t" a
    | Coin | NDie => Ok (repeat [] (shape0 a))
    | NoisyCoin => read2 "alpha" "beta" a
    | RB il => if il then read2 "reference" "m" a else read1 "m" a
    | Tomography _ | DiffusiveTomography _ => read1 "meas" a
    | AccPrecession => match a with APlain xs => Ok (map (fun x => [x]) xs) | ARec _ _ => Err TypeError end
    end.
  (** update_timestep of DiffusiveTomographyModel, tomography/models.py:261-263 *)
  Definition diffusive_times (a : earr V) : res (list V) := getfield "t" a.
End Reads.

(** ** Stacks *)
Section Stacks.
  Context {E : Type}.
  Variable d0 : dtype.                     (* expparams_dtype of the base model *)

  (** derived_models.py:113-115; 243-249 and 532-538 *)
  Definition counting_dtype (d : dtype) : dtype :=
    match d with
    | DStr f => DList [("x", f); ("n_meas", FUint)]
    | DList fs => DList (fs ++ [("n_meas", FUint)])
    end.
  Fixpoint expparams_dtype (m : model E) : dtype :=
    match m with
    | MBase _ => d0
    | MDerived Binomial u | MDerived (Multinomial _) u => counting_dtype (expparams_dtype u)
    | MDerived _ u => expparams_dtype u
    end.
  (** [_expparams_scalar] of a BinomialModel or MultinomialModel over [u] *)
  Definition expparams_scalar (u : model E) : bool := match expparams_dtype u with DStr _ => true | DList _ => false end.

  (** domain(None): the model's n_members, None for a continuous domain.  133-134; 286-297, 600-613 (no experiment to read
      n_meas from, or to iterate over); 421-422.  Base models are taken to be finite. *)
  Fixpoint domain_none (m : model E) : res (option nat) :=
    match m with
    | MBase b => Ok (Some (b_n_outcomes b None))
    | MDerived Binomial _ | MDerived (Multinomial _) _ => Err TypeError
    | MDerived GaussHyper _ => Ok None
    | MDerived _ u => domain_none u
    end.
  (** MultinomialModel.__init__, 528-547 *)
  Definition new_multinomial (u : model E) : res (model E) :=
    if is_n_outcomes_constant u then
      bind (domain_none u) (fun n => Ok (MDerived (Multinomial (match n with Some k => k | None => 0%nat end)) u))
    else Err AssertionError.

  (** ** Field accesses of likelihood() down a stack: 311-329, 626-637 for the counting models; 181-187, 438-471, 692-700, 889-893 and
      parallel.py:239-278 hand the array to the underlying model as it is.  The result lists what the base model reads, and
      the n_meas columns from the innermost counting model outwards. *)
  Context {V : Type}.
  Variable reads : earr V -> res (list (list V)).  (* the accesses of the base model *)
  Fixpoint consult (m : model E) (a : earr V) : res (list (list V) * list (list V)) :=
    match m with
    | MBase _ => bind (reads a) (fun v => Ok (v, []))
    | MDerived Binomial u =>
        bind (if expparams_scalar u then bind (getfield "x" a) (fun x => Ok (APlain x)) else Ok a) (fun a' =>
        bind (consult u a') (fun r => bind (getfield "n_meas" a) (fun n => Ok (fst r, snd r ++ [n]))))
    | MDerived (Multinomial _) u =>
        bind (if expparams_scalar u then bind (getfield "x" a) (fun x => Ok (APlain x)) else Ok a) (fun a' =>
        bind (consult u a') (fun r => Ok r))
    | MDerived _ u => consult u a
    end.
End Stacks.
