(** Model of src/qinfer/simple_est.py (69-260): columns of a data table routed to outcomes and experiment fields, and the two
    ready-made estimators.  Cells are real numbers (integer columns hold integers). *)
From Coq Require Import String.
From Verif Require Import Base Ext SmcModel DerModel TwoModel DistModel.
From Coq Require Import List.

(** ** Arrays *)
(** Field types, by their dtype names 'float', 'uint' and bool, and the values they hold.  Casting a number to 'uint' drops the
    fraction; negative numbers (which NumPy wraps) are sent to zero. *)
Inductive fkind := KFloat | KUInt | KBool.
Inductive fval := VFloat (x : R) | VUInt (n : nat) | VBool (b : bool).
Definition trunc (x : R) : Z := if Rleb 0 x then Int_part x else (- Int_part (- x))%Z.
Definition cast (k : fkind) (x : R) : fval :=
  match k with KFloat => VFloat x | KUInt => VUInt (Z.to_nat (trunc x)) | KBool => VBool (negb (Reqb x 0)) end.
(** Arrays with no index, or with one *)
Inductive arr (A : Type) := Arr0 (a : A) | Arr1 (l : list A).
Arguments Arr0 {A}. Arguments Arr1 {A}.
Definition amap {A B} (f : A -> B) (a : arr A) : arr B := match a with Arr0 x => Arr0 (f x) | Arr1 l => Arr1 (map f l) end.
(** The data argument: a plain array of two indices ([cols] columns) or of one index, or a record array. *)
Inductive dtable :=
| Plain2 (cols : nat) (rows : list (list R))
| Plain1 (row : list R)
| Recs (names : list string) (rows : arr (string -> R)).
(** A column is named twice: by position and by field name. *)
Definition column := (nat * string)%type.
(** [data[s_(column)]], 87-91 *)
Definition take (t : dtable) (c : column) : res (arr R) :=
  match t with
  | Plain2 cols rows => if Nat.ltb (fst c) cols then Ok (Arr1 (map (fun row => nth (fst c) row 0) rows)) else Err IndexError
  | Plain1 row => if Nat.ltb (fst c) (length row) then Ok (Arr0 (nth (fst c) row 0)) else Err IndexError
  | Recs names rows => if existsb (String.eqb (snd c)) names then Ok (amap (fun row => row (snd c)) rows) else Err ValueError
  end.

(** The [expparams_dtype] argument: a Python or NumPy scalar type, the name of one as a string, a list of fields, or an
    np.dtype built from such a list. *)
Inductive edtype := EType (k : fkind) | EName (k : fkind) | EFields (fs : list (string * fkind)) | ERecord (fs : list (string * fkind)).
(** np.issctype: false for anything but a type or np.dtype instance; true for record dtypes, whose scalar type is np.void *)
Definition issctype (d : edtype) : bool := match d with EType _ | ERecord _ => true | _ => false end.
(** The [cols_expparams] argument; dictionaries keep their insertion order. *)
Inductive colspec := CNone | CCol (c : column) | CDict (l : list (string * column)).
(** One element of the expparams array *)
Inductive erow := EScalar (v : fval) | EFieldsOf (f : string -> fval).

Definition kind_of (fs : list (string * fkind)) (f : string) : option fkind := option_map snd (find (fun p => String.eqb (fst p) f) fs).
Definition put (f : string) (v : fval) (e : erow) : erow :=
  match e with EScalar _ => e | EFieldsOf g => EFieldsOf (fun h => if String.eqb h f then v else g h) end.
(** [a[...] = b] row by row, for arrays of the same shape *)
Definition azip {A B C} (f : A -> B -> C) (a : arr A) (b : arr B) : res (arr C) :=
  match a, b with
  | Arr0 x, Arr0 y => Ok (Arr0 (f x y))
  | Arr1 x, Arr1 y => if Nat.eqb (length x) (length y) then Ok (Arr1 (map2 f x y)) else Err ValueError
  | _, _ => Err ValueError
  end.
(** 103-104, [expparams[key] = data[s_(column)]] *)
Definition set_field (d : edtype) (t : dtable) (f : string) (c : column) (ep : arr erow) : res (arr erow) :=
  bind (take t c) (fun v =>
  match d with
  | EFields fs | ERecord fs => match kind_of fs f with
                               | None => Err ValueError
                               | Some k => azip (fun e x => put f (cast k x) e) ep v
                               end
  | _ => Err IndexError
  end).
Fixpoint set_fields (d : edtype) (t : dtable) (l : list (string * column)) (ep : arr erow) : res (arr erow) :=
  match l with [] => Ok ep | (f, c) :: l' => bind (set_field d t f c ep) (set_fields d t l') end.
(** 100-101, [expparams[:] = data[s_(cols_expparams)]]; an array without index cannot be sliced; a number assigned to a record
    goes to each of its fields *)
Definition set_all (d : edtype) (v : arr R) : res (arr erow) :=
  match v with
  | Arr0 _ => Err IndexError
  | Arr1 l => match d with
              | EType k | EName k => Ok (Arr1 (map (fun x => EScalar (cast k x)) l))
              | EFields fs | ERecord fs =>
                  Ok (Arr1 (map (fun x => EFieldsOf (fun f => match kind_of fs f with Some k => cast k x | None => cast KFloat x end)) l))
              end
  end.
(** 69-106, data_to_params; [junk] is what np.empty leaves in an element.  Indexing a dictionary with 0 or 1 is a KeyError,
    indexing None a TypeError, and neither a tuple nor None has [items]. *)
Definition data_to_params (t : dtable) (d : edtype) (col_outcomes : column) (cols : colspec) (junk : erow) : res (arr Z * arr erow) :=
  bind (take t col_outcomes) (fun o =>
  let outcomes := amap trunc o in
  let ep := amap (fun _ => junk) o in
  bind (if issctype d
        then match cols with CCol c => bind (take t c) (set_all d) | CDict _ => Err KeyError | CNone => Err TypeError end
        else match cols with CDict l => set_fields d t l ep | _ => Err AttributeError end)
       (fun ep' => Ok (outcomes, ep'))).

(** ** 108-119, load_data_or_txt *)
(** An array is passed through and a DataFrame turned into records.  np.loadtxt with a record dtype gives an array without
    index for a text of one line; every line needs as many columns as the dtype has fields. *)
Inductive source := SArray (t : dtable) | SFrame (names : list string) (rows : list (string -> R)) | SText (lines : list (list R)) | SOther.
Fixpoint by_name (names : list string) (cells : list R) (f : string) : R :=
  match names, cells with n :: names', x :: cells' => if String.eqb f n then x else by_name names' cells' f | _, _ => 0 end.
Definition load (names : list string) (s : source) : res dtable :=
  match s with
  | SArray t => Ok t
  | SFrame ns rows => Ok (Recs ns (Arr1 rows))
  | SText lines =>
      if forallb (fun l => Nat.eqb (length l) (length names)) lines
      then Ok (Recs names (match map (by_name names) lines with [r] => Arr0 r | rs => Arr1 rs end))
      else Err ValueError
  | SOther => Err TypeError
  end.

(** ** Likelihoods of the estimated models *)
Definition field (f : string) (e : erow) : fval := match e with EFieldsOf g => g f | EScalar v => v end.
(** derived_models.py:317-332 for one outcome, particle and experiment, given the probability [p1] of outcome 1.  A NaN (no
    probability) would raise AssertionError; the estimators start from valid particles, and their resampler keeps them valid. *)
Definition binom_lik (k : Z) (n : nat) (p1 : R) : R :=
  if (k <? 0)%Z then 0 else match binomial_pdf n (Z.to_nat k) p1 with Fin x => x | _ => 0 end.
Definition prec_lik (o : Z) (x : loc) (e : erow) : R :=
  match field "x" e, field "n_meas" e with
  | VFloat t, VUInt n => binom_lik o n (prec_like t (nth 0 x 0) 1)
  | _, _ => 0
  end.
Definition rb_lik (interleaved : bool) (o : Z) (x : loc) (e : erow) : R :=
  match field "m" e, field "n_meas" e with
  | VUInt m, VUInt n =>
      if interleaved then match field "reference" e with
                          | VBool b => binom_lik o n (rb_il_like m b (nth 0 x 0) (nth 1 x 0) (nth 2 x 0) (nth 3 x 0) 1)
                          | _ => 0
                          end
      else binom_lik o n (rb_like m (nth 0 x 0) (nth 1 x 0) (nth 2 x 0) 1)
  | _, _ => 0
  end.

(** ** 122-144, do_update *)
Section Est.
Context {RND : Type}.
(** The updater of line 123 with its defaults (smc.py:123-130): threshold one half, policy 'error', ten machine epsilons.  The
    models do not override update_timestep and canonicalize.  [rs] is the Liu-West resampler, an arbitrary function here. *)
Definition est_config (l : Z -> loc -> erow -> R) (rs : RND -> list R -> list loc -> res (list R * list loc)) (cloud : list loc)
  : @config Z erow RND :=
  {| md := {| lik := l; timestep := fun _ x _ => x; canon := fun x => x |}; prior := fun _ _ => cloud; rsmp := rs; rthresh := 1 / 2;
     zpolicy := PError; zthresh := 10 * eps; canonize := true |}.
(** The returned estimates: numbers for one model parameter, else a vector and a matrix (as entries) *)
Inductive estimate := Scalars (mean cov : R) | Arrays (mean : list R) (cov : nat -> nat -> R).
Definition report (d : nat) (w : list R) (l : list loc) : estimate :=
  let mean := particle_mean d w l in
  let cov := particle_cov w l in
  if Nat.eqb d 1 then Scalars (nth 0 mean 0) (cov 0%nat 0%nat) else Arrays mean cov.
(** [outcomes.shape[0]] of an array without index is an IndexError (smc.py:476) *)
Definition do_update (c : @config Z erow RND) (d n : nat) (r : RND) (rnds : nat -> RND) (outcomes : arr Z) (ep : arr erow) : res (estimate * @state Z) :=
  bind (init c r n false) (fun s0 =>
  match outcomes, ep with
  | Arr1 os, Arr1 es => match batch_update c rnds s0 os es 1 with
                        | (s, None) => Ok (report d (ws s) (ls s), s)
                        | (_, Some x) => Err x
                        end
  | _, _ => Err IndexError
  end).

Definition finite (a : ext) : R := match a with Fin x => x | _ => 0 end.
Definition cloud_of (a : DistModel.arr) : list loc := match a with A2 _ rows => map (map finite) rows | A1 l => map (fun x => [finite x]) l end.

(** ** 146-188, simple_est_prec *)
Definition prec_names : list string := ["counts"; "t"; "n_shots"]%string.
Definition prec_dtype : edtype := EFields [("x", KFloat); ("n_meas", KUInt)]%string.
Definition prec_cols : colspec := CDict [("x", (1%nat, "t")); ("n_meas", (2%nat, "n_shots"))]%string.
Definition counts_col : column := (0%nat, "counts"%string).
(** Line 172: [freq_min] goes to the model only, whose validity check is used by the resampler. *)
Definition simple_est_prec (rs : RND -> list R -> list loc -> res (list R * list loc)) (w : DistModel.source) (r : RND) (rnds : nat -> RND) (junk : erow)
  (data : source) (freq_min freq_max : R) (n : nat) : res (estimate * @state Z) :=
  bind (new_uniform (R1 [0; freq_max])) (fun prior =>
  bind (load prec_names data) (fun t =>
  bind (data_to_params t prec_dtype counts_col prec_cols junk) (fun oe =>
  bind (sample prior n w) (fun a =>
  do_update (est_config prec_lik rs (cloud_of a)) 1 n r rnds (fst oe) (snd oe))))).

(** ** 191-260, simple_est_rb *)
Definition rb_names (il : bool) : list string := app ["counts"; "m"; "n_shots"]%string (if il then ["reference"%string] else []).
Definition rb_dtype (il : bool) : edtype := EFields (app [("m"%string, KUInt)] (app (if il then [("reference"%string, KBool)] else []) [("n_meas"%string, KUInt)])).
Definition rb_cols (il : bool) : colspec :=
  CDict (app [("m", (1%nat, "m")); ("n_meas", (2%nat, "n_shots"))]%string (if il then [("reference", (3%nat, "reference"))]%string else [])).
Definition rb_row_valid (il : bool) (row : list ext) : bool :=
  let x j := finite (nth j row NaN) in
  if il then rb_il_valid (x 0%nat) (x 1%nat) (x 2%nat) (x 3%nat) else rb_valid (x 0%nat) (x 1%nat) (x 2%nat).
(** Lines 227-238; PostselectedDistribution's default is 100 attempts (distributions.py:1313) *)
Definition rb_prior (il : bool) (p_min p_max : R) : res dist :=
  bind (new_uniform (R2 (if il then [[p_min; p_max]; [p_min; p_max]; [0; 1]; [0; 1]] else [[p_min; p_max]; [0; 1]; [0; 1]])))
       (fun u => Ok (Postselected u (rb_row_valid il) 100)).
Definition simple_est_rb (rs : RND -> list R -> list loc -> res (list R * list loc)) (w : DistModel.source) (r : RND) (rnds : nat -> RND) (junk : erow)
  (data : source) (il : bool) (p_min p_max : R) (n : nat) : res (estimate * @state Z) :=
  bind (rb_prior il p_min p_max) (fun prior =>
  bind (load (rb_names il) data) (fun t =>
  bind (data_to_params t (rb_dtype il) counts_col (rb_cols il) junk) (fun oe =>
  bind (sample prior n w) (fun a =>
  do_update (est_config (rb_lik il) rs (cloud_of a)) (if il then 4 else 3) n r rnds (fst oe) (snd oe))))).
End Est.
