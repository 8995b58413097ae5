(** Model of the labels of tomographic bases, of bases as sequences and of the names of tomographic parameters
    (src/qinfer/tomography/bases.py 111-154, 218-232, 280-306, models.py 122-128 and 240-242, plotting_tools.py 105-112). *)
From Coq Require Import String Ascii NArith ZArith.
From Verif Require Import Base Cplx UtilModel TomoModel LtxModel.
From Coq Require Import List.
Close Scope string_scope.
Open Scope list_scope.

(** ** Python's str.format with one positional argument, already turned into text *)
(** Doubled braces are literal braces; an empty field takes the next argument, and there is only one; a field with a name needs a
    keyword argument, and there is none.  Simplified: fields with numbers, attributes, conversions or specifications are treated as
    names. *)
Fixpoint format1_go (arg : string) (used : bool) (field : option string) (s : string) : res string :=
  match s with
  | EmptyString => match field with None => Ok EmptyString | Some _ => Err ValueError end
  | String c t =>
    match field with
    | Some acc =>
      if Ascii.eqb c "}" then
        if String.eqb acc "" then if used then Err IndexError else bind (format1_go arg true None t) (fun b => Ok (arg ++ b)%string)
        else Err KeyError
      else format1_go arg used (Some (acc ++ String c EmptyString)%string) t
    | None =>
      if Ascii.eqb c "{" then
        match t with
        | String d t' => if Ascii.eqb d "{" then bind (format1_go arg used None t') (fun b => Ok (String "{" b)) else format1_go arg used (Some EmptyString) t
        | EmptyString => Err ValueError
        end
      else if Ascii.eqb c "}" then
        match t with
        | String d t' => if Ascii.eqb d "}" then bind (format1_go arg used None t') (fun b => Ok (String "}" b)) else Err ValueError
        | EmptyString => Err ValueError
        end
      else bind (format1_go arg used None t) (fun b => Ok (String c b))
    end
  end.
Definition format1 (s arg : string) : res string := format1_go arg false None s.

(** ** bases.py 218-232, TomographyBasis.__init__ *)
Inductive labels_arg := LNone | LStr (s : string) | LList (l : list string).
(** [range(n)] as text *)
Definition range_text (n : nat) : list string := map (fun i => show (N.of_nat i)) (seq 0 n).
(** 227-230.  A list of labels is taken as it is. *)
Definition init_labels (labels : labels_arg) (n : nat) : res (list string) :=
  match labels with
  | LStr s => bind (format1 "{}_{{}}" s) (fun t => map_ok (format1 t) (range_text n))
  | LNone => map_ok (format1 "B_{}") (range_text n)
  | LList l => Ok l
  end.
Record lbasis := { lb : basis; lb_dims : list nat; lb_labels : list string; lb_name : string }.
(** 294-301 *)
Definition dim_of (dims : list nat) : nat := fold_left Nat.mul dims 1%nat.
Definition new_basis (b : basis) (dims : list nat) (labels : labels_arg) (name : option string) : res lbasis :=
  bind (init_labels labels (dim_of dims ^ 2)) (fun ls =>
  Ok {| lb := b; lb_dims := dims; lb_labels := ls; lb_name := match name with Some n => n | None => "(unnamed)"%string end |}).

(** ** bases.py 111, gell_mann_basis *)
Definition gell_mann_labelled (d : nat) : res lbasis :=
  bind (gell_mann_basis d) (fun b => new_basis b [d] (LStr "\gamma") (Some "gell_mann_basis"%string)).
(** ** bases.py 113-135, tensor_product_basis *)
Definition tensor_labelled (fs : list lbasis) : res lbasis :=
  bind (tensor_product_basis (map lb fs)) (fun b =>
  new_basis b (concat (map lb_dims fs)) (LList (map (join "\otimes") (it_product (map lb_labels fs)))) None).
(** ** bases.py 137-154, pauli_basis; the first label is the character U+1D7D9 in UTF-8 *)
Definition pauli_labels : list string := ["𝟙"; "\sigma_x"; "\sigma_y"; "\sigma_z"]%string.
Definition pauli_factor_labelled : res lbasis := bind pauli_factor (fun p => new_basis p [2%nat] (LList pauli_labels) None).
Definition pauli_labelled (nq : nat) : res lbasis :=
  bind pauli_factor_labelled (fun f => bind (tensor_labelled (repeat f nq)) (fun t =>
  Ok {| lb := lb t; lb_dims := lb_dims t; lb_labels := lb_labels t; lb_name := "pauli_basis" |})).

(** ** bases.py 280-292, __getitem__, __iter__, __len__ *)
(** An index: an integer, a list of indices, or something else.  What comes back: an operator or a list.  The dims checks of the Qobj
    constructor are not modelled. *)
Inductive index := IxInt (z : Z) | IxList (l : list index) | IxOther.
Inductive item := One (m : mat) | Many (l : list item).
(** NumPy indexing of the first axis: negative indices count from the end *)
Definition plane (data : list mat) (z : Z) : res mat :=
  let n := Z.of_nat (length data) in
  if Z.ltb z (- n) || Z.leb n z then Err IndexError else Ok (nth (Z.to_nat (if Z.ltb z 0 then z + n else z)) data mzero).
Fixpoint getitem (data : list mat) (ix : index) : res item :=
  match ix with
  | IxInt z => bind (plane data z) (fun m => Ok (One m))
  | IxList l =>
    bind ((fix all (l : list index) : res (list item) :=
             match l with
             | [] => Ok []
             | i :: r => bind (getitem data i) (fun x => bind (all r) (fun xs => Ok (x :: xs)))
             end) l) (fun xs => Ok (Many xs))
  | IxOther => Err TypeError
  end.
(** What [list(basis)] gives; an exception ends it. *)
Definition iterate (b : lbasis) : res (list item) :=
  map_ok (fun i => getitem (bdata (lb b)) (IxInt (Z.of_nat i))) (seq 0 (dim_of (lb_dims b) ^ 2)).

(** ** models.py 122-128 and 240-242, modelparam_names *)
Definition name_template : string := "\langle\!\langle{} | \rho\rangle\!\rangle".
Definition modelparam_names (labels : list string) : res (list string) := map_ok (format1 name_template) labels.
Definition diffusive_names (labels : list string) : res (list string) := bind (modelparam_names labels) (fun l => Ok (l ++ ["\epsilon"%string])).
(** ** plotting_tools.py 105-112, the labels of the two axes *)
Definition axis_template : string := "$\langle\!\langle {} | \rho \rangle\!\rangle$".
Definition axis_labels (labels : list string) (axes : nat * nat) : res (string * string) :=
  match nth_error labels (fst axes), nth_error labels (snd axes) with
  | Some a, Some b => bind (format1 axis_template a) (fun x => bind (format1 axis_template b) (fun y => Ok (x, y)))
  | _, _ => Err IndexError
  end.
