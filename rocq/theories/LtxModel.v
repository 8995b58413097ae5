(** Model of the LaTeX display of a tomographic basis (src/qinfer/tomography/bases.py 156-175 and 239-278). *)
From Coq Require Import String Ascii NArith ZArith.
From Verif Require Import Base Ext UtilModel SimpleModel FmtModel.
From Coq Require Import List.
Close Scope string_scope.
Open Scope list_scope.

(** ** Python's "{:0.ne}".format(x) *)
(** The exponent of the leading digit, before rounding. *)
Definition lead_exponent (x : R) : Z := if Reqb x 0 then 0%Z else rfloor (ln (Rabs x) / ln 10).
(** Rounding the mantissa to [n] decimals can carry into the next power of ten.  The exponent has a sign and at least two digits.
    Numbers are exact reals, so there is no overflow of the exponent. *)
Definition show_exp (n : nat) (x : R) : string :=
  let e := lead_exponent x in
  let carry := Z.leb (Z.pow 10 (Z.of_nat n + 1)) (round_even (Rabs (x / powerRZ 10 e) * 10 ^ n)) in
  let e' := if carry then (e + 1)%Z else e in
  (show_fixed n (x / powerRZ 10 e') ++ "e" ++ (if Z.ltb e' 0 then "-" else "+") ++ pad2 (show (Z.abs_N e')))%string.
(** [s.replace(c, w)] for a single character [c] *)
Fixpoint replace_char (c : ascii) (w s : string) : string :=
  match s with
  | EmptyString => EmptyString
  | String d t => ((if Ascii.eqb d c then w else String d EmptyString) ++ replace_char c w t)%string
  end.

(** ** bases.py 156-162, _format_float_as_latex: [int] of NaN raises ValueError, [int] of an infinity OverflowError *)
Definition format_float_as_latex (tol : R) (c : ext) : res string :=
  match c with
  | NaN => Err ValueError
  | PInf | NInf => Err OverflowError
  | Fin x =>
    if Rleb (Rabs (x - IZR (trunc x))) tol then Ok (show_int (trunc x))
    else if Rleb (1/1000) (Rabs x) && Rleb (Rabs x) 1000 then Ok (show_fixed 3 x)
    else Ok (replace_char "e" "\times10^{" (show_exp 3 x) ++ "}")%string
  end.
(** [abs(x) <= tol]: false for NaN *)
Definition xabs_le (x : ext) (tol : R) : bool := match x with Fin r => Rleb (Rabs r) tol | _ => false end.
(** bases.py 165-175, _format_complex_as_latex *)
Definition format_complex_as_latex (tol : R) (c : ext * ext) : res string :=
  if xabs_le (snd c) tol then format_float_as_latex tol (fst c)
  else if xabs_le (fst c) tol then bind (format_float_as_latex tol (snd c)) (fun s => Ok (s ++ "\mathrm{i}")%string)
  else bind (format_float_as_latex tol (fst c)) (fun a =>
       bind (format_float_as_latex tol (snd c)) (fun b => Ok (a ++ " + " ++ b ++ "\mathrm{i}")%string)).
Definition default_tol : R := / 10 ^ 10.

(** ** bases.py 239-278, _repr_html_ *)
(** [sep.join(l)] *)
Fixpoint join (sep : string) (l : list string) : string :=
  match l with
  | [] => EmptyString
  | [a] => a
  | a :: r => (a ++ sep ++ join sep r)%string
  end.
Fixpoint map_ok {A B} (f : A -> res B) (l : list A) : res (list B) :=
  match l with
  | [] => Ok []
  | a :: r => bind (f a) (fun b => bind (map_ok f r) (fun bs => Ok (b :: bs)))
  end.
(** 248-251; the separator of the rows is written [u"\\\\"], two backslashes *)
Definition rows_tex (element : list (list (ext * ext))) : res string :=
  bind (map_ok (fun row => bind (map_ok (format_complex_as_latex default_tol) row) (fun cells => Ok (join "&" cells))) element)
       (fun rows => Ok (join "\\" rows)).
(** 242-253 *)
Definition element_tex (label rows : string) : string :=
  ("
                " ++ label ++ " =                   
                \left(\begin{matrix}
                    " ++ rows ++ "
                \end{matrix}\right)
                ")%string.
Definition elements_tex (data : list (list (list (ext * ext)))) (labels : list string) : res (list string) :=
  map_ok (fun p => bind (rows_tex (fst p)) (fun rows => Ok (element_tex (snd p) rows))) (combine data labels).
Definition dims_tex (dims : list Z) : string := join "\times" (map show_int dims).
(** 239-278; [self.dim] is the product of the dimensions *)
Definition repr_html (data : list (list (list (ext * ext)))) (dims : list Z) (labels : list string) : res string :=
  if Z.leb (fold_left Z.mul dims 1%Z) 10 then
    bind (elements_tex data labels) (fun es =>
    Ok ("
            <strong>TomographyBasis:</strong>
                dims=$" ++ dims_tex dims ++ "$
            <p>
                \begin{equation}
                    " ++ join "," es ++ "
                \end{equation}
            </p>
            ")%string)
  else
    Ok ("
            <strong>TomographyBasis:</strong>
                dims=$" ++ dims_tex dims ++ "$,
                labels=$\\{" ++ join "," labels ++ "\\}$
            ")%string.
