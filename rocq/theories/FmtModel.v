(** Model of the printing of a value with its uncertainty and of the comparison up to significant figures
    (src/qinfer/utils.py 385-450). *)
From Coq Require Import String Ascii NArith ZArith Decimal DecimalString.
From Verif Require Import Base Ext UtilModel SimpleModel.
From Coq Require Import List.
Close Scope string_scope.
Open Scope list_scope.

(** ** Python's str.format, as far as the templates of utils.py use it *)
Inductive farg := AFloat (x : R) | AInt (z : Z).
(** Round to the nearest integer, ties to even. *)
Definition round_even (x : R) : Z :=
  let f := rfloor x in
  if Rltb (x - IZR f) (1/2) then f else if Rltb (1/2) (x - IZR f) then (f + 1)%Z else if Z.even f then f else (f + 1)%Z.
(** The last [n] decimal digits of [m], in front of [rest]. *)
Fixpoint digits (n : nat) (m : N) (rest : string) : string :=
  match n with O => rest | S k => digits k (m / 10)%N (String (ascii_of_N (48 + m mod 10)) rest) end.
(** "{:.nf}".format(x).  Python keeps the sign of a negative number even if all printed digits are zero.  Negative zero itself is
    not distinguished from zero. *)
Definition show_fixed (n : nat) (x : R) : string :=
  let m := Z.to_N (round_even (Rabs x * 10 ^ n)) in
  let p := N.pow 10 (N.of_nat n) in
  ((if Rltb x 0 then "-" else "") ++ show (m / p) ++ (if Nat.eqb n 0 then "" else "." ++ digits n m ""))%string.
Definition show_int (z : Z) : string := ((if Z.ltb z 0 then "-" else "") ++ show (Z.abs_N z))%string.
(** Split at the first occurrence of a character. *)
Fixpoint cut (c : ascii) (s : string) : string * option string :=
  match s with
  | EmptyString => (EmptyString, None)
  | String d t => if Ascii.eqb d c then (EmptyString, Some t) else let (a, b) := cut c t in (String d a, b)
  end.
(** The format specifications in use: none, [f], and [0.nf]. *)
Definition parse_spec (s : string) : option (option nat) :=
  if String.eqb s "f" then Some (Some 6%nat)
  else if String.prefix "0." s then
    match cut "f" (String.substring 2 (String.length s - 2) s) with
    | (d, Some EmptyString) => option_map (fun u => Some (N.to_nat (N.of_uint u))) (NilZero.uint_of_string d)
    | _ => None
    end
  else None.
Definition lookup_arg (args : list (string * farg)) (name : string) : option farg :=
  option_map snd (List.find (fun p => String.eqb (fst p) name) args).
(** A replacement field, given as the text between the braces: [name] or [name:spec]. *)
Definition render (args : list (string * farg)) (field : string) : res string :=
  let (name, spec) := cut ":" field in
  match lookup_arg args name with
  | None => Err KeyError
  | Some a =>
    match spec with
    | None => match a with AInt z => Ok (show_int z) | AFloat _ => Err TypeError (* not used by the templates: str of a float *) end
    | Some s => match parse_spec s with
                | Some (Some n) => Ok (show_fixed n (match a with AFloat x => x | AInt z => IZR z end))
                | _ => Err ValueError
                end
    end
  end.
(** Doubled braces are literal braces.  Simplified: no replacement field inside the specification of another one, as the templates
    have none. *)
Fixpoint format_go (args : list (string * farg)) (field : option string) (s : string) : res string :=
  match s with
  | EmptyString => match field with None => Ok EmptyString | Some _ => Err ValueError end
  | String c t =>
    match field with
    | Some acc => if Ascii.eqb c "}" then bind (render args acc) (fun a => bind (format_go args None t) (fun b => Ok (a ++ b)%string))
                  else format_go args (Some (acc ++ String c EmptyString)%string) t
    | None =>
      if Ascii.eqb c "{" then
        match t with
        | String d t' => if Ascii.eqb d "{" then bind (format_go args None t') (fun b => Ok (String "{" b)) else format_go args (Some EmptyString) t
        | EmptyString => Err ValueError
        end
      else if Ascii.eqb c "}" then
        match t with
        | String d t' => if Ascii.eqb d "}" then bind (format_go args None t') (fun b => Ok (String "}" b)) else Err ValueError
        | EmptyString => Err ValueError
        end
      else bind (format_go args None t) (fun b => Ok (String c b))
    end
  end.
Definition format (s : string) (args : list (string * farg)) : res string := format_go args None s.

(** ** 408-450, format_uncertainty *)
(** [int(np.log10(np.abs(x)))]: towards zero *)
Definition mag (x : R) : Z := trunc (ln (Rabs x) / ln 10).
Definition sci_template : string := "({{0:0.{0}f}} \pm {{1:0.{0}f}}) \times 10^{{2}}".
Definition fixed_template : string := "{{0:0.{n_digits}f}} \pm {{1:0.{n_digits}f}}".
Definition format_uncertainty (value unc : R) (scinotn_break : Z) : res string :=
  if Reqb unc 0 then format "{0:f}" [("0"%string, AFloat value)]
  else
    let mag_unc := mag unc in
    let mag_val := if Reqb value 0 then 0%Z else mag value in
    let n_digits := Z.max (mag_val - mag_unc) 0 in
    if Z.ltb (Z.abs mag_val) (Z.abs mag_unc) && Z.ltb scinotn_break (Z.abs mag_unc) then
      let scale := powerRZ 10 mag_unc in
      bind (format sci_template [("0"%string, AInt n_digits)]) (fun t =>
      format t [("0"%string, AFloat (value / scale)); ("1"%string, AFloat (unc / scale)); ("2"%string, AInt mag_unc)])
    else if Z.leb (Z.abs mag_val) scinotn_break then
      bind (format fixed_template [("n_digits"%string, AInt n_digits)]) (fun t =>
      format t [("0"%string, AFloat value); ("1"%string, AFloat unc)])
    else
      let scale := powerRZ 10 mag_val in
      bind (format sci_template [("0"%string, AInt n_digits)]) (fun t =>
      format t [("0"%string, AFloat (value / scale)); ("1"%string, AFloat (unc / scale)); ("2"%string, AInt mag_val)]).

(** ** 385-406, assert_sigfigs_equal *)
(** np.floor and [10**(-p)] on extended numbers *)
Definition xfloor (a : ext) : ext := match a with Fin x => Fin (IZR (rfloor x)) | e => e end.
Definition xpow10_neg (a : ext) : ext :=
  match a with Fin x => Fin (Rpower 10 (- x)) | PInf => Fin 0 | NInf => PInf | NaN => NaN end.
(** numpy.testing.assert_almost_equal for one pair of numbers: two NaNs agree, equal infinities agree, any other
    pair with a NaN or an infinity does not, and finite numbers agree if they differ by less than 1.5 * 10**(-decimal).  Passing is
    [Ok tt]. *)
Definition assert_almost_equal (actual desired : ext) (decimal : nat) : res unit :=
  match actual, desired with
  | Fin a, Fin d => if Rltb (Rabs (d - a)) (15 / 10 * / 10 ^ decimal) then Ok tt else Err AssertionError
  | NaN, NaN | PInf, PInf | NInf, NInf => Ok tt
  | _, _ => Err AssertionError
  end.
(** One element of the arrays. *)
Definition assert_sigfigs_equal (x y : R) (sigfigs : nat) : res unit :=
  let xpow := xfloor (xdiv (xln (Fin x)) (Fin (ln 10))) in
  let x' := xmul (Fin x) (xpow10_neg xpow) in
  let y' := xmul (Fin y) (xpow10_neg xpow) in
  assert_almost_equal x' y' sigfigs.
