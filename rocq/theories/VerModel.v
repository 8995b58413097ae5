(** Model of the detection of QuTiP: src/qinfer/utils.py:64-103 (get_qutip_module, check_qutip_version), the comparison of versions by
    distutils.version.LooseVersion that it relies on, and src/qinfer/tomography/legacy.py:57-64 (require_qutip).  Version strings are
    ASCII. *)
From Coq Require Import String Ascii NArith Decimal DecimalString.
From Verif Require Import Base.
Open Scope string_scope.
Open Scope list_scope.

(** ** LooseVersion.  The string is split by the regular expression [0-9]+ | [a-z]+ | dot; what lies between matches is kept as well. *)
Inductive cls := Digit | Lower | Dot | Other.
Definition cls_eqb (a b : cls) : bool :=
  match a, b with Digit, Digit | Lower, Lower | Dot, Dot | Other, Other => true | _, _ => false end.
Definition class (c : ascii) : cls :=
  let n := nat_of_ascii c in
  if andb (Nat.leb 48 n) (Nat.leb n 57) then Digit
  else if andb (Nat.leb 97 n) (Nat.leb n 122) then Lower
  else if Nat.eqb n 46 then Dot else Other.
(** [component_re.split(vstring)] without empty strings: maximal runs, except that every dot is a match of its own *)
Fixpoint pieces (s : string) : list (cls * string) :=
  match s with
  | EmptyString => []
  | String c r =>
      match pieces r with
      | (k, t) :: rest => if cls_eqb (class c) k && negb (cls_eqb k Dot) then (k, String c t) :: rest else (class c, String c "") :: (k, t) :: rest
      | [] => [(class c, String c "")]
      end
  end.
(** Components: [int(obj)] where that succeeds, the string otherwise; dots are dropped *)
Inductive comp := CNum (n : N) | CStr (s : string).
Definition component (t : cls * string) : comp :=
  match snd t with
  | EmptyString => CStr ""
  | s => match NilEmpty.uint_of_string s with Some u => CNum (N.of_uint u) | None => CStr s end
  end.
Definition parse (s : string) : list comp := map component (filter (fun t => negb (String.eqb (snd t) ".")) (pieces s)).

(** Comparison of Python lists: the first elements that differ decide, and a number cannot be compared with a string *)
Definition comp_eqb (a b : comp) : bool :=
  match a, b with CNum n, CNum m => N.eqb n m | CStr s, CStr t => String.eqb s t | _, _ => false end.
Definition comp_lt (a b : comp) : res bool :=
  match a, b with
  | CNum n, CNum m => Ok (N.ltb n m)
  | CStr s, CStr t => Ok (match String.compare s t with Lt => true | _ => false end)
  | _, _ => Err TypeError
  end.
Fixpoint list_lt (a b : list comp) : res bool :=
  match a, b with
  | _, [] => Ok false
  | [], _ :: _ => Ok true
  | x :: a', y :: b' => if comp_eqb x y then list_lt a' b' else comp_lt x y
  end.
(** [LooseVersion(a) < LooseVersion(b)]: the constructor does not parse an empty string, so that the comparison finds no attribute [version] *)
Definition loose_lt (a b : string) : res bool :=
  if String.eqb a "" || String.eqb b "" then Err AttributeError else list_lt (parse a) (parse b).

(** ** What Python finds: qutip itself (an import may also fail with another exception, and the version may be missing), and distutils
    (which newer versions of Python lack) *)
Inductive found (M : Type) := Missing | Broken (x : exn) | Imported (m : M) (version : res string).
Arguments Missing {M}. Arguments Broken {M}. Arguments Imported {M}.
Record world {M : Type} := { qutip : found M; has_distutils : bool }.
Arguments world : clear implicits.

Section Detect.
Context {M : Type}.
(** utils.py:64-85 *)
Definition get_qutip_module (w : world M) (required : string) : res (option M) :=
  match qutip w with
  | Missing => Ok None
  | Broken x => Err x
  | Imported m v =>
      if has_distutils w then
        bind v (fun version => bind (loose_lt version required) (fun less => Ok (if less then None else Some m)))
      else Ok None
  end.
(** utils.py:87-103 *)
Definition check_qutip_version (w : world M) (required : string) : bool :=
  match get_qutip_module w required with Ok (Some _) => true | _ => false end.
(** legacy.py:58-64: the module is looked up once, when legacy.py is imported; the second component is whether require_qutip raises
    ImportError *)
Definition require_qutip (w : world M) : res (option M * bool) :=
  bind (get_qutip_module w "3.2") (fun qt => Ok (qt, match qt with None => true | Some _ => false end)).
End Detect.
(** tomography/models.py:71-79 is a copy of the function in tomography/expdesign.py, in a module that does not import QuTiP *)
Definition models_heisenberg_weyl_operators (d : nat) : res unit := if Nat.eqb d 0 then Err ZeroDivisionError else Err NameError.
