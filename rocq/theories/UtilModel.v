(** Model of simplex coordinates, printed durations and duplicate removal (src/qinfer/utils.py). *)
From Verif Require Import Base Ext.
From Coq Require Import String Ascii NArith Decimal DecimalString List.
Close Scope string_scope.
Open Scope list_scope.

(** ** Simplex coordinates (one row: the last index of the array) *)
(** scipy.special.expit and logit *)
Definition expit (a : ext) : ext := match a with Fin x => Fin (/ (1 + exp (- x))) | PInf => Fin 1 | NInf => Fin 0 | NaN => NaN end.
Definition logit (p : ext) : ext := xln (xdiv p (xsub (Fin 1) p)).
(** [cumprod], from [acc] *)
Fixpoint cumprod (acc : ext) (l : list ext) : list ext :=
  match l with [] => [] | x :: l' => xmul acc x :: cumprod (xmul acc x) l' end.
(** utils.py 463-509 *)
Definition to_simplex (y : list R) : res (list ext) :=
  let n := length y in
  let z := map2 (fun yi i => expit (xsub (Fin yi) (xln (Fin (INR n - INR i))))) y (seq 1 n) in
  match z with
  | [] => Err IndexError
  | z0 :: zs => Ok (z0 :: map2 xmul zs (cumprod (Fin 1) (map (xsub (Fin 1)) (removelast z))))
  end.
(** utils.py 511-533 *)
Definition from_simplex (x : list R) : res (list ext) :=
  let n := length x in
  match x with
  | [] => Err IndexError
  | x0 :: xs =>
    let z := Fin x0 :: map2 (fun a c => xdiv (Fin a) (Fin (1 - c))) (removelast xs) (cumsum (removelast (removelast x))) in
    Ok (map2 (fun zi i => xsub (logit zi) (logit (Fin (1 / (INR n - INR i))))) (firstn (n - 1) z) (seq 0 (n - 1)) ++ [Fin 0])
  end.

(** ** Durations *)
(** "{}".format(n) for a non-negative integer *)
Definition show (n : N) : string := NilZero.string_of_uint (N.to_uint n).
(** "{:0>2}" : pad on the left with zeros to width two *)
Definition pad2 (s : string) : string := if Nat.ltb (String.length s) 2 then ("0" ++ s)%string else s.
(** Python's int(a // b) and a % b for b > 0 on non-negative floats *)
Definition rfloor (x : R) : Z := (up x - 1)%Z.
Definition rfloordiv (a b : R) : Z := rfloor (a / b).
Definition rmod (a b : R) : R := a - b * IZR (rfloordiv a b).
(** "{0:0.2f}": hundredths, rounded to nearest.  Simplified: exact ties go up (Python: to even). *)
Definition hundredths (x : R) : N := Z.to_N (rfloor (100 * x + 1/2)).
Definition fixed2 (x : R) : string := (show (hundredths x / 100) ++ "." ++ pad2 (show (hundredths x mod 100)))%string.
Definition showZ (z : Z) : string := show (Z.to_N z).
(** utils.py 535-545 for non-negative durations; [fuel] bounds the nested calls (the result for [None] is never reached,
    see [pretty_time_fuel] in UtilProofs.v). *)
Fixpoint pretty_time_rec (fuel : nat) (secs : R) (force_h force_m : bool) : option string :=
  match fuel with
  | O => None
  | S k =>
    if Rltb 86400 secs then
      option_map (fun t => (showZ (rfloordiv secs 86400) ++ " days, " ++ t)%string) (pretty_time_rec k (rmod secs 86400) true false)
    else if force_h || Rltb 3600 secs then
      option_map (fun t => (showZ (rfloordiv secs 3600) ++ ":" ++ t)%string) (pretty_time_rec k (rmod secs 3600) false true)
    else if force_m || Rltb 60 secs then
      Some ((if force_m then pad2 (showZ (rfloordiv secs 60)) else showZ (rfloordiv secs 60)) ++ ":" ++ pad2 (showZ (rfloor (rmod secs 60))))%string
    else Some (fixed2 secs ++ " seconds")%string
  end.
Definition pretty_time (secs : R) (force_h force_m : bool) : option string := pretty_time_rec 3 secs force_h force_m.

(** ** Duplicates *)
(** utils.py 376-383: keep what is not in the set of elements seen so far *)
Fixpoint uniquify_from {A} (eqb : A -> A -> bool) (seen : list A) (l : list A) : list A :=
  match l with
  | [] => []
  | x :: l' => if existsb (eqb x) seen then uniquify_from eqb seen l' else x :: uniquify_from eqb (x :: seen) l'
  end.
Definition uniquify {A} (eqb : A -> A -> bool) (l : list A) : list A := uniquify_from eqb [] l.
