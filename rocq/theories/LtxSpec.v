(** Reading displayed complex numbers and matrices, written without reference to how they are printed. *)
From Coq Require Import String Ascii NArith ZArith.
From Verif Require Import Base UtilSpec FmtSpec.
From Coq Require Import List.
Close Scope string_scope.
Open Scope list_scope.

(** A signed exponent in braces after [10^{]. *)
Definition read_group (s : string) : option (Z * string) :=
  match s with
  | String c t =>
    let (d, r) := span_digits t in
    option_bind (number d) (fun n =>
    option_bind (strip "}" r) (fun u =>
    if Ascii.eqb c "+" then Some (Z.of_N n, u) else if Ascii.eqb c "-" then Some (- Z.of_N n, u)%Z else None))
  | EmptyString => None
  end.
(** A decimal number, with a power of ten if there is one. *)
Definition read_term (s : string) : option (R * string) :=
  option_bind (read_decimal s) (fun p =>
  match strip "\times10^{" (snd p) with
  | None => Some p
  | Some u => option_map (fun q => (fst p * powerRZ 10 (fst q), snd q)) (read_group u)
  end).
(** [a], [b i] or [a + b i], with an upright i. *)
Definition read_complex (s : string) : option (R * R) :=
  option_bind (read_term s) (fun p =>
  if String.eqb (snd p) "" then Some (fst p, 0)
  else if String.eqb (snd p) "\mathrm{i}" then Some (0, fst p)
  else option_bind (strip " + " (snd p)) (fun u =>
       option_bind (read_term u) (fun q => if String.eqb (snd q) "\mathrm{i}" then Some (fst p, fst q) else None))).

(** Cells of a row, and rows of a matrix. *)
Definition push (c : ascii) (l : list string) : list string :=
  match l with [] => [String c EmptyString] | a :: r => String c a :: r end.
Fixpoint split_cells (s : string) : list string :=
  match s with
  | EmptyString => [EmptyString]
  | String c t => if Ascii.eqb c "&" then EmptyString :: split_cells t else push c (split_cells t)
  end.
Fixpoint split_rows (s : string) : list string :=
  match s with
  | EmptyString => [EmptyString]
  | String c t =>
    if Ascii.eqb c "\" then
      match t with
      | String d u => if Ascii.eqb d "\" then EmptyString :: split_rows u else push c (split_rows t)
      | EmptyString => [s]
      end
    else push c (split_rows t)
  end.
Definition read_matrix (s : string) : list (list (option (R * R))) := map (fun row => map read_complex (split_cells row)) (split_rows s).

(** A displayed number [y] for [x]: off by at most the tolerance, or three decimals in the middle range, or four significant figures
    outside of it. *)
Definition displayed (tol x y : R) : Prop :=
  Rabs (y - x) <= tol
  \/ (1/1000 <= Rabs x <= 1000 /\ Rabs (y - x) <= 1/2000)
  \/ ((Rabs x < 1/1000 \/ 1000 < Rabs x) /\ Rabs (y - x) <= Rabs x / 2000).
