(** Reading a printed value with its uncertainty, written without reference to how it is printed. *)
From Coq Require Import String Ascii NArith ZArith.
From Verif Require Import Base UtilSpec.
From Coq Require Import List.
Close Scope string_scope.
Open Scope list_scope.

(** Digits after the decimal point: how many, their value, and what follows. *)
Fixpoint read_frac (k : nat) (v : N) (s : string) : nat * N * string :=
  match s with
  | String c t => if is_digit c then read_frac (S k) (10 * v + (N_of_ascii c - 48))%N t else (k, v, s)
  | EmptyString => (k, v, s)
  end.
Definition read_unsigned (s : string) : option (R * string) :=
  let (a, r) := span_digits s in
  match number a with
  | None => None
  | Some v =>
    match r with
    | String c t =>
      if Ascii.eqb c "." then
        match read_frac 0 0 t with (O, _, _) => None | (k, w, u) => Some (IZR (Z.of_N v) + IZR (Z.of_N w) / 10 ^ k, u) end
      else Some (IZR (Z.of_N v), r)
    | EmptyString => Some (IZR (Z.of_N v), r)
    end
  end.
Definition read_decimal (s : string) : option (R * string) :=
  match s with
  | String c t => if Ascii.eqb c "-" then option_map (fun p => (- fst p, snd p)) (read_unsigned t) else read_unsigned s
  | EmptyString => None
  end.
(** What follows a prefix. *)
Fixpoint strip (p s : string) : option string :=
  match p, s with
  | EmptyString, _ => Some s
  | String c p', String d s' => if Ascii.eqb c d then strip p' s' else None
  | _, EmptyString => None
  end.
(** An integer that fills the whole text. *)
Definition read_nat (s : string) : option Z :=
  let (a, r) := span_digits s in
  match r with EmptyString => option_map Z.of_N (number a) | _ => None end.
Definition read_int (s : string) : option Z :=
  match s with
  | String c t => if Ascii.eqb c "-" then option_map Z.opp (read_nat t) else read_nat s
  | EmptyString => None
  end.
(** What TeX sets as the exponent after [^]: the next group in braces, or else the next single character.  Anything after that is on
    the base line again, and the whole is then not a power of ten. *)
Definition tex_exponent (s : string) : option Z :=
  match s with
  | EmptyString => None
  | String c t =>
    if Ascii.eqb c "{" then
      (fix group (acc u : string) : option Z :=
         match u with
         | EmptyString => None
         | String d u' => if Ascii.eqb d "}" then match u' with EmptyString => read_int acc | _ => None end else group (acc ++ String d EmptyString)%string u'
         end) EmptyString t
    else match t with EmptyString => read_int s | _ => None end
  end.
Definition option_bind {A B} (o : option A) (f : A -> option B) : option B := match o with Some a => f a | None => None end.
(** [a \pm b] or [(a \pm b) \times 10^e], with the reading of the exponent as an argument. *)
Definition read_pair (exponent : string -> option Z) (s : string) : option (R * R) :=
  match strip "(" s with
  | Some s1 =>
    option_bind (read_decimal s1) (fun p =>
    option_bind (strip " \pm " (snd p)) (fun s2 =>
    option_bind (read_decimal s2) (fun q =>
    option_bind (strip ") \times 10^" (snd q)) (fun s3 =>
    option_map (fun e => (fst p * powerRZ 10 e, fst q * powerRZ 10 e)) (exponent s3)))))
  | None =>
    option_bind (read_decimal s) (fun p =>
    option_bind (strip " \pm " (snd p)) (fun s2 =>
    option_bind (read_decimal s2) (fun q =>
    match snd q with EmptyString => Some (fst p, fst q) | _ => None end)))
  end.
(** The reading of the source text, and the reading of the typeset formula. *)
Definition read_source : string -> option (R * R) := read_pair read_int.
Definition read_typeset : string -> option (R * R) := read_pair tex_exponent.
Definition read_number (s : string) : option R :=
  option_bind (read_decimal s) (fun p => match snd p with EmptyString => Some (fst p) | _ => None end).
