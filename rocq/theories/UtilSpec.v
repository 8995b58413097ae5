(** Reading printed durations, written without reference to how they are printed. *)
From Verif Require Import Base.
From Coq Require Import String Ascii NArith Decimal DecimalString List.
Close Scope string_scope.
Open Scope list_scope.

Definition is_digit (c : ascii) : bool := (48 <=? N_of_ascii c)%N && (N_of_ascii c <=? 57)%N.
(** Split after the leading digits. *)
Fixpoint span_digits (s : string) : string * string :=
  match s with
  | EmptyString => (EmptyString, EmptyString)
  | String c t => if is_digit c then let (a, b) := span_digits t in (String c a, b) else (EmptyString, s)
  end.
Definition number (s : string) : option N := option_map N.of_uint (NilZero.uint_of_string s).

(** A printed duration: a clock with its numbers (most significant first), or a decimal number of seconds in hundredths. *)
Inductive reading := Clock (l : list N) | Hundredths (n : N).
(** [n:n:...:n]; [fuel] bounds the number of fields *)
Fixpoint read_clock (fuel : nat) (s : string) : option (list N) :=
  match fuel with
  | O => None
  | S k => let (a, r) := span_digits s in
    match number a with
    | None => None
    | Some v => match r with
                | EmptyString => Some [v]
                | String c t => if Ascii.eqb c ":" then option_map (cons v) (read_clock k t) else None
                end
    end
  end.
Definition read_time (s : string) : option reading :=
  let (a, r) := span_digits s in
  match number a with
  | None => None
  | Some v =>
    if String.prefix " days, " r then option_map (fun l => Clock (v :: l)) (read_clock 3 (String.substring 7 (String.length r - 7) r))
    else match r with
         | String c t =>
           if Ascii.eqb c "." then let (b, u) := span_digits t in
             match number b with Some w => if String.eqb u " seconds" then Some (Hundredths (100 * v + w)) else None | None => None end
           else option_map Clock (read_clock 3 s)
         | EmptyString => None
         end
  end.

(** Seconds meant by a clock of two to four fields, and the fields being in range below a larger one. *)
Definition clock_seconds (l : list N) : N :=
  match l with
  | [m; s] => 60 * m + s
  | [h; m; s] => 3600 * h + 60 * m + s
  | [d; h; m; s] => 86400 * d + 3600 * h + 60 * m + s
  | _ => 0
  end%N.
Definition clock_fields (l : list N) : Prop :=
  match l with
  | [m; s] => s < 60
  | [h; m; s] => m < 60 /\ s < 60
  | [d; h; m; s] => h < 24 /\ m < 60 /\ s < 60
  | _ => False
  end%N.

(** The position at which an element first appears. *)
Definition first_at {A} (x : A) (l : list A) (i : nat) : Prop := nth_error l i = Some x /\ forall j, (j < i)%nat -> nth_error l j <> Some x.
