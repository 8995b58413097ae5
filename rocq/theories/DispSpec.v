(** Reading a displayed page: tags, the texts between them, tables, bold words and lists, written without reference to how the page is
    made. *)
From Coq Require Import String Ascii NArith ZArith.
From Verif Require Import Base UtilSpec FmtSpec.
From Coq Require Import List.
Close Scope string_scope.
Open Scope list_scope.

Inductive token := Tag (s : string) | Text (s : string).
(** The finished tokens, the unfinished one, and whether that is a tag. *)
Fixpoint scan (acc : string) (tag : bool) (s : string) : list token * string * bool :=
  match s with
  | EmptyString => ([], acc, tag)
  | String c t =>
    if Ascii.eqb c (if tag then ">" else "<") then
      let '(l, a, b) := scan EmptyString (negb tag) t in ((if tag then Tag acc else Text acc) :: l, a, b)
    else scan (acc ++ String c EmptyString)%string tag t
  end.
Definition tokens (s : string) : list token := let '(l, a, b) := scan EmptyString false s in l ++ [if b then Tag a else Text a].
(** What stands between an opening tag and the next closing one, for each such pair. *)
Fixpoint between (open close : string) (cur : option (list token)) (l : list token) : list (list token) :=
  match l with
  | [] => []
  | k :: r =>
    match cur with
    | None => between open close (match k with Tag t => if String.eqb t open then Some [] else None | Text _ => None end) r
    | Some acc =>
      match k with
      | Tag t => if String.eqb t close then acc :: between open close None r else between open close (Some (acc ++ [k])) r
      | Text _ => between open close (Some (acc ++ [k])) r
      end
    end
  end.
Definition element (name : string) (l : list token) : list (list token) := between name ("/" ++ name) None l.
Fixpoint text_of (l : list token) : string :=
  match l with [] => EmptyString | Text s :: r => (s ++ text_of r)%string | Tag _ :: r => text_of r end.
(** The rows of the tables, the bold words, the list items. *)
Definition table_rows (s : string) : list (list string) := map (fun r => map text_of (element "td" r)) (element "tr" (tokens s)).
Definition bold_words (s : string) : list string := map text_of (element "strong" (tokens s)).
Definition list_items (s : string) : list (list token) := element "li" (tokens s).
(** The text after an emphasised label. *)
Fixpoint labelled (name : string) (l : list token) : option string :=
  match l with
  | [] => None
  | k :: r =>
    match k, r with
    | Tag t, Text n :: Tag t' :: Text v :: _ => if (String.eqb t "em" && String.eqb t' "/em" && String.eqb n name)%bool then Some v else labelled name r
    | _, _ => labelled name r
    end
  end.
(** A text without tags. *)
Fixpoint plain (s : string) : bool := match s with EmptyString => true | String c t => negb (Ascii.eqb c "<") && plain t end.
(** A formula set by TeX. *)
Definition formula (s : string) : string := ("$" ++ s ++ "$")%string.
Fixpoint until_colon (acc u : string) : option (string * string) :=
  match u with
  | EmptyString => None
  | String c r => if Ascii.eqb c ":" then Some (acc, r) else until_colon (acc ++ String c EmptyString)%string r
  end.
(** An address and [k model parameters], with the plural in its place. *)
Definition read_params (s : string) : option (string * Z) :=
  option_bind (strip " at 0x" s) (fun t =>
  option_bind (until_colon EmptyString t) (fun p =>
  option_bind (strip " " (snd p)) (fun v =>
  let (a, x) := span_digits v in
  option_bind (number a) (fun n =>
  option_bind (strip " model parameter" x) (fun y =>
  if Bool.eqb (match strip "s" y with Some _ => true | None => false end) (negb (N.eqb n 1)) then Some (fst p, Z.of_N n) else None))))).
Definition read_count (s : string) : option Z :=
  option_bind (strip " " s) (fun t => option_map Z.of_N (number (fst (span_digits t)))).
(** A displayed model: its bold class name, address and number of parameters. *)
Definition read_model (l : list token) : option (string * string * Z) :=
  match l with
  | [Text _; Tag o; Text n; Tag c; Text r] =>
    if (String.eqb o "strong" && String.eqb c "/strong")%bool then option_map (fun p => (n, fst p, snd p)) (read_params r) else None
  | _ => None
  end.
Fixpoint hexadecimal (s : string) : bool :=
  match s with
  | EmptyString => true
  | String c t => (is_digit c || ((97 <=? N_of_ascii c)%N && (N_of_ascii c <=? 102)%N)) && hexadecimal t
  end.
