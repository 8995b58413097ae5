(** Model of the configuration file: src/qinfer/config.py:61-90 (ensuredir, preffilename, read_config, save_config), with the parts of
    os, os.path and configparser that it calls.  Path names are compared as strings (no links, no case folding, no double separators);
    ntpath is taken without drives and network shares.  The text format of configparser is left open: [dump] and [load] are any functions. *)
From Coq Require Import String Ascii.
From Verif Require Import Base.
Open Scope string_scope.
Open Scope list_scope.

(** ** Exceptions that occur here, and programs that read and change the file system *)
Inductive ioexn := FileNotFoundError | FileExistsError | NotADirectoryError | IsADirectoryError | PermissionError | TypeErr | AttributeErr.
Inductive io (A : Type) := Done (a : A) | Raised (x : ioexn).
Arguments Done {A}. Arguments Raised {A}.
(** Directories, and files with their contents *)
Record fs := { dirs : list string; files : list (string * string) }.
(** What does not change: the platform, whether configparser still has SafeConfigParser (removed in Python 3.12), the home directory as
    expanduser finds it, %APPDATA%, and the rights to create a directory, to write and to read a file *)
Record env := { platform : string; has_safe : bool; home : string; appdata : option string;
  may_make : string -> bool; may_write : string -> bool; may_read : string -> bool }.

Definition is_dir (w : fs) (p : string) : bool := existsb (String.eqb p) (dirs w).
Fixpoint lookup (p : string) (l : list (string * string)) : option string :=
  match l with [] => None | (q, t) :: l' => if String.eqb p q then Some t else lookup p l' end.
Definition is_file (w : fs) (p : string) : bool := match lookup p (files w) with Some _ => true | None => false end.
(** os.path.exists *)
Definition path_exists (w : fs) (p : string) : bool := is_dir w p || is_file w p.

(** ** os.path.split: everything after the last separator is the tail; separators at the end of the head are removed unless it is a root.
    Names are handled backwards. *)
Definition seps (windows : bool) (c : ascii) : bool := Ascii.eqb c "/" || (windows && Ascii.eqb c "\").
Fixpoint drop_while (f : ascii -> bool) (l : list ascii) : list ascii := match l with [] => [] | c :: l' => if f c then drop_while f l' else l end.
Fixpoint take_while (f : ascii -> bool) (l : list ascii) : list ascii := match l with [] => [] | c :: l' => if f c then c :: take_while f l' else [] end.
Definition back (s : string) : list ascii := rev (list_ascii_of_string s).
Definition forth (l : list ascii) : string := string_of_list_ascii (rev l).
Definition rstrip (win : bool) (l : list ascii) : list ascii := match drop_while (seps win) l with [] => l | l' => l' end.
Definition split_back (win : bool) (l : list ascii) : list ascii * list ascii :=
  let no c := negb (seps win c) in (rstrip win (drop_while no l), take_while no l).
Definition dirname (win : bool) (p : string) : string := forth (fst (split_back win (back p))).
Definition is_windows (e : env) : bool := String.prefix "win" (platform e).

(** os.mkdir: the name must be new, its parent a directory (the current one if it is empty) *)
Definition mkdir (e : env) (w : fs) (p parent : string) : io unit * fs :=
  if String.eqb p "" then (Raised FileNotFoundError, w)
  else if path_exists w p then (Raised FileExistsError, w)
  else if negb (String.eqb parent "") && negb (path_exists w parent) then (Raised FileNotFoundError, w)
  else if is_file w parent then (Raised NotADirectoryError, w)
  else if negb (may_make e p) then (Raised PermissionError, w)
  else (Done tt, {| dirs := p :: dirs w; files := files w |}).
(** os.makedirs: parents first; that a parent has appeared meanwhile is ignored *)
Fixpoint makedirs_go (fuel : nat) (e : env) (w : fs) (l : list ascii) : io unit * fs :=
  match fuel with
  | O => (Raised FileNotFoundError, w)
  | S k =>
      let (h0, t0) := split_back (is_windows e) l in
      let (h, t) := match t0 with [] => split_back (is_windows e) h0 | _ => (h0, t0) end in
      let (r, w1) := match h, t with
        | _ :: _, _ :: _ => if path_exists w (forth h) then (Done tt, w) else makedirs_go k e w h
        | _, _ => (Done tt, w)
        end in
      match r with
      | Raised FileExistsError | Done _ => mkdir e w1 (forth l) (forth h)
      | Raised x => (Raised x, w1)
      end
  end.
Definition makedirs (e : env) (w : fs) (p : string) : io unit * fs := makedirs_go (S (String.length p)) e w (back p).

(** config.py:61-64 *)
Definition ensuredir (e : env) (w : fs) (filename : string) : io unit * fs :=
  let d := dirname (is_windows e) filename in
  if negb (path_exists w d) then makedirs e w d else (Done tt, w).

(** config.py:66-77; [None] stands for NotImplemented.  expanduser strips separators from the end of the home directory; an unknown
    variable is left as it is by expandvars; ntpath.join adds a separator unless there is one. *)
Definition expanduser (e : env) : string := forth (drop_while (seps false) (back (home e))) ++ "/.config/qinfer.conf".
Definition join_windows (d name : string) : string :=
  match back d with
  | [] => name
  | c :: _ => if seps true c then d ++ name else d ++ "\" ++ name
  end.
Definition expandvars (e : env) : string := match appdata e with Some v => v | None => "%APPDATA%" end.
Definition unixy (p : string) : bool := String.prefix "linux" p || String.prefix "darwin" p || String.prefix "cygwin" p.
Definition preffilename (e : env) (w : fs) : io (option string) * fs :=
  let finish f := match ensuredir e w f with (Done _, w') => (Done (Some f), w') | (Raised x, w') => (Raised x, w') end in
  if unixy (platform e) then finish (expanduser e)
  else if String.prefix "win" (platform e) then finish (join_windows (expandvars e) "qinfer.conf")
  else (Done None, w).

Section Parser.
Context {P : Type}.
(** An empty parser, and the parser after reading a text; a text may be malformed *)
Variable blank : P.
Variable load : string -> P -> io P.
(** What parser.write puts into the file; an object that is not a parser raises *)
Variable dump : P -> io string.

(** configparser.read: NotImplemented cannot be iterated; files that cannot be opened are ignored *)
Definition parser_read (e : env) (w : fs) (f : option string) : io P :=
  match f with
  | None => Raised TypeErr
  | Some f => match lookup f (files w) with
              | Some t => if may_read e f then load t blank else Done blank
              | None => Done blank
              end
  end.
(** config.py:79-83 *)
Definition read_config (e : env) (w : fs) : io P * fs :=
  if has_safe e then
    match preffilename e w with
    | (Done f, w') => (parser_read e w' f, w')
    | (Raised x, w') => (Raised x, w')
    end
  else (Raised AttributeErr, w).

(** [open(f, 'w')] creates the file or empties it; the parent must be a directory *)
Definition set_file (w : fs) (f t : string) : fs := {| dirs := dirs w; files := (f, t) :: files w |}.
Definition open_w (e : env) (w : fs) (f : option string) : io string * fs :=
  match f with
  | None => (Raised TypeErr, w)
  | Some f =>
      let d := dirname (is_windows e) f in
      if is_dir w f then (Raised IsADirectoryError, w)
      else if is_file w d then (Raised NotADirectoryError, w)
      else if negb (String.eqb d "") && negb (is_dir w d) then (Raised FileNotFoundError, w)
      else if negb (may_write e f) then (Raised PermissionError, w)
      else (Done f, set_file w f "")
  end.
(** config.py:85-87 *)
Definition save_config (e : env) (w : fs) (p : P) : io unit * fs :=
  match preffilename e w with
  | (Done f, w') => match open_w e w' f with
      | (Done f, w'') => match dump p with Done t => (Done tt, set_file w'' f t) | Raised x => (Raised x, w'') end
      | (Raised x, w'') => (Raised x, w'')
      end
  | (Raised x, w') => (Raised x, w')
  end.

(** Programs that read and save several times; exceptions are caught *)
Inductive call := Read | Save (p : P).
Definition step (e : env) (w : fs) (c : call) : fs := match c with Read => snd (read_config e w) | Save p => snd (save_config e w p) end.
Definition run (e : env) (w : fs) (l : list call) : fs := fold_left (step e) l w.
End Parser.
