(** Model of the citation stub (src/qinfer/_due.py), of [decorate_init] (src/qinfer/utils.py:609-621) and of the places where the
    library decorates constructors.

    Simplifications: an exception is the name of its type and whether that type derives from Exception; what the real duecredit
    package does once it has been imported is left open (its decorator is a parameter); functions other than constructors are
    represented by an arbitrary type. *)
From Coq Require Import String List Bool Arith.
From Verif Require Import Base ClsModel.
Import ListNotations.
Close Scope R_scope.
Open Scope string_scope.
Open Scope list_scope.

(** ** Importing the package: _due.py:55-67 *)
Record raised := { x_type : string; x_ordinary : bool }.
(** What Python finds: the package raises while it is loaded, or it is loaded and offers some names; its [due] may lack [cite]. *)
Inductive package := Broken (x : raised) | Loaded (offers : string -> bool) (has_cite : bool).
Inductive supplier := Real | Stub.
(** The names bound in the module, newest first, and the types of the errors reported through logging. *)
Record namespace := { bound : list (string * supplier); reported : list string }.
Definition value_of (n : namespace) (x : string) : option supplier := option_map snd (find (fun p => String.eqb (fst p) x) (bound n)).
Definition wanted : list string := ["due"; "BibTeX"; "Doi"; "Url"].
(** [from duecredit import due, BibTeX, Doi, Url]: the names are bound one after the other until one is missing. *)
Fixpoint import_names (offers : string -> bool) (names : list string) (b : list (string * supplier)) : list (string * supplier) * option raised :=
  match names with
  | [] => (b, None)
  | x :: r => if offers x then import_names offers r ((x, Real) :: b)
              else (b, Some {| x_type := "ImportError"; x_ordinary := true |})
  end.
(** Lines 55-59: the body of the try statement. *)
Definition try_import (p : package) : list (string * supplier) * option raised :=
  match p with
  | Broken x => ([], Some x)
  | Loaded offers has_cite =>
      match import_names offers wanted [] with
      | (b, Some x) => (b, Some x)
      | (b, None) => if existsb (fun q => String.eqb (fst q) "due") b && negb has_cite
                     then (b, Some {| x_type := "RuntimeError"; x_ordinary := true |}) else (b, None)
      end
  end.
(** Lines 60-67: [except Exception as e], report unless the type is called ImportError, bind the stubs. *)
Definition import_due (p : package) : raised + namespace :=
  match try_import p with
  | (b, None) => inr {| bound := b; reported := [] |}
  | (b, Some x) =>
      if x_ordinary x then
        inr {| bound := map (fun y => (y, Stub)) ["due"; "BibTeX"; "Doi"; "Url"] ++ b;
               reported := if negb (String.eqb (x_type x) "ImportError") then [x_type x] else [] |}
      else inl x
  end.
(** A package that is not installed: ModuleNotFoundError exists since Python 3.6 and derives from ImportError. *)
Inductive python := Before36 | Since36.
Definition not_installed (v : python) : package :=
  Broken {| x_type := match v with Before36 => "ImportError" | Since36 => "ModuleNotFoundError" end; x_ordinary := true |}.

(** ** The stub: _due.py:31-52 *)
(** [due.dcite(...)] applied to a function; [real] is duecredit's decorator. *)
Definition dcite {F} (real : F -> F) (s : supplier) : F -> F := match s with Stub => fun f => f | Real => real end.

(** ** Constructors held by classes *)
(** [pins] lists the classes whose [__init__] was assigned after the class statement, with the class whose code the assigned function
    runs; the newest assignment comes first. *)
Definition pins := list (string * string).
Definition holder (e : env) (ps : pins) (c : string) : option string :=
  match find (fun p => String.eqb (fst p) c) ps with
  | Some p => Some (snd p)
  | None => match init_of e c with Some _ => Some c | None => None end
  end.
(** Looking [__init__] up along an order *)
Fixpoint find_init (e : env) (ps : pins) (mro : list string) : option string :=
  match mro with [] => None | c :: r => match holder e ps c with Some d => Some d | None => find_init e ps r end end.
(** Running the code of class [c]'s constructor on an instance whose class has the order [full]: [super(c, self).__init__] continues
    after [c] in that order, [D.__init__(self)] looks the constructor up in [D]. *)
Fixpoint run_init (fuel : nat) (e : env) (ps : pins) (full : list string) (c : string) : option (list string) :=
  match fuel with
  | O => None
  | S f =>
      let continue order := match find_init e ps order with
                            | None => Some [c]
                            | Some k => option_map (cons c) (run_init f e ps full k)
                            end in
      match init_of e c with
      | None => None
      | Some Stops => Some [c]
      | Some Coop => continue (tl (from c full))
      | Some (Explicit d) => match get e d with None => None | Some o => continue (o_mro o) end
      end
  end.
(** The classes whose constructors run when an instance of [o] is created. *)
Definition constructors (e : env) (ps : pins) (o : pyclass) : option (list string) :=
  match find_init e ps (o_mro o) with None => Some [] | Some k => run_init (S (length (o_mro o))) e ps (o_mro o) k end.
(** utils.py:609-621 [decorate_init]: [cls.__init__ = init_decorator(cls.__init__)]. *)
Definition decorate_init (dec : string -> string) (e : env) (o : pyclass) (ps : pins) : pins :=
  match find_init e ps (o_mro o) with Some d => (name_of o, dec d) :: ps | None => ps end.
(** A decorated [def __init__] in the class body *)
Definition decorate_own (dec : string -> string) (c : string) (ps : pins) : pins := (c, dec c) :: ps.
(** ale.py:87, rb.py:109, resamplers.py:207, tomography/distributions.py:226: decorated constructors; test_models.py:215-221:
    [decorate_init] on UnknownT2Model. *)
Definition decorated_constructors : list string :=
  ["ALEApproximateModel"; "RandomizedBenchmarkingModel"; "LiuWestResampler"; "BCSZChoiDistribution"].
Definition library_pins (dec : string -> string) (e : env) : pins :=
  let own := fold_left (fun ps c => decorate_own dec c ps) decorated_constructors [] in
  match get e "UnknownT2Model" with Some o => decorate_init dec e o own | None => own end.
