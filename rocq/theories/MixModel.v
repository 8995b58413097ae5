(** Model of MixtureDistribution (src/qinfer/distributions.py:148-259) with all of its arguments; DistModel.v has the form that takes a
    list of distributions. *)
From Coq Require Import String.
From Verif Require Import Base Ext SmcModel LwModel DistModel.
From Coq Require Import List.

(** A distribution class: positional arguments, keyword arguments. *)
Definition dist_class := list R -> list (string * list R) -> res dist.
(** The argument [dist]: a list, or a class. *)
Inductive dist_or_class := ListOf (l : list dist) | Class (c : dist_class).
(** [dist_args] and [dist_kw_args]: rows of arrays. *)
Definition pos_args := option (list (list R)).
Definition kw_args := option (list (string * list (list R))).

(** 195-205 [_dist_arg]: a missing row is an IndexError *)
Definition row_of (rows : list (list R)) (k : nat) : res (list R) := match nth_error rows k with Some r => Ok r | None => Err IndexError end.
Definition dist_arg (a : pos_args) (k : nat) : res (list R) := match a with Some rows => row_of rows k | None => Ok [] end.
(** 207-221 [_dist_kw_arg] *)
Fixpoint kw_rows (l : list (string * list (list R))) (k : nat) : res (list (string * list R)) :=
  match l with
  | [] => Ok []
  | (key, rows) :: l' => bind (row_of rows k) (fun r => bind (kw_rows l' k) (fun rest => Ok ((key, r) :: rest)))
  end.
Definition dist_kw_arg (a : kw_args) (k : nat) : res (list (string * list R)) := match a with Some l => kw_rows l k | None => Ok [] end.

Inductive mixture :=
| MList (weights : list R) (l : list dist) (shuffle : bool)
| MClass (weights : list R) (c : dist_class) (a : pos_args) (kw : kw_args) (example : dist) (shuffle : bool).
(** The handler of the constructor, 184-193: [call] is what calling the object [dist] does. *)
Definition class_branch (weights : list R) (call : dist_class) (a : pos_args) (kw : kw_args) (shuffle : bool) : res mixture :=
  match a with
  | None => Err AttributeError                                           (** None has no shape *)
  | Some rows =>
      if Nat.eqb (length weights) (length rows) then
        bind (dist_arg a 0) (fun x => bind (dist_kw_arg kw 0) (fun y => bind (call x y) (fun d =>
        Ok (MClass weights call a kw d shuffle))))
      else Err AssertionError
  end.
(** 173-193 [__init__].  [dist[0]] fails on an empty list and on a class; a wrong number of distributions fails the assertion; all
    failures end in the handler.  A list cannot be called. *)
Definition mixture_init (weights : list R) (d : dist_or_class) (a : pos_args) (kw : kw_args) (shuffle : bool) : res mixture :=
  match d with
  | ListOf l =>
      if negb (Nat.eqb (length l) 0) && Nat.eqb (length weights) (length l) then Ok (MList weights l shuffle)
      else class_branch weights (fun _ _ => Err TypeError) a kw shuffle
  | Class c => class_branch weights c a kw shuffle
  end.
(** 223-225 *)
Definition mixture_n_rvs (m : mixture) : nat :=
  match m with MList w l s => n_rvs (Mixture w l s) | MClass _ _ _ _ d _ => n_rvs d end.
(** 227-259.  The components of a class are built when they are drawn from, 248-253. *)
Definition build (c : dist_class) (a : pos_args) (kw : kw_args) (k : nat) : res dist :=
  bind (dist_arg a k) (fun x => bind (dist_kw_arg kw k) (fun y => c x y)).
Fixpoint class_parts (c : dist_class) (a : pos_args) (kw : kw_args) (w : source) (k : nat) (ns : list nat) : res (list arr) :=
  match ns with
  | [] => Ok []
  | m :: ns' =>
      if Nat.eqb m 0 then class_parts c a kw w (S k) ns'
      else bind (build c a kw k) (fun f => bind (sample f m (sub w k)) (fun x => bind (class_parts c a kw w (S k) ns') (fun r => Ok (x :: r))))
  end.
Definition mixture_sample (m : mixture) (n : nat) (w : source) : res arr :=
  match m with
  | MList weights l shuffle => sample (Mixture weights l shuffle) n w
  | MClass weights c a kw _ shuffle =>
      bind (class_parts c a kw w 0 (counts (here w) n weights)) (fun parts => bind (concat0 parts) (fun x =>
        if shuffle then match x with
                        | A1 y => Ok (A1 (pick_rows (shuffled (here w) (length y)) y NaN))
                        | A2 d y => Ok (A2 d (pick_rows (shuffled (here w) (length y)) y []))
                        end
        else Ok x))
  end.
