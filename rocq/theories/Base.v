(** Vocabulary shared by all model files: Python exceptions as values, boolean
    comparisons on the reals, and NumPy-like list primitives.  No property of the
    code is stated here. *)
From Coq Require Export Reals List ZArith Lra Lia Psatz Permutation Bool Arith.
Export ListNotations.
Open Scope R_scope.

(** Python exceptions that the modelled code can raise. *)
Inductive exn : Set :=
| ValueError | RuntimeError | IndexError | ZeroDivisionError | TypeError
| NameError | AttributeError | AssertionError | RecursionError
| NotImplementedError | ResamplerError | UnboundLocalError | KeyError | OverflowError.

Inductive res (A : Type) : Type :=
| Ok (a : A)
| Err (e : exn).
Arguments Ok {A} a.
Arguments Err {A} e.

Definition bind {A B} (x : res A) (f : A -> res B) : res B :=
  match x with Ok a => f a | Err e => Err e end.

(** Boolean comparisons on real numbers (Python's [<], [<=], [==] on finite floats). *)
Definition Rltb (x y : R) : bool := if Rlt_dec x y then true else false.
Definition Rleb (x y : R) : bool := if Rle_dec x y then true else false.
Definition Reqb (x y : R) : bool := if Req_EM_T x y then true else false.

Lemma Rltb_spec x y : reflect (x < y) (Rltb x y).
Proof. unfold Rltb; destruct (Rlt_dec x y); constructor; assumption. Qed.
Lemma Rleb_spec x y : reflect (x <= y) (Rleb x y).
Proof. unfold Rleb; destruct (Rle_dec x y); constructor; assumption. Qed.
Lemma Reqb_spec x y : reflect (x = y) (Reqb x y).
Proof. unfold Reqb; destruct (Req_EM_T x y); constructor; assumption. Qed.

Lemma Rltb_true x y : x < y -> Rltb x y = true.
Proof. intros H; destruct (Rltb_spec x y); [reflexivity|lra]. Qed.
Lemma Rltb_false x y : y <= x -> Rltb x y = false.
Proof. intros H; destruct (Rltb_spec x y); [lra|reflexivity]. Qed.
Lemma Rleb_true x y : x <= y -> Rleb x y = true.
Proof. intros H; destruct (Rleb_spec x y); [reflexivity|lra]. Qed.
Lemma Rleb_false x y : y < x -> Rleb x y = false.
Proof. intros H; destruct (Rleb_spec x y); [lra|reflexivity]. Qed.
Lemma Reqb_true x y : x = y -> Reqb x y = true.
Proof. intros H; destruct (Reqb_spec x y); [reflexivity|contradiction]. Qed.
Lemma Reqb_false x y : x <> y -> Reqb x y = false.
Proof. intros H; destruct (Reqb_spec x y); [contradiction|reflexivity]. Qed.

(** Destruct one real comparison of the goal or a hypothesis. *)
Ltac rb :=
  match goal with
  | |- context [Rltb ?x ?y] => destruct (Rltb_spec x y)
  | |- context [Rleb ?x ?y] => destruct (Rleb_spec x y)
  | |- context [Reqb ?x ?y] => destruct (Reqb_spec x y)
  | H : context [Rltb ?x ?y] |- _ => destruct (Rltb_spec x y)
  | H : context [Rleb ?x ?y] |- _ => destruct (Rleb_spec x y)
  | H : context [Reqb ?x ?y] |- _ => destruct (Reqb_spec x y)
  end.

(** Elementwise binary operation on two arrays of the same length. *)
Fixpoint map2 {A B C} (f : A -> B -> C) (l : list A) (m : list B) : list C :=
  match l, m with
  | a :: l', b :: m' => f a b :: map2 f l' m'
  | _, _ => []
  end.

(** [np.sum] of a one-index array. *)
Definition rsum (l : list R) : R := fold_right Rplus 0 l.
Global Arguments rsum : simpl never.

(** [np.prod] of a one-index array. *)
Definition rprod (l : list R) : R := fold_right Rmult 1 l.
Global Arguments rprod : simpl never.

(** [np.dot] of two one-index arrays. *)
Definition rdot (a b : list R) : R := rsum (map2 Rmult a b).
Global Arguments rdot : simpl never.

(** [np.cumsum]. *)
Fixpoint cumsum_from (acc : R) (l : list R) : list R :=
  match l with
  | [] => []
  | x :: l' => (acc + x) :: cumsum_from (acc + x) l'
  end.
Definition cumsum (l : list R) : list R := cumsum_from 0 l.

(** [a.searchsorted(v, side='right')] for a non-decreasing array [a]: the first index
    whose entry exceeds [v], and [len(a)] when there is none. *)
Fixpoint searchsorted_right (a : list R) (v : R) : nat :=
  match a with
  | [] => 0%nat
  | x :: a' => if Rltb v x then 0%nat else S (searchsorted_right a' v)
  end.

(** [np.argmax] of a boolean array: index of the first [True], and 0 if there is none. *)
Fixpoint first_true (l : list bool) : option nat :=
  match l with
  | [] => None
  | b :: l' => if b then Some 0%nat else option_map S (first_true l')
  end.
Definition argmax_bool (l : list bool) : nat :=
  match first_true l with Some i => i | None => 0%nat end.

(** [np.clip]. *)
Definition clip (lo hi x : R) : R := Rmin hi (Rmax lo x).

(** [np.ones((n,)) / n] *)
Definition uniform_weights (n : nat) : list R := repeat (/ INR n) n.

(** Boolean-mask indexing [l[mask]]. *)
Fixpoint select {A} (mask : list bool) (l : list A) : list A :=
  match mask, l with
  | b :: mask', x :: l' => if b then x :: select mask' l' else select mask' l'
  | _, _ => []
  end.

(** [np.spacing(1)], machine epsilon of IEEE double. *)
Definition eps : R := / 2 ^ 52.

(** Column [j] of a two-index array (list of rows). *)
Definition col (j : nat) (rows : list (list R)) : list R := map (fun r => nth j r 0) rows.
