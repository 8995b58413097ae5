(** Extended numbers: finite reals plus the three special values that NumPy float
    arithmetic produces without raising.  Zero is unsigned here (taken as +0).
    Used wherever the code divides, takes a logarithm or a square root unguarded. *)
From Verif Require Import Base RList.

Inductive ext : Type := Fin (r : R) | PInf | NInf | NaN.

Definition xopp (a : ext) : ext :=
  match a with Fin x => Fin (- x) | PInf => NInf | NInf => PInf | NaN => NaN end.

Definition xadd (a b : ext) : ext :=
  match a, b with
  | Fin x, Fin y => Fin (x + y)
  | NaN, _ | _, NaN => NaN
  | PInf, NInf | NInf, PInf => NaN
  | PInf, _ | _, PInf => PInf
  | NInf, _ | _, NInf => NInf
  end.

Definition xsub (a b : ext) : ext := xadd a (xopp b).

(** +inf times a finite number. *)
Definition inf_times (x : R) : ext :=
  if Rltb 0 x then PInf else if Rltb x 0 then NInf else NaN.

Definition xmul (a b : ext) : ext :=
  match a, b with
  | Fin x, Fin y => Fin (x * y)
  | NaN, _ | _, NaN => NaN
  | PInf, PInf | NInf, NInf => PInf
  | PInf, NInf | NInf, PInf => NInf
  | PInf, Fin y | Fin y, PInf => inf_times y
  | NInf, Fin y | Fin y, NInf => xopp (inf_times y)
  end.

Definition xdiv (a b : ext) : ext :=
  match a, b with
  | Fin x, Fin y => if Reqb y 0 then inf_times x else Fin (x / y)
  | NaN, _ | _, NaN => NaN
  | Fin _, _ => Fin 0
  | PInf, Fin y => if Reqb y 0 then PInf else inf_times y
  | NInf, Fin y => if Reqb y 0 then NInf else xopp (inf_times y)
  | _, _ => NaN
  end.

(** [np.log] *)
Definition xln (a : ext) : ext :=
  match a with
  | Fin x => if Rltb 0 x then Fin (ln x) else if Rltb x 0 then NaN else NInf
  | PInf => PInf
  | _ => NaN
  end.

(** [np.sqrt] *)
Definition xsqrt (a : ext) : ext :=
  match a with
  | Fin x => if Rltb x 0 then NaN else Fin (sqrt x)
  | PInf => PInf
  | _ => NaN
  end.

(** Comparisons: false as soon as a NaN is involved. *)
Definition xltb (a b : ext) : bool :=
  match a, b with
  | Fin x, Fin y => Rltb x y
  | NaN, _ | _, NaN => false
  | NInf, NInf => false | NInf, _ => true
  | PInf, _ => false
  | Fin _, PInf => true | Fin _, NInf => false
  end.
Definition xleb (a b : ext) : bool :=
  match a, b with
  | Fin x, Fin y => Rleb x y
  | NaN, _ | _, NaN => false
  | NInf, _ => true
  | PInf, PInf => true | PInf, _ => false
  | Fin _, PInf => true | Fin _, NInf => false
  end.

Definition isfinite (a : ext) : bool := match a with Fin _ => true | _ => false end.

Definition xsum (l : list ext) : ext := fold_right xadd (Fin 0) l.
Global Arguments xsum : simpl never.

(** Order on the non-NaN extended numbers, for stating bounds. *)
Definition xle (a b : ext) : Prop := xleb a b = true.

Lemma xsum_cons a l : xsum (a :: l) = xadd a (xsum l). Proof. reflexivity. Qed.
Lemma xsum_Fin l : xsum (map Fin l) = Fin (rsum l).
Proof. induction l as [|x l IH]; [reflexivity|]. cbn [map]. rewrite xsum_cons, IH. reflexivity. Qed.
Lemma xadd_NaN_r a : xadd a NaN = NaN. Proof. destruct a; reflexivity. Qed.
Lemma xmul_NaN_r a : xmul a NaN = NaN. Proof. destruct a; reflexivity. Qed.
Lemma xmul_NaN_l a : xmul NaN a = NaN. Proof. destruct a; reflexivity. Qed.
Lemma xsum_NaN l : In NaN l -> xsum l = NaN.
Proof.
  induction l as [|a l IH]; intros H; [destruct H|]. rewrite xsum_cons. destruct H as [->|H].
  - reflexivity.
  - rewrite IH by assumption. apply xadd_NaN_r.
Qed.
Lemma xdiv_Fin x y : y <> 0 -> xdiv (Fin x) (Fin y) = Fin (x / y).
Proof. intros H. simpl. now rewrite Reqb_false. Qed.
Lemma xdiv_00 : xdiv (Fin 0) (Fin 0) = NaN.
Proof. simpl. rewrite Reqb_true by reflexivity. unfold inf_times. now rewrite Rltb_false by lra. Qed.
Lemma xle_refl_Fin x : xle (Fin x) (Fin x).
Proof. unfold xle; simpl. apply Rleb_true; lra. Qed.
Lemma xle_Fin x y : xle (Fin x) (Fin y) <-> x <= y.
Proof. unfold xle; simpl. rb; split; intros; try assumption; try reflexivity; try discriminate; lra. Qed.
Lemma xle_trans a b c : xle a b -> xle b c -> xle a c.
Proof.
  unfold xle. destruct a, b, c; simpl; intros; try discriminate; try reflexivity; repeat rb; try discriminate; try reflexivity; lra.
Qed.
