(** C136, continued: dimensions of composite bases, labels with replacement fields, indices of other types. *)
From Coq Require Import String Ascii NArith ZArith Lia Lra.
From Verif Require Import Base Cplx UtilModel UtilSpec UtilProofs FmtModel FmtSpec FmtProofs TomoModel TomoSpec TomoProofs TomoProofs2 TomoProps LtxModel LtxProofs LabModel LabSpec LabProofs LabProps.
From Coq Require Import List.
Close Scope string_scope.
Open Scope list_scope.

(** The dimension is the product of the dimensions of the factors, whatever their grouping. *)
Theorem c136_dimension : dim_of [] = 1%nat /\ (forall d, dim_of [d] = d) /\ forall l m, dim_of (l ++ m) = (dim_of l * dim_of m)%nat.
Proof.
  assert (G : forall l a, fold_left Nat.mul l a = (a * fold_left Nat.mul l 1)%nat).
  { induction l as [|x l IH]; intros a; cbn [fold_left]; [lia|]. rewrite (IH (a * x)%nat), (IH (1 * x)%nat). lia. }
  split; [reflexivity|]. split; [intros d; cbn; lia|]. intros l m. unfold dim_of. rewrite fold_left_app. apply G.
Qed.
Lemma dim_concat ls : dim_of (concat ls) = fold_right (fun l p => (dim_of l * p)%nat) 1%nat ls.
Proof. induction ls as [|l ls IH]; cbn [concat fold_right]; [reflexivity|]. rewrite (proj2 (proj2 c136_dimension)), IH. reflexivity. Qed.

(** A tensor product of bases whose dims tell their number of elements is again one, and iterating over it gives all its elements in order. *)
Theorem c136_iterate_tensor fs t : fs <> [] -> Forall (fun f => tomographic (lb f) /\ length (lb_labels f) = length (bdata (lb f)) /\ dim_of (lb_dims f) = bdim (lb f)) fs -> tensor_labelled fs = Ok t ->
  length (bdata (lb t)) = (dim_of (lb_dims t) ^ 2)%nat /\ dim_of (lb_dims t) = fold_right Nat.mul 1%nat (map (fun f => bdim (lb f)) fs) /\ iterate t = Ok (map One (bdata (lb t))).
Proof.
  intros N F Et. destruct (c136_tensor fs N) as (t' & Et' & Dt & Lt & _); [eapply Forall_impl; [|exact F]; now intros f (? & ? & _)|]. rewrite Et in Et'. injection Et' as <-.
  assert (LD : length (bdata (lb t)) = (dim_of (lb_dims t) ^ 2)%nat).
  { rewrite <- Lt. rewrite Dt, dim_concat. revert Et. unfold tensor_labelled. destruct (tensor_product_basis (map lb fs)) as [b|]; [|discriminate]. cbn [bind new_basis init_labels]. intros K. injection K as <-. cbn [lb_labels].
    rewrite map_length, length_it_product. clear Lt Dt N. induction F as [|f fs (T & L & D) F IH]; [reflexivity|]. cbn [map fold_right]. rewrite IH, L, (tg_len (lb f) T), <- D. cbn [Nat.pow]. lia. }
  split; [exact LD|]. split; [|now apply c136_iterate].
  rewrite Dt, dim_concat. clear -F. induction F as [|f fs (T & L & D) F IH]; [reflexivity|]. cbn [map fold_right]. now rewrite IH, D.
Qed.
Theorem c136_iterate_pauli nq : (0 < nq)%nat -> exists t, pauli_labelled nq = Ok t /\ dim_of (lb_dims t) = (2 ^ nq)%nat /\ iterate t = Ok (map One (bdata (lb t))).
Proof.
  intros Hn. destruct (c136_pauli nq Hn) as (p & t & _ & Et & Eb & Dt & _ & Lt & _). exists t. split; [exact Et|].
  assert (D : dim_of (lb_dims t) = (2 ^ nq)%nat).
  { rewrite Dt. clear. induction nq as [|n IH]; [reflexivity|]. change (repeat 2%nat (S n)) with ([2%nat] ++ repeat 2%nat n). rewrite (proj2 (proj2 c136_dimension)), IH. cbn. lia. }
  split; [exact D|]. apply c136_iterate. rewrite D. destruct (c61_pauli nq Hn) as (b & Eb' & _ & _ & Lb). assert (b = lb t) by congruence. subst b. rewrite Lb. rewrite <- Nat.pow_mul_r, Nat.mul_comm, Nat.pow_mul_r. reflexivity.
Qed.
Theorem c136_iterate_gell_mann d : (0 < d)%nat -> exists t, gell_mann_labelled d = Ok t /\ iterate t = Ok (map One (bdata (lb t))).
Proof.
  intros D. destruct (c136_gell_mann d D) as (t & Et & T & B & Dt & _). exists t. split; [exact Et|]. apply c136_iterate. rewrite (tg_len _ T), B, Dt, (proj1 (proj2 c136_dimension)). reflexivity.
Qed.

(** A label with a replacement field of its own has no argument left for the number. *)
Theorem c136_field_refuted b dims u v name : no_brace u -> no_brace v -> (0 < dim_of dims)%nat -> new_basis b dims (LStr (u ++ "{}" ++ v)%string) name = Err IndexError.
Proof.
  intros U V D. unfold new_basis, init_labels. rewrite format1_prefix. cbn [bind].
  assert (P : exists n, (dim_of dims ^ 2 = S n)%nat) by (exists (dim_of dims ^ 2 - 1)%nat; assert (dim_of dims ^ 2 <> 0)%nat by (apply Nat.pow_nonzero; lia); lia).
  destruct P as [n ->]. unfold range_text. cbn [seq map map_ok].
  assert (E : forall a, format1 ((u ++ "{}" ++ v) ++ "_{}")%string a = Err IndexError).
  { intros a. unfold format1. rewrite sappA, format1_plain by now apply no_brace_plain. rewrite sappA.
    change (format1_go a false None ("{}" ++ v ++ "_{}")%string) with (bind (format1_go a true None (v ++ "_{}")%string) (fun b => Ok (a ++ b)%string)).
    rewrite format1_plain by now apply no_brace_plain. reflexivity. }
  rewrite E. reflexivity.
Qed.
Example field_label b : new_basis b [2%nat] (LStr "B^{}") None = Err IndexError.
Proof.
  change "B^{}"%string with ("B^" ++ "{}" ++ "")%string. apply c136_field_refuted; [| |cbn; lia].
  - split; apply occurs_lacks; reflexivity.
  - split; apply occurs_lacks; reflexivity.
Qed.

(** An index that is neither an integer nor a list raises TypeError, alone and in a list whose earlier entries are found. *)
Theorem c136_index_other data l r xs : Forall2 (fun i x => getitem data i = Ok x) l xs -> getitem data IxOther = Err TypeError /\ getitem data (IxList (l ++ IxOther :: r)) = Err TypeError.
Proof.
  intros F. split; [reflexivity|]. cbn [getitem]. set (go := fix all (l : list index) : res (list item) := match l with [] => Ok [] | i :: r => bind (getitem data i) (fun x => bind (all r) (fun xs => Ok (x :: xs))) end).
  assert (Q : go (l ++ IxOther :: r) = Err TypeError); [|now rewrite Q]. induction F as [|i x l xs H F IH]; cbn [go app]; [reflexivity|]. rewrite H. cbn [bind]. fold go. now rewrite IH.
Qed.
Example index_mixed m : getitem [m] (IxList [IxInt 0; IxOther]) = Err TypeError.
Proof. apply (c136_index_other [m] [IxInt 0] [] [One m]). constructor; [reflexivity|constructor]. Qed.
Example three_factors : exists g t, gell_mann_labelled 3 = Ok g /\ tensor_labelled [g; g; g] = Ok t /\ dim_of (lb_dims t) = 27%nat /\ iterate t = Ok (map One (bdata (lb t))).
Proof.
  destruct (c136_gell_mann 3 ltac:(lia)) as (g & Eg & T & B & D & L & _). exists g.
  assert (H : tomographic (lb g) /\ length (lb_labels g) = length (bdata (lb g)) /\ dim_of (lb_dims g) = bdim (lb g)) by (rewrite D, B; auto).
  destruct (c136_tensor [g; g; g]) as (t & Et & _); [discriminate|constructor; [tauto|constructor; [tauto|constructor; [tauto|constructor]]]|].
  destruct (c136_iterate_tensor [g; g; g] t) as (_ & Dt & It); [discriminate|constructor; [tauto|constructor; [tauto|constructor; [tauto|constructor]]]|assumption|].
  exists t. split; [assumption|]. split; [assumption|]. split; [|assumption]. rewrite Dt. cbn [map fold_right]. now rewrite B.
Qed.

Print Assumptions c136_dimension.
Print Assumptions c136_iterate_tensor.
Print Assumptions c136_iterate_pauli.
Print Assumptions c136_iterate_gell_mann.
Print Assumptions c136_field_refuted.
Print Assumptions c136_index_other.
