(** C135: the display of a tomographic basis. *)
From Coq Require Import String Ascii NArith ZArith Lia Lra.
From Verif Require Import Base Ext UtilModel UtilSpec UtilProofs SimpleModel FmtModel FmtSpec FmtProofs LtxModel LtxSpec LtxProofs.
From Coq Require Import List.
Close Scope string_scope.
Open Scope list_scope.

(** Reading a displayed entry gives back its real and its imaginary part: exactly up to the tolerance, else to three decimals
    between 1/1000 and 1000 and to four significant figures elsewhere. *)
Theorem c135_value tol a b s : 0 <= tol -> format_complex_as_latex tol (Fin a, Fin b) = Ok s ->
  exists a' b', read_complex s = Some (a', b') /\ displayed tol a a' /\ displayed tol b b'.
Proof. apply format_complex_reads. Qed.
(** An entry is displayed exactly if both parts are finite. *)
Theorem c135_finite tol c : (exists s, format_complex_as_latex tol c = Ok s) <-> exists a b, c = (Fin a, Fin b).
Proof. split; [intros [s H]; eapply format_complex_finite, H|intros (a & b & ->); apply format_complex_ok]. Qed.
(** Integers are displayed as integers, and so are numbers above a nonnegative integer by at most the tolerance (below for a negative one). *)
Theorem c135_integers tol (n : Z) d : 0 <= d <= tol -> d < 1 -> format_float_as_latex tol (Fin (if Z.leb 0 n then IZR n + d else IZR n - d)) = Ok (show_int n).
Proof.
  intros D D1. unfold format_float_as_latex.
  assert (I : forall k : Z, forall u, 0 <= u < 1 -> Int_part (IZR k + u) = k).
  { intros k u U. destruct (base_Int_part (IZR k + u)) as [H1 H2]. assert (A1 : IZR (Int_part (IZR k + u)) < IZR (k + 1)) by (rewrite plus_IZR; lra). apply lt_IZR in A1.
    assert (A2 : IZR (k - 1) < IZR (Int_part (IZR k + u))) by (rewrite minus_IZR; lra). apply lt_IZR in A2. lia. }
  assert (T : trunc (if Z.leb 0 n then IZR n + d else IZR n - d) = n).
  { unfold trunc. destruct (Z.leb_spec 0 n) as [L|L].
    - apply IZR_le in L. rewrite Rleb_true by lra. apply I. lra.
    - assert (L1 : IZR n <= IZR (-1)) by (apply IZR_le; lia). destruct (Rleb_spec 0 (IZR n - d)) as [K|K]; [exfalso; lra|].
      replace (- (IZR n - d)) with (IZR (- n) + d) by (rewrite opp_IZR; ring). rewrite I by lra. lia. }
  rewrite T. rewrite Rleb_true; [reflexivity|]. destruct (Z.leb 0 n).
  - replace (IZR n + d - IZR n) with d by ring. rewrite Rabs_right; lra.
  - replace (IZR n - d - IZR n) with (- d) by ring. rewrite Rabs_Ropp, Rabs_right; lra.
Qed.
Example integer_minus_one : format_complex_as_latex default_tol (Fin 0, Fin (-1)) = Ok "-1\mathrm{i}"%string.
Proof.
  unfold format_complex_as_latex. cbn [fst snd xabs_le]. assert (T : 0 < default_tol < 1). { unfold default_tol. split; [apply Rinv_0_lt_compat; lra|]. rewrite <- Rinv_1. apply Rinv_lt_contravar; lra. }
  destruct (Rleb_spec (Rabs (-1)) default_tol) as [K|K]; [rewrite Rabs_left in K by lra; lra|]. rewrite Rleb_true by (rewrite Rabs_R0; lra).
  pose proof (c135_integers default_tol (-1) 0 ltac:(lra) ltac:(lra)) as H. cbn [Z.leb Z.compare] in H. replace (-1 - 0) with (-1) in H by ring. rewrite H. reflexivity.
Qed.
(** An integer missed from the other side by less than the tolerance is not displayed as an integer. *)
Theorem c135_integers_refuted : ~ forall (n : Z) d, Rabs d <= default_tol -> format_float_as_latex default_tol (Fin (IZR n + d)) = Ok (show_int n).
Proof.
  intros H. set (d := default_tol / 2). assert (T : default_tol = / 10 ^ 10) by reflexivity. assert (D : 0 < d < / 10 ^ 9).
  { unfold d. rewrite T. split; [assert (0 < / 10 ^ 10) by (apply Rinv_0_lt_compat; lra); lra|]. apply Rmult_lt_reg_r with (10 ^ 10); [lra|].
    replace (/ 10 ^ 10 / 2 * 10 ^ 10) with (/ 2) by (field; lra). replace (/ 10 ^ 9 * 10 ^ 10) with 10 by (field; lra). lra. }
  assert (D9 : / 10 ^ 9 <= / 10000) by (apply Rinv_le_contravar; lra). specialize (H 1%Z (- d)). rewrite Rabs_Ropp, Rabs_right in H by lra. specialize (H ltac:(unfold d; lra)).
  unfold format_float_as_latex in H. assert (E : trunc (1 + - d) = 0%Z).
  { unfold trunc. rewrite Rleb_true by lra. destruct (base_Int_part (1 + - d)) as [H1 H2]. assert (A1 : IZR (Int_part (1 + - d)) < IZR 1) by lra. apply lt_IZR in A1.
    assert (A2 : IZR (-1) < IZR (Int_part (1 + - d))) by lra. apply lt_IZR in A2. lia. }
  rewrite E in H. rewrite Rabs_right in H by lra. destruct (Rleb_spec (1 + - d - 0) default_tol) as [K|K]; [unfold d in *; lra|]. rewrite !Rleb_true in H by (rewrite ?Rabs_right by lra; lra).
  cbn [andb] in H. injection H as H. unfold show_fixed in H. rewrite Rabs_right in H by lra. rewrite (round_even_unique _ 1000) in H.
  - destruct (Rltb_spec (1 + - d) 0) as [L|L]; [lra|]. vm_compute in H. discriminate.
  - replace (1000 - (1 + - d) * 10 ^ 3) with (d * 1000) by (cbn; ring). rewrite Rabs_right; lra.
Qed.
(** Three decimals are not four significant figures: 0.0014 is displayed as 0.001. *)
Theorem c135_significant_refuted : exists x s y, format_float_as_latex default_tol (Fin x) = Ok s /\ read_complex s = Some (y, 0) /\ x / 4 < Rabs (y - x).
Proof.
  exists (14 / 10000), "0.001"%string, (1 / 1000). assert (T : default_tol <= 1 / 100000). { unfold default_tol. replace (1 / 100000) with (/ 10 ^ 5) by (cbn; lra). apply Rinv_le_contravar; [lra|]. apply Rle_pow; [lra|lia]. }
  split; [|split].
  - unfold format_float_as_latex. assert (E : trunc (14 / 10000) = 0%Z).
    { unfold trunc. rewrite Rleb_true by lra. destruct (base_Int_part (14 / 10000)) as [H1 H2]. assert (A1 : IZR (Int_part (14 / 10000)) < IZR 1) by lra. apply lt_IZR in A1.
      assert (A2 : IZR (-1) < IZR (Int_part (14 / 10000))) by lra. apply lt_IZR in A2. lia. }
    rewrite E, !Rabs_right by lra. destruct (Rleb_spec (14 / 10000 - 0) default_tol) as [K|K]; [lra|]. rewrite !Rleb_true by lra. cbn [andb]. f_equal.
    unfold show_fixed. rewrite Rabs_right by lra. rewrite (round_even_unique _ 1).
    + destruct (Rltb_spec (14 / 10000) 0) as [L|L]; [lra|]. reflexivity.
    + replace (1 - 14 / 10000 * 10 ^ 3) with (- (4 / 10)) by (cbn; lra). rewrite Rabs_Ropp, Rabs_right; lra.
  - unfold read_complex, read_term. change (read_decimal "0.001") with (Some (IZR 0 + IZR 1 / 10 ^ 3, EmptyString)). cbn -[pow]. f_equal. f_equal. cbn. lra.
  - replace (1 / 1000 - 14 / 10000) with (- (4 / 10000)) by lra. rewrite Rabs_Ropp, Rabs_right; lra.
Qed.
(** A negative imaginary part is displayed with both signs. *)
Theorem c135_signs tol a b s : 0 <= tol -> b < 0 -> tol < Rabs a -> tol < Rabs b -> format_complex_as_latex tol (Fin a, Fin b) = Ok s ->
  exists u v, s = (u ++ " + -" ++ v)%string.
Proof.
  intros T B A1 B1. unfold format_complex_as_latex. cbn [fst snd xabs_le]. destruct (Rleb_spec (Rabs b) tol); [lra|]. destruct (Rleb_spec (Rabs a) tol); [lra|].
  destruct (format_float_as_latex tol (Fin a)) as [u|] eqn:U; [|discriminate]. cbn [bind]. unfold format_float_as_latex at 1.
  assert (M : forall n x, x < 0 -> exists v, show_fixed n x = ("-" ++ v)%string). { intros m x X. unfold show_fixed. rewrite Rltb_true by assumption. eexists. reflexivity. }
  destruct (Rleb_spec (Rabs (b - IZR (trunc b))) tol) as [K|K]; [|destruct (_ && _)]; cbn [bind]; intros H; injection H as <-.
  - assert (Tb : (trunc b <= 0)%Z). { unfold trunc. destruct (Rleb_spec 0 b); [lra|]. destruct (base_Int_part (- b)) as [H1 H2]. assert (A2 : IZR (-1) < IZR (Int_part (- b))) by lra. apply lt_IZR in A2. lia. }
    destruct (Z.eq_dec (trunc b) 0) as [E|E]; [rewrite E in K; replace (b - 0) with b in K by ring; lra|].
    exists u, (show (Z.abs_N (trunc b)) ++ "\mathrm{i}")%string. unfold show_int. rewrite (proj2 (Z.ltb_lt (trunc b) 0)) by lia. rewrite !sappA. reflexivity.
  - destruct (M 3%nat b B) as [v ->]. exists u, (v ++ "\mathrm{i}")%string. rewrite !sappA. reflexivity.
  - rewrite replace_exp. destruct (M 3%nat (b / p10 (shown_exponent 3 b))) as [v ->].
    { pose proof (p10_pos (shown_exponent 3 b)) as P. assert (I : 0 < / p10 (shown_exponent 3 b)) by now apply Rinv_0_lt_compat. unfold Rdiv. nra. }
    exists u. eexists. rewrite !sappA. reflexivity.
Qed.
(** The rows and the cells of a displayed matrix are those of the matrix. *)
Theorem c135_matrix m s : m <> [] -> Forall (fun row => row <> []) m -> rows_tex m = Ok s ->
  Forall2 (Forall2 (fun c v => exists a b a' b', c = (Fin a, Fin b) /\ v = Some (a', b') /\ displayed default_tol a a' /\ displayed default_tol b b')) m (read_matrix s).
Proof. apply rows_tex_reads. Qed.
(** The basis is displayed exactly if its dimension is above ten, or all entries of the elements that have a label are finite. *)
Theorem c135_repr data dims labels : (exists s, repr_html data dims labels = Ok s) <->
  (10 < fold_left Z.mul dims 1)%Z \/ forall i m, nth_error data i = Some m -> (i < length labels)%nat -> forall row c, In row m -> In c row -> exists a b, c = (Fin a, Fin b).
Proof.
  unfold repr_html. destruct (Z.leb_spec (fold_left Z.mul dims 1%Z) 10) as [L|L]; [|split; [now left|eauto]].
  assert (Q : forall ls ds, (exists es, elements_tex ds ls = Ok es) <-> forall i m, nth_error ds i = Some m -> (i < length ls)%nat -> Forall (Forall finite) m).
  { unfold elements_tex. induction ls as [|l ls IH]; intros ds.
    - split; [intros _ i m _ Hi; cbn in Hi; lia|]. intros _. destruct ds; eexists; reflexivity.
    - destruct ds as [|d ds]; [split; [intros _ [|i] m; discriminate|intros _; eexists; reflexivity]|]. cbn [combine map_ok fst snd]. specialize (IH ds). split.
      + intros [es H] [|i] m E Hi.
        * injection E as <-. apply rows_tex_ok. destruct (rows_tex d) as [t|]; [now exists t|discriminate].
        * destruct (rows_tex d) as [t|]; [|discriminate]. cbn [bind] in H. destruct (map_ok _ (combine ds ls)) as [bs|] eqn:M; [|discriminate]. destruct IH as [IH _].
          apply (IH (ex_intro _ bs eq_refl) i m E). cbn in Hi. lia.
      + intros H. assert (Hd : Forall (Forall finite) d) by (apply (H 0%nat); [reflexivity|cbn; lia]). apply rows_tex_ok in Hd as [t ->]. cbn [bind].
        destruct IH as [_ IH]. destruct IH as [bs ->]; [|eexists; reflexivity]. intros i m E Hi. apply (H (S i) m E). cbn. lia. }
  specialize (Q labels data). split.
  - intros [s H]. right. intros i m E Hi row c Hr Hc. destruct (elements_tex data labels) as [es|]; [|discriminate]. pose proof (proj1 Q (ex_intro _ es eq_refl) i m E Hi) as F.
    rewrite Forall_forall in F. specialize (F row Hr). rewrite Forall_forall in F. exact (F c Hc).
  - intros [H|H]; [lia|]. destruct (proj2 Q) as [es ->]; [|eexists; reflexivity]. intros i m E Hi. apply Forall_forall. intros row Hr. apply Forall_forall. intros c Hc. exact (H i m E Hi row c Hr Hc).
Qed.
(** Each element that is displayed stands beside its own label, in order; elements beyond the labels are left out. *)
Theorem c135_labels data labels es : elements_tex data labels = Ok es -> length es = Nat.min (length data) (length labels) /\
  forall i e, nth_error es i = Some e -> exists m l s, nth_error data i = Some m /\ nth_error labels i = Some l /\ rows_tex m = Ok s /\ e = element_tex l s.
Proof.
  unfold elements_tex. intros H. apply map_ok_forall2 in H. split; [rewrite <- combine_length; clear - H; induction H; cbn; congruence|].
  revert labels es H. induction data as [|d data IH]; intros labels es H i e E; [cbn in H; inversion H; subst; destruct i; discriminate|].
  destruct labels as [|l labels]; [cbn in H; inversion H; subst; destruct i; discriminate|]. cbn [combine] in H. inversion H as [|? x ? xs Hx Hr]; subst. cbn [fst snd] in Hx.
  destruct i as [|i].
  - injection E as <-. destruct (rows_tex d) as [t|] eqn:T; [|discriminate]. cbn [bind] in Hx. injection Hx as <-. exists d, l, t. auto.
  - destruct (IH labels xs Hr i e E) as (m & l' & s & P). exists m, l', s. exact P.
Qed.

(** ** A Pauli matrix *)
Definition pauli_y : list (list (ext * ext)) := [[(Fin 0, Fin 0); (Fin 0, Fin (-1))]; [(Fin 0, Fin 1); (Fin 0, Fin 0)]].
Lemma zero_cell : format_complex_as_latex default_tol (Fin 0, Fin 0) = Ok "0"%string.
Proof.
  unfold format_complex_as_latex. cbn [fst snd xabs_le]. assert (T : 0 < default_tol) by (unfold default_tol; apply Rinv_0_lt_compat; lra).
  rewrite Rleb_true by (rewrite Rabs_R0; lra). pose proof (c135_integers default_tol 0 0 ltac:(lra) ltac:(lra)) as H. cbn [Z.leb Z.compare] in H. replace (0 + 0) with 0 in H by ring. rewrite H. reflexivity.
Qed.
Lemma one_cell : format_complex_as_latex default_tol (Fin 0, Fin 1) = Ok "1\mathrm{i}"%string.
Proof.
  unfold format_complex_as_latex. cbn [fst snd xabs_le]. assert (T : 0 < default_tol < 1). { unfold default_tol. split; [apply Rinv_0_lt_compat; lra|]. rewrite <- Rinv_1. apply Rinv_lt_contravar; lra. }
  destruct (Rleb_spec (Rabs 1) default_tol) as [K|K]; [rewrite Rabs_right in K by lra; lra|]. rewrite Rleb_true by (rewrite Rabs_R0; lra).
  pose proof (c135_integers default_tol 1 0 ltac:(lra) ltac:(lra)) as H. cbn [Z.leb Z.compare] in H. replace (1 + 0) with 1 in H by ring. rewrite H. reflexivity.
Qed.
Example pauli_y_displayed : rows_tex pauli_y = Ok "0&-1\mathrm{i}\\1\mathrm{i}&0"%string.
Proof. unfold rows_tex, pauli_y. cbn [map_ok]. rewrite zero_cell, one_cell, integer_minus_one. reflexivity. Qed.
Example pauli_y_read : Forall2 (Forall2 (shows default_tol)) pauli_y (read_matrix "0&-1\mathrm{i}\\1\mathrm{i}&0").
Proof. apply c135_matrix; [discriminate|repeat constructor; discriminate|exact pauli_y_displayed]. Qed.
Example not_displayed : forall s, repr_html [[[(NaN, Fin 0)]]] [1%Z] ["B_0"%string] <> Ok s.
Proof.
  intros s H. assert (E : exists s, repr_html [[[(NaN, Fin 0)]]] [1%Z] ["B_0"%string] = Ok s) by eauto. apply c135_repr in E as [E|E]; [cbn in E; lia|].
  destruct (E 0%nat _ eq_refl ltac:(cbn; lia) [(NaN, Fin 0)] (NaN, Fin 0) (or_introl eq_refl) (or_introl eq_refl)) as (a & b & K). discriminate.
Qed.
Example a_large_number : exists s y, format_float_as_latex 0 (Fin (12345 + 1/2)) = Ok s /\ read_complex s = Some (y, 0) /\ Rabs (y - (12345 + 1/2)) <= 7.
Proof.
  destruct (format_complex_ok 0 (12345 + 1/2) 0) as [s H]. destruct (c135_value 0 _ _ s ltac:(lra) H) as (y & y' & A1 & A2 & A3).
  exists s, y. split; [|split].
  - revert H. unfold format_complex_as_latex. cbn [fst snd xabs_le]. rewrite Rleb_true by (rewrite Rabs_R0; lra). trivial.
  - rewrite A1. f_equal. f_equal. destruct A3 as [A3|[[A3 _]|[_ A3]]].
    + replace (y' - 0) with y' in A3 by ring. pose proof (Rabs_pos y'). destruct (Req_dec y' 0); [assumption|]. pose proof (Rabs_pos_lt y' H1). lra.
    + rewrite Rabs_R0 in A3. lra.
    + rewrite Rabs_R0 in A3. replace (y' - 0) with y' in A3 by ring. destruct (Req_dec y' 0) as [|N]; [assumption|]. pose proof (Rabs_pos_lt y' N). lra.
  - destruct A2 as [A2|[[A2 _]|[_ A2]]]; [lra|rewrite Rabs_right in A2 by lra; lra|]. rewrite (Rabs_right (12345 + 1/2)) in A2 by lra. lra.
Qed.

Print Assumptions c135_value.
Print Assumptions c135_finite.
Print Assumptions c135_integers.
Print Assumptions c135_integers_refuted.
Print Assumptions c135_significant_refuted.
Print Assumptions c135_signs.
Print Assumptions c135_matrix.
Print Assumptions c135_repr.
Print Assumptions c135_labels.
