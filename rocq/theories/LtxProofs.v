From Coq Require Import String Ascii NArith ZArith Decimal DecimalString Lia Lra.
From Verif Require Import Base Ext UtilModel UtilSpec UtilProofs SimpleModel FmtModel FmtSpec FmtProofs LtxModel LtxSpec.
From Coq Require Import List.
Close Scope string_scope.
Open Scope list_scope.

Lemma trunc_IZR z : trunc (IZR z) = z.
Proof.
  assert (I : forall k, Int_part (IZR k) = k) by (intros k; destruct (base_Int_part (IZR k)) as [H1 H2]; apply le_IZR in H1; assert (k - 1 < Int_part (IZR k))%Z by (apply lt_IZR; rewrite minus_IZR; lra); lia).
  unfold trunc. destruct (Rleb 0 (IZR z)); [apply I|]. rewrite <- opp_IZR, I. lia.
Qed.
Lemma round_even_unique x z : Rabs (IZR z - x) < 1/2 -> round_even x = z.
Proof.
  intros H. pose proof (round_even_near x) as N. assert (Q : Rabs (IZR (round_even x) - IZR z) < 1).
  { replace (IZR (round_even x) - IZR z) with ((IZR (round_even x) - x) + - (IZR z - x)) by ring. eapply Rle_lt_trans; [apply Rabs_triang|]. rewrite Rabs_Ropp. lra. }
  rewrite <- minus_IZR in Q. apply Rabs_def2 in Q as [Q1 Q2]. apply lt_IZR in Q1. replace (-(1)) with (IZR (-1)) in Q2 by (cbn; lra). apply lt_IZR in Q2. lia.
Qed.

Lemma lead_bounds x : x <> 0 -> p10 (lead_exponent x) <= Rabs x < p10 (lead_exponent x + 1).
Proof.
  intros H. pose proof (Rabs_pos_lt x H) as P. unfold lead_exponent. destruct (Reqb_spec x 0); [contradiction|].
  pose proof (rfloor_bounds (ln (Rabs x) / ln 10)) as [B1 B2]. set (z := rfloor _) in *. split; [now apply log10_le|].
  apply Rnot_le_lt. intros K. apply (log10_le (z + 1) (Rabs x) P) in K. rewrite plus_IZR in K. lra.
Qed.

(** The exponent printed, and the number meant. *)
Definition shown_exponent (n : nat) (x : R) : Z :=
  let e := lead_exponent x in
  if Z.leb (Z.pow 10 (Z.of_nat n + 1)) (round_even (Rabs (x / powerRZ 10 e) * 10 ^ n)) then (e + 1)%Z else e.
Lemma show_exp_text n x : show_exp n x =
  (show_fixed n (x / p10 (shown_exponent n x)) ++ "e" ++ (if Z.ltb (shown_exponent n x) 0 then "-" else "+") ++ pad2 (show (Z.abs_N (shown_exponent n x))))%string.
Proof. reflexivity. Qed.

Lemma printed_scaled n x e : x <> 0 -> Rabs (printed n (x / p10 e) * p10 e - x) <= / 2 * / 10 ^ n * p10 e.
Proof.
  intros H. pose proof (p10_pos e) as P. pose proof (printed_near n (x / p10 e)) as N.
  replace (printed n (x / p10 e) * p10 e - x) with ((printed n (x / p10 e) - x / p10 e) * p10 e) by (field; lra).
  rewrite Rabs_mult, (Rabs_right (p10 e)) by lra. apply Rmult_le_compat_r; lra.
Qed.
Lemma show_exp_near n x : x <> 0 -> Rabs (printed n (x / p10 (shown_exponent n x)) * p10 (shown_exponent n x) - x) <= / 2 * / 10 ^ n * Rabs x.
Proof.
  intros H. destruct (lead_bounds x H) as [B1 B2]. unfold shown_exponent. cbv zeta. set (e := lead_exponent x) in *. clearbody e.
  pose proof (p10_pos e) as P. pose proof (pow10_pos n) as Q. assert (Qi : 0 < / 10 ^ n) by now apply Rinv_0_lt_compat.
  destruct (Z.leb_spec (10 ^ (Z.of_nat n + 1)) (round_even (Rabs (x / p10 e) * 10 ^ n))) as [C|C].
  - assert (T : Rabs (x / p10 e) = Rabs x / p10 e). { unfold Rdiv. rewrite Rabs_mult, (Rabs_right (/ p10 e)); [reflexivity|]. left. now apply Rinv_0_lt_compat. }
    rewrite T in C. set (y := Rabs x / p10 e) in *. assert (Y1 : 1 <= y). { unfold y. apply Rmult_le_reg_r with (p10 e); [assumption|]. unfold Rdiv. rewrite Rmult_assoc, Rinv_l, Rmult_1_r by lra. lra. }
    rewrite p10_add, p10_1 in B2. assert (Y2 : y < 10). { unfold y. apply Rmult_lt_reg_r with (p10 e); [assumption|]. unfold Rdiv. rewrite Rmult_assoc, Rinv_l, Rmult_1_r by lra. lra. }
    assert (Yx : Rabs x = y * p10 e) by (unfold y; field; lra). clearbody y.
    assert (C2 : 10 * 10 ^ n <= y * 10 ^ n + 1/2).
    { apply IZR_le in C. rewrite Z.pow_add_r in C by lia. change (10 ^ 1)%Z with 10%Z in C. rewrite mult_IZR, <- pow_IZR in C.
      pose proof (round_even_near (y * 10 ^ n)) as N. pose proof (Rle_abs (IZR (round_even (y * 10 ^ n)) - y * 10 ^ n)). lra. }
    assert (E1 : Rabs (x / p10 (e + 1)) = y / 10). { rewrite p10_add, p10_1. unfold Rdiv at 1. rewrite Rabs_mult, (Rabs_right (/ (p10 e * 10))); [rewrite Yx; field; lra|]. left. apply Rinv_0_lt_compat. lra. }
    assert (RE : round_even (Rabs (x / p10 (e + 1)) * 10 ^ n) = Z.pow 10 (Z.of_nat n)).
    { apply round_even_unique. rewrite E1, <- pow_IZR. replace (10 ^ n - y / 10 * 10 ^ n) with ((10 * 10 ^ n - y * 10 ^ n) / 10) by field.
      apply Rabs_def1; [lra|]. assert (y * 10 ^ n < 10 * 10 ^ n) by (apply Rmult_lt_compat_r; lra). lra. }
    unfold printed. rewrite RE, <- pow_IZR. replace (10 ^ n / 10 ^ n) with 1 by (field; lra). rewrite p10_add, p10_1.
    assert (SX : (if Rltb (x / (p10 e * 10)) 0 then -1 else 1) = (if Rltb x 0 then -1 else 1)).
    { assert (I : 0 < / (p10 e * 10)) by (apply Rinv_0_lt_compat; lra). unfold Rdiv. destruct (Rltb_spec (x * / (p10 e * 10)) 0), (Rltb_spec x 0); try reflexivity; exfalso; nra. }
    rewrite SX. assert (W : Rabs ((if Rltb x 0 then -1 else 1) * 1 * (p10 e * 10) - x) = 10 * p10 e - y * p10 e).
    { rewrite <- Yx. destruct (Rltb_spec x 0) as [L|L].
      - rewrite (Rabs_left x) in * by lra. rewrite Rabs_left1 by (rewrite Yx in B2; lra). lra.
      - rewrite (Rabs_right x) in * by lra. rewrite Rabs_right by lra. lra. }
    rewrite W, Yx. replace (10 * p10 e - y * p10 e) with ((10 - y) * p10 e) by ring. rewrite <- Rmult_assoc. apply Rmult_le_compat_r; [lra|].
    assert (D : 10 - y <= / 2 * / 10 ^ n). { apply Rmult_le_reg_r with (10 ^ n); [assumption|]. rewrite Rmult_assoc, Rinv_l by lra. lra. }
    apply Rle_trans with (1 := D). rewrite <- (Rmult_1_r (/ 2 * / 10 ^ n)) at 1. apply Rmult_le_compat_l; lra.
  - eapply Rle_trans; [apply printed_scaled, H|]. apply Rmult_le_compat_l; [|lra]. assert (0 < / 2) by lra. nra.
Qed.

(** ** Reading *)
Lemma replace_app c w a b : replace_char c w (a ++ b) = (replace_char c w a ++ replace_char c w b)%string.
Proof. induction a as [|d a IH]; [reflexivity|]. cbn [append replace_char]. now rewrite IH, sappA. Qed.
Lemma replace_digits c w s : is_digit c = false -> all_digits s = true -> replace_char c w s = s.
Proof.
  intros C. induction s as [|d s IH]; [reflexivity|]. cbn [all_digits replace_char]. intros H. apply andb_prop in H as [H1 H2].
  rewrite (is_digit_neq d c) by assumption. cbn [append]. now rewrite IH.
Qed.
Lemma digits_all n : forall m r, all_digits r = true -> all_digits (digits n m r) = true.
Proof. induction n as [|n IH]; intros m r H; cbn [digits]; [assumption|]. apply IH. cbn [all_digits]. rewrite H. pose proof (N.mod_lt m 10 ltac:(lia)) as L. destruct (ascii_digit (m mod 10) L) as [-> _]. reflexivity. Qed.
Lemma show_all n : all_digits (show n) = true. Proof. eapply prints_digits, prints_show. Qed.
Lemma pad_all n : all_digits (pad2 (show n)) = true. Proof. eapply prints_digits, prints_pad, prints_show. Qed.
Lemma replace_fixed w n x : replace_char "e" w (show_fixed n x) = show_fixed n x.
Proof.
  unfold show_fixed. cbv zeta. rewrite !replace_app. rewrite (replace_digits _ _ (show _)) by (reflexivity || apply show_all).
  f_equal; [destruct (Rltb x 0); reflexivity|]. f_equal. destruct (Nat.eqb n 0); [reflexivity|]. cbn [append replace_char]. rewrite replace_digits by (reflexivity || now apply digits_all). reflexivity.
Qed.
Definition exponent_tex (e : Z) : string := ((if Z.ltb e 0 then "-" else "+") ++ pad2 (show (Z.abs_N e)) ++ "}")%string.
Lemma replace_exp x : (replace_char "e" "\times10^{" (show_exp 3 x) ++ "}")%string =
  (show_fixed 3 (x / p10 (shown_exponent 3 x)) ++ "\times10^{" ++ exponent_tex (shown_exponent 3 x))%string.
Proof.
  rewrite show_exp_text, !replace_app, replace_fixed, !sappA. f_equal. change (replace_char "e" "\times10^{" "e") with "\times10^{"%string. f_equal. unfold exponent_tex.
  rewrite (replace_digits _ _ (pad2 _)) by (reflexivity || apply pad_all). f_equal. destruct (Z.ltb _ 0); reflexivity.
Qed.
Lemma read_group_text e t : read_group (exponent_tex e ++ t) = Some (e, t).
Proof.
  assert (E : forall c, read_group (String c (pad2 (show (Z.abs_N e)) ++ "}" ++ t)) =
    if Ascii.eqb c "+" then Some (Z.of_N (Z.abs_N e), t) else if Ascii.eqb c "-" then Some (- Z.of_N (Z.abs_N e), t)%Z else None).
  { intros c. unfold read_group. pose proof (prints_pad _ _ (prints_show (Z.abs_N e))) as P.
    destruct (prints_span _ _ ("}" ++ t)%string P eq_refl) as [-> N]. rewrite N. reflexivity. }
  unfold exponent_tex. rewrite !sappA. destruct (Z.ltb_spec e 0).
  - change ("-" ++ ?w)%string with (String "-" w). rewrite E. cbn [Ascii.eqb]. cbn -[Z.abs_N]. f_equal. f_equal. lia.
  - change ("+" ++ ?w)%string with (String "+" w). rewrite E. cbn -[Z.abs_N]. f_equal. f_equal. lia.
Qed.
(** What may follow a number. *)
Definition follows (t : string) : Prop := ends t = true /\ strip "\times10^{" t = None.
Lemma read_term_fixed n x t : follows t -> read_term (show_fixed n x ++ t) = Some (printed n x, t).
Proof. intros [E S0]. unfold read_term. rewrite read_show_fixed by assumption. cbn [option_bind snd fst]. now rewrite S0. Qed.
Lemma show_fixed_int z : show_fixed 0 (IZR z) = show_int z.
Proof.
  unfold show_fixed, show_int. cbn [Nat.eqb pow N.of_nat N.pow]. rewrite N.div_1_r, Rmult_1_r, <- abs_IZR, round_even_whole, app_empty.
  replace (Z.to_N (Z.abs z)) with (Z.abs_N z) by lia. f_equal. destruct (Rltb_spec (IZR z) 0) as [L|L], (Z.ltb_spec z 0) as [K|K]; try reflexivity.
  - apply lt_IZR in L. lia.
  - apply IZR_lt in K. exfalso. lra.
Qed.
Lemma printed_int z : printed 0 (IZR z) = IZR z.
Proof. apply (printed_exact 0 (IZR z) z). cbn. lra. Qed.
Lemma read_term_int z t : follows t -> read_term (show_int z ++ t) = Some (IZR z, t).
Proof. intros F. rewrite <- show_fixed_int, read_term_fixed by assumption. now rewrite printed_int. Qed.
Lemma read_term_exp x t : read_term ((show_fixed 3 (x / p10 (shown_exponent 3 x)) ++ "\times10^{" ++ exponent_tex (shown_exponent 3 x)) ++ t) =
  Some (printed 3 (x / p10 (shown_exponent 3 x)) * p10 (shown_exponent 3 x), t).
Proof.
  unfold read_term. rewrite !sappA, read_show_fixed by reflexivity. cbn [option_bind snd fst].
  change (strip "\times10^{" ("\times10^{" ++ ?w)) with (Some w). cbv iota. now rewrite read_group_text.
Qed.
Lemma format_float_reads tol x s : 0 <= tol -> format_float_as_latex tol (Fin x) = Ok s ->
  exists y, displayed tol x y /\ forall t, follows t -> read_term (s ++ t) = Some (y, t).
Proof.
  intros T. unfold format_float_as_latex. destruct (Rleb_spec (Rabs (x - IZR (trunc x))) tol) as [L|L].
  - intros H. injection H as <-. exists (IZR (trunc x)). split; [left; rewrite Rabs_minus_sym; assumption|]. intros t F. now apply read_term_int.
  - assert (X : x <> 0). { intros ->. rewrite (trunc_IZR 0) in L. rewrite Rminus_diag_eq, Rabs_R0 in L by reflexivity. lra. }
    destruct (Rleb_spec (1/1000) (Rabs x)) as [A1|A1], (Rleb_spec (Rabs x) 1000) as [A2|A2]; cbn [andb]; intros H; injection H as <-.
    1: { exists (printed 3 x). split; [|intros t F; now apply read_term_fixed]. right. left. split; [lra|]. eapply Rle_trans; [apply printed_near|]. lra. }
    all: rewrite replace_exp; exists (printed 3 (x / p10 (shown_exponent 3 x)) * p10 (shown_exponent 3 x)); split; [|intros t F; apply read_term_exp];
      right; right; (split; [lra|]); eapply Rle_trans; [now apply show_exp_near|]; lra.
Qed.
Lemma format_float_ok tol x : exists s, format_float_as_latex tol (Fin x) = Ok s.
Proof. unfold format_float_as_latex. destruct (Rleb _ tol); [eauto|]. destruct (_ && _); eauto. Qed.
Lemma displayed_zero tol x : Rabs x <= tol -> displayed tol x 0.
Proof. intros H. left. replace (0 - x) with (- x) by ring. now rewrite Rabs_Ropp. Qed.
Lemma format_complex_reads tol a b s : 0 <= tol -> format_complex_as_latex tol (Fin a, Fin b) = Ok s ->
  exists a' b', read_complex s = Some (a', b') /\ displayed tol a a' /\ displayed tol b b'.
Proof.
  intros T. unfold format_complex_as_latex. cbn [fst snd xabs_le].
  destruct (Rleb_spec (Rabs b) tol) as [B|B].
  - intros H. destruct (format_float_reads tol a s T H) as (y & D & G). exists y, 0. split; [|split; [assumption|now apply displayed_zero]].
    unfold read_complex. rewrite <- (app_empty s), G by (split; reflexivity). reflexivity.
  - destruct (format_float_ok tol b) as [v V]. destruct (format_float_reads tol b v T V) as (y & D & G). rewrite V. destruct (Rleb_spec (Rabs a) tol) as [A|A].
    + cbn [bind]. intros H. injection H as <-. exists 0, y. split; [|split; [now apply displayed_zero|assumption]].
      unfold read_complex. rewrite G by (split; reflexivity). reflexivity.
    + destruct (format_float_ok tol a) as [u U]. destruct (format_float_reads tol a u T U) as (x & Dx & Gx). rewrite U. cbn [bind]. intros H. injection H as <-.
      exists x, y. split; [|split; assumption]. unfold read_complex. rewrite Gx by (split; reflexivity). cbn [option_bind snd fst].
      cbn -[read_term]. rewrite G by (split; reflexivity). reflexivity.
Qed.
Lemma format_complex_ok tol a b : exists s, format_complex_as_latex tol (Fin a, Fin b) = Ok s.
Proof.
  unfold format_complex_as_latex. cbn [fst snd xabs_le]. destruct (format_float_ok tol a) as [u U], (format_float_ok tol b) as [v V]. rewrite U, V. cbn [bind].
  destruct (Rleb _ tol); [eauto|]. destruct (Rleb _ tol); eauto.
Qed.
Definition finite (c : ext * ext) : Prop := exists a b, c = (Fin a, Fin b).
Lemma format_complex_finite tol c s : format_complex_as_latex tol c = Ok s -> finite c.
Proof.
  destruct c as [a b]. unfold format_complex_as_latex. cbn [fst snd]. destruct a as [a| | |], b as [b| | |]; cbn [xabs_le format_float_as_latex bind];
    try (intros; eexists; eexists; reflexivity); try discriminate.
  all: try (destruct (Rleb _ tol); discriminate).
  all: destruct (Rleb _ tol); cbn [bind]; try discriminate; try (destruct (Rleb _ tol); [discriminate|]); try (destruct (_ && _); discriminate); try discriminate.
Qed.

(** ** Cells and rows *)
Fixpoint no_amp (s : string) : bool := match s with EmptyString => true | String c t => negb (Ascii.eqb c "&") && no_amp t end.
(** Every backslash is followed by something other than a backslash. *)
Fixpoint single (s : string) : bool :=
  match s with
  | EmptyString => true
  | String c t => (if Ascii.eqb c "\" then match t with String d _ => negb (Ascii.eqb d "\") | EmptyString => false end else true) && single t
  end.
Lemma no_amp_app a b : no_amp (a ++ b) = no_amp a && no_amp b.
Proof. induction a as [|c a IH]; [reflexivity|]. cbn [append no_amp]. now rewrite IH, andb_assoc. Qed.
Lemma single_app a b : single a = true -> single b = true -> single (a ++ b) = true.
Proof.
  induction a as [|c a IH]; [trivial|]. cbn [append single]. intros H Hb. apply andb_prop in H as [H1 H2]. rewrite (IH H2 Hb), andb_true_r.
  destruct (Ascii.eqb c "\"); [|reflexivity]. destruct a; [discriminate|assumption].
Qed.
Lemma digits_no_amp s : all_digits s = true -> no_amp s = true.
Proof. induction s as [|c s IH]; [reflexivity|]. cbn [all_digits no_amp]. intros H. apply andb_prop in H as [H1 H2]. rewrite (is_digit_neq c "&"), (IH H2) by (assumption || reflexivity). reflexivity. Qed.
Lemma digits_single s : all_digits s = true -> single s = true.
Proof. induction s as [|c s IH]; [reflexivity|]. cbn [all_digits single]. intros H. apply andb_prop in H as [H1 H2]. rewrite (is_digit_neq c "\"), (IH H2) by (assumption || reflexivity). reflexivity. Qed.
Definition cell (s : string) : Prop := no_amp s = true /\ single s = true.
Lemma cell_app a b : cell a -> cell b -> cell (a ++ b).
Proof. intros [A1 A2] [B1 B2]. split; [now rewrite no_amp_app, A1, B1|now apply single_app]. Qed.
Lemma cell_digits s : all_digits s = true -> cell s.
Proof. intros H. split; [now apply digits_no_amp|now apply digits_single]. Qed.
Lemma cell_if (b : bool) u v : cell u -> cell v -> cell (if b then u else v). Proof. now destruct b. Qed.
Lemma cell_fixed n x : cell (show_fixed n x).
Proof.
  unfold show_fixed. cbv zeta. apply cell_app; [apply cell_if; split; reflexivity|]. apply cell_app; [apply cell_digits, show_all|].
  apply cell_if; [split; reflexivity|]. apply cell_app; [split; reflexivity|]. apply cell_digits. now apply digits_all.
Qed.
Lemma cell_float tol c s : format_float_as_latex tol c = Ok s -> cell s.
Proof.
  destruct c as [x| | |]; cbn [format_float_as_latex]; try discriminate. destruct (Rleb _ tol); [|destruct (_ && _)]; intros H; injection H as <-.
  - rewrite <- show_fixed_int. apply cell_fixed.
  - apply cell_fixed.
  - rewrite replace_exp. apply cell_app; [apply cell_fixed|]. apply cell_app; [split; reflexivity|]. unfold exponent_tex.
    apply cell_app; [apply cell_if; split; reflexivity|]. apply cell_app; [apply cell_digits, pad_all|split; reflexivity].
Qed.
Lemma cell_complex tol c s : format_complex_as_latex tol c = Ok s -> cell s.
Proof.
  unfold format_complex_as_latex. destruct (xabs_le (snd c) tol); [apply cell_float|]. destruct (xabs_le (fst c) tol).
  - destruct (format_float_as_latex tol (snd c)) eqn:V; [|discriminate]. cbn [bind]. intros H. injection H as <-. apply cell_app; [eapply cell_float, V|split; reflexivity].
  - destruct (format_float_as_latex tol (fst c)) eqn:U; [|discriminate]. cbn [bind]. destruct (format_float_as_latex tol (snd c)) eqn:V; [|discriminate]. cbn [bind]. intros H. injection H as <-.
    apply cell_app; [eapply cell_float, U|]. match goal with |- cell (String _ (String _ (String _ (?v ++ ?w)))) => apply (cell_app " + "%string (v ++ w)%string) end; [split; reflexivity|].
    apply cell_app; [eapply cell_float, V|split; reflexivity].
Qed.
Lemma split_cells_one s : no_amp s = true -> split_cells s = [s].
Proof. induction s as [|c s IH]; [reflexivity|]. cbn [no_amp split_cells]. intros H. apply andb_prop in H as [H1 H2]. apply negb_true_iff in H1. now rewrite H1, (IH H2). Qed.
Lemma split_cells_more s t : no_amp s = true -> split_cells (s ++ "&" ++ t) = s :: split_cells t.
Proof. induction s as [|c s IH]; [reflexivity|]. cbn [no_amp split_cells append]. intros H. apply andb_prop in H as [H1 H2]. apply negb_true_iff in H1. rewrite H1. cbn [append] in IH. now rewrite (IH H2). Qed.
Lemma split_cells_join l : l <> [] -> Forall (fun s => no_amp s = true) l -> split_cells (join "&" l) = l.
Proof.
  induction l as [|a [|b l] IH]; [now intros []|intros _ H; inversion H; now apply split_cells_one|]. intros _ H. inversion H as [|? ? Ha Hr]; subst.
  change (join "&" (a :: b :: l)) with (a ++ "&" ++ join "&" (b :: l))%string. rewrite split_cells_more by assumption. f_equal. now apply IH.
Qed.
Lemma split_rows_one s : single s = true -> split_rows s = [s].
Proof.
  induction s as [|c s IH]; [reflexivity|]. cbn [single split_rows]. intros H. apply andb_prop in H as [H1 H2]. rewrite (IH H2). destruct (Ascii.eqb c "\"); [|reflexivity].
  destruct s as [|d s]; [reflexivity|]. apply negb_true_iff in H1. now rewrite H1.
Qed.
Lemma split_rows_more s t : single s = true -> split_rows (s ++ "\\" ++ t) = s :: split_rows t.
Proof.
  induction s as [|c s IH]; [reflexivity|]. intros H. cbn [single] in H. apply andb_prop in H as [H1 H2]. specialize (IH H2).
  change (String c s ++ "\\" ++ t)%string with (String c (s ++ "\\" ++ t)). cbn [split_rows]. rewrite IH. destruct (Ascii.eqb c "\"); [|reflexivity].
  destruct s as [|d s]; [discriminate|]. apply negb_true_iff in H1. cbn [append]. now rewrite H1.
Qed.
Lemma split_rows_join l : l <> [] -> Forall (fun s => single s = true) l -> split_rows (join "\\" l) = l.
Proof.
  induction l as [|a [|b l] IH]; [now intros []|intros _ H; inversion H; now apply split_rows_one|]. intros _ H. inversion H as [|? ? Ha Hr]; subst.
  change (join "\\" (a :: b :: l)) with (a ++ "\\" ++ join "\\" (b :: l))%string. rewrite split_rows_more by assumption. f_equal. now apply IH.
Qed.
Lemma single_join l : Forall (fun s => single s = true) l -> single (join "&" l) = true.
Proof.
  induction l as [|a [|b l] IH]; [reflexivity|intros H; now inversion H|]. intros H. inversion H as [|? ? Ha Hr]; subst.
  change (join "&" (a :: b :: l)) with (a ++ "&" ++ join "&" (b :: l))%string. apply single_app; [assumption|]. apply single_app; [reflexivity|now apply IH].
Qed.
Lemma map_ok_forall2 {A B} (f : A -> res B) l ls : map_ok f l = Ok ls <-> Forall2 (fun a b => f a = Ok b) l ls.
Proof.
  revert ls. induction l as [|a l IH]; intros ls; cbn [map_ok]; split; intros H.
  - injection H as <-. constructor.
  - now inversion H.
  - destruct (f a) eqn:F; [|discriminate]. cbn [bind] in H. destruct (map_ok f l) eqn:M; [|discriminate]. cbn [bind] in H. injection H as <-. constructor; [assumption|]. now apply IH.
  - inversion H as [|? b ? bs Fa Fr]; subst. rewrite Fa. cbn [bind]. apply IH in Fr. now rewrite Fr.
Qed.
Lemma map_ok_all {A B} (f : A -> res B) l : (forall a, In a l -> exists b, f a = Ok b) -> exists ls, map_ok f l = Ok ls.
Proof.
  induction l as [|a l IH]; intros H; [eexists; reflexivity|]. destruct (H a (or_introl eq_refl)) as [b Hb]. destruct IH as [ls Hl]; [intros x Hx; apply H; now right|].
  exists (b :: ls). cbn [map_ok]. now rewrite Hb, Hl.
Qed.
(** A cell of the display against an entry of the matrix. *)
Definition shows (tol : R) (c : ext * ext) (v : option (R * R)) : Prop :=
  exists a b a' b', c = (Fin a, Fin b) /\ v = Some (a', b') /\ displayed tol a a' /\ displayed tol b b'.
Lemma rows_tex_reads m s : m <> [] -> Forall (fun row => row <> []) m -> rows_tex m = Ok s -> Forall2 (Forall2 (shows default_tol)) m (read_matrix s).
Proof.
  intros M R0. unfold rows_tex. destruct (map_ok _ m) as [rows|] eqn:E; [|discriminate]. cbn [bind]. intros H. injection H as <-.
  apply map_ok_forall2 in E. assert (T : 0 <= default_tol) by (unfold default_tol; left; apply Rinv_0_lt_compat; lra).
  assert (W : Forall2 (fun row r => exists cells, r = join "&" cells /\ cells <> [] /\ Forall cell cells /\ Forall2 (shows default_tol) row (map read_complex cells)) m rows).
  { clear M. induction E as [|row r m rows F E IH]; [constructor|]. inversion R0 as [|? ? Hrow Hm]; subst. constructor; [|now apply IH].
    destruct (map_ok _ row) as [cells|] eqn:C; [|discriminate]. cbn [bind] in F. injection F as <-. apply map_ok_forall2 in C. exists cells. split; [reflexivity|].
    split; [intros ->; inversion C; now subst|]. clear Hrow R0 E IH. split.
    - induction C as [|c s row cells Hc C IH]; constructor; [eapply cell_complex, Hc|assumption].
    - induction C as [|c s row cells Hc C IH]; constructor; [|assumption]. destruct (format_complex_finite _ _ _ Hc) as (a & b & ->).
      destruct (format_complex_reads _ a b s T Hc) as (a' & b' & P & Q1 & Q2). exists a, b, a', b'. auto. }
  assert (Rn : rows <> []) by (intros ->; inversion W; now subst). assert (Rs : Forall (fun s => single s = true) rows).
  { clear - W. induction W as [|row r m rows (cells & -> & _ & C & _) W IH]; constructor; [|assumption]. apply single_join. eapply Forall_impl; [|exact C]. now intros s []. }
  unfold read_matrix. rewrite split_rows_join by assumption. clear - W. induction W as [|row r m rows (cells & -> & N & C & F) W IH]; constructor; [|assumption].
  rewrite split_cells_join; [assumption..|]. eapply Forall_impl; [|exact C]. now intros s [].
Qed.
Lemma rows_tex_ok m : (exists s, rows_tex m = Ok s) <-> Forall (Forall finite) m.
Proof.
  unfold rows_tex. split.
  - intros [s H]. destruct (map_ok _ m) as [rows|] eqn:E; [|discriminate]. apply map_ok_forall2 in E. clear H. induction E as [|row r m rows F E IH]; constructor; [|assumption].
    destruct (map_ok _ row) as [cells|] eqn:C; [|discriminate]. apply map_ok_forall2 in C. clear F IH E. induction C as [|c t row cells Hc C IH]; constructor; [eapply format_complex_finite, Hc|assumption].
  - intros H. destruct (map_ok_all (fun row => bind (map_ok (format_complex_as_latex default_tol) row) (fun cells => Ok (join "&" cells))) m) as [rows ->]; [|eexists; reflexivity].
    intros row Hr. rewrite Forall_forall in H. specialize (H row Hr). destruct (map_ok_all (format_complex_as_latex default_tol) row) as [cells ->]; [|eexists; reflexivity].
    intros c Hc. rewrite Forall_forall in H. destruct (H c Hc) as (a & b & ->). apply format_complex_ok.
Qed.
