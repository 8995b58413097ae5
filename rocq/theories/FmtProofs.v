From Coq Require Import String Ascii NArith ZArith Decimal DecimalString Lia Lra.
From Verif Require Import Base Ext UtilModel UtilSpec UtilProofs SimpleModel FmtModel FmtSpec.
From Coq Require Import List.
Close Scope string_scope.
Open Scope list_scope.

(** ** Rounding *)
Lemma round_even_near x : Rabs (IZR (round_even x) - x) <= 1/2.
Proof.
  unfold round_even. pose proof (rfloor_bounds x) as [A B]. set (f := rfloor x) in *. cbv zeta.
  destruct (Rltb_spec (x - IZR f) (1/2)); [apply Rabs_le; lra|]. destruct (Rltb_spec (1/2) (x - IZR f)); [rewrite plus_IZR; apply Rabs_le; lra|].
  destruct (Z.even f); rewrite ?plus_IZR; apply Rabs_le; lra.
Qed.
Lemma round_even_whole z : round_even (IZR z) = z.
Proof. unfold round_even. rewrite rfloor_whole. cbv zeta. rewrite Rltb_true by lra. reflexivity. Qed.
Lemma round_even_nonneg x : 0 <= x -> (0 <= round_even x)%Z.
Proof.
  intros H. pose proof (round_even_near x) as N. assert (P : -1 < IZR (round_even x)) by (revert N; unfold Rabs; destruct (Rcase_abs _); lra).
  apply lt_IZR in P. lia.
Qed.
(** The number a fixed-point text stands for. *)
Definition printed (n : nat) (x : R) : R := (if Rltb x 0 then -1 else 1) * (IZR (round_even (Rabs x * 10 ^ n)) / 10 ^ n).
Lemma pow10_pos n : 0 < 10 ^ n.
Proof. apply pow_lt. lra. Qed.
Lemma printed_near n x : Rabs (printed n x - x) <= / 2 * / 10 ^ n.
Proof.
  unfold printed. pose proof (pow10_pos n) as P. pose proof (round_even_near (Rabs x * 10 ^ n)) as N. set (z := IZR (round_even _)) in *. clearbody z.
  assert (I : 0 < / 10 ^ n) by now apply Rinv_0_lt_compat.
  assert (Q : Rabs (z / 10 ^ n - Rabs x) <= / 2 * / 10 ^ n).
  { replace (z / 10 ^ n - Rabs x) with ((z - Rabs x * 10 ^ n) * / 10 ^ n) by (field; lra). rewrite Rabs_mult, (Rabs_right (/ 10 ^ n)) by lra.
    apply Rmult_le_compat_r; lra. }
  destruct (Rltb_spec x 0).
  - rewrite (Rabs_left x) in Q by lra. replace (-1 * (z / 10 ^ n) - x) with (- (z / 10 ^ n - - x)) by ring. now rewrite Rabs_Ropp.
  - rewrite (Rabs_right x) in Q by lra. now rewrite Rmult_1_l.
Qed.
Lemma printed_exact n x (z : Z) : x * 10 ^ n = IZR z -> printed n x = x.
Proof.
  intros H. unfold printed. pose proof (pow10_pos n) as P. destruct (Rltb_spec x 0).
  - rewrite (Rabs_left x) by lra. replace (- x * 10 ^ n) with (IZR (- z)) by (rewrite opp_IZR; lra). rewrite round_even_whole, opp_IZR, <- H. field. lra.
  - rewrite (Rabs_right x) by lra. rewrite H, round_even_whole, <- H. field. lra.
Qed.

(** ** Reading what is printed *)
Lemma ascii_digit d : (d < 10)%N -> is_digit (ascii_of_N (48 + d)) = true /\ N_of_ascii (ascii_of_N (48 + d)) = (48 + d)%N.
Proof. intros H. rewrite N_ascii_embedding by lia. split; [|reflexivity]. unfold is_digit. rewrite N_ascii_embedding by lia. apply andb_true_intro. split; apply N.leb_le; lia. Qed.
Lemma read_frac_digits n : forall m r k v, read_frac k v (digits n m r) = read_frac (n + k) (v * 10 ^ N.of_nat n + m mod 10 ^ N.of_nat n)%N r.
Proof.
  induction n as [|n IH]; intros m r k v; [cbn [digits Nat.add]; change (10 ^ N.of_nat 0)%N with 1%N; rewrite N.mod_1_r, N.mul_1_r, N.add_0_r; reflexivity|].
  cbn [digits]. rewrite IH. cbn [read_frac]. pose proof (N.mod_lt m 10 ltac:(lia)) as L. destruct (ascii_digit (m mod 10) L) as [A ->]. rewrite A.
  rewrite Nnat.Nat2N.inj_succ, N.pow_succ_r', (N.mod_mul_r m 10) by (try apply N.pow_nonzero; discriminate). cbn [Nat.add]. f_equal. rewrite (N.add_comm 48), N.add_sub. ring.
Qed.
Definition ends (t : string) : bool := match t with EmptyString => true | String c _ => negb (is_digit c) && negb (Ascii.eqb c ".") end.
Lemma read_frac_ends k v t : ends t = true -> read_frac k v t = (k, v, t).
Proof. destruct t as [|c t]; [reflexivity|]. cbn. destruct (is_digit c); [discriminate|reflexivity]. Qed.
Lemma digits_app n : forall m r t, (digits n m r ++ t)%string = digits n m (r ++ t).
Proof. induction n as [|n IH]; intros m r t; cbn [digits]; [reflexivity|]. rewrite IH. reflexivity. Qed.
Lemma sappA (a b c : string) : ((a ++ b) ++ c = a ++ (b ++ c))%string.
Proof. induction a as [|x a IH]; cbn; [reflexivity|now rewrite IH]. Qed.
Lemma pow10_N n : IZR (Z.of_N (10 ^ N.of_nat n)) = 10 ^ n.
Proof. rewrite N2Z.inj_pow. rewrite nat_N_Z. change (Z.of_N 10) with 10%Z. now rewrite <- pow_IZR. Qed.
Lemma read_unsigned_fixed n m t : ends t = true ->
  read_unsigned (show (m / 10 ^ N.of_nat n) ++ (if Nat.eqb n 0 then "" else "." ++ digits n m "") ++ t)%string = Some (IZR (Z.of_N m) / 10 ^ n, t).
Proof.
  intros Ht. unfold read_unsigned. destruct n as [|n].
  - cbn [Nat.eqb]. change (10 ^ N.of_nat 0)%N with 1%N. rewrite N.div_1_r. cbn [append pow].
    destruct (prints_span (show m) m t (prints_show m)) as [-> ->]; [destruct t; [reflexivity|]; cbn in Ht; now destruct (is_digit a)|].
    replace (IZR (Z.of_N m) / 1) with (IZR (Z.of_N m)) by field. destruct t as [|c t]; [reflexivity|]. cbn in Ht.
    destruct (Ascii.eqb c "."); [now rewrite andb_false_r in Ht|reflexivity].
  - set (k := S n) in *. assert (K : Nat.eqb k 0 = false) by reflexivity. rewrite K. cbn [append].
    destruct (prints_span (show (m / 10 ^ N.of_nat k)) (m / 10 ^ N.of_nat k) (String "." (digits k m "" ++ t)) (prints_show _) eq_refl) as [-> ->].
    change (Ascii.eqb "." ".") with true. cbv iota. rewrite digits_app, read_frac_digits, Nat.add_0_r. cbn [append]. rewrite read_frac_ends by assumption.
    unfold k at 1. f_equal. f_equal. rewrite N.mul_0_l, N.add_0_l.
    set (p := (10 ^ N.of_nat k)%N). assert (P : (p <> 0)%N) by (apply N.pow_nonzero; lia). pose proof (N.div_mod m p P) as D.
    fold k. rewrite <- (pow10_N k). fold p.
    assert (Q : IZR (Z.of_N p) <> 0) by (apply not_0_IZR; lia).
    replace (IZR (Z.of_N m)) with (IZR (Z.of_N p) * IZR (Z.of_N (m / p)) + IZR (Z.of_N (m mod p))).
    + field. assumption.
    + rewrite <- mult_IZR, <- plus_IZR. f_equal. lia.
Qed.
Lemma show_first n t : exists c u, (show n ++ t)%string = String c u /\ Ascii.eqb c "-" = false /\ Ascii.eqb c "(" = false.
Proof.
  destruct (prints_show n) as (d & A & -> & _). destruct d; [now destruct A|..]; cbn [NilEmpty.string_of_uint append]; eexists; eexists; split; reflexivity || (split; reflexivity).
Qed.
Lemma read_show_fixed n x t : ends t = true -> read_decimal (show_fixed n x ++ t) = Some (printed n x, t).
Proof.
  intros Ht. unfold show_fixed, printed. set (m := Z.to_N _). pose proof (pow10_pos n).
  assert (E : IZR (round_even (Rabs x * 10 ^ n)) = IZR (Z.of_N m)).
  { unfold m. rewrite Z2N.id; [reflexivity|]. apply round_even_nonneg. apply Rmult_le_pos; [apply Rabs_pos|lra]. }
  rewrite E. cbv zeta. rewrite !sappA. pose proof (read_unsigned_fixed n m t Ht) as U.
  pose proof (show_first (m / 10 ^ N.of_nat n) ((if Nat.eqb n 0 then "" else "." ++ digits n m "") ++ t)) as F. revert U F. set (w := (show _ ++ _)%string). intros U F.
  destruct (Rltb x 0).
  - change ("-" ++ w)%string with (String "-" w). unfold read_decimal. change (Ascii.eqb "-" "-") with true. cbv iota. rewrite U. cbn [option_map fst snd]. f_equal. f_equal. lra.
  - change ("" ++ w)%string with w. destruct F as (c & u & F & G & _). unfold read_decimal. rewrite F, G. cbv iota. rewrite <- F, U. f_equal. f_equal. lra.
Qed.
Lemma show_fixed_first n x t : strip "(" (show_fixed n x ++ t) = None.
Proof.
  unfold show_fixed. cbv zeta. rewrite !sappA. destruct (Rltb x 0); [reflexivity|].
  change ("" ++ ?w)%string with w. destruct (show_first (Z.to_N (round_even (Rabs x * 10 ^ n)) / 10 ^ N.of_nat n) ((if Nat.eqb n 0 then "" else "." ++ digits n (Z.to_N (round_even (Rabs x * 10 ^ n))) "") ++ t)) as (c & u & -> & _ & G).
  cbn [strip]. rewrite Ascii.eqb_sym. now rewrite G.
Qed.
Lemma read_show_int z : read_int (show_int z) = Some z.
Proof.
  unfold show_int, read_int. destruct (Z.ltb_spec z 0).
  - cbn [append]. change (Ascii.eqb "-" "-") with true. cbv iota. unfold read_nat. rewrite <- (app_empty (show _)).
    destruct (prints_span (show (Z.abs_N z)) (Z.abs_N z) "" (prints_show _) eq_refl) as [-> ->]. cbn. f_equal. lia.
  - cbn [append]. destruct (show_first (Z.abs_N z) "") as (c & u & F & G & _). rewrite app_empty in F. rewrite F, G. rewrite <- F. unfold read_nat. rewrite <- (app_empty (show _)).
    destruct (prints_span (show (Z.abs_N z)) (Z.abs_N z) "" (prints_show _) eq_refl) as [-> ->]. cbn. f_equal. lia.
Qed.

(** ** The templates *)
Fixpoint all_digits (s : string) : bool := match s with EmptyString => true | String c t => is_digit c && all_digits t end.
Lemma prints_digits s n : prints s n -> all_digits s = true.
Proof. intros (d & _ & -> & _). induction d; cbn [NilEmpty.string_of_uint all_digits]; [reflexivity|..]; rewrite IHd; reflexivity. Qed.
Lemma is_digit_neq c d : is_digit c = true -> is_digit d = false -> Ascii.eqb c d = false.
Proof. intros H G. destruct (Ascii.eqb_spec c d); [congruence|reflexivity]. Qed.
Lemma format_digits args d : forall acc t, all_digits d = true -> format_go args (Some acc) (d ++ t) = format_go args (Some (acc ++ d)%string) t.
Proof.
  induction d as [|c d IH]; intros acc t H; [now rewrite app_empty|]. cbn [all_digits] in H. apply andb_prop in H as [H1 H2]. cbn [append format_go].
  rewrite (is_digit_neq c "}") by (assumption || reflexivity). rewrite IH by assumption. f_equal. f_equal. rewrite sappA. reflexivity.
Qed.
Lemma cut_digits d t : all_digits d = true -> cut "f" (d ++ String "f" t) = (d, Some t).
Proof.
  induction d as [|c d IH]; intros H; [reflexivity|]. cbn [all_digits] in H. apply andb_prop in H as [H1 H2]. cbn [append cut].
  rewrite (is_digit_neq c "f") by (assumption || reflexivity). now rewrite IH.
Qed.
Lemma parse_spec_digits d n : prints d n -> parse_spec ("0." ++ d ++ "f") = Some (Some (N.to_nat n)).
Proof.
  intros P. pose proof (prints_digits d n P) as D. unfold parse_spec. cbn [append].
  assert (E : String.eqb (String "0" (String "." (d ++ "f"))) "f" = false) by reflexivity. rewrite E.
  assert (F : String.prefix "0." (String "0" (String "." (d ++ "f"))) = true) by (cbn; destruct (d ++ "f")%string; reflexivity). rewrite F.
  replace (String.substring 2 (String.length (String "0" (String "." (d ++ "f"))) - 2) (String "0" (String "." (d ++ "f")))) with (d ++ "f")%string.
  - rewrite cut_digits by assumption. destruct P as (u & U & -> & <-). rewrite <- zero_string by assumption. rewrite NilZero.usu by assumption. reflexivity.
  - cbn [String.length String.substring Nat.sub]. rewrite Nat.sub_0_r. symmetry. apply substring_all.
Qed.
Lemma render_fixed args (c : ascii) d n a : Ascii.eqb c ":" = false -> prints d n -> lookup_arg args (String c "") = Some (AFloat a) ->
  render args (String c (String ":" ("0." ++ d ++ "f"))) = Ok (show_fixed (N.to_nat n) a).
Proof.
  intros C P L. unfold render. cbn [cut]. rewrite C. change (Ascii.eqb ":" ":") with true. cbv iota. rewrite L, (parse_spec_digits d n P). reflexivity.
Qed.
Lemma show_int_prints z : (0 <= z)%Z -> prints (show_int z) (Z.to_N z).
Proof. intros H. unfold show_int. destruct (Z.ltb_spec z 0); [lia|]. cbn [append]. rewrite (Zabs2N.abs_N_nonneg z H). apply prints_show. Qed.

Lemma fixed_first n : format fixed_template [("n_digits"%string, AInt n)] =
  Ok ("{0:0." ++ show_int n ++ "f} \pm {1:0." ++ show_int n ++ "f}")%string.
Proof. unfold format, fixed_template. cbn -[show_int append]. reflexivity. Qed.
Lemma sci_first n : format sci_template [("0"%string, AInt n)] =
  Ok ("({0:0." ++ show_int n ++ "f} \pm {1:0." ++ show_int n ++ "f}) \times 10^{2}")%string.
Proof. unfold format, sci_template. cbn -[show_int append]. reflexivity. Qed.
Lemma bind_Ok_str {A B} (a : A) (f : A -> res B) : bind (Ok a) f = f a. Proof. reflexivity. Qed.
Fixpoint plain (s : string) : bool := match s with EmptyString => true | String c t => negb (Ascii.eqb c "{") && negb (Ascii.eqb c "}") && plain t end.
Lemma format_plain args s t : plain s = true -> format_go args None (s ++ t) = bind (format_go args None t) (fun b => Ok (s ++ b)%string).
Proof.
  induction s as [|c s IH]; intros H.
  - change ("" ++ t)%string with t. destruct (format_go args None t); reflexivity.
  - cbn [plain] in H. apply andb_prop in H as [H1 H2]. apply andb_prop in H1 as [H0 H1]. change (String c s ++ t)%string with (String c (s ++ t)). cbn [format_go].
    destruct (Ascii.eqb c "{"); [discriminate|]. destruct (Ascii.eqb c "}"); [discriminate|]. rewrite IH by assumption. destruct (format_go args None t); reflexivity.
Qed.
Section Second.
  Variables (args : list (string * farg)) (d : string) (n : N) (a b : R).
  Hypotheses (P : prints d n) (A0 : lookup_arg args "0" = Some (AFloat a)) (A1 : lookup_arg args "1" = Some (AFloat b)).
  Lemma field0 t : format_go args None ("{0:0." ++ d ++ "f}" ++ t)%string = bind (format_go args None t) (fun u => Ok (show_fixed (N.to_nat n) a ++ u)%string).
  Proof.
    cbn -[render append]. cbn [append]. cbn -[render append].
    rewrite format_digits by (exact (prints_digits d n P)). cbn -[render append]. rewrite !sappA.
    change ("" ++ "0" ++ ":" ++ "0" ++ "." ++ d ++ "f")%string with (String "0" (String ":" ("0." ++ d ++ "f"))). rewrite (render_fixed args "0" d n a eq_refl P A0). reflexivity.
  Qed.
  Lemma field1 t : format_go args None ("{1:0." ++ d ++ "f}" ++ t)%string = bind (format_go args None t) (fun u => Ok (show_fixed (N.to_nat n) b ++ u)%string).
  Proof.
    cbn -[render append]. cbn [append]. cbn -[render append].
    rewrite format_digits by (exact (prints_digits d n P)). cbn -[render append]. rewrite !sappA.
    change ("" ++ "1" ++ ":" ++ "0" ++ "." ++ d ++ "f")%string with (String "1" (String ":" ("0." ++ d ++ "f"))). rewrite (render_fixed args "1" d n b eq_refl P A1). reflexivity.
  Qed.
  Lemma fixed_second : format ("{0:0." ++ d ++ "f} \pm {1:0." ++ d ++ "f}") args = Ok (show_fixed (N.to_nat n) a ++ " \pm " ++ show_fixed (N.to_nat n) b)%string.
  Proof.
    unfold format. change ("{0:0." ++ d ++ "f} \pm {1:0." ++ d ++ "f}")%string with ("{0:0." ++ d ++ "f}" ++ (" \pm " ++ ("{1:0." ++ d ++ "f}")))%string.
    rewrite <- (app_empty ("{1:0." ++ d ++ "f}")), !sappA. rewrite field0, format_plain, field1 by reflexivity. cbn [format_go bind]. rewrite app_empty. reflexivity.
  Qed.
  Lemma sci_second e : lookup_arg args "2" = Some (AInt e) -> format ("({0:0." ++ d ++ "f} \pm {1:0." ++ d ++ "f}) \times 10^{2}") args =
    Ok ("(" ++ show_fixed (N.to_nat n) a ++ " \pm " ++ show_fixed (N.to_nat n) b ++ ") \times 10^" ++ show_int e)%string.
  Proof.
    intros A2. unfold format. change ("({0:0." ++ d ++ "f} \pm {1:0." ++ d ++ "f}) \times 10^{2}")%string with ("(" ++ ("{0:0." ++ d ++ "f}" ++ (" \pm " ++ ("{1:0." ++ d ++ "f}" ++ (") \times 10^" ++ "{2}")))))%string.
    rewrite format_plain, field0, format_plain, field1, format_plain by reflexivity.
    assert (F : format_go args None "{2}" = Ok (show_int e)).
    { cbn -[append render]. unfold render. cbn -[show_int]. rewrite A2. cbn [bind]. now rewrite app_empty. }
    rewrite F. cbn [bind]. reflexivity.
  Qed.
End Second.

Lemma format_six value : format "{0:f}" [("0"%string, AFloat value)] = Ok (show_fixed 6 value).
Proof. transitivity (Ok (show_fixed 6 value ++ "")%string); [reflexivity|now rewrite app_empty]. Qed.

(** ** Decades *)
Notation p10 := (powerRZ 10).
Lemma p10_exp z : p10 z = exp (IZR z * ln 10).
Proof. rewrite powerRZ_Rpower by lra. reflexivity. Qed.
Lemma ln10_pos : 0 < ln 10.
Proof. rewrite <- ln_1. apply ln_increasing; lra. Qed.
Lemma p10_pos z : 0 < p10 z. Proof. apply powerRZ_lt. lra. Qed.
Lemma p10_add a b : p10 (a + b) = p10 a * p10 b. Proof. apply powerRZ_add. lra. Qed.
Lemma p10_lt a b : (a < b)%Z -> p10 a < p10 b.
Proof. intros H. rewrite !p10_exp. apply exp_increasing. apply Rmult_lt_compat_r; [apply ln10_pos|now apply IZR_lt]. Qed.
Lemma p10_le a b : (a <= b)%Z -> p10 a <= p10 b.
Proof. intros H. destruct (Z.eq_dec a b) as [->|N]; [lra|]. left. apply p10_lt. lia. Qed.
Lemma p10_lt_inv a b : p10 a < p10 b -> (a < b)%Z.
Proof. intros H. destruct (Z.lt_ge_cases a b) as [L|L]; [assumption|]. pose proof (p10_le b a L). lra. Qed.
Lemma p10_le_inv a b : p10 a <= p10 b -> (a <= b)%Z.
Proof. intros H. destruct (Z.le_gt_cases a b) as [L|L]; [assumption|]. pose proof (p10_lt b a L). lra. Qed.
Lemma p10_m1 : p10 (-1) = 1 / 10.
Proof. unfold powerRZ. change (Pos.to_nat 1) with 1%nat. rewrite pow_1. lra. Qed.
Lemma p10_1 : p10 1 = 10.
Proof. unfold powerRZ. change (Pos.to_nat 1) with 1%nat. apply pow_1. Qed.
Lemma p10_nat n : p10 (Z.of_nat n) = 10 ^ n. Proof. symmetry. apply pow_powerRZ. Qed.
Lemma p10_neg_nat n : p10 (- Z.of_nat n) = / 10 ^ n.
Proof. rewrite powerRZ_neg'. now rewrite p10_nat. Qed.
Lemma exp_log10 x : 0 < x -> exp (ln x / ln 10 * ln 10) = x.
Proof. intros H. pose proof ln10_pos. replace (ln x / ln 10 * ln 10) with (ln x) by (field; lra). now apply exp_ln. Qed.
Lemma log10_le z x : 0 < x -> (IZR z <= ln x / ln 10 <-> p10 z <= x).
Proof.
  intros H. pose proof ln10_pos as L. rewrite p10_exp. rewrite <- (exp_log10 x H) at 2. split; intros G.
  - destruct (Req_dec (IZR z) (ln x / ln 10)) as [->|N]; [lra|]. left. apply exp_increasing. apply Rmult_lt_compat_r; lra.
  - destruct (Rle_lt_dec (IZR z) (ln x / ln 10)) as [K|K]; [assumption|]. exfalso. pose proof (exp_increasing (ln x / ln 10 * ln 10) (IZR z * ln 10) ltac:(apply Rmult_lt_compat_r; lra)). lra.
Qed.
Lemma log10_ge z x : 0 < x -> (ln x / ln 10 <= IZR z <-> x <= p10 z).
Proof.
  intros H. pose proof ln10_pos as L. rewrite p10_exp. rewrite <- (exp_log10 x H) at 2. split; intros G.
  - destruct (Req_dec (IZR z) (ln x / ln 10)) as [->|N]; [lra|]. left. apply exp_increasing. apply Rmult_lt_compat_r; lra.
  - destruct (Rle_lt_dec (ln x / ln 10) (IZR z)) as [K|K]; [assumption|]. exfalso. pose proof (exp_increasing (IZR z * ln 10) (ln x / ln 10 * ln 10) ltac:(apply Rmult_lt_compat_r; lra)). lra.
Qed.
Lemma mag_big x : 1 <= Rabs x -> (0 <= mag x)%Z /\ p10 (mag x) <= Rabs x < p10 (mag x + 1).
Proof.
  intros H. assert (P : 0 < Rabs x) by lra. unfold mag, trunc. assert (L0 : 0 <= ln (Rabs x) / ln 10) by (apply (log10_le 0 (Rabs x) P); exact H).
  unfold Rleb. destruct (Rle_dec 0 (ln (Rabs x) / ln 10)); [|contradiction]. pose proof (base_Int_part (ln (Rabs x) / ln 10)) as [B1 B2]. set (z := Int_part _) in *.
  assert (Z0 : (0 <= z)%Z) by (assert (IZR (-1) < IZR z) by lra; apply lt_IZR in H0; lia). split; [assumption|]. split; [now apply log10_le|].
  apply Rnot_le_lt. intros K. apply (log10_le (z + 1) (Rabs x) P) in K. rewrite plus_IZR in K. lra.
Qed.
Lemma mag_small x : 0 < Rabs x < 1 -> (mag x <= 0)%Z /\ p10 (mag x - 1) < Rabs x <= p10 (mag x).
Proof.
  intros [P H]. unfold mag, trunc. assert (L0 : ~ 0 <= ln (Rabs x) / ln 10) by (intros K; apply (log10_le 0 (Rabs x) P) in K; cbn in K; lra).
  unfold Rleb. destruct (Rle_dec 0 (ln (Rabs x) / ln 10)); [contradiction|]. pose proof (base_Int_part (- (ln (Rabs x) / ln 10))) as [B1 B2]. set (z := Int_part _) in *.
  assert (Z0 : (0 <= z)%Z) by (assert (IZR (-1) < IZR z) by lra; apply lt_IZR in H0; lia). split; [lia|]. split.
  - apply Rnot_le_lt. intros K. apply (log10_ge (- z - 1) (Rabs x) P) in K. rewrite minus_IZR, opp_IZR in K. lra.
  - apply (log10_ge (- z) (Rabs x) P). rewrite opp_IZR. lra.
Qed.
Lemma mag_big_eq x k : (0 <= k)%Z -> p10 k <= Rabs x < p10 (k + 1) -> mag x = k.
Proof.
  intros K [A B]. assert (H : 1 <= Rabs x) by (pose proof (p10_le 0 k K) as Q; cbn in Q; lra). destruct (mag_big x H) as [_ [C D]].
  assert (mag x < k + 1)%Z by (apply p10_lt_inv; lra). assert (k < mag x + 1)%Z by (apply p10_lt_inv; lra). lia.
Qed.
Lemma mag_small_eq x k : (k <= 0)%Z -> p10 (k - 1) < Rabs x <= p10 k -> mag x = k.
Proof.
  intros K [A B]. pose proof (p10_pos (k - 1)). destruct (Rle_lt_dec 1 (Rabs x)) as [H1|H1].
  - pose proof (p10_le k 0 K) as Q. cbn in Q. destruct (mag_big x H1) as [M [C D]]. assert (E : Rabs x = 1) by lra. rewrite E in *.
    change 1 with (p10 0) in B, C, D, A. assert (mag x <= 0)%Z by (now apply p10_le_inv). assert (0 <= k)%Z by (now apply p10_le_inv). lia.
  - destruct (mag_small x) as [M [C D]]; [lra|]. assert (mag x - 1 < k)%Z by (apply p10_lt_inv; lra). assert (k - 1 < mag x)%Z by (apply p10_lt_inv; lra). lia.
Qed.

(** ** What is printed *)
Lemma tex_int e : tex_exponent (show_int e) = if (Z.leb 0 e && Z.ltb e 10)%bool then Some e else None.
Proof.
  destruct (Z.ltb_spec e 0) as [N|N].
  - rewrite (proj2 (Z.leb_gt 0 e) N). unfold show_int. rewrite (proj2 (Z.ltb_lt e 0) N). cbn [append andb].
    destruct (show_first (Z.abs_N e) "") as (c & u & F & _). rewrite app_empty in F. rewrite F. reflexivity.
  - rewrite (proj2 (Z.leb_le 0 e) N). cbn [andb]. destruct (Z.ltb_spec e 10) as [L|L].
    + assert (C : (e = 0 \/ e = 1 \/ e = 2 \/ e = 3 \/ e = 4 \/ e = 5 \/ e = 6 \/ e = 7 \/ e = 8 \/ e = 9)%Z) by lia.
      repeat (destruct C as [->|C]; [reflexivity|]). subst. reflexivity.
    + unfold show_int. rewrite (proj2 (Z.ltb_ge e 0) N). cbn [append]. destruct (prints_show (Z.abs_N e)) as (d & D & -> & V).
      assert (G : (10 <= N.of_uint d)%N) by lia.
      destruct d as [|d|d|d|d|d|d|d|d|d|d]; [now destruct D|..]; cbn [NilEmpty.string_of_uint tex_exponent]; cbn -[NilEmpty.string_of_uint]; destruct d; cbn in G; try lia; reflexivity.
Qed.
Definition magv (x : R) : Z := if Reqb x 0 then 0%Z else mag x.
Definition ndig (value unc : R) : nat := Z.to_nat (Z.max (magv value - mag unc) 0).
(** The exponent in the printed text: none, or the one of the power of ten. *)
Definition expo (value unc : R) (brk : Z) : option Z :=
  if Z.ltb (Z.abs (magv value)) (Z.abs (mag unc)) && Z.ltb brk (Z.abs (mag unc)) then Some (mag unc)
  else if Z.leb (Z.abs (magv value)) brk then None else Some (magv value).
Lemma format_uncertainty_text value unc brk : unc <> 0 -> format_uncertainty value unc brk =
  Ok (let n := ndig value unc in
      match expo value unc brk with
      | None => (show_fixed n value ++ " \pm " ++ show_fixed n unc)%string
      | Some e => ("(" ++ show_fixed n (value / p10 e) ++ " \pm " ++ show_fixed n (unc / p10 e) ++ ") \times 10^" ++ show_int e)%string
      end).
Proof.
  intros U. unfold format_uncertainty. destruct (Reqb_spec unc 0); [contradiction|]. cbv zeta. fold (magv value). unfold expo, ndig.
  set (nd := Z.max (magv value - mag unc) 0). assert (ND : (0 <= nd)%Z) by lia. pose proof (show_int_prints nd ND) as P.
  assert (E : Z.to_nat nd = N.to_nat (Z.to_N nd)) by lia. rewrite E.
  destruct (Z.ltb (Z.abs (magv value)) (Z.abs (mag unc)) && Z.ltb brk (Z.abs (mag unc))); [|destruct (Z.leb (Z.abs (magv value)) brk)].
  - rewrite sci_first, bind_Ok_str. now apply (sci_second _ _ _ (value / p10 (mag unc)) (unc / p10 (mag unc)) P).
  - rewrite fixed_first, bind_Ok_str. now apply (fixed_second _ _ _ value unc P).
  - rewrite sci_first, bind_Ok_str. now apply (sci_second _ _ _ (value / p10 (magv value)) (unc / p10 (magv value)) P).
Qed.
Lemma read_fixed_text ex n a b : read_pair ex (show_fixed n a ++ " \pm " ++ show_fixed n b) = Some (printed n a, printed n b).
Proof.
  unfold read_pair. rewrite show_fixed_first, read_show_fixed by reflexivity. cbn [option_bind snd fst].
  change (strip " \pm " (" \pm " ++ show_fixed n b)) with (Some (show_fixed n b)). cbn [option_bind]. rewrite <- (app_empty (show_fixed n b)), read_show_fixed by reflexivity. reflexivity.
Qed.
Lemma read_sci_text ex n a b e : read_pair ex ("(" ++ show_fixed n a ++ " \pm " ++ show_fixed n b ++ ") \times 10^" ++ show_int e) =
  option_map (fun z => (printed n a * p10 z, printed n b * p10 z)) (ex (show_int e)).
Proof.
  unfold read_pair. change (strip "(" ("(" ++ ?w)) with (Some w). cbv iota. rewrite read_show_fixed by reflexivity. cbn [option_bind snd fst].
  change (strip " \pm " (" \pm " ++ ?w)) with (Some w). cbn [option_bind]. rewrite read_show_fixed by reflexivity. cbn [option_bind snd fst].
  change (strip ") \times 10^" (") \times 10^" ++ ?w)) with (Some w). cbn [option_bind]. reflexivity.
Qed.
Lemma printed_scaled n x e : Rabs (printed n (x / p10 e) * p10 e - x) <= / 2 * p10 (e - Z.of_nat n).
Proof.
  pose proof (p10_pos e) as P. replace (printed n (x / p10 e) * p10 e - x) with ((printed n (x / p10 e) - x / p10 e) * p10 e) by (field; lra).
  rewrite Rabs_mult, (Rabs_right (p10 e)) by lra. unfold Zminus. rewrite p10_add, p10_neg_nat. pose proof (printed_near n (x / p10 e)). nra.
Qed.
Definition ex0 (o : option Z) : Z := match o with Some e => e | None => 0%Z end.
(** The text reads as two numbers within half a unit of the last printed place. *)
Lemma format_uncertainty_reads value unc brk : unc <> 0 -> exists s v u, format_uncertainty value unc brk = Ok s /\ read_source s = Some (v, u) /\
  let h := / 2 * p10 (ex0 (expo value unc brk) - Z.of_nat (ndig value unc)) in Rabs (v - value) <= h /\ Rabs (u - unc) <= h.
Proof.
  intros U. rewrite (format_uncertainty_text value unc brk U). cbv zeta. unfold read_source. destruct (expo value unc brk) as [e|]; cbn [ex0].
  - eexists. eexists. eexists. split; [reflexivity|]. rewrite read_sci_text, read_show_int. cbn [option_map]. split; [reflexivity|]. split; apply printed_scaled.
  - eexists. eexists. eexists. split; [reflexivity|]. rewrite read_fixed_text. split; [reflexivity|]. rewrite Z.sub_0_l, p10_neg_nat. split; apply printed_near.
Qed.
Lemma half_unit_le value unc brk : unc <> 0 -> (ex0 (expo value unc brk) - Z.of_nat (ndig value unc) <= if Rleb 1 (Rabs unc) then mag unc else mag unc - 1)%Z ->
  / 2 * p10 (ex0 (expo value unc brk) - Z.of_nat (ndig value unc)) <= Rabs unc / 2.
Proof.
  intros U H. apply p10_le in H. unfold Rleb in H. destruct (Rle_dec 1 (Rabs unc)) as [B|B].
  - pose proof (mag_big unc B). lra.
  - pose proof (mag_small unc). pose proof (Rabs_pos_lt unc U). lra.
Qed.

(** ** Magnitudes from sizes *)
Lemma mag_lower x k : p10 (k - 1) < Rabs x -> (k <= 0)%Z -> (k <= mag x)%Z.
Proof.
  intros H K. destruct (Rle_lt_dec 1 (Rabs x)) as [B|B]; [pose proof (mag_big x B); lia|]. pose proof (p10_pos (k - 1)). destruct (mag_small x) as [_ [_ D]]; [lra|].
  assert (k - 1 < mag x)%Z by (apply p10_lt_inv; lra). lia.
Qed.
Lemma mag_upper_small x k : x <> 0 -> Rabs x <= p10 k -> (k <= 0)%Z -> (mag x <= k)%Z.
Proof.
  intros N H K. pose proof (p10_le k 0 K) as Q. cbn in Q. destruct (Rle_lt_dec 1 (Rabs x)) as [B|B].
  - destruct (mag_big x B) as [M [C _]]. apply p10_le_inv. lra.
  - destruct (mag_small x) as [_ [C _]]; [pose proof (Rabs_pos_lt x N); lra|]. assert (mag x - 1 < k)%Z by (apply p10_lt_inv; lra). lia.
Qed.
Lemma mag_upper_big x k : x <> 0 -> Rabs x < p10 (k + 1) -> (0 <= k)%Z -> (mag x <= k)%Z.
Proof.
  intros N H K. destruct (Rle_lt_dec 1 (Rabs x)) as [B|B].
  - destruct (mag_big x B) as [M [C _]]. assert (mag x < k + 1)%Z by (apply p10_lt_inv; lra). lia.
  - destruct (mag_small x) as [M _]; [pose proof (Rabs_pos_lt x N); lra|]. lia.
Qed.
Lemma magv_nonzero x : x <> 0 -> magv x = mag x.
Proof. intros H. unfold magv. destruct (Reqb_spec x 0); [contradiction|reflexivity]. Qed.
Lemma magv_zero : magv 0 = 0%Z.
Proof. unfold magv. destruct (Reqb_spec 0 0); [reflexivity|contradiction]. Qed.
Ltac expo_cases value unc brk := unfold expo, ndig; destruct (Z.ltb_spec (Z.abs (magv value)) (Z.abs (mag unc))); destruct (Z.ltb_spec brk (Z.abs (mag unc))); cbn [andb];
  try (destruct (Z.leb_spec (Z.abs (magv value)) brk)); cbn [ex0]; try lia.
Lemma places_big value unc brk : 1 <= Rabs unc -> (ex0 (expo value unc brk) - Z.of_nat (ndig value unc) <= mag unc)%Z.
Proof. intros B. destruct (mag_big unc B) as [M _]. expo_cases value unc brk. Qed.
Lemma places_wide value unc brk : unc <> 0 -> Rabs unc < 1 -> 10 <= Rabs value < p10 (brk + 1) -> (ex0 (expo value unc brk) - Z.of_nat (ndig value unc) <= mag unc - 1)%Z.
Proof.
  intros U S [A B]. destruct (mag_small unc) as [M _]; [pose proof (Rabs_pos_lt unc U); lra|]. assert (V : value <> 0) by (intros ->; rewrite Rabs_R0 in A; lra).
  pose proof (magv_nonzero value V) as E. destruct (mag_big value ltac:(lra)) as [MV [C D]]. rewrite <- E in *.
  assert (0 < magv value)%Z by (assert (1 < magv value + 1)%Z by (apply p10_lt_inv; cbn [powerRZ]; change (Pos.to_nat 1) with 1%nat; lra); lia).
  assert (magv value < brk + 1)%Z by (apply p10_lt_inv; lra). expo_cases value unc brk.
Qed.
Lemma places_tiny value unc brk : unc <> 0 -> (0 <= brk)%Z -> Rabs unc <= p10 (- (brk + 1)) -> 10 * Rabs unc <= Rabs value <= / (10 * Rabs unc) ->
  (ex0 (expo value unc brk) - Z.of_nat (ndig value unc) <= mag unc - 1)%Z.
Proof.
  intros U K S [A B]. pose proof (Rabs_pos_lt unc U) as P. assert (V : value <> 0) by (intros ->; rewrite Rabs_R0 in A; lra).
  pose proof (magv_nonzero value V) as E. pose proof (mag_upper_small unc (- (brk + 1)) U S ltac:(lia)) as MU.
  assert (S1 : Rabs unc < 1) by (pose proof (p10_lt (- (brk + 1)) 0 ltac:(lia)) as Q; cbn in Q; lra). destruct (mag_small unc) as [M [C D]]; [lra|].
  assert (T : p10 (mag unc) = 10 * p10 (mag unc - 1)) by (replace (mag unc) with (1 + (mag unc - 1))%Z at 1 by lia; rewrite p10_add; cbn [powerRZ]; change (Pos.to_nat 1) with 1%nat; lra).
  assert (W : (Z.abs (magv value) < - mag unc)%Z).
  { rewrite E. destruct (Rle_lt_dec 1 (Rabs value)) as [G|G].
    - destruct (mag_big value G) as [MV [X Y]]. assert (mag value < - mag unc)%Z; [|lia]. apply p10_lt_inv. rewrite powerRZ_neg'. pose proof (p10_pos (mag unc)).
      apply Rle_lt_trans with (/ (10 * Rabs unc)); [lra|]. apply Rinv_lt_contravar; [apply Rmult_lt_0_compat; lra|lra].
    - destruct (mag_small value) as [MV [X Y]]; [lra|]. assert (mag unc < mag value)%Z; [|lia]. apply p10_lt_inv. lra. }
  expo_cases value unc brk.
Qed.
Lemma places_unit value unc brk : unc <> 0 -> value = 0 \/ 1 / 10 < Rabs value -> (ex0 (expo value unc brk) - Z.of_nat (ndig value unc) <= Z.max 0 (mag unc))%Z /\ (mag unc <= 0 -> ex0 (expo value unc brk) - Z.of_nat (ndig value unc) <= mag unc)%Z.
Proof.
  intros U V. assert (MV : (0 <= magv value)%Z).
  { destruct V as [->|V]; [rewrite magv_zero; lia|]. rewrite magv_nonzero by (intros ->; rewrite Rabs_R0 in V; lra). apply mag_lower; [|lia]. change (0 - 1)%Z with (-1)%Z. rewrite p10_m1. lra. }
  expo_cases value unc brk.
Qed.
Lemma five_uncertainties value unc brk : unc <> 0 -> value = 0 \/ 1 / 10 < Rabs value -> / 2 * p10 (ex0 (expo value unc brk) - Z.of_nat (ndig value unc)) < 5 * Rabs unc.
Proof.
  intros U V. pose proof (Rabs_pos_lt unc U) as P. destruct (Rle_lt_dec 1 (Rabs unc)) as [B|B].
  - pose proof (p10_le _ _ (places_big value unc brk B)). destruct (mag_big unc B) as [_ [C _]]. lra.
  - destruct (mag_small unc) as [M [C D]]; [lra|]. destruct (places_unit value unc brk U V) as [_ H]. specialize (H M). apply p10_le in H.
    assert (T : p10 (mag unc) = 10 * p10 (mag unc - 1)) by (replace (mag unc) with (1 + (mag unc - 1))%Z at 1 by lia; rewrite p10_add; cbn [powerRZ]; change (Pos.to_nat 1) with 1%nat; lra). lra.
Qed.
Lemma round_even_eq x z : IZR z - 1/2 < x < IZR z + 1/2 -> round_even x = z.
Proof.
  intros H. unfold round_even. pose proof (rfloor_bounds x) as [A B]. cbv zeta. destruct (Rltb_spec (x - IZR (rfloor x)) (1/2)) as [L|L].
  - assert (IZR (rfloor x) < IZR (z + 1)) by (rewrite plus_IZR; lra). assert (IZR (z - 1) < IZR (rfloor x)) by (rewrite minus_IZR; lra). apply lt_IZR in H0. apply lt_IZR in H1. lia.
  - assert (Q : (rfloor x = z - 1)%Z).
    { assert (IZR (rfloor x) < IZR z) by lra. assert (IZR (z - 2) < IZR (rfloor x)) by (rewrite minus_IZR; lra). apply lt_IZR in H0. apply lt_IZR in H1. lia. }
    rewrite Q in *. rewrite minus_IZR in *. rewrite Rltb_true by lra. lia.
Qed.
Lemma printed_zero n x : Rabs x * 10 ^ n < 1/2 -> printed n x = 0.
Proof.
  intros H. unfold printed. rewrite (round_even_eq _ 0). { pose proof (pow10_pos n). field. lra. }
  pose proof (pow10_pos n). assert (0 <= Rabs x * 10 ^ n) by (apply Rmult_le_pos; [apply Rabs_pos|lra]). lra.
Qed.

(** ** Significant figures *)
Lemma sigfigs_pos x y s k : p10 k <= x < p10 (k + 1) ->
  assert_sigfigs_equal x y s = if Rltb (Rabs (y - x)) (15 / 10 * p10 (k - Z.of_nat s)) then Ok tt else Err AssertionError.
Proof.
  intros [A B]. pose proof (p10_pos k) as K. assert (X : 0 < x) by lra. pose proof ln10_pos as L. unfold assert_sigfigs_equal. cbn [xln]. rewrite Rltb_true by assumption.
  cbn [xdiv]. destruct (Reqb_spec (ln 10) 0); [lra|]. cbn [xfloor].
  assert (F : rfloor (ln x / ln 10) = k).
  { apply rfloor_unique. split; [now apply log10_le|]. rewrite <- (plus_IZR k 1). apply Rnot_le_lt. intros Q. apply (log10_le (k + 1) x X) in Q. lra. }
  rewrite F. cbn [xpow10_neg xmul]. assert (E : Rpower 10 (- IZR k) = p10 (- k)) by (rewrite <- opp_IZR; symmetry; apply powerRZ_Rpower; lra). rewrite E. cbn [assert_almost_equal].
  assert (M : p10 k * p10 (- k) = 1) by (rewrite <- p10_add; replace (k + - k)%Z with 0%Z by lia; reflexivity). pose proof (p10_pos (- k)) as K2.
  replace (y * p10 (- k) - x * p10 (- k)) with ((y - x) * p10 (- k)) by ring. rewrite Rabs_mult, (Rabs_right (p10 (- k))) by lra. unfold Zminus. rewrite p10_add, p10_neg_nat.
  pose proof (Rinv_0_lt_compat _ (pow10_pos s)) as I. set (a := Rabs (y - x)). set (b := / 10 ^ s) in *. clearbody a b. revert M K K2 I. generalize (p10 k) (p10 (- k)). intros u v M K K2 I.
  destruct (Rltb_spec (a * v) (15 / 10 * b)) as [H|H]; destruct (Rltb_spec a (15 / 10 * (u * b))) as [G|G]; try reflexivity; exfalso.
  - apply (Rmult_lt_compat_l u) in H; [|assumption]. replace (u * (a * v)) with (a * (u * v)) in H by ring. rewrite M in H. nra.
  - apply (Rmult_lt_compat_l v) in G; [|assumption]. replace (v * (15 / 10 * (u * b))) with (15 / 10 * b * (u * v)) in G by ring. rewrite M in G. nra.
Qed.
Lemma decade x : 0 < x -> exists k, p10 k <= x < p10 (k + 1).
Proof.
  intros X. exists (rfloor (ln x / ln 10)). pose proof (rfloor_bounds (ln x / ln 10)) as [A B]. split; [now apply log10_le|].
  apply Rnot_le_lt. intros Q. apply (log10_le _ x X) in Q. rewrite plus_IZR in Q. lra.
Qed.
Lemma sigfigs_neg x y s : x < 0 -> assert_sigfigs_equal x y s = Ok tt.
Proof. intros X. unfold assert_sigfigs_equal. cbn [xln]. rewrite (Rltb_false 0 x), (Rltb_true x 0) by lra. reflexivity. Qed.
Lemma sigfigs_zero y s : assert_sigfigs_equal 0 y s = if Reqb y 0 then Ok tt else Err AssertionError.
Proof.
  pose proof ln10_pos as L. unfold assert_sigfigs_equal. cbn [xln]. rewrite (Rltb_false 0 0) by lra. cbn [xdiv]. destruct (Reqb_spec (ln 10) 0); [lra|].
  unfold inf_times. rewrite (Rltb_true 0 (ln 10)) by lra. cbn [xopp xfloor xpow10_neg xmul]. unfold inf_times. rewrite (Rltb_false 0 0) by lra.
  destruct (Reqb_spec y 0) as [->|N]; [rewrite (Rltb_false 0 0) by lra; reflexivity|]. destruct (Rltb_spec 0 y); [reflexivity|]. rewrite Rltb_true by lra. reflexivity.
Qed.
