(** C101: printing a value with its uncertainty; C102: comparison up to significant figures. *)
From Coq Require Import String Ascii NArith ZArith Lia Lra.
From Verif Require Import Base Ext UtilModel UtilSpec UtilProofs SimpleModel FmtModel FmtSpec FmtProofs.
From Coq Require Import List.
Close Scope string_scope.
Open Scope list_scope.
Open Scope R_scope.

(** C101.  With a non-zero uncertainty the source text is always two decimals with a common power of ten.  If the uncertainty is at
    least one, or the value has several digits before the point and is printed without a power of ten, or a small uncertainty belongs to
    a value that is neither tiny nor huge on its scale, then both printed numbers are within half the uncertainty of the true ones, and
    the printed uncertainty is not zero. *)
Theorem c101_within_half_the_uncertainty value unc brk : unc <> 0 ->
  1 <= Rabs unc \/ 10 <= Rabs value < powerRZ 10 (brk + 1) \/ (0 <= brk)%Z /\ Rabs unc <= powerRZ 10 (- (brk + 1)) /\ 10 * Rabs unc <= Rabs value <= / (10 * Rabs unc) ->
  exists s v u, format_uncertainty value unc brk = Ok s /\ read_source s = Some (v, u) /\ Rabs (v - value) <= Rabs unc / 2 /\ Rabs (u - unc) <= Rabs unc / 2 /\ u <> 0.
Proof.
  intros U H. destruct (format_uncertainty_reads value unc brk U) as (s & v & u & F & G & A & B). exists s, v, u. split; [assumption|]. split; [assumption|].
  assert (D : (ex0 (expo value unc brk) - Z.of_nat (ndig value unc) <= if Rleb 1 (Rabs unc) then mag unc else mag unc - 1)%Z).
  { unfold Rleb. destruct (Rle_dec 1 (Rabs unc)) as [L|L]; [now apply places_big|]. destruct H as [H|[H|(K & S & W)]]; [contradiction| |].
    - apply places_wide; [assumption|lra|assumption].
    - now apply places_tiny. }
  pose proof (half_unit_le value unc brk U D) as Q. pose proof (Rabs_pos_lt unc U) as P. split; [lra|]. split; [lra|]. intros ->. rewrite Rminus_0_l, Rabs_Ropp in B. lra.
Qed.
(** A value that is zero or larger than a tenth is always printed with an error below five uncertainties. *)
Theorem c101_within_five_uncertainties value unc brk : unc <> 0 -> value = 0 \/ 1 / 10 < Rabs value ->
  exists s v u, format_uncertainty value unc brk = Ok s /\ read_source s = Some (v, u) /\ Rabs (v - value) < 5 * Rabs unc /\ Rabs (u - unc) < 5 * Rabs unc.
Proof.
  intros U H. destruct (format_uncertainty_reads value unc brk U) as (s & v & u & F & G & A & B). exists s, v, u. pose proof (five_uncertainties value unc brk U H). cbv zeta in A, B.
  split; [assumption|]. split; [assumption|]. split; lra.
Qed.
(** One digit of the uncertainty is not always kept: for a value of ordinary size (between a tenth and ten) every uncertainty in the
    lower part of its decade is printed as zero. *)
Theorem c101_uncertainty_vanishes value unc brk k : 1 / 10 < Rabs value < 10 -> (- brk <= k <= 0)%Z -> powerRZ 10 (k - 1) < Rabs unc < powerRZ 10 k / 2 ->
  exists s v, format_uncertainty value unc brk = Ok s /\ read_source s = Some (v, 0).
Proof.
  intros [V1 V2] K [A B]. pose proof (p10_pos (k - 1)) as P. assert (U : unc <> 0) by (intros ->; rewrite Rabs_R0 in A; lra).
  assert (V : value <> 0) by (intros ->; rewrite Rabs_R0 in V1; lra).
  assert (MU : mag unc = k) by (apply mag_small_eq; [lia|pose proof (p10_pos k); lra]).
  assert (MV : magv value = 0%Z).
  { rewrite magv_nonzero by assumption. assert (mag value <= 0)%Z by (apply mag_upper_big; [assumption|change (0 + 1)%Z with 1%Z; rewrite p10_1; lra|lia]).
    assert (0 <= mag value)%Z by (apply mag_lower; [change (0 - 1)%Z with (-1)%Z; rewrite p10_m1; lra|lia]). lia. }
  assert (E : expo value unc brk = None).
  { unfold expo. rewrite MV, MU. destruct (Z.ltb_spec brk (Z.abs k)); [lia|]. rewrite andb_false_r. destruct (Z.leb_spec (Z.abs 0) brk); [reflexivity|lia]. }
  rewrite (format_uncertainty_text value unc brk U), E. cbv zeta. eexists. exists (printed (ndig value unc) value). split; [reflexivity|]. unfold read_source. rewrite read_fixed_text. f_equal. f_equal.
  apply printed_zero. unfold ndig. rewrite MV, MU. assert (W : powerRZ 10 k * 10 ^ Z.to_nat (Z.max (0 - k) 0) = 1).
  { rewrite <- p10_nat, <- p10_add. replace (k + Z.of_nat (Z.to_nat (Z.max (0 - k) 0)))%Z with 0%Z by lia. reflexivity. }
  pose proof (pow10_pos (Z.to_nat (Z.max (0 - k) 0))) as Q. replace (1/2) with (powerRZ 10 k / 2 * 10 ^ Z.to_nat (Z.max (0 - k) 0)) by lra. apply Rmult_lt_compat_r; lra.
Qed.
(** Two numbers of everyday size: the whole information is lost in the second one. *)
Theorem c101_digits_refuted :
  format_uncertainty (314 / 100) (4 / 100) 4 = Ok "3.1 \pm 0.0"%string /\ format_uncertainty (123 / 100000) (4 / 100000) 4 = Ok "0.00 \pm 0.00"%string.
Proof.
  assert (M2 : powerRZ 10 (-2) = 1 / 100) by (unfold powerRZ; change (Pos.to_nat 2) with 2%nat; lra).
  assert (M3 : powerRZ 10 (-3) = 1 / 1000) by (unfold powerRZ; change (Pos.to_nat 3) with 3%nat; lra).
  assert (M4 : powerRZ 10 (-4) = 1 / 10000) by (unfold powerRZ; change (Pos.to_nat 4) with 4%nat; lra).
  assert (M5 : powerRZ 10 (-5) = 1 / 100000) by (unfold powerRZ; change (Pos.to_nat 5) with 5%nat; lra).
  assert (U1 : mag (4 / 100) = (-1)%Z) by (apply mag_small_eq; [lia|]; change (-1 - 1)%Z with (-2)%Z; rewrite p10_m1, M2, Rabs_right by lra; lra).
  assert (V1 : magv (314 / 100) = 0%Z) by (rewrite magv_nonzero by lra; apply mag_big_eq; [lia|]; change (0 + 1)%Z with 1%Z; rewrite p10_1; cbn [powerRZ]; rewrite Rabs_right by lra; lra).
  assert (U2 : mag (4 / 100000) = (-4)%Z) by (apply mag_small_eq; [lia|]; change (-4 - 1)%Z with (-5)%Z; rewrite M4, M5, Rabs_right by lra; lra).
  assert (V2 : magv (123 / 100000) = (-2)%Z) by (rewrite magv_nonzero by lra; apply mag_small_eq; [lia|]; change (-2 - 1)%Z with (-3)%Z; rewrite M2, M3, Rabs_right by lra; lra).
  split; rewrite format_uncertainty_text by lra; unfold expo, ndig; rewrite ?U1, ?V1, ?U2, ?V2; f_equal; cbv zeta.
  - change (Z.to_nat (Z.max (0 - -1) 0)) with 1%nat. change (Z.ltb (Z.abs 0) (Z.abs (-1)) && Z.ltb 4 (Z.abs (-1)))%bool with false. change (Z.leb (Z.abs 0) 4) with true. cbv iota.
    unfold show_fixed. rewrite !Rabs_right by lra. rewrite !Rltb_false by lra. rewrite (round_even_eq (314 / 100 * 10 ^ 1) 31), (round_even_eq (4 / 100 * 10 ^ 1) 0) by lra. reflexivity.
  - change (Z.to_nat (Z.max (-2 - -4) 0)) with 2%nat. change (Z.ltb (Z.abs (-2)) (Z.abs (-4)) && Z.ltb 4 (Z.abs (-4)))%bool with false. change (Z.leb (Z.abs (-2)) 4) with true. cbv iota.
    unfold show_fixed. rewrite !Rabs_right by lra. rewrite !Rltb_false by lra. rewrite (round_even_eq (123 / 100000 * 10 ^ 2) 0), (round_even_eq (4 / 100000 * 10 ^ 2) 0) by lra. reflexivity.
Qed.
(** The typeset formula says the same as the source text if no power of ten is needed or its exponent is a single digit. *)
Theorem c101_typeset value unc brk : (0 <= brk)%Z -> unc <> 0 -> powerRZ 10 (- (brk + 1)) < Rabs unc < powerRZ 10 10 -> value = 0 \/ powerRZ 10 (- (brk + 1)) < Rabs value < powerRZ 10 10 ->
  exists s, format_uncertainty value unc brk = Ok s /\ read_typeset s = read_source s /\ read_source s <> None.
Proof.
  intros K U [A B] V. rewrite (format_uncertainty_text value unc brk U). eexists. split; [reflexivity|]. cbv zeta. unfold read_typeset, read_source.
  assert (MU : (- brk <= mag unc <= 9)%Z).
  { split; [|now apply mag_upper_big]. apply mag_lower; [replace (- brk - 1)%Z with (- (brk + 1))%Z by lia; assumption|lia]. }
  assert (MV : (- brk <= magv value <= 9)%Z).
  { destruct V as [->|[C D]]; [rewrite magv_zero; lia|]. pose proof (p10_pos (- (brk + 1))). rewrite magv_nonzero by (intros ->; rewrite Rabs_R0 in C; lra).
    split; [|apply mag_upper_big; [intros ->; rewrite Rabs_R0 in C; lra|assumption|lia]]. apply mag_lower; [replace (- brk - 1)%Z with (- (brk + 1))%Z by lia; assumption|lia]. }
  assert (X : match expo value unc brk with Some e => (0 <= e < 10)%Z | None => True end).
  { unfold expo. destruct (Z.ltb_spec (Z.abs (magv value)) (Z.abs (mag unc))); destruct (Z.ltb_spec brk (Z.abs (mag unc))); cbn [andb]; try (destruct (Z.leb_spec (Z.abs (magv value)) brk)); try exact I; lia. }
  destruct (expo value unc brk) as [e|].
  - rewrite !read_sci_text, tex_int, read_show_int. destruct (Z.leb_spec 0 e); [|lia]. destruct (Z.ltb_spec e 10); [|lia]. cbn. split; [reflexivity|discriminate].
  - rewrite !read_fixed_text. split; [reflexivity|discriminate].
Qed.
(** Otherwise the braces around the exponent are missing: every uncertainty small enough for scientific notation, at a value of ordinary
    size, gives a formula that does not set the exponent. *)
Theorem c101_typeset_refuted value unc brk : (0 <= brk)%Z -> unc <> 0 -> Rabs unc <= powerRZ 10 (- (brk + 1)) -> value = 0 \/ 1 / 10 < Rabs value < 10 ->
  exists s, format_uncertainty value unc brk = Ok s /\ read_typeset s = None /\ read_source s <> None.
Proof.
  intros K U A V. rewrite (format_uncertainty_text value unc brk U). eexists. split; [reflexivity|]. cbv zeta. unfold read_typeset, read_source.
  pose proof (mag_upper_small unc (- (brk + 1)) U A ltac:(lia)) as MU.
  assert (MV : magv value = 0%Z).
  { destruct V as [->|[C D]]; [apply magv_zero|]. assert (N : value <> 0) by (intros ->; rewrite Rabs_R0 in C; lra). rewrite magv_nonzero by assumption.
    assert (mag value <= 0)%Z by (apply mag_upper_big; [assumption|change (0 + 1)%Z with 1%Z; rewrite p10_1; lra|lia]).
    assert (0 <= mag value)%Z by (apply mag_lower; [change (0 - 1)%Z with (-1)%Z; rewrite p10_m1; lra|lia]). lia. }
  assert (X : expo value unc brk = Some (mag unc)).
  { unfold expo. rewrite MV. destruct (Z.ltb_spec (Z.abs 0) (Z.abs (mag unc))); [|lia]. destruct (Z.ltb_spec brk (Z.abs (mag unc))); [reflexivity|lia]. }
  rewrite X. rewrite !read_sci_text, tex_int, read_show_int. destruct (Z.leb_spec 0 (mag unc)); [lia|]. cbn. split; [reflexivity|discriminate].
Qed.
(** A zero uncertainty promises the exact number; six decimals are printed. *)
Theorem c101_zero_uncertainty value brk : exists s v, format_uncertainty value 0 brk = Ok s /\ read_number s = Some v /\ Rabs (v - value) <= / 2 * / 10 ^ 6 /\
  (forall z, value * 10 ^ 6 = IZR z -> v = value).
Proof.
  unfold format_uncertainty. destruct (Reqb_spec 0 0); [|contradiction]. exists (show_fixed 6 value), (printed 6 value).
  split; [exact (format_six value)|]. split; [|split; [apply printed_near|intros z; apply printed_exact]].
  unfold read_number. rewrite <- (app_empty (show_fixed 6 value)), read_show_fixed by reflexivity. reflexivity.
Qed.
Theorem c101_exact_number_refuted brk : exists value s, value <> 0 /\ format_uncertainty value 0 brk = Ok s /\ read_number s = Some 0.
Proof.
  exists (1 / 10000000), "0.000000"%string. split; [lra|]. split.
  - unfold format_uncertainty. destruct (Reqb_spec 0 0); [|contradiction]. rewrite format_six. unfold show_fixed. rewrite Rabs_right by lra. rewrite Rltb_false by lra.
    rewrite (round_even_eq (1 / 10000000 * 10 ^ 6) 0) by lra. reflexivity.
  - unfold read_number, read_decimal, read_unsigned. cbn. f_equal. lra.
Qed.
Example c101_example : format_uncertainty 12345 12 4 = Ok "12345.000 \pm 12.000"%string /\ read_source "12345.000 \pm 12.000" = Some (12345 + 0 / 10 ^ 3, 12 + 0 / 10 ^ 3).
Proof.
  split; [|reflexivity]. rewrite format_uncertainty_text by lra.
  assert (U : mag 12 = 1%Z) by (apply mag_big_eq; [lia|]; change (1 + 1)%Z with (Z.of_nat 2); rewrite p10_1, p10_nat, Rabs_right by lra; lra).
  assert (V : magv 12345 = 4%Z) by (rewrite magv_nonzero by lra; apply mag_big_eq; [lia|]; change (4 + 1)%Z with (Z.of_nat 5); change 4%Z with (Z.of_nat 4); rewrite !p10_nat, Rabs_right by lra; lra).
  unfold expo, ndig. rewrite U, V. f_equal. cbv zeta. change (Z.to_nat (Z.max (4 - 1) 0)) with 3%nat. change (Z.ltb (Z.abs 4) (Z.abs 1) && Z.ltb 4 (Z.abs 1))%bool with false. change (Z.leb (Z.abs 4) 4) with true. cbv iota.
  unfold show_fixed. rewrite !Rabs_right by lra. rewrite !Rltb_false by lra. rewrite (round_even_eq (12345 * 10 ^ 3) 12345000), (round_even_eq (12 * 10 ^ 3) 12000) by lra. reflexivity.
Qed.

(** C102.  For a positive reference the test passes exactly if the difference is below one and a half units of the last of [sigfigs]
    figures after the leading one. *)
Theorem c102_passes_iff x y sigfigs k : powerRZ 10 k <= x < powerRZ 10 (k + 1) ->
  (assert_sigfigs_equal x y sigfigs = Ok tt <-> Rabs (y - x) < 15 / 10 * powerRZ 10 (k - Z.of_nat sigfigs)).
Proof. intros H. rewrite (sigfigs_pos x y sigfigs k H). destruct (Rltb_spec (Rabs (y - x)) (15 / 10 * powerRZ 10 (k - Z.of_nat sigfigs))); split; intros; try reflexivity; try assumption; try contradiction; discriminate. Qed.
Theorem c102_relative x y sigfigs : 0 < x ->
  (assert_sigfigs_equal x y sigfigs = Ok tt -> Rabs (y - x) < 15 / 10 * / 10 ^ sigfigs * x) /\
  (Rabs (y - x) <= 15 / 100 * / 10 ^ sigfigs * x -> assert_sigfigs_equal x y sigfigs = Ok tt) /\
  (assert_sigfigs_equal x y sigfigs = Ok tt \/ assert_sigfigs_equal x y sigfigs = Err AssertionError).
Proof.
  intros X. destruct (decade x X) as [k [A B]]. pose proof (c102_passes_iff x y sigfigs k (conj A B)) as H. unfold Zminus in H. rewrite p10_add, p10_neg_nat in H.
  pose proof (Rinv_0_lt_compat _ (pow10_pos sigfigs)) as I. rewrite p10_add, p10_1 in B. split; [|split].
  - intros P. apply H in P. nra.
  - intros P. apply H. nra.
  - rewrite (sigfigs_pos x y sigfigs k). { destruct (Rltb _ _); auto. } rewrite p10_add. rewrite p10_1. lra.
Qed.
(** The bound announced in the code (half a unit) is not the one in force. *)
Theorem c102_bound_refuted : assert_sigfigs_equal 1 (1001 / 1000) 3 = Ok tt /\ ~ Rabs (1001 / 1000 - 1) < / 2 * / 10 ^ 3.
Proof.
  split; [|rewrite Rabs_right by lra; lra]. apply (c102_passes_iff 1 _ 3 0); [change (0 + 1)%Z with 1%Z; rewrite p10_1; cbn [powerRZ]; lra|]. change (0 - Z.of_nat 3)%Z with (- Z.of_nat 3)%Z. rewrite p10_neg_nat, Rabs_right by lra. lra.
Qed.
(** A negative reference agrees with everything; zero agrees with zero only. *)
Theorem c102_negative_refuted x y sigfigs : x < 0 -> assert_sigfigs_equal x y sigfigs = Ok tt.
Proof. exact (sigfigs_neg x y sigfigs). Qed.
Theorem c102_zero y sigfigs : assert_sigfigs_equal 0 y sigfigs = Ok tt <-> y = 0.
Proof. rewrite sigfigs_zero. destruct (Reqb_spec y 0); split; intros; try reflexivity; try assumption; try contradiction; discriminate. Qed.
Example c102_example : assert_sigfigs_equal 123 (12305 / 100) 2 = Ok tt /\ assert_sigfigs_equal 123 125 2 = Err AssertionError /\ assert_sigfigs_equal (-1) 7 3 = Ok tt.
Proof.
  assert (D : powerRZ 10 2 <= 123 < powerRZ 10 (2 + 1)) by (cbn [Z.add Pos.add powerRZ]; change (Pos.to_nat 2) with 2%nat; change (Pos.to_nat 3) with 3%nat; lra).
  rewrite !(sigfigs_pos _ _ _ 2 D). change (2 - Z.of_nat 2)%Z with 0%Z. cbn [powerRZ]. split; [rewrite Rltb_true; [reflexivity|rewrite Rabs_right by lra; lra]|]. split; [rewrite Rltb_false; [reflexivity|rewrite Rabs_right by lra; lra]|]. apply sigfigs_neg. lra.
Qed.
Print Assumptions c101_within_half_the_uncertainty.
Print Assumptions c101_within_five_uncertainties.
Print Assumptions c101_uncertainty_vanishes.
Print Assumptions c101_digits_refuted.
Print Assumptions c101_typeset.
Print Assumptions c101_typeset_refuted.
Print Assumptions c101_zero_uncertainty.
Print Assumptions c101_exact_number_refuted.
Print Assumptions c102_passes_iff.
Print Assumptions c102_relative.
Print Assumptions c102_bound_refuted.
Print Assumptions c102_negative_refuted.
Print Assumptions c102_zero.
