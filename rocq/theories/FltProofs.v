(** Proofs about rounding: basic facts, cumulative sums. *)
From Flocq Require Import Core Relative Plus_error.
From Coq Require Import List ZArith Permutation Lia Lra Psatz.
From Verif Require Import Base RList Sums FltModel FltSpec.
Import ListNotations.

Notation gf := (generic_format radix2 (FLT_exp (-1074) 53)).
#[local] Instance p53 : Prec_gt_0 53. Proof. easy. Qed.

Lemma double_gf x : double x <-> gf x.
Proof.
  split.
  - intros (m & e & E & H1 & H2). apply generic_format_FLT. exists (Float radix2 m e); [|exact H1|exact H2].
    unfold F2R. cbn [Fnum Fexp]. rewrite bpow_powerRZ. exact E.
  - intros H. apply FLT_format_generic in H; [|easy]. destruct H as [f E H1 H2]. exists (Fnum f), (Fexp f). split; [|split; assumption].
    rewrite E. unfold F2R. now rewrite bpow_powerRZ.
Qed.
Lemma rnd_double x : double (rnd x).
Proof. apply double_gf. unfold rnd. apply generic_format_round; auto with typeclass_instances. Qed.
Lemma rnd_id x : double x -> rnd x = x.
Proof. intros H. apply double_gf in H. unfold rnd. apply round_generic; auto with typeclass_instances. Qed.
Lemma rnd_mono x y : x <= y -> rnd x <= rnd y.
Proof. intros H. unfold rnd. apply round_le; auto with typeclass_instances. Qed.
Lemma double_0 : double 0. Proof. exists 0%Z, 0%Z. split; [cbn; ring|lia]. Qed.
Lemma double_1 : double 1. Proof. exists 1%Z, 0%Z. split; [cbn; ring|lia]. Qed.
Lemma rnd_0 : rnd 0 = 0. Proof. apply rnd_id, double_0. Qed.
Lemma rnd_nonneg x : 0 <= x -> 0 <= rnd x. Proof. intros H. rewrite <- rnd_0. now apply rnd_mono. Qed.
Lemma rnd_ge d x : double d -> d <= x -> d <= rnd x. Proof. intros H1 H2. rewrite <- (rnd_id d H1). now apply rnd_mono. Qed.
Lemma rnd_le d x : double d -> x <= d -> rnd x <= d. Proof. intros H1 H2. rewrite <- (rnd_id d H1). now apply rnd_mono. Qed.

Lemma uro_pos : 0 < uro. Proof. unfold uro. apply Rinv_0_lt_compat, pow_lt. lra. Qed.
Lemma uro_small : uro <= / 1000. Proof. unfold uro. apply Rinv_le_contravar; [lra|]. change 53%nat with (10 + 43)%nat. rewrite pow_add. assert (1 <= 2 ^ 43) by (apply pow_R1_Rle; lra). nra. Qed.
Lemma u_ro_uro : u_ro radix2 53 = uro.
Proof. unfold u_ro, uro. rewrite bpow_powerRZ. cbn [IZR]. unfold powerRZ. cbn [Z.add Z.opp Z.pos_sub Pos.pred_double Z.pred_double]. change (Pos.to_nat 52) with 52%nat. change (2 ^ 53) with (2 * 2 ^ 52). rewrite Rinv_mult; reflexivity. Qed.

(** Closeness. *)
Lemma upow_pos k : 0 < (1 + uro) ^ k. Proof. apply pow_lt. pose proof uro_pos. lra. Qed.
Lemma upow_ge1 k : 1 <= (1 + uro) ^ k. Proof. apply pow_R1_Rle. pose proof uro_pos. lra. Qed.
Lemma close_refl k x : 0 <= x -> close k x x. Proof. intros H. pose proof (upow_ge1 k). unfold close. nra. Qed.
Lemma close_sym k x y : close k x y -> close k y x. Proof. intros []. split; assumption. Qed.
Lemma close_nonneg k x y : close k x y -> 0 <= y -> 0 <= x. Proof. intros [H1 H2] H. pose proof (upow_pos k). nra. Qed.
Lemma close_pos k x y : close k x y -> 0 < y -> 0 < x. Proof. intros [H1 H2] H. pose proof (upow_pos k). nra. Qed.
Lemma close_0 k : close k 0 0. Proof. unfold close. lra. Qed.
Lemma close_zero k x : close k x 0 -> x = 0. Proof. intros [H1 H2]. pose proof (upow_pos k). nra. Qed.
Lemma close_mono j k x y : (j <= k)%nat -> 0 <= y -> close j x y -> close k x y.
Proof.
  intros H Hy C. pose proof (close_nonneg _ _ _ C Hy) as Hx. destruct C as [H1 H2].
  assert (P : (1 + uro) ^ j <= (1 + uro) ^ k) by (apply Rle_pow; [pose proof uro_pos; lra|exact H]).
  split; [apply Rle_trans with (1 := H1)|apply Rle_trans with (1 := H2)]; now apply Rmult_le_compat_l.
Qed.
Lemma close_trans j k x y z : 0 <= z -> close j x y -> close k y z -> close (j + k) x z.
Proof.
  intros Hz [A1 A2] [B1 B2]. unfold close. rewrite pow_add.
  pose proof (upow_pos j) as Pj. pose proof (upow_pos k) as Pk. split.
  - apply Rle_trans with (1 := B1). replace (x * ((1 + uro) ^ j * (1 + uro) ^ k)) with (x * (1 + uro) ^ j * (1 + uro) ^ k) by ring. apply Rmult_le_compat_r; lra.
  - apply Rle_trans with (1 := A2). replace (z * ((1 + uro) ^ j * (1 + uro) ^ k)) with (z * (1 + uro) ^ k * (1 + uro) ^ j) by ring. apply Rmult_le_compat_r; lra.
Qed.
Lemma close_mult j k x y x' y' : 0 <= y -> 0 <= y' -> close j x y -> close k x' y' -> close (j + k) (x * x') (y * y').
Proof.
  intros Hy Hy' C C'. pose proof (close_nonneg _ _ _ C Hy). pose proof (close_nonneg _ _ _ C' Hy'). destruct C as [A1 A2], C' as [B1 B2].
  unfold close. rewrite pow_add. split.
  - replace (x * x' * ((1 + uro) ^ j * (1 + uro) ^ k)) with (x * (1 + uro) ^ j * (x' * (1 + uro) ^ k)) by ring. now apply Rmult_le_compat.
  - replace (y * y' * ((1 + uro) ^ j * (1 + uro) ^ k)) with (y * (1 + uro) ^ j * (y' * (1 + uro) ^ k)) by ring. now apply Rmult_le_compat.
Qed.
Lemma close_inv k x y : 0 < y -> close k x y -> close k (/ x) (/ y).
Proof.
  intros Hy C. pose proof (close_pos _ _ _ C Hy) as Hx. destruct C as [A1 A2]. pose proof (upow_pos k) as P.
  split.
  - apply Rmult_le_reg_l with (x * y); [nra|]. replace (x * y * / y) with x by (field; lra). replace (x * y * (/ x * (1 + uro) ^ k)) with (y * (1 + uro) ^ k) by (field; lra). exact A2.
  - apply Rmult_le_reg_l with (x * y); [nra|]. replace (x * y * / x) with y by (field; lra). replace (x * y * (/ y * (1 + uro) ^ k)) with (x * (1 + uro) ^ k) by (field; lra). exact A1.
Qed.
Lemma close_div j k x y x' y' : 0 <= y -> 0 < y' -> close j x y -> close k x' y' -> close (j + k) (x / x') (y / y').
Proof. intros Hy Hy' C C'. apply close_mult; [exact Hy|now apply Rlt_le, Rinv_0_lt_compat|exact C|now apply close_inv]. Qed.
Lemma close_plus k x y x' y' : close k x y -> close k x' y' -> close k (x + x') (y + y').
Proof. intros [A1 A2] [B1 B2]. unfold close. lra. Qed.
Lemma close_eps d x : 0 <= x -> Rabs d <= uro / (1 + uro) -> close 1 (x * (1 + d)) x.
Proof.
  intros Hx Hd. pose proof uro_pos as U. unfold close. rewrite pow_1. apply Rabs_le_inv in Hd. destruct Hd as [D1 D2].
  assert (E : uro / (1 + uro) <= uro) by (apply Rmult_le_reg_r with (1 + uro); [lra|]; unfold Rdiv; rewrite Rmult_assoc, Rinv_l by lra; nra).
  assert (F : 1 <= (1 + d) * (1 + uro)). { apply (Rmult_le_compat_r (1 + uro)) in D1; [|lra]. unfold Rdiv in D1. rewrite Ropp_mult_distr_l, Rmult_assoc, Rinv_l in D1 by lra. lra. }
  split; nra.
Qed.
Lemma rnd_add_close x y : double x -> double y -> 0 <= x + y -> close 1 (rnd (x + y)) (x + y).
Proof.
  intros Hx Hy H. apply double_gf in Hx. apply double_gf in Hy. destruct (FLT_plus_error_N_ex radix2 (-1074) 53 (fun x => negb (Z.even x)) x y Hx Hy) as (d & D1 & D2).
  rewrite u_ro_uro in D1. unfold rnd. rewrite D2. now apply close_eps.
Qed.
Lemma least_normal_bpow : bpow radix2 (-1074 + 53 - 1) = least_normal.
Proof. rewrite bpow_powerRZ. unfold least_normal, powerRZ. cbn [Z.add Z.opp Z.sub Z.pos_sub Pos.pred_double Pos.add Pos.succ Pos.add_carry Z.pred_double]. reflexivity. Qed.
Lemma rnd_close x : normal x -> close 1 (rnd x) x.
Proof.
  intros [H|H]; [subst; rewrite rnd_0; apply close_0|].
  assert (P : 0 < least_normal) by (unfold least_normal; apply Rinv_0_lt_compat, pow_lt; lra).
  assert (Hx : 0 < x) by lra.
  unfold rnd. rewrite round_FLT_FLX by (rewrite least_normal_bpow, Rabs_pos_eq by lra; exact H).
  pose proof (relative_error_N_FLX' radix2 53 eq_refl (fun x => negb (Z.even x)) x) as D. rewrite u_ro_uro in D. set (r := round _ _ _ x) in *.
  rewrite (Rabs_pos_eq x) in D by lra.
  replace r with (x * (1 + (r - x) / x)) by (field; lra). apply close_eps; [lra|].
  unfold Rdiv at 1. rewrite Rabs_mult, (Rabs_pos_eq (/ x)) by (apply Rlt_le, Rinv_0_lt_compat; lra).
  apply Rmult_le_reg_r with x; [lra|]. rewrite Rmult_assoc, Rinv_l by lra. lra.
Qed.

(** Cumulative sums. *)
Lemma Sum_end n f : Sum (S n) f = Sum n f + f n.
Proof. rewrite !Sum_rsum, seq_S, map_app, rsum_app. unfold rsum at 2. cbn. ring. Qed.
Lemma fcumsum_from_len l : forall acc, length (fcumsum_from acc l) = length l.
Proof. induction l as [|x l IH]; intros acc; cbn; [reflexivity|now rewrite IH]. Qed.
Lemma fcumsum_len w : length (fcumsum w) = length w.
Proof. destruct w; cbn; [reflexivity|now rewrite fcumsum_from_len]. Qed.
Lemma fcumsum_from_rec l : forall acc j, (j < length l)%nat ->
  nth j (fcumsum_from acc l) 0 = rnd (match j with O => acc | S i => nth i (fcumsum_from acc l) 0 end + nth j l 0).
Proof.
  induction l as [|x l IH]; intros acc j Hj; [cbn in Hj; lia|]. cbn [fcumsum_from nth length] in *.
  destruct j as [|j]; [reflexivity|]. rewrite IH by lia. now destruct j.
Qed.
Lemma fcumsum_0 w : nth 0 (fcumsum w) 0 = nth 0 w 0. Proof. now destruct w. Qed.
Lemma fcumsum_S w j : (S j < length w)%nat -> nth (S j) (fcumsum w) 0 = rnd (nth j (fcumsum w) 0 + nth (S j) w 0).
Proof.
  destruct w as [|x w]; cbn [length fcumsum nth]; intros H; [lia|]. rewrite fcumsum_from_rec by lia. now destruct j.
Qed.
Section Cum.
Variable w : list R.
Hypothesis Hd : Forall double w.
Hypothesis Hn : Forall (fun x => 0 <= x) w.
Notation F j := (nth j (fcumsum w) 0).
Lemma w_double j : double (nth j w 0).
Proof. destruct (Nat.lt_ge_cases j (length w)) as [H|H]; [rewrite Forall_forall in Hd; now apply Hd, nth_In|rewrite nth_overflow by assumption; apply double_0]. Qed.
Lemma w_nonneg j : 0 <= nth j w 0.
Proof. destruct (Nat.lt_ge_cases j (length w)) as [H|H]; [rewrite Forall_forall in Hn; now apply Hn, nth_In|rewrite nth_overflow by assumption; lra]. Qed.
Lemma F_double j : double (F j).
Proof.
  destruct j; [rewrite fcumsum_0; apply w_double|]. destruct (Nat.lt_ge_cases (S j) (length w)) as [H|H].
  - rewrite fcumsum_S by assumption. apply rnd_double.
  - rewrite nth_overflow by (rewrite fcumsum_len; assumption). apply double_0.
Qed.
Lemma F_step j : (S j < length w)%nat -> F j <= F (S j).
Proof.
  assert (P : (j < length w)%nat -> 0 <= F j).
  { induction j as [|j IH]; intros H; [rewrite fcumsum_0; apply w_nonneg|]. rewrite fcumsum_S by assumption. apply rnd_nonneg. pose proof (w_nonneg (S j)). specialize (IH ltac:(lia)). lra. }
  intros H. rewrite fcumsum_S by assumption. specialize (P ltac:(lia)). pose proof (w_nonneg (S j)).
  apply rnd_ge; [apply F_double|lra].
Qed.
Lemma F_nonneg j : 0 <= F j.
Proof.
  destruct (Nat.lt_ge_cases j (length w)) as [H|H]; [|rewrite nth_overflow by (rewrite fcumsum_len; assumption); lra].
  revert H. induction j as [|j IH]; intros H; [rewrite fcumsum_0; apply w_nonneg|]. pose proof (F_step j H). specialize (IH ltac:(lia)). lra.
Qed.
Lemma F_mono i j : (i <= j)%nat -> (j < length w)%nat -> F i <= F j.
Proof. induction 1 as [|j H IH]; intros Hj; [lra|]. pose proof (F_step j Hj). specialize (IH ltac:(lia)). lra. Qed.
Lemma F_close j : (j < length w)%nat -> close j (F j) (Sum (S j) (fun i => nth i w 0)).
Proof.
  induction j as [|j IH]; intros H.
  - rewrite fcumsum_0. rewrite Sum_S, Sum_0, Rplus_0_r. apply close_refl, w_nonneg.
  - rewrite Sum_end. rewrite fcumsum_S by assumption. replace (S j) with (1 + j)%nat at 1 by lia.
    assert (P : 0 <= Sum (S j) (fun i => nth i w 0)) by (apply Sum_nonneg; intros; apply w_nonneg). pose proof (w_nonneg (S j)) as W. pose proof (F_nonneg j) as FN.
    apply close_trans with (F j + nth (S j) w 0); [lra|apply rnd_add_close; [apply F_double|apply w_double|lra]|].
    apply close_plus; [apply IH; lia|now apply close_refl].
Qed.
(** The rounding error of one step. *)
Lemma F_increment j : (j < length w)%nat -> Rabs (F j - (match j with O => 0 | S i => F i end) - nth j w 0) <= uro * F j.
Proof.
  pose proof uro_pos as U. intros H. pose proof (F_nonneg j) as FN. destruct j as [|j].
  - rewrite fcumsum_0 in *. replace (nth 0 w 0 - 0 - nth 0 w 0) with 0 by ring. rewrite Rabs_R0. nra.
  - pose proof (F_nonneg j) as FJ. pose proof (w_nonneg (S j)) as W.
    destruct (rnd_add_close (F j) (nth (S j) w 0) (F_double j) (w_double (S j)) ltac:(lra)) as [A1 A2]. rewrite <- fcumsum_S in A1, A2 by assumption.
    rewrite pow_1 in A1, A2. set (f := F (S j)) in *. set (x := F j + nth (S j) w 0) in *. replace (f - F j - nth (S j) w 0) with (f - x) by (unfold x; ring).
    assert (0 <= x) by (unfold x; lra). apply Rabs_le. split; [lra|].
    (* upper side: f <= x (1+u), so f - x <= u x; need u x <= u f unless x > f *)
    destruct (Rle_lt_dec x f); [|lra || (apply Rle_trans with 0; nra)].
    apply Rle_trans with (uro * x); [lra|]. apply Rmult_le_compat_l; lra.
Qed.
End Cum.

(** The search. *)
Lemma search_spec (cs : list R) u : let j := searchsorted_right cs u in
  (j <= length cs)%nat /\ (forall i, (i < j)%nat -> nth i cs 0 <= u) /\ ((j < length cs)%nat -> u < nth j cs 0).
Proof.
  induction cs as [|c cs IH]; cbn [searchsorted_right].
  - cbn. split; [lia|split; intros; lia].
  - destruct (Rltb_spec u c) as [H|H].
    + cbn. split; [lia|split; intros; [lia|assumption]].
    + cbv zeta in *. destruct IH as (A1 & A2 & A3). cbn [length]. split; [lia|split].
      * intros [|i] Hi; cbn [nth]; [lra|apply A2; lia].
      * intros Hi. cbn [nth]. apply A3. lia.
Qed.
Lemma search_lt (cs : list R) u : (0 < length cs)%nat -> (searchsorted_right cs u < length cs)%nat <-> exists i, (i < length cs)%nat /\ u < nth i cs 0.
Proof.
  intros H. pose proof (search_spec cs u) as (A1 & A2 & A3). split.
  - intros Hj. exists (searchsorted_right cs u). split; [assumption|now apply A3].
  - intros (i & Hi & Hu). destruct (Nat.le_gt_cases (length cs) (searchsorted_right cs u)) as [G|G]; [|assumption].
    specialize (A2 i ltac:(lia)). lra.
Qed.

(** Counting equally spaced draws. *)
Lemma count_below n b : length (filter (fun k => Nat.ltb k b) (seq 0 n)) = Nat.min n b.
Proof.
  induction n as [|n IH]; [reflexivity|]. rewrite seq_S, filter_app, app_length, IH. cbn [filter Nat.add]. destruct (Nat.ltb_spec n b); cbn [length]; lia.
Qed.
Lemma filter_map_len {A B} (f : A -> B) P l : length (filter P (map f l)) = length (filter (fun x => P (f x)) l).
Proof. induction l as [|x l IH]; [reflexivity|]. cbn [map filter]. destruct (P (f x)); cbn [length]; now rewrite IH. Qed.
Section Grid.
Variable D : nat.
Hypothesis HD : (0 < D)%nat.
Lemma ID : 0 < INR D. Proof. now apply lt_0_INR. Qed.
Lemma chance_ext P Q : (forall k, (k < D)%nat -> P (INR k / INR D) = Q (INR k / INR D)) -> chance D P = chance D Q.
Proof.
  intros H. unfold chance. f_equal. f_equal. f_equal. apply filter_ext_in. intros x Hx. apply in_map_iff in Hx. destruct Hx as (k & <- & Hk). apply in_seq in Hk. apply H. lia.
Qed.
Lemma chance_split P Q : (forall u, Q u = true -> P u = true) -> chance D (fun u => P u && negb (Q u)) = chance D P - chance D Q.
Proof.
  intros H. unfold chance. rewrite <- Rdiv_minus_distr. f_equal. generalize (map (fun k => INR k / INR D) (seq 0 D)). intros l.
  induction l as [|x l IH]; [cbn; ring|]. cbn [filter]. specialize (H x). destruct (P x), (Q x); cbn [andb negb length]; rewrite ?S_INR; try lra; try discriminate (H eq_refl).
Qed.
(** Number of draws below [x]: [x D] rounded up. *)
Lemma chance_below x : 0 <= x -> Rmin 1 x <= chance D (fun u => Rltb u x) /\ chance D (fun u => Rltb u x) < Rmin 1 x + / INR D.
Proof.
  intros Hx. pose proof ID as P. set (b := Z.to_nat (up (x * INR D) - 1)). assert (X0 : 0 <= x * INR D) by nra.
  destruct (archimed (x * INR D)) as [U1 U2].
  assert (U3 : (0 <= up (x * INR D) - 1)%Z). { assert (0 < up (x * INR D))%Z by (apply lt_IZR; lra). lia. }
  assert (Ib : INR b = IZR (up (x * INR D)) - 1) by (unfold b; rewrite INR_IZR_INZ, Z2Nat.id by assumption; now rewrite minus_IZR).
  (* c = number of integers k >= 0 with k < x D *)
  set (cc := if Rle_dec (x * INR D) (INR b) then b else S b).
  assert (Hcc : x * INR D <= INR cc < x * INR D + 1).
  { unfold cc. destruct (Rle_dec (x * INR D) (INR b)); [lra|]. rewrite S_INR. lra. }
  assert (Ec : chance D (fun u => Rltb u x) = INR (Nat.min D cc) / INR D).
  { unfold chance. f_equal. f_equal. rewrite filter_map_len, <- count_below. f_equal. apply filter_ext. intros k.
    assert (Iff : INR k / INR D < x <-> (k < cc)%nat).
    { split; intros H.
      - apply INR_lt. apply (Rmult_lt_compat_r (INR D)) in H; [|exact P]. replace (INR k / INR D * INR D) with (INR k) in H by (field; lra). lra.
      - apply Rmult_lt_reg_r with (INR D); [exact P|]. replace (INR k / INR D * INR D) with (INR k) by (field; lra).
        assert (INR (S k) <= INR cc) by (apply le_INR; lia). rewrite S_INR in H0. lra. }
    destruct (Rltb_spec (INR k / INR D) x) as [H|H], (Nat.ltb_spec k cc) as [G|G]; try reflexivity; exfalso; [apply Iff in H; lia|apply Iff in G; lra]. }
  rewrite Ec. assert (Em : INR (Nat.min D cc) = Rmin (INR D) (INR cc)).
  { destruct (Nat.le_gt_cases D cc) as [H|H].
    - rewrite Nat.min_l by assumption. symmetry. apply Rmin_left. now apply le_INR.
    - rewrite Nat.min_r by lia. symmetry. apply Rmin_right. apply le_INR. lia. }
  rewrite Em. split.
  - apply Rmult_le_reg_r with (INR D); [exact P|]. replace (Rmin (INR D) (INR cc) / INR D * INR D) with (Rmin (INR D) (INR cc)) by (field; lra).
    apply Rmin_glb; [apply Rle_trans with (1 * INR D); [apply Rmult_le_compat_r; [lra|apply Rmin_l]|lra]|].
    apply Rle_trans with (x * INR D); [apply Rmult_le_compat_r; [lra|apply Rmin_r]|lra].
  - apply Rmult_lt_reg_r with (INR D); [exact P|]. replace (Rmin (INR D) (INR cc) / INR D * INR D) with (Rmin (INR D) (INR cc)) by (field; lra).
    replace ((Rmin 1 x + / INR D) * INR D) with (Rmin 1 x * INR D + 1) by (field; lra).
    unfold Rmin at 2. destruct (Rle_dec 1 x).
    + apply Rle_lt_trans with (INR D); [apply Rmin_l|lra].
    + apply Rle_lt_trans with (INR cc); [apply Rmin_r|lra].
Qed.
End Grid.

(** Rounding of concrete numbers. *)
Definition Zrne (z : Z) (k : Z) : Z :=
  let f := (z / 2 ^ k)%Z in let r := (z mod 2 ^ k)%Z in
  match (2 * r ?= 2 ^ k)%Z with Lt => f | Gt => (f + 1)%Z | Eq => if Z.even f then f else (f + 1)%Z end.
Lemma Zrne_spec z k : (0 <= k)%Z -> ZnearestE (IZR z / IZR (2 ^ k)) = Zrne z k.
Proof.
  intros Hk. assert (P : (0 < 2 ^ k)%Z) by (apply Z.pow_pos_nonneg; lia). assert (PR : 0 < IZR (2 ^ k)) by now apply (IZR_lt 0).
  assert (Fl : Zfloor (IZR z / IZR (2 ^ k)) = (z / 2 ^ k)%Z) by (apply Zfloor_div; lia).
  assert (Fr : IZR z / IZR (2 ^ k) - IZR (z / 2 ^ k) = IZR (z mod 2 ^ k) / IZR (2 ^ k)).
  { rewrite (Z.div_mod z (2 ^ k)) at 1 by lia. rewrite plus_IZR, mult_IZR. field. lra. }
  assert (Ce : (z mod 2 ^ k)%Z <> 0%Z -> Zceil (IZR z / IZR (2 ^ k)) = (z / 2 ^ k + 1)%Z).
  { intros H. rewrite Zceil_floor_neq; [now rewrite Fl|]. rewrite Fl. intros C.
    assert (H0 : IZR (z mod 2 ^ k) / IZR (2 ^ k) * IZR (2 ^ k) = 0) by (rewrite <- Fr, <- C; ring).
    replace (IZR (z mod 2 ^ k) / IZR (2 ^ k) * IZR (2 ^ k)) with (IZR (z mod 2 ^ k)) in H0 by (field; lra). apply H. now apply (eq_IZR _ 0). }
  unfold Znearest, Zrne. rewrite Fl, Fr. cbv zeta.
  assert (Cmp : Rcompare (IZR (z mod 2 ^ k) / IZR (2 ^ k)) (/ 2) = (2 * (z mod 2 ^ k) ?= 2 ^ k)%Z).
  { rewrite <- Rcompare_IZR, mult_IZR. rewrite <- (Rcompare_mult_r (2 * IZR (2 ^ k)) (IZR (z mod 2 ^ k) / IZR (2 ^ k)) (/ 2)) by lra.
    f_equal; field; lra. }
  rewrite Cmp. destruct (Z.compare_spec (2 * (z mod 2 ^ k)) (2 ^ k)) as [H|H|H]; [|reflexivity|apply Ce; lia].
  destruct (Z.even (z / 2 ^ k)); cbn [negb]; [reflexivity|apply Ce; lia].
Qed.
Lemma rnd_dyadic z k e : (0 <= k)%Z -> (2 ^ (52 + k) <= z < 2 ^ (53 + k))%Z -> (-1074 <= e + k)%Z -> rnd (IZR z * powerRZ 2 e) = IZR (Zrne z k) * powerRZ 2 (e + k).
Proof.
  intros Hk Hz He. change (powerRZ 2 e) with (powerRZ (IZR radix2) e). change (powerRZ 2 (e + k)) with (powerRZ (IZR radix2) (e + k)).
  rewrite <- !bpow_powerRZ. unfold rnd, round, F2R. cbn [Fnum Fexp].
  assert (Mg : mag radix2 (IZR z * bpow radix2 e) = (53 + k + e)%Z :> Z).
  { apply mag_unique_pos. replace (53 + k + e - 1)%Z with (52 + k + e)%Z by lia. rewrite !(bpow_plus _ _ e). pose proof (bpow_gt_0 radix2 e) as Bp.
    rewrite <- (IZR_Zpower radix2 (52 + k)), <- (IZR_Zpower radix2 (53 + k)) by lia. split; [apply Rmult_le_compat_r; [lra|apply IZR_le; apply Hz]|apply Rmult_lt_compat_r; [lra|apply IZR_lt; apply Hz]]. }
  assert (Cx : cexp radix2 (FLT_exp (-1074) 53) (IZR z * bpow radix2 e) = (e + k)%Z) by (unfold cexp; rewrite Mg; unfold FLT_exp; lia).
  rewrite Cx. unfold scaled_mantissa. rewrite Cx. f_equal. f_equal. rewrite <- Zrne_spec by assumption. f_equal.
  rewrite Rmult_assoc, <- bpow_plus. replace (e + - (e + k))%Z with (- k)%Z by lia. rewrite bpow_opp, <- IZR_Zpower by assumption. reflexivity.
Qed.
Lemma rnd_units z e : (2 ^ 52 <= z)%Z -> (-1074 <= e)%Z -> rnd (IZR z * powerRZ 2 e) = IZR (Zrne z (Z.log2 z - 52) * 2 ^ (Z.log2 z - 52)) * powerRZ 2 e.
Proof.
  intros Hz He. assert (P : (0 < z)%Z) by lia. pose proof (Z.log2_spec z P) as [L1 L2]. assert (L3 : (52 <= Z.log2 z)%Z) by (apply Z.log2_le_pow2; lia).
  rewrite (rnd_dyadic z (Z.log2 z - 52) e) by (try lia; replace (52 + (Z.log2 z - 52))%Z with (Z.log2 z) by lia; replace (53 + (Z.log2 z - 52))%Z with (Z.succ (Z.log2 z)) by lia; lia).
  rewrite mult_IZR, powerRZ_add by lra. replace (IZR (2 ^ (Z.log2 z - 52))) with (powerRZ 2 (Z.log2 z - 52)); [ring|].
  change (powerRZ 2 (Z.log2 z - 52)) with (powerRZ (IZR radix2) (Z.log2 z - 52)). rewrite <- bpow_powerRZ, <- IZR_Zpower by lia. reflexivity.
Qed.
(** The cumulative sum of numbers in units of 2^e, computed with integers. *)
Fixpoint zcumsum_from (acc : Z) (l : list Z) : list Z :=
  match l with [] => [] | x :: l' => let z := (acc + x)%Z in let acc' := (Zrne z (Z.log2 z - 52) * 2 ^ (Z.log2 z - 52))%Z in acc' :: zcumsum_from acc' l' end.
Lemma fcumsum_units e l : (-1074 <= e)%Z -> forall acc, (2 ^ 52 <= acc)%Z -> Forall (fun z => 0 <= z)%Z l -> forallb (fun z => 2 ^ 52 <=? z)%Z (zcumsum_from acc l) = true ->
  fcumsum_from (IZR acc * powerRZ 2 e) (map (fun z => IZR z * powerRZ 2 e) l) = map (fun z => IZR z * powerRZ 2 e) (zcumsum_from acc l).
Proof.
  intros He. induction l as [|x l IH]; intros acc Ha Hl Hc; [reflexivity|]. inversion Hl as [|x' l' H1 H2]; subst. cbn [map fcumsum_from zcumsum_from] in *. cbv zeta in *.
  cbn [forallb] in Hc. apply andb_prop in Hc. destruct Hc as [C1 C2]. apply Z.leb_le in C1.
  replace (IZR acc * powerRZ 2 e + IZR x * powerRZ 2 e) with (IZR (acc + x) * powerRZ 2 e) by (rewrite plus_IZR; ring). rewrite rnd_units by lia. f_equal. now apply IH.
Qed.
(** 1/10 in binary. *)
Lemma tenth_value : rnd (1 / INR 10) = IZR 7205759403792794 * powerRZ 2 (-56).
Proof.
  change (powerRZ 2 (-56)) with (powerRZ (IZR radix2) (-56)). rewrite <- bpow_powerRZ. unfold rnd, round, F2R. cbn [Fnum Fexp]. replace (INR 10) with 10 by (cbn; ring).
  assert (B : forall k, bpow radix2 (- Z.of_nat k) = / 2 ^ k). { intros k. rewrite bpow_opp, <- IZR_Zpower by lia. rewrite pow_IZR. reflexivity. }
  assert (Mg : mag radix2 (1 / 10) = (-3)%Z :> Z). { apply mag_unique_pos. change (-3 - 1)%Z with (- Z.of_nat 4)%Z. change (-3)%Z with (- Z.of_nat 3)%Z. rewrite !B. cbn [pow]. lra. }
  assert (Cx : cexp radix2 (FLT_exp (-1074) 53) (1 / 10) = (-56)%Z) by (unfold cexp; rewrite Mg; reflexivity).
  rewrite Cx. unfold scaled_mantissa. rewrite Cx. f_equal. f_equal. apply Znearest_imp. change (- -56)%Z with (Z.of_nat 56). rewrite <- (Z.opp_involutive (Z.of_nat 56)), bpow_opp, B, Rinv_inv.
  rewrite pow_IZR. change (2 ^ Z.of_nat 56)%Z with 72057594037927936%Z. apply Rabs_def1; lra.
Qed.

(** The cumulative sum and the searches that use it. *)
Lemma first_true_search u cs : first_true (map (fun c => Rltb u c) cs) = if Nat.ltb (searchsorted_right cs u) (length cs) then Some (searchsorted_right cs u) else None.
Proof.
  induction cs as [|c cs IH]; [reflexivity|]. cbn [map first_true searchsorted_right length]. destruct (Rltb u c); [reflexivity|]. rewrite IH.
  change (Nat.ltb (S (searchsorted_right cs u)) (S (length cs))) with (Nat.ltb (searchsorted_right cs u) (length cs)). now destruct (Nat.ltb _ _).
Qed.
Section Search.
Variable w : list R.
Hypothesis Hd : Forall double w.
Hypothesis Hn : Forall (fun x => 0 <= x) w.
Notation F j := (nth j (fcumsum w) 0).
Lemma ancestor_range u : w <> [] -> (f_ancestor w u < length w)%nat <-> u < F (length w - 1).
Proof.
  intros Hw. assert (L : (0 < length w)%nat) by (destruct w; [easy|cbn; lia]). unfold f_ancestor. rewrite <- (fcumsum_len w) at 1. rewrite search_lt by (rewrite fcumsum_len; exact L).
  rewrite fcumsum_len. split.
  - intros (i & Hi & Hu). pose proof (F_mono w Hd Hn i (length w - 1) ltac:(lia) ltac:(lia)). lra.
  - intros Hu. exists (length w - 1)%nat. split; [lia|exact Hu].
Qed.
Lemma ancestor_iff u j : (j < length w)%nat -> f_ancestor w u = j <-> (u < F j /\ (j = 0%nat \/ F (j - 1) <= u)).
Proof.
  intros Hj. unfold f_ancestor. pose proof (search_spec (fcumsum w) u) as (A1 & A2 & A3). rewrite fcumsum_len in *. set (s := searchsorted_right (fcumsum w) u) in *. split.
  - intros E. rewrite E in *. split; [now apply A3|]. destruct j; [now left|right]. apply A2. lia.
  - intros [H1 H2]. destruct (Nat.lt_trichotomy s j) as [H|[H|H]]; [|exact H|].
    + exfalso. specialize (A3 ltac:(lia)). destruct H2 as [->|H2]; [lia|]. pose proof (F_mono w Hd Hn s (j - 1) ltac:(lia) ltac:(lia)). lra.
    + exfalso. specialize (A2 j H). lra.
Qed.
Lemma ancestor_positive u : 0 <= u -> (f_ancestor w u < length w)%nat -> 0 < nth (f_ancestor w u) w 0.
Proof.
  intros Hu Hj. set (j := f_ancestor w u) in *. destruct (proj1 (ancestor_iff u j Hj) eq_refl) as [H1 H2].
  pose proof (w_nonneg w Hn j) as W. destruct (Rle_lt_or_eq_dec _ _ W) as [|E]; [assumption|]. exfalso. destruct j as [|j].
  - rewrite fcumsum_0 in H1. lra.
  - rewrite fcumsum_S, <- E, Rplus_0_r, rnd_id in H1 by (try apply F_double; assumption). destruct H2 as [H2|H2]; [lia|]. replace (S j - 1)%nat with j in H2 by lia. lra.
Qed.
Lemma bernoulli k : 1 - INR k * uro <= / (1 + uro) ^ k.
Proof.
  pose proof uro_pos as U. induction k as [|k IH]; [cbn; lra|]. rewrite S_INR. cbn [pow]. rewrite Rinv_mult.
  pose proof (Rinv_0_lt_compat _ (upow_pos k)) as P. assert (I1 : / (1 + uro) ^ k <= 1) by (apply Rmult_le_reg_r with ((1 + uro) ^ k); [apply upow_pos|]; rewrite Rinv_l by (apply Rgt_not_eq, upow_pos); pose proof (upow_ge1 k); lra).
  assert (Q : 1 - uro <= / (1 + uro)). { apply Rmult_le_reg_r with (1 + uro); [lra|]. rewrite Rinv_l by lra. nra. }
  apply Rle_trans with ((1 - uro) * / (1 + uro) ^ k); [|apply Rmult_le_compat_r; lra]. nra.
Qed.
Lemma last_close m : w <> [] -> close m (Sum (length w) (fun i => nth i w 0)) 1 -> close (length w - 1 + m) (F (length w - 1)) 1.
Proof.
  intros Hw C. assert (L : (0 < length w)%nat) by (destruct w; [easy|cbn; lia]). pose proof (F_close w Hd Hn (length w - 1) ltac:(lia)) as K.
  replace (S (length w - 1)) with (length w) in K by lia. apply close_trans with (Sum (length w) (fun i => nth i w 0)); [lra|exact K|exact C].
Qed.
Lemma filter_all {A} (l : list A) : length (filter (fun _ => true) l) = length l. Proof. induction l as [|x l IH]; [reflexivity|]. cbn [filter length]. now rewrite IH. Qed.
Lemma beyond_chance D m : (0 < D)%nat -> w <> [] -> close m (Sum (length w) (fun i => nth i w 0)) 1 ->
  chance D (fun u => negb (Rltb u (F (length w - 1)))) <= INR (length w - 1 + m) * uro.
Proof.
  intros HD Hw C. pose proof (last_close m Hw C) as [K _]. set (f := F (length w - 1)) in *. set (k := (length w - 1 + m)%nat) in *. pose proof (upow_pos k) as P.
  assert (T : chance D (fun _ => true) = 1). { unfold chance. rewrite filter_all, map_length, seq_length. field. apply not_0_INR. lia. }
  pose proof (chance_split D (fun _ => true) (fun u => Rltb u f) ltac:(reflexivity)) as S1. cbn [andb] in S1. rewrite S1, T.
  pose proof (F_nonneg w Hd Hn (length w - 1)) as FN. fold f in FN. destruct (chance_below D HD f FN) as [B _].
  pose proof (bernoulli k) as Bn. assert (/ (1 + uro) ^ k <= f). { apply Rmult_le_reg_r with ((1 + uro) ^ k); [exact P|]. rewrite Rinv_l by lra. exact K. }
  assert (0 <= INR k * uro) by (apply Rmult_le_pos; [apply pos_INR|pose proof uro_pos; lra]).
  unfold Rmin in B. destruct (Rle_dec 1 f); lra.
Qed.
Lemma ancestor_chance D j : (0 < D)%nat -> (j < length w)%nat ->
  Rabs (chance D (fun u => Nat.eqb (f_ancestor w u) j) - nth j w 0) <= / INR D + uro * F j + Rmax 0 (F j - 1).
Proof.
  intros HD Hj. pose proof (ID D HD) as IDp. set (A := match j with O => 0 | S i => F i end).
  pose proof (F_nonneg w Hd Hn j) as FN. assert (AN : 0 <= A) by (unfold A; destruct j; [lra|apply (F_nonneg w Hd Hn)]).
  assert (AB : A <= F j) by (unfold A; destruct j as [|i]; [exact FN|apply (F_mono w Hd Hn); lia]).
  rewrite (chance_ext D HD _ (fun u => Rltb u (F j) && negb (Rltb u A))).
  2:{ intros k _. set (u := INR k / INR D). assert (U0 : 0 <= u) by (unfold u; apply Rmult_le_pos; [apply pos_INR|apply Rlt_le, Rinv_0_lt_compat; exact IDp]).
      pose proof (ancestor_iff u j Hj) as Q. destruct (Nat.eqb_spec (f_ancestor w u) j) as [H|H].
      - destruct (proj1 Q H) as [H1 H2]. destruct (Rltb_spec u (F j)); [|lra]. destruct (Rltb_spec u A) as [G|G]; [|reflexivity]. exfalso. unfold A in G. destruct j as [|i]; [lra|].
        destruct H2 as [H2|H2]; [lia|]. replace (S i - 1)%nat with i in H2 by lia. lra.
      - destruct (Rltb_spec u (F j)) as [G|G]; [|reflexivity]. destruct (Rltb_spec u A) as [G2|G2]; [reflexivity|]. exfalso. apply H, Q. split; [exact G|].
        unfold A in G2. destruct j as [|i]; [now left|right]. replace (S i - 1)%nat with i by lia. lra. }
  rewrite (chance_split D (fun u => Rltb u (F j)) (fun u => Rltb u A)) by (intros u; destruct (Rltb_spec u A), (Rltb_spec u (F j)); try easy; lra).
  destruct (chance_below D HD (F j) FN) as [B1 B2]. destruct (chance_below D HD A AN) as [A1 A2].
  pose proof (F_increment w Hd Hn j Hj) as Inc. fold A in Inc. apply Rabs_le_inv in Inc.
  set (cb := chance D (fun u => Rltb u (F j))) in *. set (ca := chance D (fun u => Rltb u A)) in *. set (f := F j) in *. clearbody f A cb ca.
  assert (M : 0 <= f - A - (Rmin 1 f - Rmin 1 A) <= Rmax 0 (f - 1)).
  { unfold Rmin, Rmax. destruct (Rle_dec 1 f), (Rle_dec 1 A), (Rle_dec 0 (f - 1)); lra. }
  apply Rabs_le. lra.
Qed.
End Search.
Lemma le_index_count l a level : (forall i j, (i <= j)%nat -> (j < length l)%nat -> nth i l a <= nth j l a) ->
  map (fun x => Rleb x level) l = map (fun i => Nat.ltb i (searchsorted_right l level)) (seq 0 (length l)).
Proof.
  induction l as [|x l IH]; intros H; [reflexivity|]. cbn [map length seq searchsorted_right].
  assert (H' : forall i j, (i <= j)%nat -> (j < length l)%nat -> nth i l a <= nth j l a) by (intros i j Hi Hj; apply (H (S i) (S j)); cbn; lia).
  destruct (Rltb_spec level x) as [G|G].
  - rewrite (Rleb_false x level) by assumption. change (Nat.ltb 0 0) with false. f_equal.
    rewrite <- (map_nth_seq l a) at 1. rewrite map_map, <- seq_shift, map_map. apply map_ext_in. intros i Hi. apply in_seq in Hi.
    specialize (H 0%nat (S i) ltac:(lia) ltac:(cbn; lia)). cbn in H. destruct (Rleb_spec (nth i l a) level); [lra|reflexivity].
  - rewrite (Rleb_true x level) by lra. cbn [Nat.ltb Nat.leb]. f_equal. rewrite (IH H'), <- seq_shift, map_map. apply map_ext. reflexivity.
Qed.
