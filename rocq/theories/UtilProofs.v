From Verif Require Import Base RList Ext Sums UtilModel UtilSpec.
From Coq Require Import String Ascii NArith Decimal DecimalString DecimalPos DecimalN List.
Close Scope string_scope.
Open Scope list_scope.

(** ** Numbers *)
Lemma digit_string_span d t : (match t with EmptyString => true | String c _ => negb (is_digit c) end) = true ->
  span_digits (NilEmpty.string_of_uint d ++ t)%string = (NilEmpty.string_of_uint d, t).
Proof.
  intros Ht. induction d; cbn [NilEmpty.string_of_uint append span_digits]; [destruct t as [|c t]; cbn; [reflexivity|]; now destruct (is_digit c)|..];
  (match goal with |- (if is_digit ?c then _ else _) = _ => change (is_digit c) with true end); cbv iota; now rewrite IHd.
Qed.
Lemma zero_string d : d <> Nil -> NilZero.string_of_uint d = NilEmpty.string_of_uint d.
Proof. destruct d; [now intros []|reflexivity..]. Qed.
Lemma number_back d : d <> Nil -> number (NilEmpty.string_of_uint d) = Some (N.of_uint d).
Proof. intros H. unfold number. rewrite <- zero_string by assumption. now rewrite NilZero.usu. Qed.
Lemma to_uint_nonnil n : N.to_uint n <> Nil.
Proof. destruct n as [|p]; [discriminate|]. apply DecimalPos.Unsigned.to_uint_nonnil. Qed.
(** A printed number: digits that read back as it. *)
Definition prints (s : string) (n : N) : Prop := exists d, d <> Nil /\ s = NilEmpty.string_of_uint d /\ N.of_uint d = n.
Lemma prints_show n : prints (show n) n.
Proof.
  exists (N.to_uint n). pose proof (to_uint_nonnil n). split; [assumption|]. split; [unfold show; now apply zero_string|]. apply DecimalN.Unsigned.of_to.
Qed.
Lemma prints_pad s n : prints s n -> prints (pad2 s) n.
Proof.
  intros (d & A & -> & <-). unfold pad2. destruct (Nat.ltb _ 2); [|now exists d]. exists (D0 d). split; [discriminate|]. split; reflexivity.
Qed.
Lemma prints_span s n t : prints s n -> (match t with EmptyString => true | String c _ => negb (is_digit c) end) = true ->
  span_digits (s ++ t)%string = (s, t) /\ number s = Some n.
Proof. intros (d & A & -> & <-) Ht. split; [now apply digit_string_span|now apply number_back]. Qed.

Lemma app_empty (s : string) : (s ++ "")%string = s.
Proof. induction s as [|c s IH]; [reflexivity|]. cbn. now rewrite IH. Qed.
Lemma read_clock_one k s n : prints s n -> read_clock (S k) s = Some [n].
Proof. intros H. destruct (prints_span s n EmptyString H eq_refl) as [A B]. rewrite app_empty in A. cbn [read_clock]. rewrite A. now rewrite B. Qed.
Lemma read_clock_more k s n t : prints s n -> read_clock (S k) (s ++ ":" ++ t)%string = option_map (cons n) (read_clock k t).
Proof. intros H. destruct (prints_span s n (":" ++ t)%string H eq_refl) as [A B]. cbn [read_clock]. rewrite A. rewrite B. cbn [append]. reflexivity. Qed.

Lemma substring_all s : substring 0 (String.length s) s = s.
Proof. induction s as [|c s IH]; [reflexivity|]. cbn. now rewrite IH. Qed.
Lemma read_time_days s n t l : prints s n -> read_clock 3 t = Some l -> read_time (s ++ " days, " ++ t)%string = Some (Clock (n :: l)).
Proof.
  intros H Hl. unfold read_time. destruct (prints_span s n (" days, " ++ t)%string H eq_refl) as [A B]. rewrite A, B.
  assert (P : String.prefix " days, " (" days, " ++ t)%string = true) by (cbn; destruct t; reflexivity). rewrite P.
  assert (Q : substring 7 (String.length (" days, " ++ t) - 7) (" days, " ++ t)%string = t).
  { cbn [append String.length]. replace (S (S (S (S (S (S (S (String.length t))))))) - 7)%nat with (String.length t) by lia. cbn [substring]. apply substring_all. }
  rewrite Q, Hl. reflexivity.
Qed.
Lemma read_time_clock s n t l : prints s n -> read_clock 3 (s ++ ":" ++ t)%string = Some l -> read_time (s ++ ":" ++ t)%string = Some (Clock l).
Proof.
  intros H Hl. unfold read_time. destruct (prints_span s n (":" ++ t)%string H eq_refl) as [A B]. rewrite A, B. change (String.prefix " days, " (":" ++ t)%string) with false.
  cbn iota. change (":" ++ t)%string with (String ":" t) in *. change (Ascii.eqb ":" ".") with false. cbn iota. now rewrite Hl.
Qed.

(** ** Floors *)
Lemma rfloor_bounds x : IZR (rfloor x) <= x < IZR (rfloor x) + 1.
Proof. unfold rfloor. pose proof (archimed x). rewrite minus_IZR. lra. Qed.
Lemma rfloor_unique x z : IZR z <= x < IZR z + 1 -> rfloor x = z.
Proof.
  intros H. pose proof (rfloor_bounds x) as B. assert (rfloor x < z + 1)%Z by (apply lt_IZR; rewrite plus_IZR; lra). assert (z < rfloor x + 1)%Z by (apply lt_IZR; rewrite plus_IZR; lra). lia.
Qed.
Lemma rmod_bounds a b : 0 < b -> 0 <= rmod a b < b.
Proof.
  intros Hb. unfold rmod, rfloordiv. pose proof (rfloor_bounds (a / b)) as [L U]. assert (E : a = b * (a / b)) by (field; lra). split.
  - rewrite E at 1. assert (0 <= b * (a / b - IZR (rfloor (a / b)))) by (apply Rmult_le_pos; lra). lra.
  - rewrite E at 1. assert (0 < b * (IZR (rfloor (a / b)) + 1 - a / b)) by (apply Rmult_lt_0_compat; lra). lra.
Qed.
Lemma rfloor_nonneg x : 0 <= x -> (0 <= rfloor x)%Z.
Proof. intros H. pose proof (rfloor_bounds x). assert (-1 < rfloor x)%Z by (apply lt_IZR; lra). lia. Qed.
Lemma rfloordiv_nonneg a b : 0 <= a -> 0 < b -> (0 <= rfloordiv a b)%Z.
Proof. intros. apply rfloor_nonneg. apply Rmult_le_pos; [assumption|left; now apply Rinv_0_lt_compat]. Qed.
Lemma rfloor_split a (b : Z) : (rfloor a = b * rfloordiv a (IZR b) + rfloor (rmod a (IZR b)))%Z.
Proof.
  apply rfloor_unique. pose proof (rfloor_bounds (rmod a (IZR b))) as H. rewrite plus_IZR, mult_IZR. unfold rmod in *. lra.
Qed.
Lemma rfloor_lt a (b : Z) : a < IZR b -> (rfloor a < b)%Z.
Proof. intros H. pose proof (rfloor_bounds a). apply lt_IZR. lra. Qed.
Lemma rfloordiv_lt a b c : 0 < b -> a < b * IZR c -> (rfloordiv a b < c)%Z.
Proof. intros Hb H. apply rfloor_lt. apply (Rmult_lt_reg_l b); [assumption|]. replace (b * (a / b)) with a by (field; lra). assumption. Qed.

(** ** What is printed *)
Lemma prints_showZ z : prints (showZ z) (Z.to_N z). Proof. apply prints_show. Qed.
(** The nested calls stop: one, two or three levels. *)
Lemma time_m_level k secs : secs <= 3600 -> pretty_time_rec (S k) secs false true =
  Some (pad2 (showZ (rfloordiv secs 60)) ++ ":" ++ pad2 (showZ (rfloor (rmod secs 60))))%string.
Proof. intros H. cbn [pretty_time_rec]. rewrite !Rltb_false by lra. reflexivity. Qed.
Lemma time_h_level k secs force_m : secs <= 86400 -> pretty_time_rec (S (S k)) secs true force_m =
  Some (showZ (rfloordiv secs 3600) ++ ":" ++ pad2 (showZ (rfloordiv (rmod secs 3600) 60)) ++ ":" ++ pad2 (showZ (rfloor (rmod (rmod secs 3600) 60))))%string.
Proof.
  intros H. pose proof (rmod_bounds secs 3600 ltac:(lra)). remember (S k) as k'. cbn [pretty_time_rec]. rewrite Rltb_false by lra. cbn [orb]. subst k'. rewrite time_m_level by lra. reflexivity.
Qed.
Lemma time_h_branch k secs force_h force_m : secs <= 86400 -> force_h || Rltb 3600 secs = true -> pretty_time_rec (S (S k)) secs force_h force_m =
  pretty_time_rec (S (S k)) secs true force_m.
Proof. intros H E. remember (S k) as k'. cbn [pretty_time_rec]. rewrite Rltb_false by lra. now rewrite E. Qed.
Lemma pretty_time_fuel k secs force_h force_m : pretty_time_rec (3 + k) secs force_h force_m = pretty_time secs force_h force_m.
Proof.
  unfold pretty_time. destruct (Rltb_spec 86400 secs) as [L|L].
  - pose proof (rmod_bounds secs 86400 ltac:(lra)). change (3 + k)%nat with (S (S (S k))). remember (S (S k)) as a eqn:Ea. remember 2%nat as b eqn:Eb. cbn [pretty_time_rec]. rewrite Rltb_true by assumption. subst. rewrite !time_h_level by lra. reflexivity.
  - destruct (force_h || Rltb 3600 secs) eqn:E.
    + change (3 + k)%nat with (S (S (S k))). change 3%nat with (S (S 1)). rewrite !(time_h_branch _ secs force_h) by (assumption || lra). rewrite !time_h_level by lra. reflexivity.
    + change (3 + k)%nat with (S (S (S k))). remember (S (S k)) as a. cbn [pretty_time_rec]. rewrite Rltb_false by lra. now rewrite E.
Qed.

Lemma minutes_bounds secs : 0 <= secs < 3600 -> (0 <= rfloordiv secs 60 < 60)%Z /\ (0 <= rfloor (rmod secs 60) < 60)%Z /\ (rfloor secs = 60 * rfloordiv secs 60 + rfloor (rmod secs 60))%Z.
Proof.
  intros H. pose proof (rmod_bounds secs 60 ltac:(lra)). split; [split; [apply rfloordiv_nonneg; lra|apply rfloordiv_lt; lra]|].
  split; [split; [apply rfloor_nonneg; lra|apply rfloor_lt; lra]|]. apply rfloor_split.
Qed.
Lemma pretty_time_reads secs force_h force_m : 0 <= secs -> exists s, pretty_time secs force_h force_m = Some s /\
  ((exists l, read_time s = Some (Clock l) /\ clock_seconds l = Z.to_N (rfloor secs) /\ clock_fields l /\
      (length l = 4%nat <-> 86400 < secs) /\ ((3 <= length l)%nat <-> force_h = true \/ 3600 < secs)) \/
   (read_time s = Some (Hundredths (hundredths secs)) /\ secs <= 60 /\ force_h = false /\ force_m = false)).
Proof.
  intros H0. unfold pretty_time. destruct (Rltb_spec 86400 secs) as [L|L].
  - pose proof (rmod_bounds secs 86400 ltac:(lra)) as B. remember 2%nat as b eqn:Eb. cbn [pretty_time_rec]. rewrite Rltb_true by assumption. subst b. rewrite time_h_level by lra.
    cbn [option_map]. eexists. split; [reflexivity|]. left. pose proof (rmod_bounds (rmod secs 86400) 3600 ltac:(lra)) as B'.
    destruct (minutes_bounds _ B') as (M1 & M2 & M3). pose proof (rfloor_split secs 86400) as S1. pose proof (rfloor_split (rmod secs 86400) 3600) as S2.
    assert (Hh : (0 <= rfloordiv (rmod secs 86400) 3600 < 24)%Z) by (split; [apply rfloordiv_nonneg; lra|apply rfloordiv_lt; lra]).
    assert (Hd : (0 <= rfloordiv secs 86400)%Z) by (apply rfloordiv_nonneg; lra).
    eexists. split; [apply read_time_days; [apply prints_showZ|]|].
    + rewrite (read_clock_more _ _ _ _ (prints_showZ _)). rewrite (read_clock_more _ _ _ _ (prints_pad _ _ (prints_showZ _))). rewrite (read_clock_one 0 _ _ (prints_pad _ _ (prints_showZ _))). cbn [option_map]. reflexivity.
    + cbn [clock_seconds clock_fields length]. repeat split; try lia; try lra; intros; lra.
  - destruct (force_h || Rltb 3600 secs) eqn:E.
    + rewrite time_h_branch by (assumption || lra). rewrite time_h_level by lra. eexists. split; [reflexivity|]. left.
      pose proof (rmod_bounds secs 3600 ltac:(lra)) as B'. destruct (minutes_bounds _ B') as (M1 & M2 & M3). pose proof (rfloor_split secs 3600) as S2.
      assert (Hh : (0 <= rfloordiv secs 3600)%Z) by (apply rfloordiv_nonneg; lra).
      eexists. split; [apply (read_time_clock _ _ _ _ (prints_showZ _))|].
      * rewrite (read_clock_more _ _ _ _ (prints_showZ _)). rewrite (read_clock_more _ _ _ _ (prints_pad _ _ (prints_showZ _))). rewrite (read_clock_one 0 _ _ (prints_pad _ _ (prints_showZ _))). cbn [option_map]. reflexivity.
      * cbn [clock_seconds clock_fields length]. repeat split; try lia; try lra; try discriminate; intros; try lra.
        apply orb_true_iff in E. destruct E as [E|E]; [now left|right]. destruct (Rltb_spec 3600 secs); [assumption|discriminate].
    + apply orb_false_iff in E. destruct E as [-> E]. assert (Hs : secs <= 3600) by (destruct (Rltb_spec 3600 secs); [discriminate|lra]).
      cbn [pretty_time_rec orb]. rewrite !Rltb_false by lra. destruct (force_m || Rltb 60 secs) eqn:F.
      * eexists. split; [reflexivity|]. left. pose proof (rmod_bounds secs 60 ltac:(lra)) as B'.
        assert (S3 : (rfloor secs = 60 * rfloordiv secs 60 + rfloor (rmod secs 60))%Z) by apply rfloor_split.
        assert (M1 : (0 <= rfloordiv secs 60)%Z) by (apply rfloordiv_nonneg; lra).
        assert (M2 : (0 <= rfloor (rmod secs 60) < 60)%Z) by (split; [apply rfloor_nonneg; lra|apply rfloor_lt; lra]).
        assert (P : prints (if force_m then pad2 (showZ (rfloordiv secs 60)) else showZ (rfloordiv secs 60)) (Z.to_N (rfloordiv secs 60))) by (destruct force_m; [apply prints_pad|]; apply prints_showZ).
        eexists. split; [apply (read_time_clock _ _ _ _ P)|].
        -- rewrite (read_clock_more _ _ _ _ P). rewrite (read_clock_one 1 _ _ (prints_pad _ _ (prints_showZ _))). cbn [option_map]. reflexivity.
        -- cbn [clock_seconds clock_fields length]. repeat split; try lia; try lra; try discriminate; intros; try lia; try lra.
      * apply orb_false_iff in F. destruct F as [-> F]. assert (Hm : secs <= 60) by (destruct (Rltb_spec 60 secs); [discriminate|lra]).
        eexists. split; [reflexivity|]. right. repeat split; try assumption. unfold read_time, fixed2.
        assert (AS : forall a b c : string, ((a ++ b) ++ c = a ++ (b ++ c))%string) by (induction a as [|x a IH]; intros; cbn; [reflexivity|]; now rewrite IH).
        rewrite !AS. set (t := (pad2 (show (hundredths secs mod 100)) ++ " seconds")%string).
        destruct (prints_span (show (hundredths secs / 100)) _ ("." ++ t)%string (prints_show _) eq_refl) as [A B]. rewrite A, B.
        change (String.prefix " days, " ("." ++ t)) with false. cbn iota. change ("." ++ t)%string with (String "." t). cbn iota.
        destruct (prints_span (pad2 (show (hundredths secs mod 100))) _ " seconds"%string (prints_pad _ _ (prints_show _)) eq_refl) as [A' B']. unfold t. rewrite A', B'.
        change (String.eqb " seconds" " seconds") with true. replace (Ascii.eqb "." ".") with true by reflexivity. cbn iota. do 2 f_equal. symmetry. apply N.div_mod'.
Qed.
Lemma hundredths_whole (z : Z) : (0 <= z)%Z -> hundredths (IZR z) = (100 * Z.to_N z)%N.
Proof.
  intros H. unfold hundredths. rewrite (rfloor_unique _ (100 * z)); [lia|]. rewrite mult_IZR. lra.
Qed.
Lemma rfloor_whole z : rfloor (IZR z) = z.
Proof. apply rfloor_unique. lra. Qed.

(** ** Duplicates *)
Section Uniq.
  Context {A : Type} (eqb : A -> A -> bool) (eqb_ok : forall x y, eqb x y = true <-> x = y).
  Lemma existsb_eqb x l : existsb (eqb x) l = true <-> In x l.
  Proof. rewrite existsb_exists. split; [intros (y & H & E); apply eqb_ok in E; now subst|intros H; exists x; split; [assumption|now apply eqb_ok]]. Qed.
  Lemma uniquify_from_In seen l x : In x (uniquify_from eqb seen l) <-> In x l /\ ~ In x seen.
  Proof.
    revert seen; induction l as [|y l IH]; intros seen; cbn [uniquify_from]; [cbn; tauto|]. destruct (existsb (eqb y) seen) eqn:E.
    - apply existsb_eqb in E. rewrite IH. cbn. intuition congruence.
    - assert (~ In y seen) by (intros H; apply existsb_eqb in H; congruence). cbn [In]. rewrite IH. cbn [In]. split.
      + intros [<-|[H1 H2]]; [now split; [left|]|]. split; [now right|]. tauto.
      + intros [[<-|H1] H2]; [now left|]. destruct (eqb y x) eqn:F; [apply eqb_ok in F; now left|]. right. split; [assumption|]. intros [->|H3]; [|tauto].
        assert (eqb x x = true) by now apply eqb_ok. congruence.
  Qed.
  Lemma uniquify_from_NoDup seen l : NoDup (uniquify_from eqb seen l).
  Proof.
    revert seen; induction l as [|y l IH]; intros seen; cbn [uniquify_from]; [constructor|]. destruct (existsb (eqb y) seen); [apply IH|]. constructor; [|apply IH].
    rewrite uniquify_from_In. cbn. tauto.
  Qed.
  (** Earlier in the result means first seen earlier. *)
  Lemma uniquify_from_order seen l a b x y i j : (a < b)%nat -> nth_error (uniquify_from eqb seen l) a = Some x -> nth_error (uniquify_from eqb seen l) b = Some y ->
    first_at x l i -> first_at y l j -> (i < j)%nat.
  Proof.
    revert seen a b i j; induction l as [|z l IH]; intros seen a b i j Hab Ha Hb Hi Hj; [destruct a; discriminate|]. cbn [uniquify_from] in *.
    assert (D : forall v k, first_at v (z :: l) k -> z <> v -> exists k', k = S k' /\ first_at v l k').
    { intros v k [F1 F2] Hne. destruct k as [|k]; [cbn in F1; congruence|]. exists k. split; [reflexivity|]. split; [exact F1|]. intros q Hq. exact (F2 (S q) ltac:(lia)). }
    destruct (existsb (eqb z) seen) eqn:E.
    - apply existsb_eqb in E. assert (N : forall v c, nth_error (uniquify_from eqb seen l) c = Some v -> z <> v).
      { intros v c Hc ->. apply nth_error_In, uniquify_from_In in Hc. tauto. }
      destruct (D x i Hi (N _ _ Ha)) as (i' & -> & Hi'). destruct (D y j Hj (N _ _ Hb)) as (j' & -> & Hj'). pose proof (IH seen a b i' j' Hab Ha Hb Hi' Hj'). lia.
    - assert (N : forall v c, nth_error (uniquify_from eqb (z :: seen) l) c = Some v -> z <> v).
      { intros v c Hc ->. apply nth_error_In, uniquify_from_In in Hc. cbn in Hc. tauto. }
      destruct b as [|b]; [lia|]. cbn in Hb. destruct (D y j Hj (N _ _ Hb)) as (j' & -> & Hj'). destruct a as [|a].
      + cbn in Ha. injection Ha as <-. destruct i as [|i]; [lia|]. destruct Hi as [_ F]. now destruct (F 0%nat ltac:(lia)).
      + cbn in Ha. destruct (D x i Hi (N _ _ Ha)) as (i' & -> & Hi'). pose proof (IH _ a b i' j' ltac:(lia) Ha Hb Hi' Hj'). lia.
  Qed.
End Uniq.

(** ** Simplex *)
(** Breaking a stick of length r, and recovering the fractions. *)
Fixpoint break (r : R) (z : list R) : list R := match z with [] => [] | a :: z' => r * a :: break (r * (1 - a)) z' end.
Fixpoint unbreak (r : R) (x : list R) : list R := match x with [] => [] | a :: x' => a / r :: unbreak (r - a) x' end.
Lemma break_sum r z : rsum (break r z) = r * (1 - rprod (map (fun a => 1 - a) z)).
Proof.
  revert r; induction z as [|a z IH]; intros r; cbn [break map]; [rewrite rsum_nil; unfold rprod; cbn; ring|]. rewrite rsum_cons, rprod_cons, IH. ring.
Qed.
Lemma break_length r z : length (break r z) = length z.
Proof. revert r; induction z; intros; cbn; congruence. Qed.
Lemma break_app r z b : break r (z ++ [b]) = break r z ++ [(r - rsum (break r z)) * b].
Proof.
  revert r; induction z as [|a z IH]; intros r; cbn [app break]; [rewrite rsum_nil; do 2 f_equal; ring|]. rewrite IH, rsum_cons. f_equal. f_equal. do 2 f_equal. ring.
Qed.
Lemma break_pos r z : 0 < r -> Forall (fun a => 0 < a < 1) z -> Forall (fun x => 0 < x) (break r z) /\ rsum (break r z) < r.
Proof.
  intros Hr Hz. revert r Hr. induction Hz as [|a z Ha Hz IH]; intros r Hr; cbn [break]; [split; [constructor|rewrite rsum_nil; lra]|].
  destruct (IH (r * (1 - a))) as [P Q]; [apply Rmult_lt_0_compat; lra|]. split; [constructor; [apply Rmult_lt_0_compat; lra|assumption]|]. rewrite rsum_cons. lra.
Qed.
Lemma unbreak_break r z : 0 < r -> Forall (fun a => 0 < a < 1) z -> unbreak r (break r z) = z.
Proof.
  intros Hr Hz. revert r Hr. induction Hz as [|a z Ha Hz IH]; intros r Hr; cbn [break unbreak]; [reflexivity|]. f_equal; [field; lra|].
  replace (r - r * a) with (r * (1 - a)) by ring. apply IH. apply Rmult_lt_0_compat; lra.
Qed.
Lemma break_unbreak r x : Forall (fun a => 0 < a) x -> rsum x < r -> break r (unbreak r x) = x.
Proof.
  intros Hx. revert r. induction Hx as [|a x Ha Hx IH]; intros r Hr; cbn [break unbreak]; [reflexivity|]. rewrite rsum_cons in Hr.
  assert (0 <= rsum x) by (apply rsum_nonneg; eapply Forall_impl; [|exact Hx]; cbn; intros; lra). f_equal; [field; lra|]. replace (r * (1 - a / r)) with (r - a) by (field; lra). apply IH. lra.
Qed.
Lemma unbreak_range r x : Forall (fun a => 0 < a) x -> rsum x < r -> Forall (fun a => 0 < a < 1) (unbreak r x).
Proof.
  intros Hx. revert r. induction Hx as [|a x Ha Hx IH]; intros r Hr; cbn [unbreak]; [constructor|]. rewrite rsum_cons in Hr.
  assert (0 <= rsum x) by (apply rsum_nonneg; eapply Forall_impl; [|exact Hx]; cbn; intros; lra). constructor.
  - split; [apply Rmult_lt_0_compat; [assumption|apply Rinv_0_lt_compat; lra]|]. apply (Rmult_lt_reg_r r); [lra|]. unfold Rdiv. rewrite Rmult_assoc, Rinv_l by lra. lra.
  - apply IH. lra.
Qed.

Definition sig (x : R) : R := / (1 + exp (- x)).
Definition lgt (p : R) : R := ln (p / (1 - p)).
Lemma sig_range x : 0 < sig x < 1.
Proof.
  unfold sig. pose proof (exp_pos (- x)). split; [apply Rinv_0_lt_compat; lra|]. rewrite <- Rinv_1. apply Rinv_lt_contravar; lra.
Qed.
Lemma lgt_sig x : lgt (sig x) = x.
Proof.
  unfold lgt, sig. pose proof (exp_pos (- x)). replace (/ (1 + exp (- x)) / (1 - / (1 + exp (- x)))) with (/ exp (- x)) by (field; lra). rewrite ln_Rinv by assumption. rewrite ln_exp. ring.
Qed.
Lemma sig_lgt p : 0 < p < 1 -> sig (lgt p) = p.
Proof.
  intros H. unfold sig, lgt. assert (0 < p / (1 - p)) by (apply Rmult_lt_0_compat; [lra|apply Rinv_0_lt_compat; lra]). rewrite exp_Ropp, exp_ln by assumption. field. lra.
Qed.
Lemma logit_Fin p : 0 < p < 1 -> logit (Fin p) = Fin (lgt p).
Proof.
  intros H. unfold logit. cbn [xsub xopp xadd xdiv]. rewrite Reqb_false by lra. cbn [xln].
  assert (0 < p / (1 + - p)) by (apply Rmult_lt_0_compat; [lra|apply Rinv_0_lt_compat; lra]). now rewrite Rltb_true.
Qed.
(** The offset for entry number i (from 0) of n. *)
Definition off (n i : nat) : R := ln (INR n - INR (S i)).
Lemma lgt_inv n i : (S i < n)%nat -> lgt (1 / (INR n - INR i)) = - off n i.
Proof.
  intros H. unfold lgt, off. rewrite S_INR. apply lt_INR in H. rewrite S_INR in H. replace (1 / (INR n - INR i) / (1 - 1 / (INR n - INR i))) with (/ (INR n - (INR i + 1))) by (field; lra). apply ln_Rinv. lra.
Qed.
Lemma to_z y : forall n k, (length y + k <= n)%nat -> (k + length y < n)%nat ->
  map2 (fun yi i => expit (xsub (Fin yi) (xln (Fin (INR n - INR i))))) y (seq (S k) (length y)) = map Fin (map2 (fun yi i => sig (yi - off n i)) y (seq k (length y))).
Proof.
  induction y as [|a y IH]; intros n k H1 H2; cbn [length seq map2 map]; [reflexivity|]. f_equal.
  - cbn [xln]. assert (INR (S k) < INR n) by (apply lt_INR; cbn [length] in *; lia). rewrite Rltb_true by lra. reflexivity.
  - cbn [length] in *. apply IH; lia.
Qed.
Lemma cumprod_break r z zs : map2 xmul (map Fin zs) (cumprod (Fin r) (map (xsub (Fin 1)) (map Fin z))) = map2 xmul (map Fin zs) (cumprod (Fin r) (map Fin (map (fun a => 1 - a) z))).
Proof. do 2 f_equal. rewrite !map_map. reflexivity. Qed.
Lemma tail_break r z a zs : length zs = length z -> tl (a :: zs) = zs -> removelast (a :: zs) = z ->
  map2 xmul (map Fin zs) (cumprod (Fin r) (map Fin (map (fun a => 1 - a) z))) = map Fin (tl (break r (a :: zs))).
Proof.
  intros Hl _ Hr. revert r a z Hl Hr; induction zs as [|b zs IH]; intros r a z Hl Hr; [reflexivity|]. change (removelast (a :: b :: zs)) with (a :: removelast (b :: zs)) in Hr. subst z.
  cbn [map cumprod map2 break tl]. cbn [xmul]. f_equal; [f_equal; ring|]. assert (Hl' : length zs = length (removelast (b :: zs))) by (cbn [length] in Hl; lia).
  rewrite (IH (r * (1 - a)) b (removelast (b :: zs)) Hl' eq_refl). reflexivity.
Qed.
Lemma removelast_length {A} (l : list A) : length (removelast l) = (length l - 1)%nat.
Proof. induction l as [|a [|b l] IH]; [reflexivity..|]. change (removelast (a :: b :: l)) with (a :: removelast (b :: l)). cbn [length] in *. lia. Qed.
Lemma to_simplex_break y b : to_simplex (y ++ [b]) = Ok (map Fin (break 1 (map2 (fun yi i => sig (yi - off (S (length y)) i)) y (seq 0 (length y)) ++ [1]))).
Proof.
  unfold to_simplex. rewrite app_length, Nat.add_1_r. set (n := S (length y)).
  assert (E : map2 (fun yi i => expit (xsub (Fin yi) (xln (Fin (INR n - INR i))))) (y ++ [b]) (seq 1 n) = map Fin (map2 (fun yi i => sig (yi - off n i)) y (seq 0 (length y)) ++ [1])).
  { unfold n at 2. rewrite seq_S, map2_app by (now rewrite seq_length). rewrite to_z by (unfold n; lia). rewrite map_app. f_equal. cbn [map2 map]. f_equal.
    replace (INR n - INR (1 + length y)) with 0 by (unfold n; cbn [Nat.add]; ring). cbn [xln]. rewrite !Rltb_false by lra. reflexivity. }
  rewrite E. set (zs := map2 _ y _ ++ [1]). destruct zs as [|z0 zs'] eqn:Ez; [destruct (map2 (fun yi i => sig (yi - off n i)) y (seq 0 (length y))); discriminate|].
  cbn [map]. f_equal. change (Fin z0 :: map Fin zs') with (map Fin (z0 :: zs')).
  assert (RL : removelast (map Fin (z0 :: zs')) = map Fin (removelast (z0 :: zs'))).
  { clear. revert z0; induction zs' as [|a zs' IH]; intros z0; [reflexivity|]. change (removelast (z0 :: a :: zs')) with (z0 :: removelast (a :: zs')). cbn [map]. rewrite <- IH. reflexivity. }
  rewrite RL, cumprod_break, (tail_break 1 (removelast (z0 :: zs')) z0 zs'); try reflexivity.
  - cbn [break tl map]. f_equal. f_equal. ring.
  - rewrite removelast_length. cbn [length]. lia.
Qed.
Lemma from_fractions r x0 xs : 0 < r -> Forall (fun a => 0 < a) (x0 :: xs) -> rsum (x0 :: xs) < r ->
  map2 (fun a c => xdiv (Fin a) (Fin (1 - c))) xs (cumsum_from (1 - r) (removelast (x0 :: xs))) = map Fin (tl (unbreak r (x0 :: xs))).
Proof.
  revert r x0; induction xs as [|a xs IH]; intros r x0 Hr Hp Hs; [reflexivity|]. change (removelast (x0 :: a :: xs)) with (x0 :: removelast (a :: xs)).
  inversion Hp as [|? ? P1 P2]; subst. inversion P2 as [|? ? P3 P4]; subst. assert (0 <= rsum xs) by (apply rsum_nonneg; eapply Forall_impl; [|exact P4]; cbn; intros; lra). rewrite !rsum_cons in Hs.
  cbn [cumsum_from map2 unbreak tl map]. f_equal.
  - rewrite xdiv_Fin by lra. f_equal. f_equal. ring.
  - replace (1 - r + x0) with (1 - (r - x0)) by ring. rewrite (IH (r - x0) a); [reflexivity|lra|assumption|rewrite rsum_cons; lra].
Qed.
Lemma from_simplex_unbreak x b : Forall (fun a => 0 < a) x -> rsum x < 1 ->
  from_simplex (x ++ [b]) = Ok (map Fin (map2 (fun z i => lgt z + off (S (length x)) i) (unbreak 1 x) (seq 0 (length x)) ++ [0])).
Proof.
  intros Hx Hs. unfold from_simplex. destruct x as [|x0 xs]; [reflexivity|]. cbn [app]. f_equal. change (x0 :: xs ++ [b]) with ((x0 :: xs) ++ [b]).
  rewrite !removelast_last. rewrite map_app. f_equal. rewrite app_length, Nat.add_1_r. cbn [length]. replace (S (S (length xs)) - 1)%nat with (S (length xs)) by lia.
  assert (C : cumsum (removelast (x0 :: xs)) = cumsum_from (1 - 1) (removelast (x0 :: xs))) by (unfold cumsum; f_equal; ring). rewrite C.
  rewrite from_fractions by (try assumption; lra). set (n := S (S (length xs))).
  assert (U : Fin x0 :: map Fin (tl (unbreak 1 (x0 :: xs))) = map Fin (unbreak 1 (x0 :: xs))) by (cbn [unbreak tl map]; f_equal; f_equal; field).
  rewrite U. assert (L : forall r l, length (unbreak r l) = length l) by (intros r l; revert r; induction l; intros; cbn; congruence).
  rewrite firstn_all2 by (rewrite map_length, L; cbn [length]; lia). pose proof (unbreak_range 1 (x0 :: xs) Hx Hs) as Hz. specialize (L 1 (x0 :: xs)). cbn [length] in L.
  revert Hz L. generalize (unbreak 1 (x0 :: xs)). assert (G : forall k zs m, Forall (fun a => 0 < a < 1) zs -> length zs = m -> (k + m < n)%nat ->
     map2 (fun zi i => xsub (logit zi) (logit (Fin (1 / (INR n - INR i))))) (map Fin zs) (seq k m) = map Fin (map2 (fun z i => lgt z + off n i) zs (seq k m))).
  { intros k zs m Hz. revert k m; induction Hz as [|z zs Hz1 Hz2 IH]; intros k m Hl Hk; subst m; cbn [length seq map map2]; [reflexivity|]. f_equal.
    - cbn [length] in Hk. assert (INR (S k) < INR n) by (apply lt_INR; lia). rewrite S_INR in *.
      rewrite !logit_Fin; [|split; [apply Rmult_lt_0_compat; [lra|apply Rinv_0_lt_compat; lra]|]|assumption].
      + rewrite lgt_inv by lia. cbn [xsub xopp xadd]. f_equal. ring.
      + apply (Rmult_lt_reg_r (INR n - INR k)); [lra|]. unfold Rdiv. rewrite Rmult_assoc, Rinv_l by lra. lra.
    - apply IH; cbn [length] in *; lia. }
  intros zs Hz Hl. apply G; [assumption|assumption|unfold n; lia].
Qed.
