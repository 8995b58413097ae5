(** Theorems for properties C44 (simplex coordinates), C45 (printed durations) and C46 (duplicate removal). *)
From Verif Require Import Base RList Ext Sums UtilModel UtilSpec UtilProofs.
From Coq Require Import String Ascii NArith List.
Close Scope string_scope.
Open Scope list_scope.

(** C44 *)
Theorem c44_to_simplex_is_a_probability_vector y : y <> [] ->
  exists x, to_simplex y = Ok (map Fin x) /\ length x = length y /\ Forall (fun a => 0 < a) x /\ rsum x = 1.
Proof.
  intros Hy. destruct (exists_last Hy) as (z & b & ->). rewrite to_simplex_break. set (zs := map2 _ z _). eexists. split; [reflexivity|].
  assert (Lz : length zs = length z) by (unfold zs; rewrite map2_length; [reflexivity|now rewrite seq_length]).
  assert (Hz : Forall (fun a => 0 < a < 1) zs) by (unfold zs; apply Forall_map2; intros; apply sig_range).
  rewrite break_length, !app_length, Lz. split; [reflexivity|]. destruct (break_pos 1 zs Rlt_0_1 Hz) as [P Q]. rewrite break_app. split.
  - apply Forall_app. split; [assumption|]. constructor; [lra|constructor].
  - rewrite rsum_app, rsum_cons, rsum_nil. ring.
Qed.
Theorem c44_round_trip y : exists x, to_simplex (y ++ [0]) = Ok (map Fin x) /\ from_simplex x = Ok (map Fin (y ++ [0])).
Proof.
  rewrite to_simplex_break. set (zs := map2 _ y _). eexists. split; [reflexivity|].
  assert (Lz : length zs = length y) by (unfold zs; rewrite map2_length; [reflexivity|now rewrite seq_length]).
  assert (Hz : Forall (fun a => 0 < a < 1) zs) by (unfold zs; apply Forall_map2; intros; apply sig_range).
  destruct (break_pos 1 zs Rlt_0_1 Hz) as [P Q]. rewrite break_app, from_simplex_unbreak by assumption. do 2 f_equal. f_equal.
  rewrite break_length, Lz, unbreak_break by (assumption || lra). unfold zs. rewrite map2_map2_l.
  rewrite (map2_ext _ (fun a _ => a)); [apply map2_fst; now rewrite seq_length|]. intros a i. rewrite lgt_sig. ring.
Qed.
Theorem c44_round_trip_back x : x <> [] -> Forall (fun a => 0 < a) x -> rsum x = 1 -> exists y, from_simplex x = Ok (map Fin y) /\ last y 0 = 0 /\ to_simplex y = Ok (map Fin x).
Proof.
  intros Hx Hp Hs. destruct (exists_last Hx) as (v & b & ->). apply Forall_app in Hp. destruct Hp as [Hv Hb]. inversion Hb; subst. rewrite rsum_app, rsum_cons, rsum_nil in Hs.
  rewrite from_simplex_unbreak by (assumption || lra). eexists. split; [reflexivity|]. split; [now rewrite last_last|].
  assert (L : forall r l, length (unbreak r l) = length l) by (intros r l; revert r; induction l; intros; cbn; congruence).
  rewrite to_simplex_break. do 2 f_equal. assert (Lm : length (map2 (fun z i => lgt z + off (S (length v)) i) (unbreak 1 v) (seq 0 (length v))) = length v) by (rewrite map2_length; [apply L|now rewrite seq_length, L]).
  rewrite Lm, map2_map2_l. pose proof (unbreak_range 1 v Hv ltac:(lra)) as U.
  assert (E : map2 (fun z i => sig (lgt z + off (S (length v)) i - off (S (length v)) i)) (unbreak 1 v) (seq 0 (length v)) = unbreak 1 v).
  { specialize (L 1 v). revert U L. generalize (unbreak 1 v) (seq 0 (length v)) (seq_length (length v) 0). intros zs is Hi Hz Hl. rewrite <- Hl in Hi. clear - Hz Hi. revert is Hi; induction Hz as [|z zs Hz1 Hz2 IH]; intros [|i is] Hi; cbn in *; try reflexivity; try discriminate.
    f_equal; [|apply IH; lia]. rewrite <- (sig_lgt z) at 2 by assumption. f_equal. ring. }
  rewrite E, break_app, break_unbreak by (assumption || lra). do 2 f_equal. lra.
Qed.
(** The shift makes the uniform vector the origin. *)
Theorem c44_origin_is_uniform n : to_simplex (repeat 0 (S n)) = Ok (map Fin (repeat (/ INR (S n)) (S n))).
Proof.
  destruct (c44_round_trip_back (repeat (/ INR (S n)) (S n))) as (y & E & Hl & T).
  - discriminate.
  - apply Forall_forall. intros a Ha. apply repeat_spec in Ha. subst. apply Rinv_0_lt_compat, lt_0_INR. lia.
  - rewrite rsum_repeat. apply Rinv_r. apply not_0_INR. discriminate.
  - enough (y = repeat 0 (S n)) by now subst. assert (RS : forall A (c : A) k, repeat c (S k) = repeat c k ++ [c]) by (intros A c k; clear; induction k as [|k IH]; [reflexivity|]; cbn in *; now f_equal).
    rewrite (RS R) in E. assert (Hi : 0 < / INR (S n)) by (apply Rinv_0_lt_compat, lt_0_INR; lia). rewrite from_simplex_unbreak in E.
    + injection E as E. assert (I : forall a b : list R, map Fin a = map Fin b -> a = b) by (intros a; induction a as [|u a IH]; intros [|v b] H; try discriminate; [reflexivity|]; injection H as -> H; f_equal; now apply IH).
      apply I in E. subst y. rewrite (RS R 0). f_equal. rewrite repeat_length.
      assert (G : forall m k, (k + m = n)%nat -> map2 (fun z i => lgt z + off (S n) i) (unbreak (1 - INR k * / INR (S n)) (repeat (/ INR (S n)) m)) (seq k m) = repeat 0 m).
      { induction m as [|m IH]; intros k Hk; [reflexivity|]. cbn [repeat unbreak seq map2]. assert (Hn : INR n = INR k + INR m + 1) by (rewrite <- Hk, plus_INR, S_INR; ring). pose proof (pos_INR k). pose proof (pos_INR m).
        f_equal.
        - unfold lgt, off. rewrite !S_INR, Hn. replace (/ (INR k + INR m + 1 + 1) / (1 - INR k * / (INR k + INR m + 1 + 1)) / (1 - / (INR k + INR m + 1 + 1) / (1 - INR k * / (INR k + INR m + 1 + 1)))) with (/ (INR m + 1)) by (field; lra).
          replace (INR k + INR m + 1 + 1 - (INR k + 1)) with (INR m + 1) by ring. rewrite ln_Rinv by lra. ring.
        - replace (1 - INR k * / INR (S n) - / INR (S n)) with (1 - INR (S k) * / INR (S n)) by (rewrite (S_INR k); ring). apply IH. lia. }
      specialize (G n 0%nat ltac:(lia)). cbn [INR] in G. rewrite Rmult_0_l, Rminus_0_r in G. exact G.
    + apply Forall_forall. intros a Ha. apply repeat_spec in Ha. now subst.
    + rewrite rsum_repeat. rewrite S_INR in *. pose proof (pos_INR n). apply (Rmult_lt_reg_r (INR n + 1)); [lra|]. rewrite Rmult_assoc, Rinv_l by lra. lra.
Qed.
Theorem c44_empty_vector : to_simplex [] = Err IndexError /\ from_simplex [] = Err IndexError.
Proof. split; reflexivity. Qed.

(** C45 *)
(** Every non-negative duration prints as a clock that reads back to its whole seconds with all fields in range, or (up to a
    minute, without flags) as a decimal number of seconds. *)
Theorem c45_reads_back secs force_h force_m : 0 <= secs -> exists s, pretty_time secs force_h force_m = Some s /\
  ((exists l, read_time s = Some (Clock l) /\ IZR (Z.of_N (clock_seconds l)) <= secs < IZR (Z.of_N (clock_seconds l)) + 1 /\ clock_fields l /\
      (length l = 4%nat <-> 86400 < secs) /\ ((3 <= length l)%nat <-> force_h = true \/ 3600 < secs)) \/
   (exists n, read_time s = Some (Hundredths n) /\ Rabs (IZR (Z.of_N n) / 100 - secs) <= 1 / 200 /\ secs <= 60 /\ force_h = false /\ force_m = false)).
Proof.
  intros H. destruct (pretty_time_reads secs force_h force_m H) as (s & E & D). exists s. split; [assumption|]. destruct D as [(l & A & B & C & D & F)|(A & B & C & D)].
  - left. exists l. rewrite B, Z2N.id by (now apply rfloor_nonneg). pose proof (rfloor_bounds secs). auto.
  - right. exists (hundredths secs). repeat split; try assumption. unfold hundredths. rewrite Z2N.id by (apply rfloor_nonneg; lra). pose proof (rfloor_bounds (100 * secs + 1/2)) as [P Q]. apply Rabs_le. lra.
Qed.
(** Whole numbers of seconds are recovered exactly, so no two of them print the same. *)
Theorem c45_injective (a b : Z) force_h force_m : (0 <= a)%Z -> (0 <= b)%Z -> pretty_time (IZR a) force_h force_m = pretty_time (IZR b) force_h force_m -> a = b.
Proof.
  intros Ha Hb E. destruct (pretty_time_reads (IZR a) force_h force_m (IZR_le 0 a Ha)) as (s & E1 & D1). destruct (pretty_time_reads (IZR b) force_h force_m (IZR_le 0 b Hb)) as (t & E2 & D2).
  assert (s = t) by congruence. subst t. destruct D1 as [(l & A & B & _)|(A & _)]; destruct D2 as [(l' & A' & B' & _)|(A' & _)].
  - rewrite rfloor_whole in B, B'. assert (l = l') by congruence. subst. lia.
  - congruence.
  - congruence.
  - rewrite hundredths_whole in A, A' by assumption. assert (N2 : (100 * Z.to_N a = 100 * Z.to_N b)%N) by congruence. lia.
Qed.
(** Arbitrary durations printing the same are less than a second apart. *)
Theorem c45_same_print_close a b force_h force_m : 0 <= a -> 0 <= b -> pretty_time a force_h force_m = pretty_time b force_h force_m -> Rabs (a - b) < 1.
Proof.
  intros Ha Hb E. destruct (c45_reads_back a force_h force_m Ha) as (s & E1 & D1). destruct (c45_reads_back b force_h force_m Hb) as (t & E2 & D2).
  assert (s = t) by congruence. subst t. destruct D1 as [(l & A & B & _)|(n & A & B & _)]; destruct D2 as [(l' & A' & B' & _)|(n' & A' & B' & _)].
  - assert (l = l') by congruence. subst. apply Rabs_def1; lra.
  - congruence.
  - congruence.
  - assert (n = n') by congruence. subst. revert B B'. unfold Rabs. repeat destruct (Rcase_abs _); lra.
Qed.
(** The bound on the nested calls is never reached. *)
Theorem c45_recursion_stops k secs force_h force_m : pretty_time_rec (3 + k) secs force_h force_m = pretty_time secs force_h force_m.
Proof. exact (pretty_time_fuel k secs force_h force_m). Qed.
Example c45_example : pretty_time 90061 false false = Some "1 days, 1:01:01"%string /\ read_time "1 days, 1:01:01" = Some (Clock [1; 1; 1; 1]%N).
Proof.
  split; [|reflexivity]. unfold pretty_time. remember 2%nat as b eqn:Eb. cbn [pretty_time_rec]. rewrite Rltb_true by lra. subst b.
  assert (D : rfloordiv 90061 86400 = 1%Z) by (apply rfloor_unique; lra). assert (M : rmod 90061 86400 = 3661) by (unfold rmod; rewrite D; ring). rewrite M, time_h_level by lra.
  assert (D2 : rfloordiv 3661 3600 = 1%Z) by (apply rfloor_unique; lra). assert (M2 : rmod 3661 3600 = 61) by (unfold rmod; rewrite D2; ring). rewrite M2.
  assert (D3 : rfloordiv 61 60 = 1%Z) by (apply rfloor_unique; lra). assert (M3 : rmod 61 60 = IZR 1) by (unfold rmod; rewrite D3; ring). rewrite M3, rfloor_whole, D, D2, D3. reflexivity.
Qed.

(** C46 *)
Theorem c46_each_element_once {A} (eqb : A -> A -> bool) (l : list A) : (forall x y, eqb x y = true <-> x = y) ->
  NoDup (uniquify eqb l) /\ (forall x, In x (uniquify eqb l) <-> In x l).
Proof. intros H. split; [now apply uniquify_from_NoDup|]. intros x. unfold uniquify. rewrite uniquify_from_In by assumption. cbn. tauto. Qed.
Theorem c46_order_of_first_appearance {A} (eqb : A -> A -> bool) (l : list A) a b x y i j : (forall x y, eqb x y = true <-> x = y) -> (a < b)%nat ->
  nth_error (uniquify eqb l) a = Some x -> nth_error (uniquify eqb l) b = Some y -> first_at x l i -> first_at y l j -> (i < j)%nat.
Proof. intros H. now apply uniquify_from_order. Qed.
Example c46_example : uniquify Nat.eqb [3; 1; 3; 2; 1]%nat = [3; 1; 2]%nat. Proof. reflexivity. Qed.

Print Assumptions c44_to_simplex_is_a_probability_vector.
Print Assumptions c44_round_trip.
Print Assumptions c44_round_trip_back.
Print Assumptions c44_origin_is_uniform.
Print Assumptions c44_empty_vector.
Print Assumptions c45_reads_back.
Print Assumptions c45_injective.
Print Assumptions c45_same_print_close.
Print Assumptions c45_recursion_stops.
Print Assumptions c46_each_element_once.
Print Assumptions c46_order_of_first_appearance.
