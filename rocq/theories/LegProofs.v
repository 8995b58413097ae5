(** Proofs for C106 and C107. *)
From Verif Require Import Base RList Sums TwoModel TomoModel TomoProofs3 LegModel LearnSpec LearnProofs.
From Coq Require Import List.

(** Number of even entries. *)
Lemma count_even_filter F : count_even F = Z.of_nat (length (filter Z.even F)).
Proof.
  induction F as [|z F IH]; [reflexivity|]. unfold count_even in *. cbn [map fold_right filter]. rewrite IH.
  destruct (Z.even z) eqn:He.
  - apply Z.even_spec in He. destruct He as [k ->]. replace (2 * k + 1)%Z with (1 + k * 2)%Z by ring. rewrite Z.mod_add by lia. change (1 mod 2)%Z with 1%Z. cbn [length]. lia.
  - assert (Ho : Z.odd z = true) by (rewrite <- Z.negb_even, He; reflexivity). apply Z.odd_spec in Ho. destruct Ho as [k ->].
    replace (2 * k + 1 + 1)%Z with (0 + (k + 1) * 2)%Z by ring. rewrite Z.mod_add by lia. change (0 mod 2)%Z with 0%Z. lia.
Qed.
Lemma filter_le {A} (p : A -> bool) l : (length (filter p l) <= length l)%nat.
Proof. induction l as [|a l IH]; [reflexivity|]. cbn. destruct (p a); cbn; lia. Qed.
Lemma INR_pow2 m : INR (2 ^ m) = 2 ^ m.
Proof. rewrite pow_INR. f_equal. Qed.
Lemma even_mod z : Z.eqb (z mod 2) 0 = Z.even z.
Proof. rewrite Zeven_mod. unfold Zeq_bool. rewrite Z.eqb_compare. reflexivity. Qed.
(** Counting positions instead of entries. *)
Lemma count_positions F n : length F = n -> SumL (seq 0 n) (fun x => if Z.even (nth x F 0%Z) then 1 else 0) = INR (length (filter Z.even F)).
Proof.
  revert n. induction F as [|z F IH]; intros n Hn; cbn [length] in Hn; subst n; [reflexivity|]. cbn [seq]. rewrite <- seq_shift.
  assert (C1 : forall l (g : nat -> R), SumL (0%nat :: map S l) g = g 0%nat + SumL l (fun x => g (S x))).
  { intros l g. unfold SumL. cbn [fold_right]. f_equal. induction l as [|a l IHl]; [reflexivity|]. cbn [map fold_right]. now rewrite IHl. }
  rewrite C1. cbn [nth]. rewrite IH by reflexivity. cbn [filter]. destruct (Z.even z); cbn [length]; [rewrite S_INR; ring|ring].
Qed.
(** The share of the points k/K, k < K, above a threshold. *)
Lemma grid_count t : 0 <= t -> t <= 1 -> forall K, (0 < K)%nat ->
  Rabs (SumL (seq 0 K) (fun k => if Rltb t (INR k / INR K) then 1 else 0) - INR K * (1 - t)) <= 1.
Proof.
  intros H0 H1 K HK. assert (K0 : 0 < INR K) by now apply lt_0_INR.
  rewrite (SumL_ext _ _ (fun k => if Rltb (INR K * t) (INR k) then 1 else 0)).
  2:{ intros k _. destruct (Rltb_spec t (INR k / INR K)) as [H|H].
      - rewrite Rltb_true; [reflexivity|]. apply Rmult_lt_compat_l with (r := INR K) in H; [|assumption]. replace (INR K * (INR k / INR K)) with (INR k) in H by (field; lra). exact H.
      - rewrite Rltb_false; [reflexivity|]. apply Rnot_lt_le in H. apply Rmult_le_compat_l with (r := INR K) in H; [|lra]. replace (INR K * (INR k / INR K)) with (INR k) in H by (field; lra). exact H. }
  set (a := INR K * t). assert (Ha : 0 <= a <= INR K) by (unfold a; split; nra). replace (INR K * (1 - t)) with (INR K - a) by (unfold a; ring). clearbody a. clear H0 H1 HK K0 t.
  assert (P : forall n, let T := SumL (seq 0 n) (fun k => if Rltb a (INR k) then 1 else 0) in
    (INR n <= a + 1 -> T = 0) /\ (a <= INR n -> INR n - a - 1 <= T <= INR n - a)).
  { induction n as [|n IH]; cbn zeta in *.
    - cbn. split; [reflexivity|]. intros. unfold SumL. cbn. lra.
    - rewrite seq_S, SumL_app. cbn [plus]. assert (C1 : SumL [n] (fun k => if Rltb a (INR k) then 1 else 0) = if Rltb a (INR n) then 1 else 0) by (unfold SumL; cbn; ring).
      rewrite C1, S_INR. destruct IH as [I1 I2]. destruct (Rltb_spec a (INR n)) as [Hl|Hl].
      + split; [lra|]. intros _. specialize (I2 ltac:(lra)). lra.
      + assert (INR n <= a) by lra. rewrite I1 by lra. split; [intros; ring|]. intros. lra. }
  specialize (P K). cbn zeta in P. destruct P as [_ P]. specialize (P ltac:(lra)). apply Rabs_le. lra.
Qed.
Lemma grid_share t : 0 <= t -> t <= 1 -> tends (fun K => SumL (seq 0 (S K)) (fun k => if Rltb t (INR k / INR (S K)) then 1 else 0) / INR (S K)) (1 - t).
Proof.
  intros H0 H1 h Hh. destruct (archimed (1 / h)) as [A1 _]. exists (Z.to_nat (up (1 / h))). intros n Hn.
  pose proof (grid_count t H0 H1 (S n) ltac:(lia)) as G. set (c := SumL _ _) in *. assert (n0 : 0 < INR (S n)) by (apply lt_0_INR; lia).
  assert (Hin : 1 / h < INR (S n)). { apply Rlt_le_trans with (1 := A1). rewrite INR_IZR_INZ. apply IZR_le. lia. }
  apply Rmult_lt_compat_r with (r := h) in Hin; [|assumption]. unfold Rdiv in Hin at 1. rewrite Rmult_assoc, Rinv_l, Rmult_1_r in Hin by lra.
  replace (c / INR (S n) - (1 - t)) with ((c - INR (S n) * (1 - t)) * / INR (S n)) by (field; lra). rewrite Rabs_mult, (Rabs_pos_eq (/ _)) by (apply Rlt_le, Rinv_0_lt_compat; lra).
  apply Rle_lt_trans with (1 * / INR (S n)); [apply Rmult_le_compat_r; [apply Rlt_le, Rinv_0_lt_compat; lra|assumption]|].
  apply Rmult_lt_reg_r with (INR (S n)); [lra|]. rewrite Rmult_assoc, Rinv_l by lra. lra.
Qed.
Lemma grid_below t K : SumL (seq 0 K) (fun k => if Rltb t (INR k / INR K) then 0 else 1) = INR K - SumL (seq 0 K) (fun k => if Rltb t (INR k / INR K) then 1 else 0).
Proof.
  assert (P : forall l, SumL l (fun k => if Rltb t (INR k / INR K) then 0 else 1) = INR (length l) - SumL l (fun k => if Rltb t (INR k / INR K) then 1 else 0)).
  { induction l as [|a l IH]; [unfold SumL; cbn; ring|].
    assert (C1 : forall (g : nat -> R), SumL (a :: l) g = g a + SumL l g) by reflexivity. rewrite !C1, IH. cbn [length]. rewrite S_INR. destruct (Rltb t (INR a / INR K)); ring. }
  rewrite P, seq_length. reflexivity.
Qed.
Lemma F_len m f : (2 ^ m <= length f)%nat -> length (F0 m f) = (2 ^ m)%nat /\ length (F1 m f) = (2 ^ m)%nat.
Proof. intros H. unfold F0, F1. rewrite firstn_length, skipn_length. split; lia. Qed.
(** Reading the filled array. *)
Lemma ht_fill_spec m f : forall us xs0 xs1 zs, ht_fill m f us xs0 xs1 = Ok zs ->
  length zs = length us /\ forall k, (k < length us)%nat ->
    let u := fst (nth k us (0, 0)) in let lam := snd (nth k us (0, 0)) in
    let before := map (fun p => ht_select (fst p) (snd p)) (firstn k us) in
    let i := if ht_select u lam then length (filter (fun b => b) before) else length (filter negb before) in
    exists x, nth_error (if ht_select u lam then xs0 else xs1) i = Some x /\ pick (if ht_select u lam then F0 m f else F1 m f) x = Ok (nth k zs 0%Z).
Proof.
  induction us as [|[u lam] us IH]; intros xs0 xs1 zs H; cbn [ht_fill] in H.
  - injection H as <-. split; [reflexivity|]. intros k Hk. cbn in Hk. lia.
  - destruct (ht_select u lam) eqn:Es.
    + destruct xs0 as [|x xs0]; [discriminate|]. destruct (pick (F0 m f) x) as [z|] eqn:Ep; [|discriminate]. cbn [bind] in H.
      destruct (ht_fill m f us xs0 xs1) as [zs'|] eqn:Ef; [|discriminate]. cbn [bind] in H. injection H as <-. destruct (IH _ _ _ Ef) as [I1 I2].
      split; [cbn; congruence|]. intros [|k] Hk.
      * cbn. rewrite Es. exists x. cbn. now split.
      * cbn [nth length firstn map] in *. specialize (I2 k ltac:(lia)). cbn zeta in *. cbn [fst snd]. rewrite Es.
        destruct (ht_select (fst (nth k us (0, 0))) (snd (nth k us (0, 0)))) eqn:E2; destruct I2 as (y & Y1 & Y2); exists y; cbn [filter negb length nth_error]; split; assumption.
    + destruct xs1 as [|x xs1]; [discriminate|]. destruct (pick (F1 m f) x) as [z|] eqn:Ep; [|discriminate]. cbn [bind] in H.
      destruct (ht_fill m f us xs0 xs1) as [zs'|] eqn:Ef; [|discriminate]. cbn [bind] in H. injection H as <-. destruct (IH _ _ _ Ef) as [I1 I2].
      split; [cbn; congruence|]. intros [|k] Hk.
      * cbn. rewrite Es. exists x. cbn. now split.
      * cbn [nth length firstn map] in *. specialize (I2 k ltac:(lia)). cbn zeta in *. cbn [fst snd]. rewrite Es.
        destruct (ht_select (fst (nth k us (0, 0))) (snd (nth k us (0, 0)))) eqn:E2; destruct I2 as (y & Y1 & Y2); exists y; cbn [filter negb length nth_error]; split; assumption.
Qed.
