(** Theorems for property C112 (credible regions are the smallest, and grow with the level). *)
From Verif Require Import Base RList Ext Sums SmcModel PartModel PartSpec SmcProofs2 PartProofs PartProofs2.

(** The region returned is a set of distinct particles that holds more than the asked level, and no
    set of particles that does so has fewer members. *)
Theorem c112_smallest asc slice w l level inside outside :
  prob_vector w -> length l = length w -> argsorts asc w -> 0 <= level < 1 ->
  est_credible_region asc slice w l level = Ok (inside, outside) ->
  exists I, inside = map (fun i => slice (nth i l [])) I /\ NoDup I /\ (forall i, In i I -> (i < length w)%nat) /\
    level < mass w I /\
    forall K, NoDup K -> (forall i, In i K -> (i < length w)%nat) -> level < mass w K -> (length I <= length K)%nat.
Proof.
  intros Hw Hl Ha [Hl0 Hl1] HR. destruct (region_prefix asc slice w l level Hw Hl Ha Hl1) as (k & Hk & EQ & H1 & H2).
  rewrite EQ in HR. apply Ok_pair in HR as [<- <-]. clear EQ. destruct (ids_facts asc w Ha) as (Hlen & Hp & Hnd & Hdesc).
  exists (firstn (S k) (rev asc)). split; [reflexivity|]. split; [|split; [|split; [exact H2|]]].
  - rewrite <- (firstn_skipn (S k) (rev asc)) in Hnd. clear - Hnd. revert Hnd.
    generalize (firstn (S k) (rev asc)), (skipn (S k) (rev asc)). intros a b. induction a as [|x a IH]; intros H; [constructor|].
    inversion H; subst. constructor; [|auto]. intros Hx. apply H2. apply in_app_iff. now left.
  - intros i Hi. assert (In i (rev asc)) as Hi' by (rewrite <- (firstn_skipn (S k) (rev asc)); apply in_app_iff; now left).
    apply (Permutation_in _ Hp) in Hi'. apply in_seq in Hi'. lia.
  - intros K HK Hb Hm. rewrite firstn_length, Hlen. rewrite Nat.min_l by lia.
    now apply (region_smallest asc w k level K).
Qed.

(** Raising the level only adds particles: the region at the higher level is the region at the lower
    level followed by particles taken from the front of those that were outside. *)
Theorem c112_nested asc slice w l level1 level2 in1 out1 in2 out2 :
  prob_vector w -> length l = length w -> argsorts asc w -> level1 <= level2 < 1 ->
  est_credible_region asc slice w l level1 = Ok (in1, out1) ->
  est_credible_region asc slice w l level2 = Ok (in2, out2) ->
  exists extra, in2 = in1 ++ extra /\ out1 = extra ++ out2.
Proof.
  intros Hw Hl Ha [Hl0 Hl1] HR1 HR2.
  destruct (region_prefix asc slice w l level1 Hw Hl Ha ltac:(lra)) as (k1 & Hk1 & EQ1 & H1 & H2).
  destruct (region_prefix asc slice w l level2 Hw Hl Ha Hl1) as (k2 & Hk2 & EQ2 & H3 & H4).
  rewrite EQ1 in HR1. rewrite EQ2 in HR2. apply Ok_pair in HR1 as [<- <-]. apply Ok_pair in HR2 as [<- <-]. clear EQ1 EQ2.
  assert (k1 <= k2)%nat as Hk by now apply (prefix_order asc w k1 k2 level1 level2).
  exists (map (fun i => slice (nth i l [])) (firstn (k2 - k1) (skipn (S k1) (rev asc)))).
  rewrite <- !map_app. split; apply (f_equal (map (fun i => slice (nth i l [])))).
  - rewrite <- (firstn_skipn (S k1) (firstn (S k2) (rev asc))). f_equal.
    + rewrite firstn_firstn. f_equal. lia.
    + rewrite skipn_firstn_comm. f_equal.
  - rewrite <- (firstn_skipn (k2 - k1) (skipn (S k1) (rev asc))) at 1. f_equal.
    replace (S k2) with (k2 - k1 + S k1)%nat by lia. clear. generalize (S k1), (rev asc). intros m l0.
    revert l0. induction m as [|m IH]; intros l0; [now rewrite Nat.add_0_r|].
    replace (k2 - k1 + S m)%nat with (S (k2 - k1 + m)) by lia. destruct l0 as [|x l0]; [now rewrite !skipn_nil|].
    cbn [skipn]. apply IH.
Qed.

(** With equal weights the number of particles in the region is the whole part of [level * n], plus one. *)
Theorem c112_equal_weights asc slice n l level inside outside :
  (0 < n)%nat -> length l = n -> argsorts asc (repeat (/ INR n) n) -> 0 <= level < 1 ->
  est_credible_region asc slice (repeat (/ INR n) n) l level = Ok (inside, outside) ->
  INR (length inside) - 1 <= level * INR n < INR (length inside).
Proof.
  intros Hn Hl Ha [Hl0 Hl1] HR. set (w := repeat (/ INR n) n) in *.
  assert (Hpn : 0 < INR n) by (apply lt_0_INR; lia).
  assert (Hlw : length w = n) by apply repeat_length.
  assert (Hrep : forall m x, rsum (repeat x m) = INR m * x).
  { induction m as [|m IH]; intros x; [cbn [repeat INR]; rewrite rsum_nil; lra|]. cbn [repeat]. rewrite rsum_cons, IH, S_INR. lra. }
  assert (Hw : prob_vector w).
  { split.
    - apply Forall_forall. intros x Hx. apply repeat_spec in Hx. subst x. left. now apply Rinv_0_lt_compat.
    - unfold w. rewrite Hrep. field. lra. }
  destruct (region_prefix asc slice w l level Hw ltac:(lia) Ha Hl1) as (k & Hk & EQ & H1 & H2).
  rewrite EQ in HR. apply Ok_pair in HR as [<- <-]. clear EQ. destruct (ids_facts asc w Ha) as (Hlen & Hp & _ & _).
  assert (Hm : forall m, (m <= n)%nat -> mass w (firstn m (rev asc)) = INR m * / INR n).
  { intros m Hm. unfold mass. rewrite (SumL_ext _ _ (fun _ => / INR n)).
    - rewrite SumL_rsum. replace (map (fun _ : nat => / INR n) (firstn m (rev asc))) with (repeat (/ INR n) m); [apply Hrep|].
      assert (length (firstn m (rev asc)) = m) as E by (rewrite firstn_length; lia). rewrite <- E at 1.
      clear. induction (firstn m (rev asc)); cbn [length repeat map]; f_equal; auto.
    - intros i Hi. apply repeat_spec with (n := n). apply nth_In. fold w.
      assert (In i (rev asc)) as Hi' by (rewrite <- (firstn_skipn m (rev asc)); apply in_app_iff; now left).
      apply (Permutation_in _ Hp) in Hi'. apply in_seq in Hi'. lia. }
  rewrite map_length, firstn_length, Hlen, Nat.min_l by lia. rewrite S_INR. rewrite Hm in H2 by lia. rewrite S_INR in H2.
  assert (E : forall a, a * / INR n * INR n = a) by (intros a; field; lra).
  assert (Hinv : 0 < / INR n) by now apply Rinv_0_lt_compat.
  split.
  - destruct k as [|k]; [cbn [INR]; nra|]. specialize (H1 ltac:(lia)). rewrite Hm in H1 by lia.
    apply (Rmult_le_compat_r (INR n)) in H1; [|lra]. rewrite E in H1. lra.
  - apply (Rmult_lt_compat_r (INR n)) in H2; [|lra]. rewrite E in H2. lra.
Qed.

(** The hypotheses are met: three particles, levels one half and four fifths. *)
Example c112_example :
  let w := [1/10; 6/10; 3/10] in let l := [[7]; [8]; [9]] in let asc := [0%nat; 2%nat; 1%nat] in
  prob_vector w /\ argsorts asc w /\ est_credible_region asc (fun x => x) w l (1/2) = Ok ([[8]], [[9]; [7]]) /\
  est_credible_region asc (fun x => x) w l (8/10) = Ok ([[8]; [9]], [[7]]).
Proof.
  cbn beta zeta. split; [|split; [|split]].
  - split; [repeat constructor; lra|]. rewrite !rsum_cons, rsum_nil. lra.
  - split.
    + cbn. apply perm_skip, perm_swap.
    + intros [|[|[|a]]] [|[|[|b]]] H; cbn [length] in H; try lia; cbn [nth]; lra.
  - unfold est_credible_region. cbn [rev app take bind nth_error map]. unfold cumsum. cbn [cumsum_from map].
    rewrite Rleb_false by lra. rewrite Rleb_false by lra. rewrite Rleb_false by lra. reflexivity.
  - unfold est_credible_region. cbn [rev app take bind nth_error map]. unfold cumsum. cbn [cumsum_from map].
    rewrite Rleb_true by lra. rewrite Rleb_false by lra. rewrite Rleb_false by lra. reflexivity.
Qed.

Print Assumptions c112_smallest.
Print Assumptions c112_nested.
Print Assumptions c112_equal_weights.
