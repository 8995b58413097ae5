(** Proofs about credible regions at several levels (C112). *)
From Verif Require Import Base RList Ext Sums SmcModel PartModel PartSpec SmcProofs2 PartProofs.

Lemma SumL_Permutation {A} (f : A -> R) l m : Permutation l m -> SumL l f = SumL m f.
Proof. intros H. rewrite !SumL_rsum. apply rsum_perm. now apply Permutation_map. Qed.

Lemma SumL_cons {A} (f : A -> R) a l : SumL (a :: l) f = f a + SumL l f.
Proof. rewrite !SumL_rsum. cbn [map]. now rewrite rsum_cons. Qed.

Lemma SumL_incl {A} (f : A -> R) : (forall a, 0 <= f a) -> forall (K L : list A), NoDup K -> incl K L -> SumL K f <= SumL L f.
Proof.
  intros Hf. induction K as [|a K IH]; intros L Hn Hi.
  - rewrite (SumL_rsum []). cbn [map]. rewrite rsum_nil. apply SumL_nonneg. auto.
  - inversion Hn as [|x y Hna Hnk]; subst. destruct (in_split a L) as (L1 & L2 & ->); [apply Hi; now left|].
    rewrite (SumL_Permutation f (L1 ++ a :: L2) (a :: L1 ++ L2)) by (apply Permutation_sym, Permutation_middle).
    rewrite !SumL_cons. apply Rplus_le_compat_l. apply IH; [assumption|].
    intros b Hb. assert (In b (L1 ++ a :: L2)) as Hb' by (apply Hi; now right).
    apply in_app_iff in Hb' as [Hb'|[Hb'|Hb']]; apply in_app_iff; [now left| subst; contradiction |now right].
Qed.

Lemma SumL_shift {A} (f : A -> R) t l : SumL l (fun a => f a - t) = SumL l f - INR (length l) * t.
Proof.
  induction l as [|a l IH]; [rewrite !SumL_rsum; cbn [map length INR]; rewrite rsum_nil; lra|].
  rewrite !SumL_cons, IH. cbn [length]. rewrite S_INR. lra.
Qed.

Lemma heaviest (w : list R) (L K I : list nat) (J : list nat) (t : R) :
  0 <= t -> Permutation L (I ++ J) -> NoDup K -> incl K L ->
  (forall a, In a I -> t <= nth a w 0) -> (forall b, In b J -> nth b w 0 <= t) -> (length K <= length I)%nat ->
  mass w K <= mass w I.
Proof.
  intros Ht Hp Hn Hi HI HJ Hl. set (f := fun i => nth i w 0).
  assert (Hlow : SumL K (fun i => f i - t) <= SumL K (fun i => Rmax 0 (f i - t))) by (apply SumL_le; intros; apply Rmax_r).
  assert (Hmid : SumL K (fun i => Rmax 0 (f i - t)) <= SumL L (fun i => Rmax 0 (f i - t))).
  { apply SumL_incl; auto. intros. apply Rmax_l. }
  rewrite (SumL_Permutation _ _ _ Hp), SumL_app in Hmid.
  rewrite (SumL_ext I _ (fun i => f i - t)) in Hmid.
  2:{ intros a Ha. apply Rmax_right. specialize (HI a Ha). unfold f. lra. }
  rewrite (SumL_ext J _ (fun i => 0)) in Hmid.
  2:{ intros a Ha. apply Rmax_left. specialize (HJ a Ha). unfold f. lra. }
  assert (SumL J (fun _ : nat => 0) = 0) as E0.
  { clear. induction J; [reflexivity|]. rewrite SumL_cons. lra. }
  rewrite E0 in Hmid. rewrite !SumL_shift in Hmid. rewrite SumL_shift in Hlow.
  unfold mass. fold f. apply le_INR in Hl. nra.
Qed.

(** The region as a prefix of the particles in order of decreasing weight. *)
Lemma region_prefix asc slice w l level :
  prob_vector w -> length l = length w -> argsorts asc w -> level < 1 ->
  exists k, (k < length w)%nat /\
    est_credible_region asc slice w l level =
      Ok (map (fun i => slice (nth i l [])) (firstn (S k) (rev asc)), map (fun i => slice (nth i l [])) (skipn (S k) (rev asc))) /\
    (k <> 0%nat -> mass w (firstn k (rev asc)) <= level) /\ level < mass w (firstn (S k) (rev asc)).
Proof.
  intros [Hnn Hsum] Hl [Hperm Hsort] Hlev.
  assert (Hlen : length asc = length w) by (rewrite (Permutation_length Hperm); apply seq_length).
  set (ids := rev asc). assert (Hids : Permutation ids (seq 0 (length w))).
  { unfold ids. eapply Permutation_trans; [apply Permutation_sym, Permutation_rev|exact Hperm]. }
  assert (Hlids : length ids = length w) by (unfold ids; now rewrite rev_length).
  assert (Hb : forall i, In i ids -> (i < length w)%nat).
  { intros i Hi. apply (Permutation_in _ Hids) in Hi. apply in_seq in Hi. lia. }
  set (wsrt := map (fun i => nth i w 0) ids).
  assert (Hws : Permutation wsrt w).
  { apply Permutation_trans with (map (fun i => nth i w 0) (seq 0 (length w))); [now apply Permutation_map|].
    rewrite map_nth_seq. reflexivity. }
  assert (Hwn : Forall (fun x => 0 <= x) wsrt).
  { apply Forall_forall. intros x Hx. rewrite Forall_forall in Hnn. apply Hnn. eapply Permutation_in; eassumption. }
  assert (Hwl : length wsrt = length w) by (unfold wsrt; now rewrite map_length).
  destruct (cumsum_le_prefix level wsrt Hwn 0) as (k & Hk & E & H1 & H2).
  rewrite Hwl in *.
  assert (Hkn : (k < length w)%nat).
  { destruct (Nat.eq_dec k (length w)) as [->|]; [|lia]. exfalso.
    destruct (length w) as [|n] eqn:En; [destruct w; [rewrite rsum_nil in Hsum; lra|discriminate]|].
    specialize (H1 ltac:(lia)). rewrite firstn_all2 in H1 by lia. rewrite (rsum_perm _ _ Hws), Hsum in H1. lra. }
  specialize (H2 Hkn). exists k. split; [assumption|]. split; [|split].
  - unfold est_credible_region. fold ids. rewrite (take_ok w 0) by assumption. cbn [bind]. fold wsrt.
    unfold cumsum. rewrite E, count_true_prefix, set_true_prefix by lia. cbn [bind].
    rewrite (take_ok (map slice l) (slice [])) by (intros i Hi; rewrite map_length, Hl; auto). cbn [bind].
    destruct (select_prefix (map (fun i => nth i (map slice l) (slice [])) ids) (S k) (length w - k - 1)) as [-> ->];
      [rewrite map_length; lia|].
    rewrite firstn_map, skipn_map. do 2 f_equal; apply map_ext; intros i; apply map_nth.
  - intros H0. specialize (H1 H0). unfold mass. rewrite SumL_rsum, <- firstn_map. fold wsrt. lra.
  - unfold mass. rewrite SumL_rsum, <- firstn_map. fold wsrt. lra.
Qed.

Lemma ids_facts asc w : argsorts asc w -> length (rev asc) = length w /\ Permutation (rev asc) (seq 0 (length w)) /\ NoDup (rev asc) /\
  forall a b, (a <= b < length w)%nat -> nth (nth b (rev asc) 0%nat) w 0 <= nth (nth a (rev asc) 0%nat) w 0.
Proof.
  intros [Hperm Hsort].
  assert (Hlen : length asc = length w) by (rewrite (Permutation_length Hperm); apply seq_length).
  assert (Hids : Permutation (rev asc) (seq 0 (length w))).
  { eapply Permutation_trans; [apply Permutation_sym, Permutation_rev|exact Hperm]. }
  split; [now rewrite rev_length|]. split; [assumption|]. split.
  - apply (Permutation_NoDup (Permutation_sym Hids)). apply seq_NoDup.
  - intros a b Hab. rewrite !(nth_rev_asc _ (length w)) by (assumption || lia). apply Hsort. lia.
Qed.

Lemma nth_firstn_lt {A} (d : A) k l i : (i < k)%nat -> nth i (firstn k l) d = nth i l d.
Proof.
  revert k i. induction l as [|x l IH]; intros [|k] [|i] H; try lia; try reflexivity. cbn [firstn nth]. apply IH. lia.
Qed.
Lemma nth_skipn {A} (d : A) k l i : nth i (skipn k l) d = nth (k + i) l d.
Proof. revert l. induction k as [|k IH]; intros [|x l]; cbn [skipn nth Nat.add]; auto. now destruct i. Qed.

Lemma region_smallest asc w k level K :
  prob_vector w -> argsorts asc w -> (k < length w)%nat -> 0 <= level ->
  (k <> 0%nat -> mass w (firstn k (rev asc)) <= level) ->
  NoDup K -> (forall i, In i K -> (i < length w)%nat) -> level < mass w K -> (S k <= length K)%nat.
Proof.
  intros [Hnn Hsum] Ha Hk Hl0 H1 Hn Hb Hm. destruct (ids_facts asc w Ha) as (Hlen & Hp & Hnd & Hdesc).
  destruct (Nat.lt_ge_cases k (length K)) as [H|H]; [exact H|]. exfalso.
  assert (mass w K <= mass w (firstn k (rev asc))) as Hle.
  { apply (heaviest w (rev asc) K (firstn k (rev asc)) (skipn k (rev asc)) (nth (nth k (rev asc) 0%nat) w 0)).
    - apply prob_nth_nonneg. now split.
    - now rewrite firstn_skipn.
    - assumption.
    - intros i Hi. apply (Permutation_in _ (Permutation_sym Hp)). apply in_seq. specialize (Hb i Hi). lia.
    - intros a Hin. apply (In_nth _ _ 0%nat) in Hin as (x & Hx & <-). rewrite firstn_length in Hx.
      rewrite nth_firstn_lt by lia. apply Hdesc. lia.
    - intros b Hin. apply (In_nth _ _ 0%nat) in Hin as (x & Hx & <-). rewrite skipn_length in Hx.
      rewrite nth_skipn. apply Hdesc. lia.
    - rewrite firstn_length. lia. }
  destruct k as [|k].
  - destruct K; [|simpl in H; lia]. unfold mass in Hm. rewrite SumL_rsum in Hm. cbn [map] in Hm. rewrite rsum_nil in Hm. lra.
  - specialize (H1 ltac:(lia)). lra.
Qed.

Lemma prefix_order asc w k1 k2 level1 level2 :
  prob_vector w -> argsorts asc w -> (k1 < length w)%nat -> (k2 < length w)%nat -> level1 <= level2 ->
  (k1 <> 0%nat -> mass w (firstn k1 (rev asc)) <= level1) -> level2 < mass w (firstn (S k2) (rev asc)) -> (k1 <= k2)%nat.
Proof.
  intros Hpv Ha H1 H2 Hl A1 A2. destruct (Nat.lt_ge_cases k2 k1) as [H|H]; [exfalso|lia].
  specialize (A1 ltac:(lia)). destruct (ids_facts asc w Ha) as (Hlen & _ & _ & _).
  assert (mass w (firstn (S k2) (rev asc)) <= mass w (firstn k1 (rev asc))); [|lra].
  replace (firstn (S k2) (rev asc)) with (firstn (S k2) (firstn k1 (rev asc))) by (rewrite firstn_firstn; f_equal; lia).
  rewrite <- (firstn_skipn (S k2) (firstn k1 (rev asc))) at 2. rewrite mass_app.
  assert (0 <= mass w (skipn (S k2) (firstn k1 (rev asc)))); [|lra].
  apply SumL_nonneg. intros a _. now apply prob_nth_nonneg.
Qed.

Lemma Ok_pair {A B} (a a' : A) (b b' : B) : Ok (a, b) = Ok (a', b') -> a = a' /\ b = b'.
Proof. intros H. injection H as -> ->. now split. Qed.
