(** C119: draws from cumulative sums in double arithmetic: Liu-West ancestors, particle samples, credible sets, simulated outcomes. *)
From Coq Require Import List ZArith Permutation Lia Lra Psatz.
From Verif Require Import Base RList Sums PartModel SimModel FltModel FltSpec FltProofs.
Import ListNotations.

(** np.cumsum of non-negative doubles never decreases. *)
Theorem c119_cumsum_monotone w : Forall double w -> Forall (fun x => 0 <= x) w ->
  length (fcumsum w) = length w /\ Forall double (fcumsum w) /\
  (forall i j, (i <= j)%nat -> (j < length w)%nat -> 0 <= nth i (fcumsum w) 0 <= nth j (fcumsum w) 0).
Proof.
  intros Hd Hn. split; [apply fcumsum_len|split].
  - apply Forall_forall. intros x Hx. destruct (In_nth _ _ 0 Hx) as (i & _ & <-). now apply F_double.
  - intros i j Hij Hj. split; [now apply F_nonneg|now apply F_mono].
Qed.
(** Its j-th entry is off by at most j roundings. *)
Theorem c119_cumsum_error w j : Forall double w -> Forall (fun x => 0 <= x) w -> (j < length w)%nat ->
  close j (nth j (fcumsum w) 0) (Sum (S j) (fun i => nth i w 0)).
Proof. intros. now apply F_close. Qed.

(** The ancestor that the Liu-West resampler picks for a draw is a particle of positive weight, provided the draw is below the last
    cumulative sum; otherwise the index is past the end. *)
Theorem c119_ancestor {A} w (l : list A) u : Forall double w -> Forall (fun x => 0 <= x) w -> w <> [] -> length l = length w -> 0 <= u ->
  (u < nth (length w - 1) (fcumsum w) 0 -> (f_ancestor w u < length w)%nat /\ 0 < nth (f_ancestor w u) w 0 /\
    forall a, f_ancestors w l [u] = Ok [nth (f_ancestor w u) l a]) /\
  (nth (length w - 1) (fcumsum w) 0 <= u -> f_ancestors w l [u] = Err IndexError).
Proof.
  intros Hd Hn Hw Hl Hu. pose proof (ancestor_range w Hd Hn u Hw) as Q. unfold f_ancestors. cbn [map take]. split; intros H.
  - assert (G : (f_ancestor w u < length w)%nat) by now apply Q. split; [exact G|split; [now apply ancestor_positive|]]. intros a.
    rewrite (nth_error_nth' l a) by lia. reflexivity.
  - assert (G : ~ (f_ancestor w u < length w)%nat) by (intros G; apply Q in G; lra). rewrite (proj2 (nth_error_None _ _)) by lia. reflexivity.
Qed.
(** Ten particles of weight 1/10, as in a new updater: the cumulative sum ends below one, and the largest draw of np.random.random makes
    the resampler fail. *)
Definition top_draw : R := IZR (2 ^ 53 - 1) / IZR (2 ^ 53).
Lemma ten_cumsum : fcumsum (f_uniform 10) = map (fun z => IZR z * powerRZ 2 (-56)) (7205759403792794 :: zcumsum_from 7205759403792794 (repeat 7205759403792794 9))%Z.
Proof.
  unfold f_uniform. rewrite tenth_value. change (repeat (IZR 7205759403792794 * powerRZ 2 (-56)) 10)
    with (map (fun z => IZR z * powerRZ 2 (-56)) (7205759403792794 :: repeat 7205759403792794 9)%Z).
  cbn [map fcumsum]. f_equal. apply (fcumsum_units (-56) (repeat 7205759403792794%Z 9)); [lia|lia|repeat constructor; lia|vm_compute; reflexivity].
Qed.
Lemma ten_last : nth 9 (fcumsum (f_uniform 10)) 0 = top_draw.
Proof.
  rewrite ten_cumsum. set (zs := (_ :: _)%list). assert (E : exists a, zs = a ++ [72057594037927928%Z] /\ length a = 9%nat) by (exists (firstn 9 zs); split; vm_compute; reflexivity).
  destruct E as (a & -> & La). rewrite map_app, app_nth2, map_length, La by (rewrite map_length; lia). cbn [Nat.sub map nth].
  unfold top_draw, powerRZ. change (Pos.to_nat 56) with 56%nat.
  rewrite pow_IZR. change (2 ^ Z.of_nat 56)%Z with 72057594037927936%Z. change (2 ^ 53 - 1)%Z with 9007199254740991%Z. change (2 ^ 53)%Z with 9007199254740992%Z. lra.
Qed.
Lemma ten_ok : Forall double (f_uniform 10) /\ Forall (fun x => 0 <= x) (f_uniform 10) /\ f_uniform 10 <> [].
Proof.
  split; [|split; [|discriminate]]; apply Forall_forall; intros x Hx; apply repeat_spec in Hx; subst; [apply rnd_double|apply rnd_nonneg]. cbn. lra.
Qed.
Theorem c119_ancestor_index_error_refuted : exists (l : list nat) (u : R), length l = 10%nat /\ 0 <= u < 1 /\ f_ancestors (f_uniform 10) l [u] = Err IndexError.
Proof.
  exists (seq 0 10), top_draw. split; [reflexivity|split; [unfold top_draw; change (2 ^ 53 - 1)%Z with 9007199254740991%Z; change (2 ^ 53)%Z with 9007199254740992%Z; lra|]].
  destruct ten_ok as (A & B & C). apply (c119_ancestor (f_uniform 10) (seq 0 10) top_draw A B C eq_refl).
  - unfold top_draw; change (2 ^ 53 - 1)%Z with 9007199254740991%Z; change (2 ^ 53)%Z with 9007199254740992%Z; lra.
  - change (length (f_uniform 10) - 1)%nat with 9%nat. rewrite ten_last. lra.
Qed.
(** How likely this is: at most n-1+m units of 2^-53 when the exact total of the weights is within m roundings of one. *)
Theorem c119_ancestor_failure_chance w D m : Forall double w -> Forall (fun x => 0 <= x) w -> w <> [] -> (0 < D)%nat ->
  close m (Sum (length w) (fun i => nth i w 0)) 1 ->
  chance D (fun u => negb (Nat.ltb (f_ancestor w u) (length w))) <= INR (length w - 1 + m) * uro.
Proof.
  intros Hd Hn Hw HD C. apply Rle_trans with (2 := beyond_chance w Hd Hn D m HD Hw C). right. apply chance_ext; [exact HD|]. intros k _. f_equal.
  pose proof (ancestor_range w Hd Hn (INR k / INR D) Hw) as Q. destruct (Nat.ltb_spec (f_ancestor w (INR k / INR D)) (length w)) as [H|H], (Rltb_spec (INR k / INR D) (nth (length w - 1) (fcumsum w) 0)) as [G|G]; try reflexivity; exfalso.
  - apply Q in H. lra.
  - apply Q in G. lia.
Qed.
(** And each particle is drawn with a chance that differs from its weight by a few units of 2^-53. *)
Theorem c119_ancestor_law w D j : Forall double w -> Forall (fun x => 0 <= x) w -> (0 < D)%nat -> (j < length w)%nat ->
  Rabs (chance D (fun u => Nat.eqb (f_ancestor w u) j) - nth j w 0) <= / INR D + uro * nth j (fcumsum w) 0 + Rmax 0 (nth j (fcumsum w) 0 - 1).
Proof. intros. now apply ancestor_chance. Qed.

(** ParticleDistribution.sample never fails: a draw beyond the last cumulative sum gives the last particle. *)
Theorem c119_sample {A} w (l : list A) u a : Forall double w -> Forall (fun x => 0 <= x) w -> w <> [] -> length l = length w -> 0 <= u ->
  f_sample w l [u] = Ok [nth (f_sample_index w u) l a] /\
  (u < nth (length w - 1) (fcumsum w) 0 -> 0 < nth (f_sample_index w u) w 0) /\
  (nth (length w - 1) (fcumsum w) 0 <= u -> f_sample_index w u = (length w - 1)%nat).
Proof.
  intros Hd Hn Hw Hl Hu. assert (L : (0 < length w)%nat) by (destruct w; [easy|cbn; lia]). pose proof (ancestor_range w Hd Hn u Hw) as Q.
  assert (Il : (f_sample_index w u < length w)%nat) by (unfold f_sample_index; rewrite fcumsum_len; lia). split; [|split].
  - unfold f_sample. cbn [map take]. rewrite (nth_error_nth' l a) by lia. reflexivity.
  - intros H. apply Q in H. replace (f_sample_index w u) with (f_ancestor w u) by (unfold f_sample_index; rewrite fcumsum_len; lia). now apply ancestor_positive.
  - intros H. assert (G : ~ (f_ancestor w u < length w)%nat) by (intros G; apply Q in G; lra). unfold f_sample_index. rewrite fcumsum_len. lia.
Qed.
(** So a particle of weight zero can be drawn if it is the last one. *)
Theorem c119_sample_zero_weight_refuted : exists w u, Forall double w /\ Forall (fun x => 0 <= x) w /\ 0 <= u < 1 /\ nth (f_sample_index w u) w 0 = 0.
Proof.
  destruct ten_ok as (A & B & C). exists (f_uniform 10 ++ [0]), top_draw.
  assert (A' : Forall double (f_uniform 10 ++ [0])) by (apply Forall_app; split; [exact A|repeat constructor; apply double_0]).
  assert (B' : Forall (fun x => 0 <= x) (f_uniform 10 ++ [0])) by (apply Forall_app; split; [exact B|repeat constructor; lra]).
  assert (U : 0 <= top_draw < 1) by (unfold top_draw; change (2 ^ 53 - 1)%Z with 9007199254740991%Z; change (2 ^ 53)%Z with 9007199254740992%Z; lra).
  split; [exact A'|split; [exact B'|split; [exact U|]]].
  assert (E10 : nth 10 (fcumsum (f_uniform 10 ++ [0])) 0 = top_draw).
  { rewrite fcumsum_S by (cbn; lia). replace (nth 9 (fcumsum (f_uniform 10 ++ [0])) 0) with (nth 9 (fcumsum (f_uniform 10)) 0) by reflexivity.
    change (nth 10 (f_uniform 10 ++ [0]) 0) with 0. rewrite Rplus_0_r, rnd_id by now apply F_double. apply ten_last. }
  destruct (c119_sample (f_uniform 10 ++ [0]) (seq 0 11) top_draw 0%nat A' B' ltac:(discriminate) eq_refl ltac:(lra)) as (_ & _ & H).
  change (length (f_uniform 10 ++ [0%R]) - 1)%nat with 10%nat in H. rewrite H by (rewrite E10; lra). reflexivity.
Qed.

(** Credible sets ([w] sorted by decreasing weight): particles 0..c are returned, their exact total is at least the level up to c roundings
    and that of the particles 0..c-1 at most the level up to c-1 roundings.  The call fails when the level is not below the last cumulative sum. *)
Lemma count_true_below n c : count_true (map (fun i => Nat.ltb i c) (seq 0 n)) = Nat.min n c.
Proof. unfold count_true. rewrite filter_map_len. apply count_below. Qed.
Lemma set_true_below n c : (c < n)%nat -> set_true c (map (fun i => Nat.ltb i c) (seq 0 n)) = Ok (map (fun i => Nat.leb i c) (seq 0 n)).
Proof.
  intros H. unfold set_true. rewrite map_length, seq_length. rewrite (proj2 (Nat.ltb_lt _ _) H). f_equal.
  replace n with (c + (1 + (n - S c)))%nat at 1 2 3 by lia. rewrite !seq_app, !map_app. cbn [seq map Nat.add].
  assert (L : length (map (fun i => Nat.ltb i c) (seq 0 c)) = c) by now rewrite map_length, seq_length.
  rewrite firstn_app, skipn_app, L, Nat.sub_diag. replace (S c - c)%nat with 1%nat by lia. rewrite firstn_all2 by lia. rewrite (skipn_all2 (map _ (seq 0 c))) by lia. cbn [firstn skipn app].
  rewrite app_nil_r, Nat.leb_refl. f_equal; [|f_equal]; apply map_ext_in; intros i Hi; apply in_seq in Hi; destruct (Nat.ltb_spec i c), (Nat.leb_spec i c); try reflexivity; lia.
Qed.
Theorem c119_credible w level : Forall double w -> Forall (fun x => 0 <= x) w -> w <> [] ->
  (level < nth (length w - 1) (fcumsum w) 0 -> exists c, (c < length w)%nat /\ f_credible w level = Ok (map (fun i => Nat.leb i c) (seq 0 (length w))) /\
     level < Sum (S c) (fun i => nth i w 0) * (1 + uro) ^ c /\ (c <> 0%nat -> Sum c (fun i => nth i w 0) <= level * (1 + uro) ^ (c - 1))) /\
  (nth (length w - 1) (fcumsum w) 0 <= level -> f_credible w level = Err IndexError).
Proof.
  intros Hd Hn Hw. pose proof (ancestor_range w Hd Hn level Hw) as Q. unfold f_credible. set (c := f_ancestor w level) in *.
  rewrite (le_index_count (fcumsum w) 0 level) by (intros i j H1 H2; rewrite fcumsum_len in H2; now apply F_mono). rewrite fcumsum_len. change (searchsorted_right (fcumsum w) level) with c.
  cbv zeta. rewrite count_true_below. split; intros H.
  - apply Q in H. exists c. split; [exact H|split; [rewrite Nat.min_r by lia; now apply set_true_below|]].
    destruct (proj1 (ancestor_iff w Hd Hn level c H) eq_refl) as [H1 H2]. split.
    + destruct (F_close w Hd Hn c H) as [_ K]. lra.
    + intros Hc. destruct H2 as [H2|H2]; [easy|]. destruct (F_close w Hd Hn (c - 1) ltac:(lia)) as [K _]. replace (S (c - 1)) with c in K by lia.
      apply Rle_trans with (1 := K). apply Rmult_le_compat_r; [pose proof (upow_pos (c - 1)); lra|exact H2].
  - assert (G : ~ (c < length w)%nat) by (intros G; apply Q in G; lra). rewrite Nat.min_l by lia. unfold set_true. rewrite map_length, seq_length, Nat.ltb_irrefl. reflexivity.
Qed.
(** In exact arithmetic every level below one works (C18); in double arithmetic it does not. *)
Theorem c119_credible_level_refuted : exists level, 0 <= level < 1 /\ f_credible (f_uniform 10) level = Err IndexError.
Proof.
  exists top_draw. split; [unfold top_draw; change (2 ^ 53 - 1)%Z with 9007199254740991%Z; change (2 ^ 53)%Z with 9007199254740992%Z; lra|].
  destruct ten_ok as (A & B & C). apply (c119_credible (f_uniform 10) top_draw A B C). change (length (f_uniform 10) - 1)%nat with 9%nat. rewrite ten_last. lra.
Qed.

(** Simulated outcomes 0..n-1: a draw below the last cumulative sum gives an outcome of positive probability, any other draw gives
    outcome 0, possible or not. *)
Lemma np_index_std n j : (j < n)%nat -> np_index (map Z.of_nat (seq 0 n)) (Z.of_nat j) = Ok (Z.of_nat j).
Proof.
  intros H. unfold np_index. rewrite map_length, seq_length. destruct (Z.ltb_spec (Z.of_nat j) 0); [lia|]. destruct (Z.leb_spec 0 (Z.of_nat j)); [|lia]. destruct (Z.ltb_spec (Z.of_nat j) (Z.of_nat n)); [|lia].
  cbn [andb]. rewrite Nat2Z.id, (nth_error_nth' _ 0%Z) by (rewrite map_length, seq_length; lia). change 0%Z with (Z.of_nat 0). rewrite map_nth, seq_nth by lia. reflexivity.
Qed.
Theorem c119_simulated_outcome probs u : Forall double probs -> Forall (fun x => 0 <= x) probs -> probs <> [] -> 0 <= u ->
  (u < nth (length probs - 1) (fcumsum probs) 0 -> exists d, f_pick (map Z.of_nat (seq 0 (length probs))) probs u = Ok (Z.of_nat d) /\ (d < length probs)%nat /\ 0 < nth d probs 0) /\
  (nth (length probs - 1) (fcumsum probs) 0 <= u -> f_pick (map Z.of_nat (seq 0 (length probs))) probs u = Ok 0%Z).
Proof.
  intros Hd Hn Hw Hu. assert (L : (0 < length probs)%nat) by (destruct probs; [easy|cbn; lia]). pose proof (ancestor_range probs Hd Hn u Hw) as Q.
  assert (E : f_pick (map Z.of_nat (seq 0 (length probs))) probs u = Ok (Z.of_nat (if Nat.ltb (f_ancestor probs u) (length probs) then f_ancestor probs u else 0%nat))).
  { unfold f_pick. destruct (map Z.of_nat (seq 0 (length probs))) eqn:V; [destruct (length probs); [lia|discriminate]|]. rewrite <- V. clear V.
    unfold argmax_bool. rewrite first_true_search, fcumsum_len. fold (f_ancestor probs u). destruct (Nat.ltb_spec (f_ancestor probs u) (length probs)).
    - rewrite np_index_std by assumption. cbn [bind]. now apply np_index_std.
    - rewrite np_index_std by assumption. cbn [bind]. now apply np_index_std. }
  rewrite E. split; intros H.
  - apply Q in H. rewrite (proj2 (Nat.ltb_lt _ _) H). exists (f_ancestor probs u). split; [reflexivity|split; [exact H|now apply ancestor_positive]].
  - destruct (Nat.ltb_spec (f_ancestor probs u) (length probs)) as [G|G]; [apply Q in G; lra|reflexivity].
Qed.
Theorem c119_impossible_outcome_refuted : exists probs u, Forall double probs /\ Forall (fun x => 0 <= x) probs /\ 0 <= u < 1 /\
  f_pick (map Z.of_nat (seq 0 (length probs))) probs u = Ok 0%Z /\ nth 0 probs 0 = 0 /\ close 1 (Sum (length probs) (fun i => nth i probs 0)) 1.
Proof.
  destruct ten_ok as (A & B & C). exists (0 :: f_uniform 10), top_draw.
  assert (A' : Forall double (0 :: f_uniform 10)) by (constructor; [apply double_0|exact A]).
  assert (B' : Forall (fun x => 0 <= x) (0 :: f_uniform 10)) by (constructor; [lra|exact B]).
  assert (U : 0 <= top_draw < 1) by (unfold top_draw; change (2 ^ 53 - 1)%Z with 9007199254740991%Z; change (2 ^ 53)%Z with 9007199254740992%Z; lra).
  split; [exact A'|split; [exact B'|split; [exact U|split; [|split; [reflexivity|]]]]].
  - apply c119_simulated_outcome; [exact A'|exact B'|discriminate|lra|]. change (length (0%R :: f_uniform 10) - 1)%nat with 10%nat.
    assert (E : fcumsum (0 :: f_uniform 10) = 0 :: fcumsum (f_uniform 10)).
    { change (f_uniform 10) with (rnd (1 / INR 10) :: repeat (rnd (1 / INR 10)) 9). cbn [fcumsum fcumsum_from]. rewrite !Rplus_0_l, rnd_id by apply rnd_double. reflexivity. }
    rewrite E. cbn [nth]. rewrite ten_last. lra.
  - change (length (0%R :: f_uniform 10)) with 11%nat. rewrite Sum_S. cbn [nth].
    unfold f_uniform. rewrite tenth_value. rewrite Sum_rsum. cbn [seq map nth repeat]. unfold rsum. cbn [fold_right]. set (x := IZR _ * _). unfold close. rewrite pow_1.
    assert (X : / 10 <= x <= / 10 * (1 + uro)).
    { unfold x, powerRZ, uro. change (Pos.to_nat 56) with 56%nat. rewrite !pow_IZR. change (2 ^ Z.of_nat 56)%Z with 72057594037927936%Z. change (2 ^ Z.of_nat 53)%Z with 9007199254740992%Z. lra. }
    pose proof uro_pos. clearbody x. split; nra.
Qed.
(** How likely draws past the last cumulative sum are. *)
Theorem c119_impossible_outcome_chance probs D m : Forall double probs -> Forall (fun x => 0 <= x) probs -> probs <> [] -> (0 < D)%nat ->
  close m (Sum (length probs) (fun i => nth i probs 0)) 1 ->
  chance D (fun u => negb (Rltb u (nth (length probs - 1) (fcumsum probs) 0))) <= INR (length probs - 1 + m) * uro.
Proof. intros. now apply beyond_chance. Qed.

(** The hypotheses are met by the weights of a new updater with ten particles: its exact total is within one rounding of one, a draw of 1/2 finds
    an ancestor, failures have a chance of at most ten units. *)
Lemma ten_total : close 1 (Sum 10 (fun i => nth i (f_uniform 10) 0)) 1.
Proof.
  unfold f_uniform. rewrite tenth_value. rewrite Sum_rsum. cbn [seq map nth repeat]. unfold rsum. cbn [fold_right]. set (x := IZR _ * _). unfold close. rewrite pow_1.
  assert (X : / 10 <= x <= / 10 * (1 + uro)).
  { unfold x, powerRZ, uro. change (Pos.to_nat 56) with 56%nat. rewrite !pow_IZR. change (2 ^ Z.of_nat 56)%Z with 72057594037927936%Z. change (2 ^ Z.of_nat 53)%Z with 9007199254740992%Z. lra. }
  pose proof uro_pos. clearbody x. split; nra.
Qed.
Example c119_example_failure D : (0 < D)%nat -> chance D (fun u => negb (Nat.ltb (f_ancestor (f_uniform 10) u) 10)) <= 10 * uro.
Proof.
  intros HD. destruct ten_ok as (A & B & C). pose proof (c119_ancestor_failure_chance (f_uniform 10) D 1 A B C HD ten_total) as H.
  change (length (f_uniform 10)) with 10%nat in H. cbn [Nat.sub Nat.add] in H. replace (INR 10) with 10 in H by (cbn; ring). exact H.
Qed.
Example c119_example_half : exists j, f_ancestors (f_uniform 10) (seq 0 10) [1 / 2] = Ok [j].
Proof.
  destruct ten_ok as (A & B & C). eexists. apply (c119_ancestor (f_uniform 10) (seq 0 10) (1 / 2) A B C eq_refl ltac:(lra)) with (a := 0%nat).
  change (length (f_uniform 10) - 1)%nat with 9%nat. rewrite ten_last. unfold top_draw. change (2 ^ 53 - 1)%Z with 9007199254740991%Z. change (2 ^ 53)%Z with 9007199254740992%Z. lra.
Qed.
Example c119_example_credible : exists c, f_credible (f_uniform 10) (95 / 100) = Ok (map (fun i => Nat.leb i c) (seq 0 10)).
Proof.
  destruct ten_ok as (A & B & C). destruct (proj1 (c119_credible (f_uniform 10) (95 / 100) A B C)) as (c & _ & H & _); [|exists c; exact H].
  change (length (f_uniform 10) - 1)%nat with 9%nat. rewrite ten_last. unfold top_draw. change (2 ^ 53 - 1)%Z with 9007199254740991%Z. change (2 ^ 53)%Z with 9007199254740992%Z. lra.
Qed.
Print Assumptions c119_cumsum_monotone.
Print Assumptions c119_cumsum_error.
Print Assumptions c119_ancestor.
Print Assumptions c119_ancestor_index_error_refuted.
Print Assumptions c119_ancestor_failure_chance.
Print Assumptions c119_ancestor_law.
Print Assumptions c119_sample.
Print Assumptions c119_sample_zero_weight_refuted.
Print Assumptions c119_credible.
Print Assumptions c119_credible_level_refuted.
Print Assumptions c119_simulated_outcome.
Print Assumptions c119_impossible_outcome_refuted.
Print Assumptions c119_impossible_outcome_chance.
