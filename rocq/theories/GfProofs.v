(** Proofs about mirror extensions and symmetric averages. *)
From Verif Require Import Base RList Ext Sums SmcModel PartModel RoModel GfModel GfSpec FltProofs RegProofs4.
From Coq Require Import List.

Lemma SumZ_ext r f g : (forall k, (- Z.of_nat r <= k <= Z.of_nat r)%Z -> f k = g k) -> SumZ r f = SumZ r g.
Proof. intros H. unfold SumZ. apply Sum_ext. intros i Hi. apply H. lia. Qed.
Lemma SumZ_scal r c f : SumZ r (fun k => c * f k) = c * SumZ r f.
Proof. unfold SumZ. apply Sum_scal. Qed.
Lemma SumZ_plus r f g : SumZ r (fun k => f k + g k) = SumZ r f + SumZ r g.
Proof. unfold SumZ. apply Sum_plus. Qed.
Lemma SumZ_flip r f : SumZ r (fun k => f (- k)%Z) = SumZ r f.
Proof.
  unfold SumZ. rewrite <- (Sum_rev (2 * r + 1) (fun t => f (Z.of_nat t - Z.of_nat r)%Z)). apply Sum_ext. intros i Hi. f_equal. lia.
Qed.
Lemma SumZ_pos r f : (forall k, 0 < f k) -> 0 < SumZ r f.
Proof.
  intros H. unfold SumZ. replace (2 * r + 1)%nat with (S (2 * r)) by lia. rewrite Sum_S.
  pose proof (H (Z.of_nat 0 - Z.of_nat r)%Z). assert (0 <= Sum (2 * r) (fun i => f (Z.of_nat (S i) - Z.of_nat r)%Z)) by (apply Sum_nonneg; intros; left; apply H). lra.
Qed.
Lemma SumZ_le r f g : (forall k, f k <= g k) -> SumZ r f <= SumZ r g.
Proof. intros H. unfold SumZ. apply Sum_le. intros. apply H. Qed.

Section Mirror.
  Variables (n : nat) (x : nat -> R) (y : Z -> R).
  Hypothesis Hn : (0 < n)%nat.
  Hypothesis Hy : mirror_extension n x y.

  Lemma y_in j : exists i, (i < n)%nat /\ y j = x i.
  Proof.
    destruct Hy as (H1 & H2 & H3).
    assert (P : forall k j, y (j + Z.of_nat k * (2 * Z.of_nat n))%Z = y j).
    { induction k as [|k IH]; intros j0; [f_equal; lia|]. rewrite <- (IH j0), <- (H3 (j0 + Z.of_nat k * (2 * Z.of_nat n))%Z). f_equal. rewrite Nat2Z.inj_succ. ring. }
    assert (Q : y j = y (j mod (2 * Z.of_nat n))%Z).
    { pose proof (Z.div_mod j (2 * Z.of_nat n) ltac:(lia)) as D. set (q := (j / (2 * Z.of_nat n))%Z) in *. set (m := (j mod (2 * Z.of_nat n))%Z) in *. clearbody q m.
      destruct (Z.le_gt_cases 0 q).
      - rewrite <- (P (Z.to_nat q) m). f_equal. rewrite Z2Nat.id by assumption. rewrite D. ring.
      - rewrite <- (P (Z.to_nat (- q)) j). f_equal. rewrite Z2Nat.id by lia. rewrite D. ring. }
    pose proof (Z.mod_pos_bound j (2 * Z.of_nat n) ltac:(lia)) as B. set (m := (j mod (2 * Z.of_nat n))%Z) in *.
    destruct (Z.lt_ge_cases m (Z.of_nat n)).
    - exists (Z.to_nat m). split; [lia|]. rewrite Q, <- H1 by lia. f_equal. lia.
    - exists (Z.to_nat (2 * Z.of_nat n - 1 - m)). split; [lia|]. rewrite Q, <- H1 by lia. rewrite Z2Nat.id by lia.
      rewrite <- (H2 m), <- (H3 (-1 - m)%Z). f_equal. lia.
  Qed.
  Lemma period_shift (k : nat) : Sum (2 * n) (fun j => y (Z.of_nat j + Z.of_nat k - Z.of_nat n)%Z) = Sum (2 * n) (fun j => y (Z.of_nat j - Z.of_nat n)%Z).
  Proof.
    destruct Hy as (_ & _ & H3). induction k as [|k IH]; [apply Sum_ext; intros; f_equal; lia|]. rewrite <- IH.
    assert (E : forall f, Sum (2 * n) (fun j => f (S j)) = Sum (2 * n) f + f (2 * n)%nat - f 0%nat).
    { intros f. pose proof (Sum_S (2 * n) f). pose proof (Sum_end (2 * n) f). lra. }
    specialize (E (fun i => y (Z.of_nat i + Z.of_nat k - Z.of_nat n)%Z)). cbv beta in E.
    rewrite (Sum_ext _ _ (fun j => y (Z.of_nat (S j) + Z.of_nat k - Z.of_nat n)%Z)) by (intros; f_equal; lia).
    rewrite E. rewrite <- (H3 (Z.of_nat 0 + Z.of_nat k - Z.of_nat n)%Z).
    replace (Z.of_nat (2 * n) + Z.of_nat k - Z.of_nat n)%Z with (Z.of_nat 0 + Z.of_nat k - Z.of_nat n + 2 * Z.of_nat n)%Z by lia. ring.
  Qed.
  Lemma Sum_split a b f : Sum (a + b) f = Sum a f + Sum b (fun i => f (a + i)%nat).
  Proof. induction a as [|a IH] in f |- *; [rewrite Sum_0, Rplus_0_l; reflexivity|]. cbn [Nat.add]. rewrite !Sum_S, IH. cbn [Nat.add]. ring. Qed.
  Lemma shifted_pair_nat (k : nat) : Sum n (fun i => y (Z.of_nat i + Z.of_nat k)%Z) + Sum n (fun i => y (Z.of_nat i - Z.of_nat k)%Z) = 2 * Sum n x.
  Proof.
    pose proof (period_shift k) as P. destruct Hy as (H1 & H2 & _). replace (2 * n)%nat with (n + n)%nat in P by lia. rewrite !Sum_split in P.
    rewrite (Sum_ext n (fun i => y (Z.of_nat (n + i) + Z.of_nat k - Z.of_nat n)%Z) (fun i => y (Z.of_nat i + Z.of_nat k)%Z)) in P by (intros; f_equal; lia).
    rewrite (Sum_ext n (fun i => y (Z.of_nat (n + i) - Z.of_nat n)%Z) x) in P by (intros; rewrite <- H1 by assumption; f_equal; lia).
    assert (A1 : Sum n (fun j => y (Z.of_nat j + Z.of_nat k - Z.of_nat n)%Z) = Sum n (fun i => y (Z.of_nat i - Z.of_nat k)%Z)).
    { rewrite <- (Sum_rev n (fun i => y (Z.of_nat i - Z.of_nat k)%Z)). apply Sum_ext. intros i Hi. rewrite <- H2. f_equal. lia. }
    assert (A2 : Sum n (fun j => y (Z.of_nat j - Z.of_nat n)%Z) = Sum n x).
    { rewrite <- (Sum_rev n x). apply Sum_ext. intros i Hi. rewrite <- H2, <- H1 by lia. f_equal. lia. }
    lra.
  Qed.
  Lemma shifted_pair (k : Z) : Sum n (fun i => y (Z.of_nat i + k)%Z) + Sum n (fun i => y (Z.of_nat i + - k)%Z) = 2 * Sum n x.
  Proof.
    destruct (Z.le_gt_cases 0 k).
    - rewrite <- (shifted_pair_nat (Z.to_nat k)). f_equal; apply Sum_ext; intros; f_equal; lia.
    - rewrite <- (shifted_pair_nat (Z.to_nat (- k))). rewrite Rplus_comm. f_equal; apply Sum_ext; intros; f_equal; lia.
  Qed.
  (** A symmetric kernel keeps the total *)
  Lemma symmetric_total r g : (forall k, g (- k)%Z = g k) ->
    Sum n (fun i => SumZ r (fun k => g k * y (Z.of_nat i + k)%Z)) = SumZ r g * Sum n x.
  Proof.
    intros Hg. set (T := fun k => Sum n (fun i => y (Z.of_nat i + k)%Z)).
    assert (E : Sum n (fun i => SumZ r (fun k => g k * y (Z.of_nat i + k)%Z)) = SumZ r (fun k => g k * T k)).
    { unfold SumZ, T. rewrite Sum_swap. apply Sum_ext. intros t Ht. now rewrite Sum_scal. }
    rewrite E. assert (F : SumZ r (fun k => g k * T k) = SumZ r (fun k => g k * T (- k)%Z)).
    { rewrite <- SumZ_flip. unfold SumZ. apply Sum_ext. intros. now rewrite Hg. }
    assert (G : SumZ r (fun k => g k * T k) + SumZ r (fun k => g k * T (- k)%Z) = 2 * (SumZ r g * Sum n x)).
    { rewrite <- SumZ_plus. rewrite (SumZ_ext r _ (fun k => (2 * Sum n x) * g k)).
      - rewrite SumZ_scal. ring.
      - intros k _. pose proof (shifted_pair k) as P. unfold T. rewrite <- P. ring. }
    lra.
  Qed.
End Mirror.

Lemma bell_pos sd t : 0 < bell sd t. Proof. apply exp_pos. Qed.
Lemma bell_even sd h k : bell sd (IZR (- k) * h) = bell sd (IZR k * h).
Proof. unfold bell. rewrite opp_IZR. f_equal. f_equal. ring. Qed.

Lemma div_bounds x y lo hi : 0 < y -> lo * y <= x <= hi * y -> lo <= x / y <= hi.
Proof. intros Hy [H1 H2]. assert (E : x = x / y * y) by (field; lra). split; apply (Rmult_le_reg_r y); try assumption; rewrite <- E; assumption. Qed.
Section Average.
  Variables (n : nat) (p q : nat -> R) (h sd : R) (r : nat).
  Hypothesis Hn : (0 < n)%nat.
  Hypothesis Hq : gaussian_average n p q h sd r.
  Let g k := bell sd (IZR k * h).
  Lemma average_total : Sum n q = Sum n p.
  Proof.
    destruct Hq as (y & Hy & E). rewrite (Sum_ext n q (fun i => SumZ r (fun k => g k * y (Z.of_nat i + k)%Z) * / SumZ r g)) by (intros; now apply E).
    rewrite Sum_scal_r. rewrite (symmetric_total n p y Hn Hy r g) by (intro; apply bell_even).
    pose proof (SumZ_pos r g (fun k => bell_pos sd _)). field. lra.
  Qed.
  Lemma average_range lo hi : (forall i, (i < n)%nat -> lo <= p i <= hi) -> forall i, (i < n)%nat -> lo <= q i <= hi.
  Proof.
    intros B i Hi. destruct Hq as (y & Hy & E). rewrite (E i Hi). fold g. pose proof (SumZ_pos r g (fun k => bell_pos sd _)) as P.
    assert (By : forall j, lo <= y j <= hi). { intros j. destruct (y_in n p y Hn Hy j) as (a & Ha & ->). now apply B. }
    assert (L : lo * SumZ r g <= SumZ r (fun k => g k * y (Z.of_nat i + k)%Z)).
    { rewrite <- SumZ_scal. apply SumZ_le. intros k. rewrite (Rmult_comm lo). apply Rmult_le_compat_l; [left; apply bell_pos|apply By]. }
    assert (U : SumZ r (fun k => g k * y (Z.of_nat i + k)%Z) <= hi * SumZ r g).
    { rewrite <- SumZ_scal. apply SumZ_le. intros k. rewrite (Rmult_comm hi). apply Rmult_le_compat_l; [left; apply bell_pos|apply By]. }
    apply div_bounds; [exact P|split; [exact L|exact U]].
  Qed.
  Lemma average_squares : Sum n (fun i => q i * q i) <= Sum n (fun i => p i * p i).
  Proof.
    destruct Hq as (y & Hy & E). pose proof (SumZ_pos r g (fun k => bell_pos sd _)) as P.
    assert (Hy2 : mirror_extension n (fun i => p i * p i) (fun j => y j * y j)).
    { destruct Hy as (H1 & H2 & H3). split; [|split]; intros; cbv beta; [now rewrite H1|now rewrite H2|now rewrite H3]. }
    pose proof (symmetric_total n _ _ Hn Hy2 r g ltac:(intro; apply bell_even)) as T. cbv beta in T.
    assert (J : forall i, (i < n)%nat -> q i * q i <= SumZ r (fun k => g k * (y (Z.of_nat i + k)%Z * y (Z.of_nat i + k)%Z)) / SumZ r g).
    { intros i Hi. set (m := q i). assert (Em : SumZ r (fun k => g k * y (Z.of_nat i + k)%Z) = m * SumZ r g).
      { unfold m. rewrite (E i Hi). unfold g. field. fold g. lra. }
      assert (V : 0 <= SumZ r (fun k => g k * ((y (Z.of_nat i + k)%Z - m) * (y (Z.of_nat i + k)%Z - m)))).
      { unfold SumZ. apply Sum_nonneg. intros. apply Rmult_le_pos; [left; apply bell_pos|apply Rle_0_sqr]. }
      rewrite (SumZ_ext r _ (fun k => g k * (y (Z.of_nat i + k)%Z * y (Z.of_nat i + k)%Z) + ((- (2 * m)) * (g k * y (Z.of_nat i + k)%Z) + (m * m) * g k))) in V by (intros; ring).
      rewrite !SumZ_plus, !SumZ_scal, Em in V. apply (Rmult_le_reg_r (SumZ r g)); [assumption|].
      set (X := SumZ r (fun k => g k * (y (Z.of_nat i + k)%Z * y (Z.of_nat i + k)%Z))) in *. replace (X / SumZ r g * SumZ r g) with X by (field; lra). nra. }
    apply (Rle_trans _ (Sum n (fun i => SumZ r (fun k => g k * (y (Z.of_nat i + k)%Z * y (Z.of_nat i + k)%Z)) * / SumZ r g))).
    - apply Sum_le. intros i Hi. now apply J.
    - rewrite Sum_scal_r, T. right. field. lra.
  Qed.
  Lemma average_radius_zero : r = 0%nat -> forall i, (i < n)%nat -> q i = p i.
  Proof.
    intros -> i Hi. destruct Hq as (y & Hy & E). rewrite (E i Hi). unfold SumZ. cbn [Nat.mul Nat.add]. rewrite !Sum_S, !Sum_0.
    change (Z.of_nat 0 - Z.of_nat 0)%Z with 0%Z. rewrite Z.add_0_r. destruct Hy as (H1 & _). rewrite H1 by assumption. pose proof (bell_pos sd (IZR 0 * h)). field. lra.
  Qed.
End Average.

(** ** The model computes such an average *)
Lemma reflect_range n j : (0 < n)%nat -> (reflect_index n j < n)%nat.
Proof.
  intros Hn. unfold reflect_index. pose proof (Z.mod_pos_bound j (2 * Z.of_nat n) ltac:(lia)). destruct (Z.ltb_spec (j mod (2 * Z.of_nat n)) (Z.of_nat n)); lia.
Qed.
Lemma reflect_mirror (x : list R) : (0 < length x)%nat ->
  mirror_extension (length x) (fun i => nth i x 0) (fun j => nth (reflect_index (length x) j) x 0).
Proof.
  intros Hn. set (n := length x) in *. split; [|split].
  - intros i Hi. cbv beta. f_equal. unfold reflect_index. rewrite Z.mod_small by lia. destruct (Z.ltb_spec (Z.of_nat i) (Z.of_nat n)); lia.
  - intros j. cbv beta. f_equal. unfold reflect_index. set (N := (2 * Z.of_nat n)%Z). assert (HN : (0 < N)%Z) by lia.
    pose proof (Z.mod_pos_bound j N HN) as B. assert (E : ((-1 - j) mod N = N - 1 - j mod N)%Z).
    { symmetry. apply (Z.mod_unique_pos _ _ (- (j / N) - 1)); [lia|]. pose proof (Z.div_mod j N ltac:(lia)). lia. }
    rewrite E. destruct (Z.ltb_spec (N - 1 - j mod N) (Z.of_nat n)), (Z.ltb_spec (j mod N) (Z.of_nat n)); lia.
  - intros j. cbv beta. f_equal. unfold reflect_index. replace (j + 2 * Z.of_nat n)%Z with (j + 1 * (2 * Z.of_nat n))%Z by lia. now rewrite Z.mod_add by lia.
Qed.
Lemma kernel_length s : length (kernel s) = (2 * kernel_radius s + 1)%nat.
Proof. unfold kernel. now rewrite !map_length, seq_length. Qed.
Lemma kernel_nth s t : 0 < s -> (t < 2 * kernel_radius s + 1)%nat ->
  nth t (kernel s) 0 = bell s (IZR (Z.of_nat t - Z.of_nat (kernel_radius s))) / SumZ (kernel_radius s) (fun k => bell s (IZR k)).
Proof.
  intros Hs Ht. unfold kernel. set (r := kernel_radius s) in *.
  set (f := fun t0 : nat => let x := IZR (Z.of_nat t0 - Z.of_nat r) in exp (- (1 / 2) / (s * s) * (x * x))).
  assert (F : forall t0, f t0 = bell s (IZR (Z.of_nat t0 - Z.of_nat r))). { intros. unfold f, bell. cbv zeta. f_equal. field. lra. }
  cbv zeta. rewrite map_map. rewrite (nth_indep _ 0 ((fun t0 => f t0 / rsum (map f (seq 0 (2 * r + 1)))) 0%nat)) by (rewrite map_length, seq_length; assumption).
  rewrite (map_nth (fun t0 => f t0 / rsum (map f (seq 0 (2 * r + 1))))). rewrite seq_nth by assumption. cbn [Nat.add]. rewrite F. f_equal.
  rewrite <- Sum_rsum. unfold SumZ. apply Sum_ext. intros. apply F.
Qed.
Lemma kernel_rev s : 0 < s -> rev (kernel s) = kernel s.
Proof.
  intros Hs. apply (nth_ext _ _ 0 0); [apply rev_length|]. intros t Ht. rewrite rev_length in Ht. rewrite rev_nth by assumption. rewrite kernel_length in *.
  rewrite !kernel_nth by (assumption || lia). f_equal. unfold bell. f_equal. f_equal.
  replace (Z.of_nat (2 * kernel_radius s + 1 - S t) - Z.of_nat (kernel_radius s))%Z with (- (Z.of_nat t - Z.of_nat (kernel_radius s)))%Z by lia. rewrite opp_IZR. ring.
Qed.
Lemma filter_value (x : list R) s : 0 < s -> (0 < length x)%nat ->
  gaussian_filter1d (map Fin x) s = map Fin (map (fun i => SumZ (kernel_radius s) (fun k => bell s (IZR k) * nth (reflect_index (length x) (Z.of_nat i + k)) x 0)
     / SumZ (kernel_radius s) (fun k => bell s (IZR k))) (seq 0 (length x))).
Proof.
  intros Hs Hn. unfold gaussian_filter1d. rewrite kernel_rev by assumption. unfold correlate1d. rewrite map_length, kernel_length, map_map.
  set (r := kernel_radius s). replace ((2 * r + 1) / 2)%nat with r.
  2:{ apply (Nat.div_unique _ _ _ 1); lia. }
  apply map_ext_in. intros i Hi. apply in_seq in Hi.
  rewrite (map_ext_in _ (fun t => Fin (nth t (kernel s) 0 * nth (reflect_index (length x) (Z.of_nat i + Z.of_nat t - Z.of_nat r)) x 0))).
  - rewrite <- (map_map (fun t => nth t (kernel s) 0 * nth (reflect_index (length x) (Z.of_nat i + Z.of_nat t - Z.of_nat r)) x 0) Fin).
    rewrite xsum_Fin. f_equal. rewrite <- Sum_rsum. unfold Rdiv. unfold SumZ at 1. rewrite <- Sum_scal_r. apply Sum_ext. intros t Ht.
    rewrite kernel_nth by assumption. fold r. unfold Rdiv. rewrite Z.add_sub_assoc. ring.
  - intros t Ht. rewrite (nth_indep _ NaN (Fin 0)) by (rewrite map_length; apply reflect_range; assumption). rewrite (map_nth Fin). reflexivity.
Qed.
Lemma filter_average (x : list R) s h : 0 < s -> 0 < h -> (0 < length x)%nat -> exists q, gaussian_filter1d (map Fin x) s = map Fin q /\ length q = length x /\
  gaussian_average (length x) (fun i => nth i x 0) (fun i => nth i q 0) h (s * h) (kernel_radius s).
Proof.
  intros Hs Hh Hn. eexists. split; [now apply filter_value|]. split; [now rewrite map_length, seq_length|].
  exists (fun j => nth (reflect_index (length x) j) x 0). split; [now apply reflect_mirror|]. intros i Hi. cbv beta.
  assert (B : forall k, bell (s * h) (IZR k * h) = bell s (IZR k)). { intros. unfold bell. f_equal. field. lra. }
  match goal with |- nth i (map ?F _) 0 = _ => rewrite (nth_indep _ 0 (F 0%nat)) by (rewrite map_length, seq_length; assumption); rewrite (map_nth F) end.
  rewrite seq_nth by assumption. cbn [Nat.add]. f_equal; apply SumZ_ext; intros; now rewrite B.
Qed.
Lemma radius_value s : 0 < s -> INR (kernel_radius s) <= 4 * s + 1 / 2 < INR (kernel_radius s) + 1.
Proof.
  intros Hs. unfold kernel_radius. destruct (base_Int_part (4 * s + 1 / 2)) as [L U]. assert (0 <= Int_part (4 * s + 1 / 2))%Z.
  { assert (-1 < Int_part (4 * s + 1 / 2))%Z; [|lia]. apply lt_IZR. lra. }
  rewrite INR_IZR_INZ, Z2Nat.id by assumption. lra.
Qed.
