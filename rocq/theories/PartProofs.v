(** Proofs about particle distributions. *)
From Verif Require Import Base RList Ext Sums SmcModel SmcSpec SmcProofs2 PartModel PartSpec.
From Verif Require Import SmcProofs RiskProofs.

(** ** C15 *)
Lemma pd_init_ok l w : (exists x, In x w /\ x <> 0) ->
  exists w', pd_init None (Some l) (Some w) = Ok (l, map Fin w') /\ prob_vector w' /\ length w' = length w /\
    exists k, 0 < k /\ forall i, nth i w' 0 = k * Rabs (nth i w 0).
Proof.
  intros (x & Hx & Hnz). set (a := map Rabs w). set (S := rsum a).
  assert (Hnn : Forall (fun x => 0 <= x) a).
  { apply Forall_forall. intros y Hy. apply in_map_iff in Hy as (z & <- & _). apply Rabs_pos. }
  assert (HS : 0 < S).
  { apply Rlt_le_trans with (Rabs x); [now apply Rabs_pos_lt|]. apply In_le_rsum; [assumption|]. now apply in_map. }
  exists (map (fun y => y / S) a). split.
  - cbn. fold a. fold S. do 2 f_equal. rewrite !map_map. apply map_ext. intros y. now rewrite Reqb_false by lra.
  - split; [split|].
    + apply Forall_forall. intros y Hy. apply in_map_iff in Hy as (z & <- & Hz). rewrite Forall_forall in Hnn.
      apply Rmult_le_pos; [auto|]. left. now apply Rinv_0_lt_compat.
    + unfold Rdiv. rewrite (rsum_map_scal_r (/ S) (fun y => y)), map_id. fold S. apply Rinv_r. lra.
    + split; [unfold a; now rewrite !map_length|]. exists (/ S). split; [now apply Rinv_0_lt_compat|].
      intros i. unfold a. rewrite map_map.
      destruct (Nat.lt_ge_cases i (length w)) as [Hi|Hi].
      * rewrite (nth_indep _ _ ((fun y => Rabs y / S) 0)) by now rewrite map_length.
        rewrite (map_nth (fun y => Rabs y / S)). unfold Rdiv. apply Rmult_comm.
      * rewrite !nth_overflow by (try rewrite map_length; lia). rewrite Rabs_R0. ring.
Qed.

(** ** C16 *)
Lemma Sum_firstn w j : (j <= length w)%nat -> Sum j (fun i => nth i w 0) = rsum (firstn j w).
Proof.
  revert w; induction j as [|j IH]; intros w Hj; [reflexivity|].
  destruct w as [|x w]; [simpl in Hj; lia|]. rewrite Sum_S. cbn [nth firstn]. rewrite rsum_cons. f_equal.
  apply IH. simpl in Hj; lia.
Qed.
Lemma Sum_last n f : Sum (S n) f = Sum n f + f n.
Proof.
  rewrite !Sum_rsum. rewrite seq_S, map_app, rsum_app. cbn [map]. rewrite rsum_cons, rsum_nil. cbn. ring.
Qed.

Lemma sample_index_slot w u j : prob_vector w -> 0 <= u < 1 -> (j < length w)%nat ->
  (sample_index w u = j <-> in_slot w j u).
Proof.
  intros [Hn Hs] Hu Hj. unfold sample_index, in_slot. rewrite cumsum_length.
  rewrite Sum_firstn by lia.
  assert (Hsj : rsum (firstn j w) + nth j w 0 = rsum (firstn (S j) w)).
  { rewrite firstn_S_nth by assumption. rewrite rsum_app, rsum_cons, rsum_nil. ring. }
  rewrite Hsj.
  assert (Hlt : (searchsorted_right (cumsum w) u < length w)%nat) by (apply searchsorted_from_lt; [lra|lia]).
  rewrite Nat.min_l by lia. split.
  - intros H. destruct (searchsorted_from_spec 0 w u Hn j H Hj) as [H1 H2].
    assert (0 <= u) by lra. specialize (H2 H0). lra.
  - intros H. now apply searchsorted_unique.
Qed.

Lemma sample_index_range w u : w <> [] -> (sample_index w u < length w)%nat.
Proof. intros H. unfold sample_index. rewrite cumsum_length. destruct w; [contradiction|simpl; lia]. Qed.

Lemma take_ok {A} (a : list A) d idxs : (forall i, In i idxs -> (i < length a)%nat) ->
  take a idxs = Ok (map (fun i => nth i a d) idxs).
Proof.
  induction idxs as [|i r IH]; intros H; [reflexivity|]. cbn [take map].
  rewrite (nth_error_nth' a d) by (apply H; left; reflexivity).
  rewrite IH by (intros; apply H; now right). reflexivity.
Qed.

Lemma pd_sample_ok w l us : w <> [] -> length l = length w ->
  pd_sample w l us = Ok (map (fun u => nth (sample_index w u) l []) us).
Proof.
  intros Hw Hl. unfold pd_sample. rewrite (take_ok _ []).
  - now rewrite map_map.
  - intros i Hi. apply in_map_iff in Hi as (u & <- & _). rewrite Hl. now apply sample_index_range.
Qed.

Lemma slots_cover w u : prob_vector w -> 0 <= u < 1 -> exists j, (j < length w)%nat /\ in_slot w j u.
Proof.
  intros H Hu. pose proof (prob_vector_nonempty w H) as Hn.
  assert (Hr : (sample_index w u < length w)%nat) by (apply sample_index_range; destruct w; [simpl in Hn; lia|discriminate]).
  exists (sample_index w u). split; [assumption|]. now apply sample_index_slot.
Qed.

Lemma slots_disjoint w u i j : prob_vector w -> 0 <= u < 1 -> (i < length w)%nat -> (j < length w)%nat ->
  in_slot w i u -> in_slot w j u -> i = j.
Proof.
  intros H Hu Hi Hj H1 H2. apply (sample_index_slot w u i H Hu Hi) in H1. apply (sample_index_slot w u j H Hu Hj) in H2. congruence.
Qed.

Lemma sample_positive w u : prob_vector w -> 0 <= u < 1 -> 0 < nth (sample_index w u) w 0.
Proof.
  intros H Hu. pose proof (prob_vector_nonempty w H) as Hn.
  assert (Hr : (sample_index w u < length w)%nat) by (apply sample_index_range; destruct w; [simpl in Hn; lia|discriminate]).
  destruct (proj1 (sample_index_slot w u _ H Hu Hr) eq_refl). lra.
Qed.

(** ** C17 *)
Lemma rdot_col w l j : length w = length l -> rdot w (col j l) = expect (length w) (fun i => nth i w 0) (coord l j).
Proof.
  intros H. unfold col, expect, coord. rewrite (rdot_index w (fun r => nth j r 0)) by assumption. now rewrite H.
Qed.

Lemma cov_covar w l m n : length w = length l -> rsum w = 1 ->
  particle_cov w l m n = covar (length w) (fun i => nth i w 0) (coord l m) (coord l n).
Proof.
  intros H Hs. unfold particle_cov. rewrite !rdot_col by assumption.
  rewrite (rsum_map2_index _ _ _ 0 []) by assumption.
  set (p := fun i => nth i w 0) in *. set (M := expect _ p (coord l m)). set (N := expect _ p (coord l n)).
  unfold covar. fold M N. unfold expect at 1.
  rewrite (Sum_ext _ (fun i => p i * ((coord l m i - M) * (coord l n i - N)))
    (fun i => p i * coord l m i * coord l n i - (N * (p i * coord l m i) + M * (p i * coord l n i) - M * N * p i))) by (intros; ring).
  rewrite Sum_minus, Sum_minus, Sum_plus, !Sum_scal.
  assert (Hp : Sum (length w) p = 1) by (unfold p; rewrite <- rsum_index; assumption).
  rewrite Hp. fold (expect (length w) p (coord l m)) (expect (length w) p (coord l n)). fold M N. unfold p, coord. ring.
Qed.

Lemma covar_sym n p f g : covar n p f g = covar n p g f.
Proof. unfold covar, expect. apply Sum_ext. intros. ring. Qed.

Lemma expect_range n p f lo hi : (forall i, (i < n)%nat -> 0 <= p i) -> Sum n p = 1 ->
  (forall i, (i < n)%nat -> lo <= f i <= hi) -> lo <= expect n p f <= hi.
Proof.
  intros Hp Hs Hf. unfold expect. split.
  - replace lo with (Sum n (fun i => p i * lo)) by (rewrite Sum_scal_r, Hs; ring).
    apply Sum_le. intros i Hi. apply Rmult_le_compat_l; [auto|apply Hf; auto].
  - replace hi with (Sum n (fun i => p i * hi)) by (rewrite Sum_scal_r, Hs; ring).
    apply Sum_le. intros i Hi. apply Rmult_le_compat_l; [auto|apply Hf; auto].
Qed.

Lemma quad_form d n p (f : nat -> nat -> R) (v : nat -> R) :
  Sum d (fun a => Sum d (fun b => v a * v b * covar n p (f a) (f b))) =
  Sum n (fun i => p i * (Sum d (fun a => v a * (f a i - expect n p (f a)))) ^ 2).
Proof.
  transitivity (Sum d (fun a => Sum d (fun b => Sum n (fun i =>
     p i * (v a * (f a i - expect n p (f a))) * (v b * (f b i - expect n p (f b))))))).
  { apply Sum_ext. intros a _. apply Sum_ext. intros b _. unfold covar, expect at 1. rewrite <- Sum_scal.
    apply Sum_ext. intros i _. ring. }
  transitivity (Sum d (fun a => Sum n (fun i => Sum d (fun b =>
     p i * (v a * (f a i - expect n p (f a))) * (v b * (f b i - expect n p (f b))))))).
  { apply Sum_ext. intros a _. apply Sum_swap. }
  rewrite Sum_swap. apply Sum_ext. intros i _.
  transitivity (Sum d (fun a => p i * (v a * (f a i - expect n p (f a))) * Sum d (fun b => v b * (f b i - expect n p (f b))))).
  { apply Sum_ext. intros a _. now rewrite Sum_scal. }
  rewrite Sum_scal_r, Sum_scal. ring.
Qed.

Lemma covar_cs n p f g : (forall i, (i < n)%nat -> 0 <= p i) -> covar n p f g * covar n p f g <= covar n p f f * covar n p g g.
Proof.
  intros Hp. unfold covar. set (F := expect n p f). set (G := expect n p g). unfold expect. rewrite !Sum_rsum.
  apply (cauchy_schwarz p (fun i => f i - F) (fun i => g i - G)). intros i Hi. apply in_seq in Hi. apply Hp; lia.
Qed.

Lemma corr_entry c a b : 0 < a -> 0 < b -> c * c <= a * b ->
  exists r, xdiv (Fin c) (xmul (xsqrt (Fin a)) (xsqrt (Fin b))) = Fin r /\ -1 <= r <= 1 /\ r * (sqrt a * sqrt b) = c.
Proof.
  intros Ha Hb Hc. cbn [xsqrt]. rewrite !Rltb_false by lra. cbn [xmul].
  pose proof (sqrt_lt_R0 a Ha) as Hsa. pose proof (sqrt_lt_R0 b Hb) as Hsb.
  assert (Hp : 0 < sqrt a * sqrt b) by now apply Rmult_lt_0_compat.
  rewrite xdiv_Fin by lra. exists (c / (sqrt a * sqrt b)). split; [reflexivity|].
  assert (Hle : Rabs c <= sqrt a * sqrt b).
  { rewrite <- sqrt_mult by lra. rewrite <- sqrt_Rsqr_abs. apply sqrt_le_1_alt. unfold Rsqr. assumption. }
  assert (Hr : c / (sqrt a * sqrt b) * (sqrt a * sqrt b) = c) by (field; lra).
  split; [|exact Hr].
  split; apply Rmult_le_reg_r with (sqrt a * sqrt b); try assumption; rewrite Hr; unfold Rabs in Hle; destruct (Rcase_abs c); lra.
Qed.

Lemma nth_est_cov d w l m n : (m < d)%nat -> (n < d)%nat -> nth n (nth m (est_cov d w l) []) 0 = particle_cov w l m n.
Proof.
  intros Hm Hn. unfold est_cov.
  rewrite (nth_indep _ [] (map (fun n => particle_cov w l 0 n) (seq 0 d))) by now rewrite map_length, seq_length.
  rewrite (map_nth (fun m => map (fun n => particle_cov w l m n) (seq 0 d))), seq_nth by assumption.
  rewrite (nth_indep _ 0 (particle_cov w l (0 + m) 0)) by now rewrite map_length, seq_length.
  rewrite (map_nth (fun n => particle_cov w l (0 + m) n)), seq_nth by assumption. reflexivity.
Qed.
Lemma nth_est_corr d w l m n : (m < d)%nat -> (n < d)%nat -> nth n (nth m (est_corr d w l) []) NaN =
  xdiv (Fin (particle_cov w l m n)) (xmul (xsqrt (Fin (particle_cov w l m m))) (xsqrt (Fin (particle_cov w l n n)))).
Proof.
  intros Hm Hn. unfold est_corr. cbv zeta.
  set (F := fun m n => xdiv (Fin (particle_cov w l m n)) (xmul (xsqrt (Fin (particle_cov w l m m))) (xsqrt (Fin (particle_cov w l n n))))).
  change (nth n (nth m (map (fun m => map (F m) (seq 0 d)) (seq 0 d)) []) NaN = F m n).
  rewrite (nth_indep _ [] (map (F 0%nat) (seq 0 d))) by now rewrite map_length, seq_length.
  rewrite (map_nth (fun m => map (F m) (seq 0 d))), seq_nth by assumption.
  rewrite (nth_indep _ NaN (F (0 + m)%nat 0%nat)) by now rewrite map_length, seq_length.
  rewrite (map_nth (F (0 + m)%nat)), seq_nth by assumption. reflexivity.
Qed.
Lemma nth_est_mean d w l j : (j < d)%nat -> nth j (est_mean d w l) 0 = rdot w (col j l).
Proof.
  intros Hj. unfold est_mean, particle_mean.
  rewrite (nth_indep _ 0 (rdot w (col 0 l))) by now rewrite map_length, seq_length.
  rewrite (map_nth (fun j => rdot w (col j l))), seq_nth by assumption. reflexivity.
Qed.

Lemma covar_affine n p f g a b a' b' : Sum n p = 1 ->
  covar n p (fun i => a * f i + b) (fun i => a' * g i + b') = a * a' * covar n p f g.
Proof.
  intros Hs. unfold covar.
  assert (E : forall h s t, expect n p (fun i => s * h i + t) = s * expect n p h + t).
  { intros h s t. unfold expect. rewrite <- Sum_scal.
    rewrite (Sum_ext n _ (fun i => s * (p i * h i) + p i * t)) by (intros; ring).
    rewrite Sum_plus, Sum_scal_r, Hs. rewrite Sum_scal. ring. }
  rewrite !E. unfold expect at 1. unfold expect at 3. rewrite <- Sum_scal. apply Sum_ext. intros i _. ring.
Qed.
Lemma expect_affine n p f s t : Sum n p = 1 -> expect n p (fun i => s * f i + t) = s * expect n p f + t.
Proof.
  intros Hs. unfold expect. rewrite <- Sum_scal.
  rewrite (Sum_ext n _ (fun i => s * (p i * f i) + p i * t)) by (intros; ring).
  rewrite Sum_plus, Sum_scal_r, Hs. rewrite Sum_scal. ring.
Qed.
Lemma expect_ext n p f g : (forall i, (i < n)%nat -> f i = g i) -> expect n p f = expect n p g.
Proof. intros H. apply Sum_ext. intros i Hi. now rewrite H. Qed.
Lemma covar_ext n p f f' g g' : (forall i, (i < n)%nat -> f i = f' i) -> (forall i, (i < n)%nat -> g i = g' i) ->
  covar n p f g = covar n p f' g'.
Proof.
  intros Hf Hg. unfold covar. rewrite (expect_ext _ _ _ _ Hf), (expect_ext _ _ _ _ Hg). apply expect_ext.
  intros i Hi. now rewrite Hf, Hg.
Qed.

(** ** C18 *)
Lemma cumsum_le_prefix level w : Forall (fun x => 0 <= x) w -> forall acc,
  exists k, (k <= length w)%nat /\ map (fun x => Rleb x level) (cumsum_from acc w) = repeat true k ++ repeat false (length w - k) /\
    (k <> 0%nat -> acc + rsum (firstn k w) <= level) /\ ((k < length w)%nat -> level < acc + rsum (firstn (S k) w)).
Proof.
  induction 1 as [|x w Hx Hw IH]; intros acc.
  - exists 0%nat. repeat split; try reflexivity; simpl; try lia; try congruence.
  - cbn [cumsum_from map]. destruct (Rleb_spec (acc + x) level) as [Hle|Hgt].
    + destruct (IH (acc + x)) as (k & Hk & E & H1 & H2). exists (S k). cbn [repeat app length Nat.sub]. rewrite E.
      split; [lia|]. split; [reflexivity|].
      change (firstn (S k) (x :: w)) with (x :: firstn k w).
      change (firstn (S (S k)) (x :: w)) with (x :: firstn (S k) w). rewrite !rsum_cons. split.
      * intros _. destruct k as [|k]; [cbn [firstn]; rewrite rsum_nil; lra|]. specialize (H1 ltac:(lia)). lra.
      * intros Hlt. specialize (H2 ltac:(lia)). lra.
    + exists 0%nat. cbn [repeat app length Nat.sub firstn]. split; [lia|]. split; [|split; [congruence|intros _; rewrite rsum_cons, rsum_nil; lra]].
      cbn [repeat]. f_equal. destruct (IH (acc + x)) as (k & Hk & E & H1 & H2).
      destruct k as [|k]; [rewrite E; cbn [repeat app]; f_equal; lia|]. exfalso.
      specialize (H1 ltac:(lia)). pose proof (rsum_nonneg _ (Forall_firstn _ (S k) _ Hw)). lra.
Qed.

Lemma count_true_prefix k n : count_true (repeat true k ++ repeat false n) = k.
Proof.
  unfold count_true. rewrite filter_app, app_length.
  assert (length (filter (fun b : bool => b) (repeat true k)) = k) as -> by (induction k; simpl; auto).
  assert (length (filter (fun b : bool => b) (repeat false n)) = 0%nat) as -> by (induction n; simpl; auto). lia.
Qed.

Lemma set_true_prefix k n : (0 < n)%nat -> set_true k (repeat true k ++ repeat false n) = Ok (repeat true (S k) ++ repeat false (n - 1)).
Proof.
  intros Hn. unfold set_true. rewrite app_length, !repeat_length.
  destruct (Nat.ltb_spec k (k + n)) as [_|]; [|lia]. f_equal.
  rewrite firstn_app, repeat_length, Nat.sub_diag, firstn_O, app_nil_r.
  rewrite firstn_all2 by now rewrite repeat_length.
  rewrite skipn_app, repeat_length. rewrite skipn_all2 by (rewrite repeat_length; lia). cbn [app].
  replace (S k - k)%nat with 1%nat by lia. destruct n as [|n]; [lia|]. cbn [repeat skipn Nat.sub]. rewrite Nat.sub_0_r.
  change (repeat true (S k)) with (true :: repeat true k). rewrite (repeat_cons k true). now rewrite <- app_assoc.
Qed.

Lemma select_prefix {A} (l : list A) k n : (k + n = length l)%nat ->
  select (repeat true k ++ repeat false n) l = firstn k l /\ select (map negb (repeat true k ++ repeat false n)) l = skipn k l.
Proof.
  revert k; induction l as [|x l IH]; intros k H; simpl in H.
  - assert (k = 0%nat) by lia. assert (n = 0%nat) by lia. subst. split; reflexivity.
  - destruct k as [|k].
    + cbn [repeat app firstn skipn]. assert (n = length (x :: l)) by (simpl; lia). subst n. clear.
      split; [generalize (x :: l); intros m; induction m; simpl; auto|].
      generalize (x :: l); intros m; induction m as [|y m IH]; simpl; [reflexivity|]. now rewrite IH.
    + cbn [repeat app map select negb firstn skipn]. destruct (IH k ltac:(lia)) as [-> ->]. split; reflexivity.
Qed.

Lemma mass_app w I J : mass w (I ++ J) = mass w I + mass w J.
Proof. apply SumL_app. Qed.

Lemma nth_rev_asc (asc : list nat) n a : length asc = n -> (a < n)%nat -> nth a (rev asc) 0%nat = nth (n - S a) asc 0%nat.
Proof. intros H Ha. rewrite rev_nth by lia. now rewrite H. Qed.

Lemma credible_region asc slice w l level :
  prob_vector w -> length l = length w -> argsorts asc w -> level < 1 -> 0 <= level ->
  exists I i J,
    est_credible_region asc slice w l level =
      Ok (map (fun k => slice (nth k l [])) (I ++ [i]), map (fun k => slice (nth k l [])) J) /\
    Permutation ((I ++ [i]) ++ J) (seq 0 (length w)) /\
    level <= mass w (I ++ [i]) /\
    (forall a b, In a (I ++ [i]) -> In b J -> nth b w 0 <= nth a w 0) /\
    (forall a, In a I -> nth i w 0 <= nth a w 0) /\ mass w I <= level.
Proof.
  intros [Hnn Hsum] Hl [Hperm Hsort] Hlev Hlev0.
  assert (Hlen : length asc = length w) by (rewrite (Permutation_length Hperm); apply seq_length).
  set (ids := rev asc). assert (Hids : Permutation ids (seq 0 (length w))).
  { unfold ids. eapply Permutation_trans; [apply Permutation_sym, Permutation_rev|exact Hperm]. }
  assert (Hlids : length ids = length w) by (unfold ids; now rewrite rev_length).
  assert (Hb : forall i, In i ids -> (i < length w)%nat).
  { intros i Hi. apply (Permutation_in _ Hids) in Hi. apply in_seq in Hi. lia. }
  assert (Hdesc : forall a b, (a <= b < length w)%nat -> nth (nth b ids 0%nat) w 0 <= nth (nth a ids 0%nat) w 0).
  { intros a b Hab. unfold ids. rewrite !(nth_rev_asc _ (length w)) by (assumption || lia). apply Hsort. lia. }
  set (wsrt := map (fun i => nth i w 0) ids).
  assert (Hws : Permutation wsrt w).
  { apply Permutation_trans with (map (fun i => nth i w 0) (seq 0 (length w))); [now apply Permutation_map|].
    rewrite map_nth_seq. reflexivity. }
  assert (Hwn : Forall (fun x => 0 <= x) wsrt).
  { apply Forall_forall. intros x Hx. rewrite Forall_forall in Hnn. apply Hnn. eapply Permutation_in; eassumption. }
  assert (Hwl : length wsrt = length w) by (unfold wsrt; now rewrite map_length).
  destruct (cumsum_le_prefix level wsrt Hwn 0) as (k & Hk & E & H1 & H2).
  rewrite Hwl in *.
  assert (Hkn : (k < length w)%nat).
  { destruct (Nat.eq_dec k (length w)) as [->|]; [|lia]. exfalso.
    destruct (length w) as [|n] eqn:En; [destruct w; [rewrite rsum_nil in Hsum; lra|discriminate]|].
    specialize (H1 ltac:(lia)). rewrite firstn_all2 in H1 by lia. rewrite (rsum_perm _ _ Hws), Hsum in H1. lra. }
  specialize (H2 Hkn).
  exists (firstn k ids), (nth k ids 0%nat), (skipn (S k) ids).
  assert (Hfs : firstn k ids ++ [nth k ids 0%nat] = firstn (S k) ids).
  { clear - Hkn Hlids. revert k Hkn. rewrite <- Hlids. clear. induction ids as [|x l IH]; intros k Hk; simpl in Hk; [lia|].
    destruct k as [|k]; [reflexivity|]. cbn [firstn app nth]. f_equal. apply IH. lia. }
  rewrite Hfs. split; [|split; [|split; [|split; [|split]]]].
  - unfold est_credible_region. fold ids. rewrite (take_ok w 0) by assumption. cbn [bind]. fold wsrt.
    unfold cumsum. rewrite E, count_true_prefix, set_true_prefix by lia. cbn [bind].
    rewrite (take_ok (map slice l) (slice [])) by (intros i Hi; rewrite map_length, Hl; auto). cbn [bind].
    destruct (select_prefix (map (fun i => nth i (map slice l) (slice [])) ids) (S k) (length w - k - 1)) as [-> ->];
      [rewrite map_length; lia|].
    rewrite firstn_map, skipn_map. do 2 f_equal; apply map_ext; intros i; apply map_nth.
  - rewrite firstn_skipn. exact Hids.
  - unfold mass. rewrite SumL_rsum. rewrite <- firstn_map. fold wsrt. lra.
  - intros a b Ha Hb'. apply (In_nth _ _ 0%nat) in Ha as (x & Hx & <-). apply (In_nth _ _ 0%nat) in Hb' as (y & Hy & <-).
    rewrite firstn_length in Hx. rewrite skipn_length in Hy.
    assert (nth x (firstn (S k) ids) 0%nat = nth x ids 0%nat) as ->.
    { rewrite <- (firstn_skipn (S k) ids) at 2. rewrite app_nth1; [reflexivity|rewrite firstn_length; lia]. }
    assert (nth y (skipn (S k) ids) 0%nat = nth (S k + y) ids 0%nat) as ->.
    { rewrite <- (firstn_skipn (S k) ids) at 2. rewrite app_nth2; rewrite firstn_length; [f_equal; lia|lia]. }
    apply Hdesc. lia.
  - intros a Ha. apply (In_nth _ _ 0%nat) in Ha as (x & Hx & <-). rewrite firstn_length in Hx.
    assert (nth x (firstn k ids) 0%nat = nth x ids 0%nat) as ->.
    { rewrite <- (firstn_skipn k ids) at 2. rewrite app_nth1; [reflexivity|rewrite firstn_length; lia]. }
    apply Hdesc. lia.
  - unfold mass. rewrite SumL_rsum, <- firstn_map. fold wsrt. destruct k as [|k]; [cbn [firstn]; rewrite rsum_nil; assumption|].
    specialize (H1 ltac:(lia)). lra.
Qed.

Lemma credible_region_fails asc slice w l level :
  prob_vector w -> length l = length w -> argsorts asc w -> 1 <= level ->
  est_credible_region asc slice w l level = Err IndexError.
Proof.
  intros [Hnn Hsum] Hl [Hperm Hsort] Hlev.
  assert (Hids : Permutation (rev asc) (seq 0 (length w))).
  { eapply Permutation_trans; [apply Permutation_sym, Permutation_rev|exact Hperm]. }
  set (wsrt := map (fun i => nth i w 0) (rev asc)).
  assert (Hws : Permutation wsrt w).
  { apply Permutation_trans with (map (fun i => nth i w 0) (seq 0 (length w))); [now apply Permutation_map|].
    rewrite map_nth_seq. reflexivity. }
  assert (Hwn : Forall (fun x => 0 <= x) wsrt).
  { apply Forall_forall. intros x Hx. rewrite Forall_forall in Hnn. apply Hnn. eapply Permutation_in; eassumption. }
  unfold est_credible_region. rewrite (take_ok w 0).
  2:{ intros i Hi. apply (Permutation_in _ Hids) in Hi. apply in_seq in Hi. lia. }
  cbn [bind]. fold wsrt. destruct (cumsum_le_prefix level wsrt Hwn 0) as (k & Hk & E & H1 & H2).
  unfold cumsum. rewrite E, count_true_prefix.
  assert (k = length wsrt).
  { destruct (Nat.lt_ge_cases k (length wsrt)) as [Hlt|]; [|lia]. specialize (H2 Hlt). exfalso.
    pose proof (rsum_firstn_mono wsrt (S k) (length wsrt) Hwn ltac:(lia)). rewrite firstn_all in H.
    rewrite (rsum_perm _ _ Hws), Hsum in H. lra. }
  subst k. unfold set_true. rewrite app_length, !repeat_length, Nat.sub_diag, Nat.add_0_r, Nat.ltb_irrefl. reflexivity.
Qed.

(** ** C19 *)
Lemma entropy_terms w : est_entropy w = - rsum (map (fun x => x * ln x) (filter (fun x => Rltb 0 x) w)).
Proof. unfold est_entropy. rewrite map2_map_l, map2_same. f_equal. apply rsum_map_ext. intros. ring. Qed.

Lemma entropy_Sum w : Forall (fun x => 0 <= x) w -> est_entropy w = - rsum (map (fun x => if Rltb 0 x then x * ln x else 0) w).
Proof.
  intros _. rewrite entropy_terms. f_equal. induction w as [|x w IH]; [reflexivity|]. cbn [filter map].
  destruct (Rltb 0 x); cbn [map]; rewrite !rsum_cons, IH; lra.
Qed.

Lemma entropy_bounds w : prob_vector w -> 0 <= est_entropy w <= ln (INR (length w)).
Proof.
  intros H. pose proof (prob_vector_nonempty w H) as Hn. destruct H as [Hnn Hs] eqn:HH. clear HH.
  rewrite (entropy_Sum w Hnn). assert (HN : 0 < INR (length w)) by (apply lt_0_INR; lia). split.
  - match goal with |- 0 <= - ?t => assert (t <= 0) as Ht; [|lra] end.
    apply Rle_trans with (rsum (map (fun _ => 0) w)); [|rewrite rsum_map_zero; lra]. apply rsum_le. intros x Hx. cbv beta.
    destruct (prob_le_1 w x H Hx). destruct (Rltb_spec 0 x); [|apply Rle_refl].
    assert (ln x <= 0).
    { rewrite <- ln_1. destruct (Rle_lt_or_eq_dec _ _ H1) as [Hlt| ->]; [left; now apply ln_increasing|lra]. }
    nra.
  - assert (rsum (map (fun x => - (if Rltb 0 x then x * ln x else 0)) w) <= ln (INR (length w))) as Hm.
    2:{ rewrite (rsum_map_ext _ (fun x => -1 * (if Rltb 0 x then x * ln x else 0))) in Hm by (intros; ring).
        rewrite rsum_map_scal in Hm. lra. }
    apply Rle_trans with (rsum (map (fun x => x * ln (INR (length w)) + (/ INR (length w) - x)) w)).
    + apply rsum_le. intros x Hx. destruct (prob_le_1 w x H Hx) as [Hx0 Hx1]. destruct (Rltb_spec 0 x) as [Hp|Hz].
      * assert (Hl : ln (/ (INR (length w) * x)) <= / (INR (length w) * x) - 1).
        { apply ln_le_minus1. apply Rinv_0_lt_compat. now apply Rmult_lt_0_compat. }
        rewrite ln_Rinv in Hl by now apply Rmult_lt_0_compat. rewrite ln_mult in Hl by assumption.
        assert (x * (- (ln (INR (length w)) + ln x)) <= x * (/ (INR (length w) * x) - 1)) by (apply Rmult_le_compat_l; lra).
        replace (x * (/ (INR (length w) * x) - 1)) with (/ INR (length w) - x) in H0 by (field; split; lra). lra.
      * assert (x = 0) by lra. subst x. assert (0 < / INR (length w)) by now apply Rinv_0_lt_compat. lra.
    + rewrite rsum_map_plus, rsum_map_minus, rsum_map_const, (rsum_map_scal_r _ (fun x => x)), map_id, Hs.
      rewrite Rinv_r by lra. lra.
Qed.

Lemma entropy_uniform n : (0 < n)%nat -> est_entropy (uniform_weights n) = ln (INR n).
Proof.
  intros Hn. rewrite (entropy_Sum _ (uniform_weights_nonneg n)). assert (HN : 0 < INR n) by (apply lt_0_INR; lia).
  unfold uniform_weights.
  rewrite (rsum_map_ext _ (fun _ => if Rltb 0 (/ INR n) then / INR n * ln (/ INR n) else 0)) by (intros x Hx; now rewrite (repeat_spec _ _ _ Hx)).
  rewrite rsum_map_const, repeat_length. rewrite Rltb_true by now apply Rinv_0_lt_compat.
  rewrite ln_Rinv by assumption. field. lra.
Qed.

Lemma entropy_zero_ignored w : est_entropy (filter (fun x => negb (Reqb x 0)) w) = est_entropy w.
Proof.
  unfold est_entropy. assert (filter (fun x => Rltb 0 x) (filter (fun x => negb (Reqb x 0)) w) = filter (fun x => Rltb 0 x) w) as ->; [|reflexivity].
  induction w as [|x w IH]; [reflexivity|]. cbn [filter]. destruct (Reqb_spec x 0) as [->|Hx]; cbn [negb filter].
  - rewrite Rltb_false by lra. exact IH.
  - destruct (Rltb 0 x); now rewrite IH.
Qed.

(** ** C20 *)
Lemma clusters_ok labels w weighted :
  exists start n, particle_clusters labels (Some w) weighted =
    Ok (map (fun k => let idx := (start + Z.of_nat k)%Z in (idx, map (fun z => Z.eqb z idx) labels)) (seq 0 n)) /\
    (labels_ge labels -> dbscan_labels labels -> forall z, In z labels -> (start <= z < start + Z.of_nat n)%Z).
Proof.
  unfold particle_clusters. set (noise := existsb (Z.eqb (-1)) labels).
  set (start := if noise then (-1)%Z else 0%Z).
  exists start, (Z.to_nat (Z.of_nat (length (nodup Z.eq_dec labels)) - (if noise then 1 else 0) - start)%Z). split; [reflexivity|].
  intros Hge [k Hk] z Hz.
  assert (Hnoise : noise = true <-> In (-1)%Z labels).
  { unfold noise. rewrite existsb_exists. split; [intros (x & Hx & E); apply Z.eqb_eq in E; now subst|]. intros H. exists (-1)%Z. split; [assumption|reflexivity]. }
  (* number of distinct labels *)
  assert (Hlen : length (nodup Z.eq_dec labels) = ((if noise then 1 else 0) + k)%nat).
  { set (ref := (if noise then [(-1)%Z] else []) ++ map Z.of_nat (seq 0 k)).
    assert (HP : Permutation (nodup Z.eq_dec labels) ref).
    { apply NoDup_Permutation.
      - apply NoDup_nodup.
      - unfold ref. destruct noise; cbn [app].
        + constructor; [intros Hin; apply in_map_iff in Hin as (x & Hx & _); lia|].
          apply FinFun.Injective_map_NoDup; [intros a b; lia|apply seq_NoDup].
        + apply FinFun.Injective_map_NoDup; [intros a b; lia|apply seq_NoDup].
      - intros x. rewrite nodup_In. unfold ref. rewrite in_app_iff. split.
        + intros Hx. specialize (Hge x Hx). destruct (Z.eq_dec x (-1)) as [->|].
          * left. apply Hnoise in Hx. rewrite Hx. now left.
          * right. assert (0 <= x)%Z by lia. apply Hk in Hx; [|assumption]. apply in_map_iff. exists (Z.to_nat x). split; [lia|]. apply in_seq. lia.
        + intros [Hx|Hx].
          * destruct noise eqn:En; [|destruct Hx]. destruct Hx as [<-|[]]. now apply Hnoise.
          * apply in_map_iff in Hx as (y & <- & Hy). apply in_seq in Hy. apply Hk; lia. }
    rewrite (Permutation_length HP). unfold ref. rewrite app_length, map_length, seq_length. destruct noise; reflexivity. }
  rewrite Hlen. specialize (Hge z Hz). unfold start. destruct noise eqn:En.
  - split; [assumption|]. destruct (Z.eq_dec z (-1)); [lia|]. assert (Hz0 : (0 <= z)%Z) by lia. apply (Hk z Hz0) in Hz. lia.
  - assert (Hz0 : (0 <= z)%Z). { destruct (Z.eq_dec z (-1)) as [->|]; [apply Hnoise in Hz; congruence|lia]. }
    split; [assumption|]. apply (Hk z Hz0) in Hz. lia.
Qed.

Lemma rsum_select_labels labels : forall (f : list R), length f = length labels -> forall start n,
  (forall z, In z labels -> (start <= z < start + Z.of_nat n)%Z) ->
  rsum (map (fun k => rsum (select (map (fun z => Z.eqb z (start + Z.of_nat k)) labels) f)) (seq 0 n)) = rsum f.
Proof.
  induction labels as [|z labels IH]; intros f Hf start n Hz; destruct f as [|x f]; try discriminate.
  - cbn [map select]. rewrite rsum_map_const, rsum_nil. ring.
  - rewrite rsum_cons. rewrite <- (IH f ltac:(simpl in Hf; lia) start n) by (intros; apply Hz; now right).
    transitivity (rsum (map (fun k => (if Z.eqb z (start + Z.of_nat k) then x else 0) +
      rsum (select (map (fun z => Z.eqb z (start + Z.of_nat k)) labels) f)) (seq 0 n))).
    { apply rsum_map_ext. intros k _. cbn [map select]. destruct (Z.eqb z _); rewrite ?rsum_cons; lra. }
    rewrite rsum_map_plus. f_equal. specialize (Hz z (or_introl eq_refl)).
    set (k0 := Z.to_nat (z - start)). assert (Hk0 : In k0 (seq 0 n)) by (apply in_seq; unfold k0; lia).
    apply in_split in Hk0 as (l1 & l2 & E). rewrite E, map_app, rsum_app. cbn [map]. rewrite rsum_cons.
    assert (ND : NoDup (l1 ++ k0 :: l2)) by (rewrite <- E; apply seq_NoDup). apply NoDup_remove_2 in ND.
    rewrite (rsum_zero (map _ l1)). 2:{ apply Forall_forall. intros y Hy. apply in_map_iff in Hy as (k & <- & Hk).
      destruct (Z.eqb_spec z (start + Z.of_nat k)); [|reflexivity]. exfalso. apply ND. apply in_or_app. left. replace k0 with k by (unfold k0; lia). assumption. }
    rewrite (rsum_zero (map _ l2)). 2:{ apply Forall_forall. intros y Hy. apply in_map_iff in Hy as (k & <- & Hk).
      destruct (Z.eqb_spec z (start + Z.of_nat k)); [|reflexivity]. exfalso. apply ND. apply in_or_app. right. replace k0 with k by (unfold k0; lia). assumption. }
    replace (Z.eqb z (start + Z.of_nat k0)) with true by (symmetry; apply Z.eqb_eq; unfold k0; lia). lra.
Qed.

Lemma filter_one {A} (p : A -> bool) l a : NoDup l -> In a l -> (forall x, In x l -> p x = true <-> x = a) ->
  length (filter p l) = 1%nat.
Proof.
  intros ND Ha Hp. apply in_split in Ha as (l1 & l2 & ->). apply NoDup_remove_2 in ND.
  rewrite filter_app. cbn [filter]. rewrite (proj2 (Hp a ltac:(apply in_or_app; right; now left)) eq_refl).
  assert (Hz : forall m, (forall x, In x m -> x <> a /\ In x (l1 ++ a :: l2)) -> filter p m = []).
  { induction m as [|x m IH]; intros H; [reflexivity|]. cbn [filter]. destruct (H x (or_introl eq_refl)) as [H1 H2].
    destruct (p x) eqn:E; [apply (Hp x H2) in E; contradiction|]. apply IH. intros; apply H; now right. }
  rewrite !Hz; [reflexivity| |].
  - intros x Hx. split; [intros ->; apply ND, in_or_app; now right|apply in_or_app; right; now right].
  - intros x Hx. split; [intros ->; apply ND, in_or_app; now left|apply in_or_app; now left].
Qed.

Lemma clusters_partition labels w weighted : length w = length labels -> labels_ge labels -> dbscan_labels labels ->
  exists cs, particle_clusters labels (Some w) weighted = Ok cs /\
    (forall i, (i < length labels)%nat -> length (filter (fun p => nth i (snd p) false) cs) = 1%nat) /\
    (forall p i, In p cs -> (i < length labels)%nat -> nth i (snd p) false = true -> nth i labels 0%Z = fst p) /\
    rsum (map (fun p => rsum (select (snd p) w)) cs) = rsum w.
Proof.
  intros Hw Hge Hdb. destruct (clusters_ok labels w weighted) as (start & n & E & H). specialize (H Hge Hdb).
  eexists. split; [exact E|]. cbv zeta.
  assert (Hn : forall i idx, (i < length labels)%nat -> nth i (map (fun z => Z.eqb z idx) labels) false = Z.eqb (nth i labels 0%Z) idx).
  { intros i idx Hi. rewrite (nth_indep _ false (Z.eqb 0 idx)) by now rewrite map_length. apply (map_nth (fun z => Z.eqb z idx)). }
  split; [|split].
  - intros i Hi. assert (Hin : In (nth i labels 0%Z) labels) by now apply nth_In. specialize (H _ Hin).
    set (z := nth i labels 0%Z) in *.
    match goal with |- context [filter ?p (map ?g ?l)] => assert (Hf : length (filter p (map g l)) = length (filter (fun k => p (g k)) l)) end.
    { generalize (seq 0 n). intros l. induction l as [|k l IH]; [reflexivity|]. cbn [map filter]. cbn [snd] in *. destruct (nth i _ false); cbn [length]; now rewrite IH. }
    rewrite Hf. cbn [snd]. apply filter_one with (Z.to_nat (z - start)).
    + apply seq_NoDup.
    + apply in_seq. lia.
    + intros k Hk. apply in_seq in Hk. rewrite Hn by assumption. fold z. rewrite Z.eqb_eq. lia.
  - intros p i Hp Hi Hm. apply in_map_iff in Hp as (k & <- & _). cbn [fst snd] in *. rewrite Hn in Hm by assumption. now apply Z.eqb_eq.
  - rewrite map_map. cbn [snd]. now apply rsum_select_labels.
Qed.

Lemma select_all {A} (l : list A) m : m = repeat true (length l) -> select m l = l.
Proof. intros ->. induction l as [|x l IH]; [reflexivity|]. cbn [length repeat select]. now rewrite IH. Qed.

Lemma single_cluster_moments labels w l : length w = length labels -> length l = length labels ->
  labels <> [] -> (forall z, In z labels -> z = 0%Z) ->
  est_cluster_moments labels w l = Ok [{| m_label := 0; m_weight := rsum w; m_mean := fun j => rdot w (col j l); m_cov := particle_cov w l |}].
Proof.
  intros Hw Hl Hne Hz. unfold est_cluster_moments, particle_clusters.
  assert (Hr : labels = repeat 0%Z (length labels)).
  { clear - Hz. induction labels as [|z r IH]; [reflexivity|]. cbn [length repeat]. rewrite (Hz z (or_introl eq_refl)). f_equal. apply IH. intros; apply Hz; now right. }
  assert (Hnd : nodup Z.eq_dec labels = [0%Z]).
  { assert (forall k, nodup Z.eq_dec (repeat 0%Z (S k)) = [0%Z]) as Hk.
    { induction k as [|k IH]; [reflexivity|]. cbn [repeat nodup] in *. destruct (in_dec Z.eq_dec 0%Z (0%Z :: repeat 0%Z k)) as [_|N]; [exact IH|exfalso; apply N; now left]. }
    rewrite Hr. destruct labels as [|z r]; [contradiction|]. apply Hk. }
  assert (Hno : existsb (Z.eqb (-1)) labels = false).
  { apply Bool.not_true_iff_false. rewrite existsb_exists. intros (x & Hx & E). apply Z.eqb_eq in E. specialize (Hz x Hx). lia. }
  rewrite Hnd, Hno. cbv zeta. change (Z.to_nat (Z.of_nat (length [0%Z]) - 0 - 0)) with 1%nat.
  cbn [bind seq map fst snd]. change (0 + Z.of_nat 0)%Z with 0%Z.
  assert (Hm : map (fun z => Z.eqb z 0) labels = repeat true (length labels)).
  { rewrite Hr at 1. generalize (length labels). induction n as [|n IH]; [reflexivity|]. cbn [repeat map]. now rewrite IH. }
  rewrite Hm. rewrite !select_all by now rewrite ?Hw, ?Hl. reflexivity.
Qed.

Lemma single_cluster_covs labels w l m n : prob_vector w -> length w = length labels -> length l = length labels ->
  (forall z, In z labels -> z = 0%Z) ->
  exists a b, est_cluster_covs labels w l m n = Ok (a, b, particle_cov w l m n) /\ b = 0.
Proof.
  intros Hp Hw Hl Hz.
  assert (Hne : labels <> []). { pose proof (prob_vector_nonempty w Hp). destruct labels; [simpl in Hw; lia|discriminate]. }
  unfold est_cluster_covs. rewrite single_cluster_moments by assumption. cbn [bind map map2 m_weight m_mean m_cov].
  rewrite (proj2 Hp). cbv zeta.
  assert (H1 : forall j, rdot [1] [rdot w (col j l)] = rdot w (col j l)).
  { intros j. unfold rdot at 1. cbn [map2]. rewrite rsum_cons, rsum_nil. ring. }
  rewrite !H1. rewrite !rsum_cons, !rsum_nil.
  eexists (particle_cov w l m n), 0. split; [|reflexivity]. do 2 f_equal; [f_equal|]; ring.
Qed.

Lemma total_variance_wrong : exists labels w l a b t,
  prob_vector w /\ length w = length labels /\ length l = length labels /\ labels_ge labels /\ dbscan_labels labels /\
  est_cluster_covs labels w l 0 0 = Ok (a, b, t) /\ t <> particle_cov w l 0 0.
Proof.
  exists [0%Z; 1%Z], [1/2; 1/2], [[0]; [1]], (1/8), (1/16), (3/16).
  split; [split; [repeat constructor; lra|unfold rsum; cbn; lra]|]. split; [reflexivity|]. split; [reflexivity|].
  split; [intros z [<-|[<-|[]]]; lia|].
  split; [exists 2%nat; intros z Hz; cbn; split; [intros [<-|[<-|[]]]; lia|intros; lia]|].
  split.
  - unfold est_cluster_covs, est_cluster_moments.
    assert (particle_clusters [0%Z; 1%Z] (Some [1/2; 1/2]) false = Ok [(0%Z, [true; false]); (1%Z, [false; true])]) as -> by reflexivity.
    cbn [bind map map2 fst snd select m_weight m_mean m_cov]. unfold particle_cov, rdot, col. cbn [map map2 nth].
    rewrite ?rsum_cons, ?rsum_nil. do 2 f_equal; [f_equal|]; lra.
  - unfold particle_cov, rdot, col. cbn [map map2 nth]. rewrite ?rsum_cons, ?rsum_nil. intros H. lra.
Qed.

Lemma prob_Sum w : prob_vector w -> Sum (length w) (fun i => nth i w 0) = 1.
Proof. intros [_ H]. now rewrite <- rsum_index. Qed.
Lemma prob_nth_nonneg w i : prob_vector w -> 0 <= nth i w 0.
Proof.
  intros [H _]. destruct (Nat.lt_ge_cases i (length w)) as [Hi|Hi].
  - rewrite Forall_forall in H. apply H. now apply nth_In.
  - rewrite nth_overflow by assumption. lra.
Qed.

Lemma mean_range d w l j lo hi : prob_vector w -> length w = length l -> (j < d)%nat ->
  (forall i, (i < length l)%nat -> lo <= coord l j i <= hi) -> lo <= nth j (est_mean d w l) 0 <= hi.
Proof.
  intros Hp Hl Hj H. rewrite nth_est_mean by assumption. rewrite rdot_col by assumption. apply expect_range.
  - intros i _. now apply prob_nth_nonneg.
  - now apply prob_Sum.
  - intros i Hi. apply H. lia.
Qed.

Lemma est_cov_psd d w l (v : nat -> R) : prob_vector w -> length w = length l ->
  0 <= Sum d (fun m => Sum d (fun n => v m * v n * nth n (nth m (est_cov d w l) []) 0)).
Proof.
  intros Hp Hl.
  rewrite (Sum_ext d _ (fun m => Sum d (fun n => v m * v n * covar (length w) (fun i => nth i w 0) (coord l m) (coord l n)))).
  - rewrite quad_form. apply Sum_nonneg. intros i _. apply Rmult_le_pos; [now apply prob_nth_nonneg|apply pow2_ge_0].
  - intros m Hm. apply Sum_ext. intros n Hn. rewrite nth_est_cov by assumption. rewrite cov_covar; [reflexivity|assumption|apply Hp].
Qed.

Lemma est_corr_ok d w l m n : prob_vector w -> length w = length l -> (m < d)%nat -> (n < d)%nat ->
  0 < nth m (nth m (est_cov d w l) []) 0 -> 0 < nth n (nth n (est_cov d w l) []) 0 ->
  exists r, nth n (nth m (est_corr d w l) []) NaN = Fin r /\ -1 <= r <= 1 /\ (m = n -> r = 1) /\
    r * (sqrt (nth m (nth m (est_cov d w l) []) 0) * sqrt (nth n (nth n (est_cov d w l) []) 0)) = nth n (nth m (est_cov d w l) []) 0.
Proof.
  intros Hp Hl Hm Hn. rewrite nth_est_corr by assumption. rewrite !nth_est_cov by assumption. intros H1 H2.
  destruct (corr_entry (particle_cov w l m n) (particle_cov w l m m) (particle_cov w l n n) H1 H2) as (r & E & Hb & Hr).
  - rewrite !cov_covar by (assumption || apply Hp). apply covar_cs. intros i _. now apply prob_nth_nonneg.
  - exists r. split; [exact E|]. split; [exact Hb|]. split; [|exact Hr].
    intros ->. rewrite sqrt_sqrt in Hr by lra. apply Rmult_eq_reg_r with (particle_cov w l n n); lra.
Qed.

Lemma affine_moments d w l (a b : nat -> R) m n : prob_vector w -> length w = length l -> (m < d)%nat -> (n < d)%nat ->
  let l' := map (fun x => map (fun j => a j * nth j x 0 + b j) (seq 0 d)) l in
  nth m (est_mean d w l') 0 = a m * nth m (est_mean d w l) 0 + b m /\
  nth n (nth m (est_cov d w l') []) 0 = a m * a n * nth n (nth m (est_cov d w l) []) 0.
Proof.
  intros Hp Hl Hm Hn l'.
  assert (Hl' : length w = length l') by (unfold l'; now rewrite map_length).
  assert (Hc : forall j i, (j < d)%nat -> (i < length w)%nat -> coord l' j i = a j * coord l j i + b j).
  { intros j i Hj Hi. unfold coord, l'.
    rewrite (nth_indep _ [] ((fun x => map (fun j => a j * nth j x 0 + b j) (seq 0 d)) [])) by (rewrite map_length; lia).
    rewrite (map_nth (fun x => map (fun j => a j * nth j x 0 + b j) (seq 0 d))).
    rewrite (nth_indep _ 0 ((fun j => a j * nth j (nth i l []) 0 + b j) 0%nat)) by now rewrite map_length, seq_length.
    rewrite (map_nth (fun j => a j * nth j (nth i l []) 0 + b j)), seq_nth by assumption. reflexivity. }
  rewrite !nth_est_mean, !nth_est_cov by assumption. rewrite !cov_covar by (assumption || apply Hp). rewrite !rdot_col by assumption. split.
  - rewrite (expect_ext _ _ _ _ (fun i Hi => Hc m i Hm Hi)). apply expect_affine. now apply prob_Sum.
  - rewrite (covar_ext _ _ _ _ _ _ (fun i Hi => Hc m i Hm Hi) (fun i Hi => Hc n i Hn Hi)). apply covar_affine. now apply prob_Sum.
Qed.

Lemma meanfn_ok k (f : list R -> list R) w l j : length w = length l -> (j < k)%nat ->
  nth j (est_meanfn k (map f) w l) 0 = expect (length w) (fun i => nth i w 0) (fun i => nth j (f (nth i l [])) 0).
Proof.
  intros Hl Hj. unfold est_meanfn.
  rewrite (nth_indep _ 0 (rdot w (col 0 (map f l)))) by now rewrite map_length, seq_length.
  rewrite (map_nth (fun j => rdot w (col j (map f l)))), seq_nth by assumption. cbn [Nat.add].
  unfold col. rewrite map_map. rewrite (rdot_index w (fun x => nth j (f x) 0)) by assumption. unfold expect. now rewrite Hl.
Qed.

Lemma entropy_shannon w : prob_vector w -> Forall (fun x => 0 < x) w ->
  est_entropy w = - Sum (length w) (fun i => nth i w 0 * ln (nth i w 0)).
Proof.
  intros [Hp _] Hw. rewrite (entropy_Sum w Hp). f_equal.
  transitivity (rsum (map (fun x => x * ln x) w)).
  - apply rsum_map_ext. intros x Hx. rewrite Forall_forall in Hw. rewrite Rltb_true by now apply Hw. reflexivity.
  - rewrite Sum_rsum. rewrite <- (map_map (fun i => nth i w 0) (fun x => x * ln x)), map_nth_seq. reflexivity.
Qed.
