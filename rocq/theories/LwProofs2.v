(** Proofs about the Liu-West resampler: the whole call, and moments. *)
From Verif Require Import Base RList Ext Sums SmcModel PartModel PartSpec SmcProofs2 PartProofs LwModel LwSpec LwProofs.

Lemma pd_init_uniform n l : pd_init None (Some l) (Some (uniform_weights n)) = Ok (l, map Fin (uniform_weights n)).
Proof.
  cbn. do 2 f_equal. destruct n as [|n]; [reflexivity|].
  assert (Ha : map Rabs (uniform_weights (S n)) = uniform_weights (S n)).
  { transitivity (map (fun x : R => x) (uniform_weights (S n))); [|apply map_id]. apply map_ext_in. intros x Hx. apply Rabs_right.
    pose proof (uniform_weights_nonneg (S n)) as H. rewrite Forall_forall in H. apply Rle_ge. auto. }
  rewrite Ha, uniform_weights_sum by lia. apply map_ext. intros x. rewrite Reqb_false by lra. f_equal. field.
Qed.

Section Call.
Variable valid : loc -> bool.
Variable postselect : bool.
Variable kernel : nat -> nat -> list R.
Variable sqrtm : list (list R) -> list (list R) * ext.
Variable c : lw_config.

Definition the_n (l : list loc) (n_arg : option nat) : nat :=
  match n_arg with Some n => n | None => match c_default_n c with Some n => n | None => length l end end.
Definition the_cov d w l (pc : option (list (list R))) :=
  let cov := match pc with Some m => m | None => est_cov d w l end in
  if Reqb (sqrt (fro2 cov)) 0 then eye (c_comp c) (length cov) else cov.
Definition the_mean d w l (pm : option (list R)) := match pm with Some m => m | None => est_mean d w l end.

Definition start d w l pm us (junk : nat -> loc) n : lw_state :=
  {| new_locs := map junk (seq 0 n); idxs := seq 0 n; js := map (searchsorted_right (cumsum w)) us;
     mus := map (fun u => vadd (vscale (c_a c) (nth (sample_index w u) l [])) (vscale (1 - c_a c) (the_mean d w l pm))) us;
     n_calls := 0 |}.

Lemma sample_index_search w u : prob_vector w -> 0 <= u < 1 -> searchsorted_right (cumsum w) u = sample_index w u.
Proof.
  intros H Hu. pose proof (prob_vector_nonempty w H). unfold sample_index. rewrite cumsum_length.
  assert ((searchsorted_right (cumsum w) u < length w)%nat) by (apply searchsorted_from_lt; [rewrite (proj2 H); lra|lia]). lia.
Qed.

Lemma start_inv d w l pm us junk n : length us = n -> lw_inv n (start d w l pm us junk n).
Proof.
  intros H. constructor; cbn.
  - now rewrite map_length, seq_length.
  - apply seq_NoDup.
  - intros i Hi. apply in_seq in Hi. lia.
  - now rewrite map_length, seq_length.
Qed.

Lemma call_unfold d w l n_arg pm pc us junk : prob_vector w -> length l = length w ->
  Forall (fun u => 0 <= u < 1) us -> isfinite (snd (sqrtm (the_cov d w l pc))) = true ->
  let s := lw_loop valid postselect kernel (map (vscale (c_h c)) (fst (sqrtm (the_cov d w l pc)))) (c_maxiter c) 0
             (start d w l pm us junk (the_n l n_arg)) in
  lw_call valid postselect kernel sqrtm c d w l n_arg pm pc us junk =
  Ok ((new_locs s, map Fin (uniform_weights (the_n l n_arg))), idxs s, n_calls s).
Proof.
  intros Hp Hl Hu Hf. cbv zeta. unfold lw_call. fold (the_mean d w l pm). fold (the_n l n_arg).
  change (if Reqb (sqrt (fro2 match pc with Some m => m | None => est_cov d w l end)) 0
     then eye (c_comp c) (length match pc with Some m => m | None => est_cov d w l end)
     else match pc with Some m => m | None => est_cov d w l end) with (the_cov d w l pc).
  destruct (sqrtm (the_cov d w l pc)) as [S0 err] eqn:E. cbn [fst snd] in *. rewrite Hf. cbn [negb].
  assert (Hjs : map (searchsorted_right (cumsum w)) us = map (sample_index w) us).
  { apply map_ext_in. intros u Hu'. rewrite Forall_forall in Hu. apply sample_index_search; auto. }
  rewrite (take_ok l []).
  2:{ rewrite Hjs. intros i Hi. apply in_map_iff in Hi as (u & <- & _). rewrite Hl. apply sample_index_range.
      pose proof (prob_vector_nonempty w Hp). destruct w; [simpl in *; lia|discriminate]. }
  cbn [bind]. rewrite !map_map.
  assert (Hst : {| new_locs := map junk (seq 0 (the_n l n_arg)); idxs := seq 0 (the_n l n_arg);
      js := map (searchsorted_right (cumsum w)) us;
      mus := map (fun x => vadd (vscale (c_a c) (nth (searchsorted_right (cumsum w) x) l [])) (vscale (1 - c_a c) (the_mean d w l pm))) us;
      n_calls := 0 |} = start d w l pm us junk (the_n l n_arg)).
  { unfold start. f_equal. apply map_ext_in. intros u Hu'. rewrite Forall_forall in Hu. rewrite sample_index_search; auto. }
  rewrite Hst. rewrite pd_init_uniform. reflexivity.
Qed.

Lemma call_error d w l n_arg pm pc us junk : isfinite (snd (sqrtm (the_cov d w l pc))) = false ->
  lw_call valid postselect kernel sqrtm c d w l n_arg pm pc us junk = Err ResamplerError.
Proof.
  intros Hf. unfold lw_call.
  change (if Reqb (sqrt (fro2 match pc with Some m => m | None => est_cov d w l end)) 0
     then eye (c_comp c) (length match pc with Some m => m | None => est_cov d w l end)
     else match pc with Some m => m | None => est_cov d w l end) with (the_cov d w l pc).
  destruct (sqrtm _) as [S0 err]. cbn [snd] in Hf. now rewrite Hf.
Qed.

(** ** C21, C22 *)
Lemma call_shape d w l n_arg pm pc us junk : prob_vector w -> length l = length w ->
  Forall (fun u => 0 <= u < 1) us -> length us = the_n l n_arg -> (forall m, isfinite (snd (sqrtm m)) = true) ->
  exists locs left calls,
    lw_call valid postselect kernel sqrtm c d w l n_arg pm pc us junk =
      Ok ((locs, map Fin (uniform_weights (the_n l n_arg))), left, calls) /\
    length locs = the_n l n_arg /\ (calls <= c_maxiter c)%nat /\
    (postselect = true -> (0 < c_maxiter c)%nat ->
      forall i, (i < the_n l n_arg)%nat -> (In i left <-> valid (nth i locs []) = false)) /\
    (forall i, In i left -> (i < the_n l n_arg)%nat) /\
    (postselect = false -> (0 < c_maxiter c)%nat -> left = []) /\ (postselect = false -> calls = 0%nat).
Proof.
  intros Hp Hl Hu Hn Hf. do 3 eexists. split; [apply call_unfold; auto|].
  pose proof (start_inv d w l pm us junk _ Hn) as Hi. split; [|split; [|split; [|split; [|split]]]].
  - now apply (inv_len (the_n l n_arg)), loop_inv.
  - etransitivity; [apply loop_calls|]. cbn. lia.
  - intros Hpost Hmax. destruct (c_maxiter c) as [|k]; [lia|]. now apply loop_settled_start.
  - intros i Hin. eapply inv_rng; [|exact Hin]. now apply loop_inv.
  - intros Hpost Hmax. destruct (c_maxiter c) as [|k]; [lia|]. now apply (loop_nopost valid postselect kernel _ (the_n l n_arg)).
  - intros Hpost. now rewrite loop_no_calls.
Qed.
End Call.

(** ** The first draw *)
Lemma nth_vadd x y p : (p < length x)%nat -> (p < length y)%nat -> nth p (vadd x y) 0 = nth p x 0 + nth p y 0.
Proof.
  unfold vadd. revert y p; induction x as [|a x IH]; intros [|b y] p H1 H2; simpl in *; try lia.
  destruct p as [|p]; [reflexivity|]. apply IH; lia.
Qed.
Lemma nth_vscale k x p : nth p (vscale k x) 0 = k * nth p x 0.
Proof.
  unfold vscale. replace 0 with (k * 0) at 1 by ring. apply (map_nth (fun t => k * t)).
Qed.
Lemma map2_length_min {A B C} (f : A -> B -> C) l m : length (map2 f l m) = Nat.min (length l) (length m).
Proof. revert m; induction l as [|x l IH]; intros [|y m]; simpl; auto. Qed.
Lemma rdot_Sum d row z : length row = d -> length z = d -> rdot row z = Sum d (fun k => nth k row 0 * nth k z 0).
Proof. intros H1 H2. unfold rdot. rewrite (rsum_map2_index _ _ _ 0 0) by congruence. now rewrite H1. Qed.

Lemma point_eq d a h m S x z : is_matrix d S -> length x = d -> length m = d -> length z = d ->
  vadd (vadd (vscale a x) (vscale (1 - a) m)) (matvec (map (vscale h) S) z) = lw_point d a h m S x z.
Proof.
  intros [HS HR] Hx Hm Hz.
  assert (L1 : length (vscale a x) = d) by (unfold vscale; now rewrite map_length).
  assert (L2 : length (vscale (1 - a) m) = d) by (unfold vscale; now rewrite map_length).
  assert (L3 : length (vadd (vscale a x) (vscale (1 - a) m)) = d) by (unfold vadd; rewrite map2_length_min; lia).
  assert (L4 : length (matvec (map (vscale h) S) z) = d) by (unfold matvec; now rewrite !map_length).
  assert (L5 : length (lw_point d a h m S x z) = d) by (unfold lw_point; now rewrite map_length, seq_length).
  apply (nth_ext _ _ 0 0).
  - unfold vadd at 1. rewrite map2_length_min. lia.
  - intros p Hp. assert (Hpd : (p < d)%nat) by (unfold vadd at 1 in Hp; rewrite map2_length_min in Hp; lia).
    rewrite !nth_vadd by lia. rewrite !nth_vscale.
    unfold lw_point. rewrite (nth_indep (map _ (seq 0 d)) 0 ((fun p => a * nth p x 0 + (1 - a) * nth p m 0 + h * Sum d (fun k => entry S p k * nth k z 0)) 0%nat)) by now rewrite map_length, seq_length.
    rewrite (map_nth (fun p => a * nth p x 0 + (1 - a) * nth p m 0 + h * Sum d (fun k => entry S p k * nth k z 0))), seq_nth by assumption. cbn [Nat.add].
    f_equal. unfold matvec. rewrite map_map.
    rewrite (nth_indep _ 0 ((fun r => rdot (vscale h r) z) [])) by (rewrite map_length; lia).
    rewrite (map_nth (fun r => rdot (vscale h r) z)). rewrite (rdot_Sum d).
    + rewrite <- Sum_scal. apply Sum_ext. intros k _. rewrite nth_vscale. unfold entry. ring.
    + unfold vscale. rewrite map_length. apply HR. apply nth_In. lia.
    + assumption.
Qed.

Lemma nth_mus d w l pm us c i : (i < length us)%nat ->
  nth i (mus (start c d w l pm us (fun _ => []) (length us))) [] =
  vadd (vscale (c_a c) (nth (sample_index w (nth i us 0)) l [])) (vscale (1 - c_a c) (the_mean d w l pm)).
Proof.
  intros Hi. cbn [start mus].
  rewrite (nth_indep _ [] ((fun u => vadd (vscale (c_a c) (nth (sample_index w u) l [])) (vscale (1 - c_a c) (the_mean d w l pm))) 0)) by now rewrite map_length.
  apply (map_nth (fun u => vadd (vscale (c_a c) (nth (sample_index w u) l [])) (vscale (1 - c_a c) (the_mean d w l pm)))).
Qed.

Section First.
Variable valid : loc -> bool.
Variable postselect : bool.
Variable kernel : nat -> nat -> list R.

Lemma loop_frame S n left : forall t s i, lw_inv n s -> (i < n)%nat -> ~ In i (idxs s) ->
  nth i (new_locs (lw_loop valid postselect kernel S left t s)) [] = nth i (new_locs s) [].
Proof.
  induction left as [|left IH]; intros t s i H Hi N; [reflexivity|]. cbn [lw_loop]. destruct (idxs s) eqn:E; [reflexivity|].
  rewrite IH; [|now apply pass_inv|assumption|].
  - cbn [lw_pass new_locs]. apply scatter_other. rewrite E. exact N.
  - rewrite (pass_rest valid postselect kernel S t n s H). rewrite filter_In. intros [X _]. rewrite E in X. contradiction.
Qed.

Lemma first_pass S n s i : lw_inv n s -> idxs s = seq 0 n -> (i < n)%nat ->
  nth i (new_locs (lw_pass valid postselect kernel S 0 s)) [] = vadd (nth i (mus s) []) (matvec S (kernel 0%nat i)).
Proof.
  intros H E Hi. destruct (pass_new valid postselect kernel S 0 n s i H Hi) as [[N _]|(a & Ha & Ha' & ->)].
  - exfalso. apply N. rewrite E. apply in_seq. lia.
  - rewrite E in *. rewrite seq_length in Ha. rewrite seq_nth in Ha' by assumption. simpl in Ha'. now subst.
Qed.

(** A particle whose first draw is accepted keeps it. *)
Lemma loop_first S n left s i : lw_inv n s -> idxs s = seq 0 n -> (i < n)%nat ->
  (postselect = true -> valid (vadd (nth i (mus s) []) (matvec S (kernel 0%nat i))) = true) ->
  nth i (new_locs (lw_loop valid postselect kernel S (Datatypes.S left) 0 s)) [] = vadd (nth i (mus s) []) (matvec S (kernel 0%nat i)).
Proof.
  intros H E Hi Hv. cbn [lw_loop]. destruct (idxs s) eqn:E'; [destruct n; [lia|discriminate E]|].
  rewrite (loop_frame S n); [|now apply pass_inv|assumption|].
  - apply (first_pass S n); [assumption|congruence|assumption].
  - rewrite (pass_rest valid postselect kernel S 0 n s H). rewrite filter_In. intros [_ X].
    rewrite (first_pass S n s i H ltac:(congruence) Hi) in X. destruct postselect; [rewrite Hv in X by reflexivity|]; discriminate.
Qed.

(** What retries do: the centre is that of one of the drawn ancestors, but in general not the particle's own. *)
Lemma loop_centres S n left : forall t s mus0, lw_inv n s -> mus s = firstn (length (idxs s)) mus0 ->
  (forall i, (i < n)%nat -> ~ In i (idxs s) -> exists a t', (a <= i)%nat /\ nth i (new_locs s) [] = vadd (nth a mus0 []) (matvec S (kernel t' a))) ->
  (forall a, (a < length (idxs s))%nat -> (a <= nth a (idxs s) 0)%nat) ->
  let s' := lw_loop valid postselect kernel S left t s in
  forall i, (i < n)%nat -> ~ In i (idxs s') -> exists a t', (a <= i)%nat /\ nth i (new_locs s') [] = vadd (nth a mus0 []) (matvec S (kernel t' a)).
Proof.
  induction left as [|left IH]; intros t s mus0 H Hm Hd Hr s' i Hi N; [unfold s' in *; now apply Hd|].
  unfold s' in *. cbn [lw_loop] in *. destruct (idxs s) eqn:E; [apply Hd; auto|]. rewrite <- E in *.
  eapply IH; try eassumption.
  - now apply pass_inv.
  - cbn [lw_pass mus idxs]. rewrite Hm. rewrite firstn_firstn. f_equal. apply Nat.min_l. apply select_length_le.
  - clear i Hi N. intros i Hi N. destruct (pass_new valid postselect kernel S t n s i H Hi) as [[N' Hold]|(a & Ha & Ha' & Hnew)].
    + rewrite Hold. now apply Hd.
    + exists a, t. split; [rewrite <- Ha'; now apply Hr|]. rewrite Hnew. f_equal. rewrite Hm.
      clear - Ha. revert a Ha. generalize (length (idxs s)). intros k. revert k. induction mus0 as [|x m IHm]; intros k a Ha.
      * now rewrite firstn_nil.
      * destruct k as [|k]; [lia|]. destruct a as [|a]; [reflexivity|]. cbn [firstn nth]. apply IHm. lia.
  - rewrite (pass_rest valid postselect kernel S t n s H). clear i Hi N.
    set (p := fun i : nat => negb _). revert Hr. generalize (idxs s). clear.
    assert (G : forall l b, (forall a, (a < length l)%nat -> (b + a <= nth a l 0)%nat) -> forall a, (a < length (filter p l))%nat -> (b + a <= nth a (filter p l) 0)%nat).
    { induction l as [|x l IH]; intros b Hb a Ha; [simpl in Ha; lia|]. cbn [filter] in *. destruct (p x).
      - destruct a as [|a]; [apply (Hb 0%nat); simpl; lia|]. cbn [nth]. simpl in Ha. replace (b + Datatypes.S a)%nat with (Datatypes.S b + a)%nat by lia.
        apply IH; [|lia]. intros k Hk. specialize (Hb (Datatypes.S k) ltac:(simpl; lia)). simpl in Hb. lia.
      - apply IH; [|assumption]. intros k Hk. specialize (Hb (Datatypes.S k) ltac:(simpl; lia)). simpl in Hb. lia. }
    intros l Hl a Ha. apply (G l 0%nat); [exact Hl|assumption].
Qed.
End First.

(** ** C24: moments *)
Section Moments.
Variable d : nat.
Variable Ez : (list R -> R) -> R.
Hypothesis HE : kernel_expectation d Ez.

Lemma ez_const k : Ez (fun _ => k) = k.
Proof.
  transitivity (Ez (fun _ => k * 1)); [apply (ez_ext d Ez HE); intros; ring|].
  rewrite (ez_scal d Ez HE k (fun _ => 1)), (ez_one d Ez HE). ring.
Qed.
Lemma ez_Sum n (f : nat -> list R -> R) : Ez (fun z => Sum n (fun k => f k z)) = Sum n (fun k => Ez (f k)).
Proof.
  induction n as [|n IH]; [exact (ez_const 0)|]. rewrite Sum_last, <- IH, <- (ez_plus d Ez HE). apply (ez_ext d Ez HE). intros. apply Sum_last.
Qed.
Lemma Sum_delta n p (f : nat -> R) : (p < n)%nat -> Sum n (fun q => f q * (if Nat.eqb p q then 1 else 0)) = f p.
Proof.
  revert p f; induction n as [|n IH]; intros p f Hp; [lia|]. rewrite Sum_S. destruct p as [|p].
  - cbn [Nat.eqb]. rewrite Sum_zero; [ring|]. intros. ring.
  - cbn [Nat.eqb]. rewrite (IH p (fun q => f (S q))) by lia. ring.
Qed.

Lemma nth_point a h m S x z p : (p < d)%nat ->
  nth p (lw_point d a h m S x z) 0 = a * nth p x 0 + (1 - a) * nth p m 0 + h * Sum d (fun k => entry S p k * nth k z 0).
Proof.
  intros Hp. unfold lw_point.
  rewrite (nth_indep (map _ (seq 0 d)) 0 ((fun p => a * nth p x 0 + (1 - a) * nth p m 0 + h * Sum d (fun k => entry S p k * nth k z 0)) 0%nat)) by now rewrite map_length, seq_length.
  now rewrite (map_nth (fun p => a * nth p x 0 + (1 - a) * nth p m 0 + h * Sum d (fun k => entry S p k * nth k z 0))), seq_nth by assumption.
Qed.

Lemma ez_noise S p : Ez (fun z => Sum d (fun k => entry S p k * nth k z 0)) = 0.
Proof.
  rewrite (ez_Sum d (fun k z => entry S p k * nth k z 0)). apply Sum_zero. intros k Hk. rewrite (ez_scal d Ez HE), (ez_mean d Ez HE) by assumption. ring.
Qed.
Lemma ez_noise2 S p q : Ez (fun z => Sum d (fun k => entry S p k * nth k z 0) * Sum d (fun k => entry S q k * nth k z 0)) =
  Sum d (fun k => entry S p k * entry S q k).
Proof.
  transitivity (Ez (fun z => Sum d (fun k => Sum d (fun k' => entry S p k * entry S q k' * (nth k z 0 * nth k' z 0))))).
  { apply (ez_ext d Ez HE). intros z _. rewrite <- Sum_scal_r. apply Sum_ext. intros k _. rewrite <- Sum_scal. apply Sum_ext. intros k' _. ring. }
  rewrite (ez_Sum d (fun k z => Sum d (fun k' => entry S p k * entry S q k' * (nth k z 0 * nth k' z 0)))). apply Sum_ext. intros k Hk.
  rewrite (ez_Sum d (fun k' z => entry S p k * entry S q k' * (nth k z 0 * nth k' z 0))).
  rewrite (Sum_ext d _ (fun k' => entry S p k * entry S q k' * (if Nat.eqb k k' then 1 else 0))).
  - now apply (Sum_delta d k (fun k' => entry S p k * entry S q k')).
  - intros k' Hk'. now rewrite (ez_scal d Ez HE), (ez_cov d Ez HE).
Qed.

Lemma mean_preserved w l a h S p : prob_vector w -> length l = length w -> (p < d)%nat ->
  Sum (length w) (fun j => nth j w 0 * Ez (fun z => nth p (lw_point d a h (est_mean d w l) S (nth j l []) z) 0))
  = nth p (est_mean d w l) 0.
Proof.
  intros Hp Hl Hpd.
  set (m := nth p (est_mean d w l) 0).
  transitivity (Sum (length w) (fun j => nth j w 0 * (a * coord l p j + (1 - a) * m))).
  { apply Sum_ext. intros j _. f_equal.
    transitivity (Ez (fun z => (a * coord l p j + (1 - a) * m) + h * Sum d (fun k => entry S p k * nth k z 0))).
    - apply (ez_ext d Ez HE). intros z _. rewrite nth_point by assumption. reflexivity.
    - rewrite (ez_plus d Ez HE), ez_const, (ez_scal d Ez HE), ez_noise. ring. }
  change (expect (length w) (fun i => nth i w 0) (fun j => a * coord l p j + (1 - a) * m) = m).
  rewrite expect_affine by now apply prob_Sum. rewrite <- rdot_col by now symmetry.
  rewrite <- (nth_est_mean d) by assumption. fold m. ring.
Qed.

Lemma covariance_formula w l a h S p q : prob_vector w -> length l = length w -> (p < d)%nat -> (q < d)%nat ->
  let m := est_mean d w l in
  Sum (length w) (fun j => nth j w 0 * Ez (fun z =>
    (nth p (lw_point d a h m S (nth j l []) z) 0 - nth p m 0) * (nth q (lw_point d a h m S (nth j l []) z) 0 - nth q m 0)))
  = a ^ 2 * entry (est_cov d w l) p q + h ^ 2 * Sum d (fun k => entry S p k * entry S q k).
Proof.
  intros Hp Hl Hpd Hqd m.
  set (mp := nth p m 0). set (mq := nth q m 0).
  set (N := Sum d (fun k => entry S p k * entry S q k)).
  transitivity (Sum (length w) (fun j => a ^ 2 * (nth j w 0 * ((coord l p j - mp) * (coord l q j - mq))) + nth j w 0 * (h ^ 2 * N))).
  { apply Sum_ext. intros j _.
    transitivity (nth j w 0 * (a ^ 2 * ((coord l p j - mp) * (coord l q j - mq)) + h ^ 2 * N)); [|ring]. f_equal.
    set (dp := coord l p j - mp). set (dq := coord l q j - mq).
    transitivity (Ez (fun z => a ^ 2 * (dp * dq) + ((a * h * dp) * Sum d (fun k => entry S q k * nth k z 0) +
       ((a * h * dq) * Sum d (fun k => entry S p k * nth k z 0) +
       h ^ 2 * (Sum d (fun k => entry S p k * nth k z 0) * Sum d (fun k => entry S q k * nth k z 0)))))).
    - apply (ez_ext d Ez HE). intros z _. rewrite !nth_point by assumption. unfold dp, dq, mp, mq, coord. ring.
    - rewrite !(ez_plus d Ez HE), ez_const, !(ez_scal d Ez HE), !ez_noise, ez_noise2. fold N. ring. }
  rewrite Sum_plus, Sum_scal, Sum_scal_r, prob_Sum by assumption.
  unfold entry at 1. rewrite nth_est_cov by assumption. rewrite cov_covar by (try apply Hp; now symmetry).
  unfold covar, expect at 1. unfold mp, mq, m. rewrite !nth_est_mean by assumption. rewrite !rdot_col by now symmetry. ring.
Qed.
End Moments.

Lemma fro2_zero d w l : prob_vector w -> length l = length w -> (sqrt (fro2 (est_cov d w l)) = 0 <-> forall p q, (p < d)%nat -> (q < d)%nat -> entry (est_cov d w l) p q = 0).
Proof.
  intros Hp Hl.
  assert (Hnn : 0 <= fro2 (est_cov d w l)).
  { unfold fro2. apply rsum_map_nonneg. intros row _. apply rsum_sq_nonneg. }
  assert (E : sqrt (fro2 (est_cov d w l)) = 0 <-> fro2 (est_cov d w l) = 0).
  { split; [intros H; now apply sqrt_eq_0|intros ->; apply sqrt_0]. }
  rewrite E. unfold fro2. split.
  - intros H p q Hp' Hq'. apply rsum_nonneg_zero in H.
    2:{ apply Forall_forall. intros x Hx. apply in_map_iff in Hx as (row & <- & _). apply rsum_sq_nonneg. }
    rewrite Forall_forall in H.
    assert (Hrow : In (nth p (est_cov d w l) []) (est_cov d w l)) by (apply nth_In; unfold est_cov; now rewrite map_length, seq_length).
    assert (Hlen : length (nth p (est_cov d w l) []) = d).
    { unfold est_cov in *. apply in_map_iff in Hrow as (x & <- & _). now rewrite map_length, seq_length. }
    specialize (H _ (in_map _ _ _ Hrow)). apply rsum_nonneg_zero in H.
    2:{ apply Forall_forall. intros x Hx. apply in_map_iff in Hx as (y & <- & _). apply Rle_0_sqr. }
    rewrite Forall_forall in H. unfold entry. set (row := nth p _ _) in *.
    assert (Hin : In (nth q row 0) row) by (apply nth_In; lia).
    specialize (H _ (in_map (fun x => x * x) _ _ Hin)). cbv beta in H. apply Rmult_integral in H as [H|H]; assumption.
  - intros H. apply rsum_zero. apply Forall_forall. intros x Hx. apply in_map_iff in Hx as (row & <- & Hrow).
    apply rsum_zero. apply Forall_forall. intros x Hx. apply in_map_iff in Hx as (y & <- & Hy).
    apply (In_nth _ _ []) in Hrow as (p & Hp' & <-). apply (In_nth _ _ 0) in Hy as (q & Hq & <-).
    unfold est_cov in Hp'. rewrite map_length, seq_length in Hp'.
    assert (length (nth p (est_cov d w l) []) = d).
    { unfold est_cov. rewrite (nth_indep _ [] (map (fun n => particle_cov w l 0 n) (seq 0 d))) by now rewrite map_length, seq_length.
      rewrite (map_nth (fun m => map (fun n => particle_cov w l m n) (seq 0 d))). now rewrite map_length, seq_length. }
    fold (entry (est_cov d w l) p q). rewrite H by lia. ring.
Qed.
