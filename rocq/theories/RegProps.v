(** Theorems for properties C74-C76 (credible regions). *)
From Verif Require Import Base Sums SmcModel LinAlg LinProofs PartModel PartSpec PartProofs PartProps RegSpec RegModel RegProofs RegProofs2.
From Coq Require String.

(** C74: every stop of the loop leaves a probability vector; the call never fails. *)
Theorem c74_weights_stay_probability inv fuel N d p tol r : (0 < N)%nat -> (0 < d)%nat -> inverts inv (S d) -> spanning N d p ->
  mvee_loop inv fuel N d p tol 1 (fun _ => 1 / INR N) = Some r -> exists u, r = Ok u /\ weights_on N u.
Proof.
  intros HN Hd Hi Hs H. pose proof (loop_good inv N d p HN Hd Hi fuel tol 1 _ (start_good N d p HN Hs)) as HL.
  rewrite H in HL. destruct r as [u|e]; [|contradiction]. destruct HL as [[HP _] _]. now exists u.
Qed.
Theorem c74_never_fails inv fuel N d p tol e : (0 < N)%nat -> (0 < d)%nat -> inverts inv (S d) -> inverts inv d -> spanning N d p ->
  mvee inv fuel N d p tol <> Some (Err e).
Proof.
  intros HN Hd Hi Hid Hs H. pose proof (mvee_shape inv N d p HN Hd Hi Hid Hs fuel tol) as HL. now rewrite H in HL.
Qed.
Theorem c74_encloses_within_tolerance inv fuel N d p tol B c : (0 < N)%nat -> (0 < d)%nat -> inverts inv (S d) -> inverts inv d -> spanning N d p ->
  tol < 1 -> tol * (INR d + 1) * (INR d + 1) < INR d -> mvee inv fuel N d p tol = Some (Ok (B, c)) ->
  forall a, (a < N)%nat -> dist2 d B c (p a) <= slack d tol.
Proof. intros HN Hd Hi Hid Hs H1 H2 H. exact (enclose inv N d p HN Hd Hi Hid Hs fuel tol B c H1 H2 H). Qed.
Theorem c74_centre_and_shape inv fuel N d p tol B c : (0 < N)%nat -> (0 < d)%nat -> inverts inv (S d) -> inverts inv d -> spanning N d p ->
  mvee inv fuel N d p tol = Some (Ok (B, c)) ->
  in_hull N d p c /\ (forall y, 0 <= rquad d B y) /\ (forall i j, (i < d)%nat -> (j < d)%nat -> B i j = B j i).
Proof. intros HN Hd Hi Hid Hs H. exact (mvee_psd inv N d p HN Hd Hi Hid Hs fuel tol B c H). Qed.
(** The slack tends to 1 with the tolerance *)
Theorem c74_slack_tends_to_one d e : (0 < d)%nat -> 0 < e -> exists t0, 0 < t0 /\ forall tol, 0 <= tol < t0 -> 1 <= slack d tol < 1 + e.
Proof.
  intros Hd He. assert (HD : 1 <= INR d) by (change 1 with (INR 1); apply le_INR; lia). unfold slack. set (D := INR d) in *. clearbody D.
  set (K := (D + 1) / D).
  assert (HK : 0 < K) by (unfold K; apply Rdiv_lt_0_compat; lra).
  exists (Rmin (1 / (2 * K * (D + 1))) (e / (2 * (1 + e) * (K * (D + 1) + K * K)))).
  assert (P1 : 0 < 2 * K * (D + 1)) by (apply Rmult_lt_0_compat; lra).
  assert (P2 : 0 < K * (D + 1) + K * K) by (apply Rplus_lt_0_compat; apply Rmult_lt_0_compat; lra).
  assert (P3 : 0 < 2 * (1 + e) * (K * (D + 1) + K * K)) by (apply Rmult_lt_0_compat; lra).
  split; [apply Rmin_glb_lt; apply Rdiv_lt_0_compat; lra|]. intros tol [Ht0 Ht].
  assert (Ha : tol * (2 * K * (D + 1)) < 1).
  { assert (H : tol < 1 / (2 * K * (D + 1))) by (eapply Rlt_le_trans; [exact Ht|apply Rmin_l]).
    apply (Rmult_lt_compat_r (2 * K * (D + 1))) in H; [|assumption]. replace (1 / (2 * K * (D + 1)) * (2 * K * (D + 1))) with 1 in H by (field; lra). lra. }
  assert (Hb : tol * (2 * (1 + e) * (K * (D + 1) + K * K)) < e).
  { assert (H : tol < e / (2 * (1 + e) * (K * (D + 1) + K * K))) by (eapply Rlt_le_trans; [exact Ht|apply Rmin_r]).
    apply (Rmult_lt_compat_r (2 * (1 + e) * (K * (D + 1) + K * K))) in H; [|assumption].
    replace (e / (2 * (1 + e) * (K * (D + 1) + K * K)) * (2 * (1 + e) * (K * (D + 1) + K * K))) with e in H; [lra|]. field. split; [apply Rgt_not_eq; nra|lra]. }
  replace (tol * (D + 1) / D) with (tol * K) by (unfold K; field; lra).
  replace (tol * K * (D + 1) / D) with (tol * K * K) by (unfold K; field; lra).
  assert (Q1 : 0 <= tol * K * (D + 1)) by (apply Rmult_le_pos; [apply Rmult_le_pos|]; lra).
  assert (Q2 : 0 <= tol * K * K) by (apply Rmult_le_pos; [apply Rmult_le_pos|]; lra).
  assert (Q3 : 0 < 1 - tol * K * (D + 1)) by lra.
  set (x := tol * K * (D + 1)) in *. set (y := tol * K * K) in *.
  assert (Hxy : (x + y) * (2 * (1 + e)) < e) by (unfold x, y; lra).
  clearbody x y. split.
  - apply (Rmult_le_reg_r (1 - x)); [assumption|]. replace ((1 + y) / (1 - x) * (1 - x)) with (1 + y) by (field; lra). lra.
  - apply (Rmult_lt_reg_r (1 - x)); [assumption|]. replace ((1 + y) / (1 - x) * (1 - x)) with (1 + y) by (field; lra). nra.
Qed.

Lemma picked_coord cols l K a b : (a < length K)%nat -> (b < length cols)%nat ->
  pts_of (map (fun k0 => map (fun j => nth j (nth k0 l []) 0) cols) K) a b = coord l (nth b cols 0%nat) (nth a K 0%nat).
Proof.
  intros Ha Hb. unfold pts_of, coord. set (f := fun k0 => map (fun j => nth j (nth k0 l []) 0) cols).
  rewrite (nth_indep (map f K) [] (f 0%nat)) by (rewrite map_length; assumption). rewrite map_nth. unfold f.
  set (g := fun j => nth j (nth (nth a K 0%nat) l []) 0). rewrite (nth_indep (map g cols) 0 (g 0%nat)) by (rewrite map_length; assumption).
  now rewrite map_nth.
Qed.

(** C75 *)
Section Statements.
  Import String. Local Open Scope string_scope.
  Variables (inv : nat -> rmat -> option rmat) (ppf : R -> nat -> R) (hv : list (list R) -> list nat) (fs : list (list R) -> vec -> Z).
  Variables (fuel nmp : nat) (cols asc : list nat) (w : list R) (l : list (list R)) (points : list vec) (level : R) (tol : option R).
  Let region m := in_credible_region inv ppf hv fs fuel nmp cols asc w l points level m tol.
  Let k := List.length cols.
  Let picked : list R -> list R := fun x => map (fun j => nth j x 0) cols.

  Theorem c75_pce_is_mahalanobis Ci : prob_vector w -> List.length w = List.length l -> (forall j, In j cols -> (j < nmp)%nat) -> inverts inv k ->
    is_inv k (fun i j => covar (List.length w) (fun a => nth a w 0) (coord l (nth i cols 0%nat)) (coord l (nth j cols 0%nat))) Ci ->
    0 < ppf level k ->
    exists bs, region "pce" = Some (Ok bs) /\ Forall2 (fun x b => b = true <->
      dist2 k Ci (fun i => expect (List.length w) (fun a => nth a w 0) (coord l (nth i cols 0%nat))) x <= ppf level k) points bs.
  Proof.
    intros H1 H2 H3 H4 H5 H6. eexists. split; [exact (pce_ok inv ppf hv fs fuel nmp cols asc w l points level tol Ci H1 H2 H3 H4 H5 H6)|].
    clear. induction points as [|x xs IH]; cbn [map]; constructor; [|assumption].
    match goal with |- context [Rleb ?a ?b] => destruct (Rleb_spec a b) end; split; intro; auto; try discriminate; contradiction.
  Qed.
  Theorem c75_pce_level_zero_refuted : inverts inv k -> (0 < k)%nat -> ppf level k = 0 -> region "pce" = Some (Err ValueError).
  Proof. exact (pce_zero inv ppf hv fs fuel nmp cols asc w l points level tol). Qed.
  (** The ellipsoid tested by hpd-mvee is (x-c)^T A (x-c) <= 1 for the returned A *)
  Theorem c75_mvee_tests_returned_matrix B c : inverts inv k -> (0 < k)%nat ->
    region_est_ellipsoid inv hv fuel k asc picked w l level (match tol with None => 1 / 10000 | Some t => t end) = Some (Ok (B, c)) ->
    exists bs, region "hpd-mvee" = Some (Ok bs) /\ Forall2 (fun x b => b = true <-> dist2 k B c x <= 1) points bs.
  Proof.
    intros H1 H2 H3. eexists. split; [exact (mvee_region inv ppf hv fs fuel nmp cols asc w l points level tol B c H1 H2 H3)|].
    clear. induction points as [|x xs IH]; cbn [map]; constructor; [|assumption].
    match goal with |- context [Rleb ?a ?b] => destruct (Rleb_spec a b) end; split; intro; auto; try discriminate; contradiction.
  Qed.
  Theorem c75_hull_is_convex_hull_of_credible_particles : prob_vector w -> List.length l = List.length w -> argsorts asc w -> 0 <= level < 1 ->
    (2 <= k)%nat -> delaunay_ok k fs ->
    exists I J bs, Permutation (I ++ J) (seq 0 (List.length w)) /\ level <= mass w I /\
      region "hpd-hull" = Some (Ok bs) /\
      Forall2 (fun x b => b = true <-> in_hull (List.length I) k (fun a i => coord l (nth i cols 0%nat) (nth a I 0%nat)) x) points bs.
  Proof.
    intros H1 H2 H3 H4 Hk Hd. destruct (c18_credible_region asc picked w l level H1 H2 H3 H4) as (I & i & J & E & HP & Hm & _).
    exists (I ++ [i])%list, J. eexists. split; [assumption|]. split; [assumption|]. split; [exact (hull_region inv ppf hv fs fuel nmp cols asc w l points level tol _ _ Hk E)|].
    assert (Hh : forall x, (0 <=? fs (map (fun k0 => picked (nth k0 l [])) (I ++ [i])%list) x)%Z = true <->
        in_hull (List.length (I ++ [i])%list) k (fun a b => coord l (nth b cols 0%nat) (nth a (I ++ [i])%list 0%nat)) x).
    { intro x. rewrite Z.leb_le, (Hd _ x), map_length. set (K := (I ++ [i])%list).
      assert (Hp : forall a b, (a < List.length K)%nat -> (b < k)%nat -> pts_of (map (fun k0 => picked (nth k0 l [])) K) a b = coord l (nth b cols 0%nat) (nth a K 0%nat)).
      { intros a b Ha Hb. now apply picked_coord. }
      split; intros (u & Hu & Hx); exists u; (split; [assumption|]); intros b Hb; rewrite (Hx b Hb); apply Sum_ext; intros a Ha; f_equal; [|symmetry]; now apply Hp. }
    clear - Hh. induction points as [|x xs IH]; cbn [map]; constructor; [apply Hh|assumption].
  Qed.
  Theorem c75_unknown_method_refuted m : m <> "pce" -> m <> "hpd-mvee" -> m <> "hpd-hull" -> region m = Some (Err UnboundLocalError).
  Proof. exact (other_method inv ppf hv fs fuel nmp cols asc w l points level tol m). Qed.
  (** One-parameter distributions: both hpd methods, including the default, always fail *)
  Theorem c75_single_parameter_refuted m : prob_vector w -> List.length l = List.length w -> argsorts asc w -> 0 <= level < 1 -> k = 1%nat ->
    m = "hpd-hull" \/ m = "hpd-mvee" -> region m = Some (Err ValueError).
  Proof.
    intros H1 H2 H3 H4 Hk Hm. destruct (c18_credible_region asc picked w l level H1 H2 H3 H4) as (I & i & J & E & _).
    unfold region, in_credible_region. destruct Hm as [-> | ->]; cbn [String.eqb Ascii.eqb Bool.eqb].
    - fold picked. rewrite E. cbn [bind]. fold k. rewrite Hk. reflexivity.
    - unfold region_est_ellipsoid, region_est_hull_vertices. fold picked. rewrite E. cbn [bind]. fold k. rewrite Hk. reflexivity.
  Qed.

  (** C76 *)
  Theorem c76_hull_region_is_convex x y t : prob_vector w -> List.length l = List.length w -> argsorts asc w -> 0 <= level < 1 ->
    (2 <= k)%nat -> delaunay_ok k fs -> 0 <= t <= 1 ->
    points = [x; y; fun i => t * x i + (1 - t) * y i] -> forall b, region "hpd-hull" = Some (Ok [true; true; b]) -> b = true.
  Proof.
    intros H1 H2 H3 H4 Hk Hd Ht Hp b Hr.
    destruct (c75_hull_is_convex_hull_of_credible_particles H1 H2 H3 H4 Hk Hd) as (I & J & bs & _ & _ & E & HF).
    rewrite Hr in E. injection E as <-. rewrite Hp in HF. inversion HF as [|? ? ? ? Hx HF1]; subst. inversion HF1 as [|? ? ? ? Hy HF2]; subst.
    inversion HF2 as [|? ? ? ? Hz _]; subst. apply Hz. apply in_hull_convex; [assumption|now apply Hx|now apply Hy].
  Qed.
  Theorem c76_hull_mass : prob_vector w -> List.length l = List.length w -> argsorts asc w -> 0 <= level < 1 ->
    (2 <= k)%nat -> delaunay_ok k fs -> points = map (fun x i => nth (nth i cols 0%nat) x 0) l ->
    exists bs, region "hpd-hull" = Some (Ok bs) /\ List.length bs = List.length w /\
      level <= Sum (List.length w) (fun i => if nth i bs false then nth i w 0 else 0).
  Proof.
    intros H1 H2 H3 H4 Hk Hd Hp.
    destruct (c75_hull_is_convex_hull_of_credible_particles H1 H2 H3 H4 Hk Hd) as (I & J & bs & HP & Hm & E & HF).
    exists bs. split; [assumption|]. assert (HL : List.length bs = List.length w).
    { assert (HF' : List.length points = List.length bs) by (clear - HF; induction HF; cbn; congruence). rewrite <- HF', Hp, map_length. assumption. }
    split; [assumption|]. apply Rle_trans with (mass w I); [assumption|].
    apply (mass_perm_le w I J (fun i => nth i bs false) HP (proj1 H1)). intros i Hi.
    assert (Hiw : (i < List.length w)%nat). { assert (Hs : In i (seq 0 (List.length w))) by (eapply Permutation_in; [exact HP|apply in_app_iff; now left]). apply in_seq in Hs. lia. }
    assert (HG : nth i bs false = true <-> in_hull (List.length I) k (fun a i => coord l (nth i cols 0%nat) (nth a I 0%nat)) (fun j => nth (nth j cols 0%nat) (nth i l []) 0)).
    { assert (Hn : forall P (xs : list vec) (ys : list bool) a dx, Forall2 P xs ys -> (a < List.length xs)%nat -> P (nth a xs dx) (nth a ys false)).
      { clear. intros P xs ys a dx HF. revert a. induction HF as [|x y xs ys H HF IH]; intros a Ha; [cbn in Ha; lia|]. destruct a; cbn; [assumption|]. apply IH. cbn in Ha. lia. }
      specialize (Hn _ _ _ i (fun j => nth (nth j cols 0%nat) [] 0) HF). rewrite Hp in Hn. rewrite map_length in Hn.
      rewrite (map_nth (fun x j => nth (nth j cols 0%nat) x 0) l []) in Hn. apply Hn. rewrite H2. assumption. }
    apply HG. destruct (In_nth I i 0%nat Hi) as (a & Ha & Ea).
    apply (in_hull_ext _ _ _ ((fun a i => coord l (nth i cols 0%nat) (nth a I 0%nat)) a)); [intros b Hb; unfold coord; rewrite Ea; reflexivity|].
    exact (in_hull_vertex (List.length I) k (fun a i => coord l (nth i cols 0%nat) (nth a I 0%nat)) a Ha).
  Qed.
  (** Every credible particle is in the returned ellipsoid, up to the slack of the tolerance *)
  Theorem c76_mvee_contains_credible_particles tol0 B c : prob_vector w -> List.length l = List.length w -> argsorts asc w -> 0 <= level < 1 ->
    (2 <= k)%nat -> inverts inv (S k) -> inverts inv k -> hull_ok k hv -> tol0 < 1 -> tol0 * (INR k + 1) * (INR k + 1) < INR k ->
    (forall pts, region_est_hull_vertices hv k asc picked w l level = Ok pts -> (0 < List.length pts)%nat /\ spanning (List.length pts) k (pts_of pts)) ->
    region_est_ellipsoid inv hv fuel k asc picked w l level tol0 = Some (Ok (B, c)) ->
    exists I J, Permutation (I ++ J) (seq 0 (List.length w)) /\ level <= mass w I /\
      forall i, In i I -> dist2 k B c (fun j => coord l (nth j cols 0%nat) i) <= slack k tol0.
  Proof.
    intros H1 H2 H3 H4 Hk HiS Hi Hh Ht Htt Hsp HE. destruct (c18_credible_region asc picked w l level H1 H2 H3 H4) as (I & i & J & E & HP & Hm & _).
    exists (I ++ [i])%list, J. split; [assumption|]. split; [assumption|]. intros m Hmi.
    unfold region_est_ellipsoid, region_est_hull_vertices in HE, Hsp. rewrite E in HE, Hsp. cbn [bind fst] in HE, Hsp. unfold qhull_check in HE, Hsp.
    destruct (Nat.ltb_spec k 2); [lia|]. cbn [bind] in HE, Hsp.
    set (pts := map (fun k0 => picked (nth k0 l [])) (I ++ [i])%list) in *. destruct (Hh pts) as (Hnd & Hlt & Hhull).
    rewrite (uniquify_nodup _ Hnd) in HE, Hsp. set (vs := map (fun a => nth a pts []) (hv pts)) in *.
    destruct (Hsp vs eq_refl) as [HN Hspan].
    assert (Hk0 : (0 < k)%nat) by lia.
    pose proof (enclose inv (List.length vs) k (pts_of vs) HN Hk0 HiS Hi Hspan fuel tol0 B c Ht Htt HE) as Henc.
    destruct (mvee_psd inv (List.length vs) k (pts_of vs) HN Hk0 HiS Hi Hspan fuel tol0 B c HE) as (_ & Hpsd & _).
    destruct (In_nth _ m 0%nat Hmi) as (a & Ha & Ea). destruct (Hhull a) as (u & Hu & Hx); [unfold pts; rewrite map_length; assumption|].
    assert (Lvs : List.length vs = List.length (hv pts)) by (unfold vs; now rewrite map_length).
    assert (Hxm : forall j, (j < k)%nat -> coord l (nth j cols 0%nat) m = Sum (List.length vs) (fun b => u b * pts_of vs b j)).
    { intros j Hj. rewrite Lvs. transitivity (pts_of pts a j).
      - symmetry. rewrite <- Ea. now apply picked_coord.
      - rewrite (Hx j Hj). apply Sum_ext. intros b Hb. f_equal. unfold pts_of at 2, vs.
        rewrite (nth_indep _ [] (nth 0 pts [])) by (rewrite map_length; assumption). rewrite (map_nth (fun a => nth a pts []) _ 0%nat b). reflexivity. }
    unfold dist2. destruct Hu as [Hu Hus].
    assert (Hu' : weights_on (List.length vs) u) by (rewrite Lvs; now split).
    rewrite (rquad_ext k B B _ (fun j => Sum (List.length vs) (fun b => u b * (pts_of vs b j - c j)))).
    - apply Rle_trans with (1 := quad_jensen k (List.length vs) B u (fun b j => pts_of vs b j - c j) Hu' Hpsd).
      rewrite <- (Rmult_1_l (slack k tol0)), <- (proj2 Hu'), Sum_mul_r. apply Sum_le. intros b Hb. apply Rmult_le_compat_l; [now apply (proj1 Hu')|]. now apply Henc.
    - intros ? ? _ _; reflexivity.
    - intros j Hj. rewrite Hxm by assumption. rewrite (Sum_ext _ (fun b => u b * (pts_of vs b j - c j)) (fun b => u b * pts_of vs b j - u b * c j)) by (intros; ring).
      rewrite Sum_minus, Sum_scal_r, (proj2 Hu'). ring.
  Qed.
End Statements.

(** Four particles at distance two from the origin, on the axes *)
Definition cross : list (list R) := [[2; 0]; [-2; 0]; [0; 2]; [0; -2]].
Definition diag3 (x y z : R) : rmat := fun i j => if Nat.eqb i j then match i with 0 => x | 1 => y | _ => z end%nat else 0.

Lemma cross_spanning : spanning 4 2 (pts_of cross).
Proof.
  exists (diag3 (1/2) (1/2) 1). split; intros i j Hi Hj; unfold rmul; rewrite Sum3, !Sum4; unfold lifted, pts_of, cross, diag3, kd;
    destruct i as [|[|[|]]]; try lia; destruct j as [|[|[|]]]; try lia; cbn; lra.
Qed.
Example c74_example : inverts inv_small 3 /\ inverts inv_small 2 /\ spanning 4 2 (pts_of cross) /\ 1/1000 * (INR 2 + 1) * (INR 2 + 1) < INR 2.
Proof. refine (conj inverts3 (conj inverts2 (conj cross_spanning _))). cbn; lra. Qed.

(** On this cross the iteration stops after one pass with the exact circle *)
Lemma cross_mvee inv tol : inverts inv 3 -> inverts inv 2 -> 0 <= tol < 1 ->
  exists B c, mvee inv 1 4 2 (pts_of cross) tol = Some (Ok (B, c)) /\ meq 2 B (diag3 (1/4) (1/4) 0) /\ (forall i, (i < 2)%nat -> c i = 0).
Proof.
  intros H3 H2 Ht. set (P := pts_of cross).
  pose proof (start_good 4 2 P ltac:(lia) cross_spanning) as Hg.
  destruct (body_good inv 4 2 P ltac:(lia) ltac:(lia) H3 _ Hg) as (Y & s & j & u & HY & Hj & _ & Hs & _ & Hu & Hb & Hgu).
  assert (HYd : meq 3 Y (diag3 (1/2) (1/2) 1)).
  { apply (is_inv_unique 3 _ Y _ HY). split; intros i j0 Hi Hj0; unfold rmul, gram; rewrite Sum3, !Sum4; unfold P, pts_of, cross, diag3, kd;
      destruct i as [|[|[|]]]; try lia; destruct j0 as [|[|[|]]]; try lia; cbn; lra. }
  assert (Hs0 : s = 0).
  { rewrite Hs. rewrite (rquad_ext 3 Y (diag3 (1/2) (1/2) 1) _ (lifted 2 (P j)) HYd) by (intros; reflexivity).
    assert (E : rquad 3 (diag3 (1/2) (1/2) 1) (lifted 2 (P j)) = 3).
    { unfold rquad. rewrite !Sum3. unfold lifted, diag3, P, pts_of, cross. destruct j as [|[|[|[|]]]]; try lia; cbn; lra. }
    rewrite E. unfold step_size. cbn. lra. }
  assert (Hu0 : forall a, u a = 1/4). { intro a. rewrite Hu, Hs0. unfold new_u. destruct (Nat.eqb a j); cbn; lra. }
  assert (Hn : vnorm 4 (fun a => u a - 1 / INR 4) = 0).
  { unfold vnorm. rewrite Sum4, !Hu0. replace (INR 4) with 4 by (cbn; lra).
    replace ((1/4 - 1/4) * (1/4 - 1/4) + (1/4 - 1/4) * (1/4 - 1/4) + (1/4 - 1/4) * (1/4 - 1/4) + (1/4 - 1/4) * (1/4 - 1/4)) with 0 by lra. apply sqrt_0. }
  destruct (result_good inv 4 2 P ltac:(lia) ltac:(lia) H2 u Hgu) as (Y2 & Z & _ & _ & HZ & Hr & _).
  exists (fun i j => 1 / INR 2 * Z i j), (mvee_c 4 P u). split; [|split].
  - unfold mvee. cbn [mvee_loop]. rewrite Rltb_true by lra. rewrite Hb.
    cbv beta in Hn. rewrite Hn. rewrite Rltb_false by lra. now rewrite Hr.
  - assert (HZd : meq 2 Z (diag3 (1/2) (1/2) 0)).
    { apply (is_inv_unique 2 _ Z _ HZ). split; intros i j0 Hi Hj0; unfold rmul at 1, mvee_S, router, mvee_c; rewrite Sum2; unfold rmul; rewrite !Sum4; unfold rdiag, rtr; rewrite ?Sum4, !Hu0; unfold P, pts_of, cross, diag3, kd;
        destruct i as [|[|]]; try lia; destruct j0 as [|[|]]; try lia; cbn; lra. }
    intros i j0 Hi Hj0. rewrite HZd by assumption. unfold diag3. destruct i as [|[|]]; try lia; destruct j0 as [|[|]]; try lia; cbn; lra.
  - intros i Hi. unfold mvee_c. rewrite Sum4, !Hu0. unfold P, pts_of, cross. destruct i as [|[|]]; try lia; cbn; lra.
Qed.

Lemma cross_region inv fuel (hv : list (list R) -> list nat) : hv cross = seq 0 4 ->
  region_est_ellipsoid inv hv fuel 2 (rev (seq 0 4)) (fun x => map (fun j => nth j x 0) [0; 1]%nat) [1/4; 1/4; 1/4; 1/4] cross (95/100) (1/10000)
  = mvee inv fuel 4 2 (pts_of cross) (1/10000).
Proof.
  intro Hv. unfold region_est_ellipsoid, region_est_hull_vertices.
  assert (E : est_credible_region (rev (seq 0 4)) (fun x => map (fun j => nth j x 0) [0; 1]%nat) [1/4; 1/4; 1/4; 1/4] cross (95/100) = Ok (cross, [])).
  { unfold est_credible_region. rewrite rev_involutive. cbn [seq take bind map nth cross length].
    unfold take, cross; cbn -[Rleb]. unfold cumsum; cbn -[Rleb].
    rewrite !(Rleb_true _ (95/100)) by lra. rewrite Rleb_false by lra. reflexivity. }
  rewrite E. cbn [bind fst]. rewrite Hv. reflexivity.
Qed.

(** region_est_ellipsoid documents its ellipsoid as (x-c)^T A^{-1} (x-c) <= 1, but the A it returns is
    the inverse of that matrix: already the credible particles violate the documented inequality. *)
Theorem c75_documented_ellipsoid_refuted inv hv : inverts inv 3 -> inverts inv 2 -> hv cross = seq 0 4 ->
  exists B c Bi, region_est_ellipsoid inv hv 1 2 (rev (seq 0 4)) (fun x => map (fun j => nth j x 0) [0; 1]%nat) [1/4; 1/4; 1/4; 1/4] cross (95/100) (1/10000) = Some (Ok (B, c)) /\
    is_inv 2 B Bi /\ forall a, (a < 4)%nat -> dist2 2 B c (pts_of cross a) = 1 /\ dist2 2 Bi c (pts_of cross a) = 16.
Proof.
  intros H3 H2 Hv. destruct (cross_mvee inv (1/10000) H3 H2 ltac:(lra)) as (B & c & E & HB & Hc).
  exists B, c, (diag3 4 4 0). split; [rewrite cross_region by assumption; exact E|]. split.
  - split; intros i j Hi Hj; unfold rmul; rewrite Sum2; rewrite !HB by lia; unfold diag3, kd; destruct i as [|[|]]; try lia; destruct j as [|[|]]; try lia; cbn; lra.
  - intros a Ha. split.
    + rewrite (dist2_ext 2 B (diag3 (1/4) (1/4) 0) c (fun _ => 0) _ (pts_of cross a) HB Hc ltac:(reflexivity)).
      unfold dist2, rquad. rewrite !Sum2. unfold diag3, pts_of, cross. destruct a as [|[|[|[|]]]]; try lia; cbn; lra.
    + rewrite (dist2_ext 2 (diag3 4 4 0) (diag3 4 4 0) c (fun _ => 0) _ (pts_of cross a)); [|intros ? ? _ _; reflexivity|assumption|reflexivity].
      unfold dist2, rquad. rewrite !Sum2. unfold diag3, pts_of, cross. destruct a as [|[|[|[|]]]]; try lia; cbn; lra.
Qed.
Example c75_example : prob_vector [1/4; 1/4; 1/4; 1/4] /\ argsorts (rev (seq 0 4)) [1/4; 1/4; 1/4; 1/4] /\
  is_inv 2 (fun i j => covar 4 (fun a => nth a [1/4; 1/4; 1/4; 1/4] 0) (coord cross i) (coord cross j)) (diag3 (1/2) (1/2) 0).
Proof.
  split; [split; [repeat constructor; lra|unfold rsum; cbn; lra]|]. split.
  - split; [apply Permutation_sym, Permutation_rev|]. intros a b Hab. cbn in *.
    destruct a as [|[|[|[|a]]]]; destruct b as [|[|[|[|b]]]]; cbn; try lra; lia.
  - split; intros i j Hi Hj; unfold rmul; rewrite Sum2; unfold covar, expect; rewrite !Sum4; unfold coord, cross, diag3, kd; destruct i as [|[|]]; try lia; destruct j as [|[|]]; try lia; cbn; lra.
Qed.
Example c76_example : hull_ok 2 (fun pts => seq 0 (length pts)) /\ prob_vector [1/4; 1/4; 1/4; 1/4] /\ spanning 4 2 (pts_of cross).
Proof.
  split; [|split; [split; [repeat constructor; lra|unfold rsum; cbn; lra]|exact cross_spanning]].
  intro pts. split; [apply seq_NoDup|]. split; [intros i Hi; apply in_seq in Hi; lia|].
  intros a Ha. rewrite seq_length. exists (fun b => kd a b). split; [split|].
  - intros b _. unfold kd. destruct (Nat.eqb a b); lra.
  - rewrite (Sum_ext _ _ (fun b => kd a b * 1)) by (intros; ring). now apply (Sum_kd_l _ a (fun _ => 1)).
  - intros i Hi. rewrite (Sum_ext _ _ (fun b => kd a b * pts_of pts b i)) by (intros b Hb; now rewrite seq_nth).
    symmetry. now apply (Sum_kd_l _ a (fun b => pts_of pts b i)).
Qed.

(** The returned ellipsoid does not contain every point exactly: four points on a line, default tolerance *)
Definition line4 : list (list R) := [[-1]; [1]; [-(999/1000)]; [999/1000]].
Theorem c74_exact_enclosure_refuted inv : inverts inv 2 -> inverts inv 1 ->
  exists B c a, mvee inv 1 4 1 (pts_of line4) (1/1000) = Some (Ok (B, c)) /\ (a < 4)%nat /\ 1 < dist2 1 B c (pts_of line4 a).
Proof.
  intros H2 H1. set (P := pts_of line4). set (S0 := 1998001/2000000).
  assert (HYI : is_inv 2 (gram 4 (fun a i => if Nat.ltb i 1 then P a i else 1) (fun _ => 1 / INR 4)) (diag3 (/ S0) 1 0)).
  { split; intros i j0 Hi Hj0; unfold rmul, gram; rewrite Sum2, !Sum4; unfold P, pts_of, line4, diag3, kd, S0;
      destruct i as [|[|]]; try lia; destruct j0 as [|[|]]; try lia; cbn; lra. }
  pose proof (start_good 4 1 P ltac:(lia) (ex_intro _ _ HYI)) as Hg.
  destruct (body_good inv 4 1 P ltac:(lia) ltac:(lia) H2 _ Hg) as (Y & s & j & u & HY & Hj & Hmax & Hs & _ & Hu & Hb & Hgu).
  assert (HYd : meq 2 Y (diag3 (/ S0) 1 0)) by (apply (is_inv_unique 2 _ Y _ HY HYI)).
  assert (Hq : forall a, rquad 2 Y (fun i => if Nat.ltb i 1 then P a i else 1) = P a 0%nat * P a 0%nat / S0 + 1).
  { intro a. rewrite (rquad_ext 2 Y (diag3 (/ S0) 1 0) _ (lifted 1 (P a)) HYd) by (intros; reflexivity).
    unfold rquad. rewrite !Sum2. unfold lifted, diag3. cbn. unfold Rdiv. ring. }
  assert (Hj2 : (j = 0 \/ j = 1)%nat).
  { pose proof (Hmax 0%nat ltac:(lia)) as Hm. rewrite !Hq in Hm. unfold P, pts_of, line4, S0 in Hm.
    destruct j as [|[|[|[|]]]]; try lia; cbn in Hm; lra. }
  assert (Hs0 : s = 1999/4000000).
  { rewrite Hs, Hq. replace (P j 0%nat * P j 0%nat) with 1 by (destruct Hj2 as [-> | ->]; unfold P, pts_of, line4; cbn; lra).
    unfold step_size, S0. cbn. field. }
  assert (Hn : vnorm 4 (fun a => u a - 1 / INR 4) <= 1/1000).
  { unfold vnorm. replace (1/1000) with (sqrt ((1/1000) * (1/1000))) by (rewrite sqrt_square; lra). apply sqrt_le_1_alt.
    rewrite Sum4, Hu, Hs0. unfold new_u. destruct Hj2 as [-> | ->]; cbn; lra. }
  destruct (result_good inv 4 1 P ltac:(lia) ltac:(lia) H1 u Hgu) as (Y2 & Z & _ & _ & HZ & Hr & _).
  exists (fun i j => 1 / INR 1 * Z i j), (mvee_c 4 P u), (1 - j)%nat. split; [|split; [lia|]].
  - unfold mvee. cbn [mvee_loop]. rewrite Rltb_true by lra. rewrite Hb. rewrite Rltb_false by exact Hn. now rewrite Hr.
  - destruct HZ as [HZ _]. specialize (HZ 0%nat 0%nat ltac:(lia) ltac:(lia)). unfold rmul at 1 in HZ. rewrite Sum1 in HZ.
    unfold kd in HZ. cbn [Nat.eqb] in HZ. unfold dist2, rquad. rewrite !Sum1.
    set (z := Z 0%nat 0%nat) in *. set (sv := mvee_S 4 P u 0%nat 0%nat) in *. set (cv := mvee_c 4 P u 0%nat).
    assert (Esv : sv = (1 - s) * S0 + s - s * s).
    { unfold sv, mvee_S, router, mvee_c, rmul, rdiag, rtr. rewrite !Sum4, Hu, Hs0. unfold new_u, P, pts_of, line4, S0. destruct Hj2 as [-> | ->]; cbn; lra. }
    assert (Ex : (P (1 - j)%nat 0%nat - cv) * (P (1 - j)%nat 0%nat - cv) = (1 + s) * (1 + s)).
    { unfold cv, mvee_c. rewrite !Sum4, Hu, Hs0. unfold new_u, P, pts_of, line4. destruct Hj2 as [-> | ->]; cbn; lra. }
    replace ((P (1 - j)%nat 0%nat - cv) * (1 / INR 1 * z) * (P (1 - j)%nat 0%nat - cv)) with ((P (1 - j)%nat 0%nat - cv) * (P (1 - j)%nat 0%nat - cv) * z) by (cbn; field).
    rewrite Ex. rewrite Esv, Hs0 in HZ. rewrite Hs0. unfold S0 in HZ. clear - HZ. clearbody z. lra.
Qed.
Print Assumptions c74_weights_stay_probability.
Print Assumptions c74_never_fails.
Print Assumptions c74_encloses_within_tolerance.
Print Assumptions c74_centre_and_shape.
Print Assumptions c74_slack_tends_to_one.
Print Assumptions c75_pce_is_mahalanobis.
Print Assumptions c75_pce_level_zero_refuted.
Print Assumptions c75_mvee_tests_returned_matrix.
Print Assumptions c75_hull_is_convex_hull_of_credible_particles.
Print Assumptions c75_unknown_method_refuted.
Print Assumptions c75_single_parameter_refuted.
Print Assumptions c76_hull_region_is_convex.
Print Assumptions c76_hull_mass.
Print Assumptions c76_mvee_contains_credible_particles.
Print Assumptions c75_documented_ellipsoid_refuted.
Print Assumptions c74_exact_enclosure_refuted.
