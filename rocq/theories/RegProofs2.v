(** A concrete inverse for small matrices, and the proofs about in_credible_region. *)
From Verif Require Import Base Sums SmcModel LinAlg LinProofs PartModel PartSpec PartProofs PartProps RegSpec RegModel RegProofs.
From Coq Require String.

Definition det2 (X : rmat) : R := X 0%nat 0%nat * X 1%nat 1%nat - X 0%nat 1%nat * X 1%nat 0%nat.
Definition adj2 (X : rmat) : rmat := fun i j => match i, j with 0, 0 => X 1 1 | 0, 1 => - X 0 1 | 1, 0 => - X 1 0 | _, _ => X 0 0 end%nat.
Definition det3 (X : rmat) : R :=
  (X 0%nat 0%nat * (X 1%nat 1%nat * X 2%nat 2%nat - X 1%nat 2%nat * X 2%nat 1%nat) - X 0%nat 1%nat * (X 1%nat 0%nat * X 2%nat 2%nat - X 1%nat 2%nat * X 2%nat 0%nat) + X 0%nat 2%nat * (X 1%nat 0%nat * X 2%nat 1%nat - X 1%nat 1%nat * X 2%nat 0%nat)).
Definition adj3 (X : rmat) : rmat := fun i j =>
  let a := fun r c => X (r mod 3)%nat (c mod 3)%nat in
  a (j + 1)%nat (i + 1)%nat * a (j + 2)%nat (i + 2)%nat - a (j + 1)%nat (i + 2)%nat * a (j + 2)%nat (i + 1)%nat.
Definition inv_small (n : nat) (X : rmat) : option rmat :=
  match n with
  | 1%nat => if Reqb (X 0%nat 0%nat) 0 then None else Some (fun _ _ => / X 0%nat 0%nat)
  | 2%nat => if Reqb (det2 X) 0 then None else Some (fun i j => adj2 X i j / det2 X)
  | 3%nat => if Reqb (det3 X) 0 then None else Some (fun i j => adj3 X i j / det3 X)
  | _ => None
  end.

Lemma Sum1 f : Sum 1 f = f 0%nat. Proof. unfold Sum; cbn. lra. Qed.
Lemma Sum2 f : Sum 2 f = f 0%nat + f 1%nat. Proof. unfold Sum; cbn. lra. Qed.
Lemma Sum3 f : Sum 3 f = f 0%nat + f 1%nat + f 2%nat. Proof. unfold Sum; cbn. lra. Qed.
Lemma Sum4 f : Sum 4 f = f 0%nat + f 1%nat + f 2%nat + f 3%nat. Proof. unfold Sum; cbn. lra. Qed.

Lemma inverts1 : inverts inv_small 1.
Proof.
  intro X. unfold inv_small. split.
  - intro Y. destruct (Reqb_spec (X 0%nat 0%nat) 0) as [|H]; [discriminate|]. intro E; injection E as <-.
    split; intros i j Hi Hj; assert (i = 0%nat) by lia; assert (j = 0%nat) by lia; subst; unfold rmul; rewrite Sum1, kd_same; field; assumption.
  - intros (Y & [H _]). specialize (H 0%nat 0%nat ltac:(lia) ltac:(lia)). unfold rmul in H. rewrite Sum1, kd_same in H.
    rewrite Reqb_false by (intro E; rewrite E in H; lra). eauto.
Qed.
Lemma inverts2 : inverts inv_small 2.
Proof.
  intro X. unfold inv_small. split.
  - intro Y. destruct (Reqb_spec (det2 X) 0) as [|H]; [discriminate|]. intro E; injection E as <-. unfold det2 in *.
    split; intros i j Hi Hj; unfold rmul; rewrite Sum2; unfold adj2, kd;
      destruct i as [|[|]]; try lia; destruct j as [|[|]]; try lia; cbn [Nat.eqb]; field; assumption.
  - intros (Y & [H _]).
    assert (E : det2 X * det2 Y = 1).
    { transitivity (det2 (rmul 2 X Y)); [unfold det2, rmul; rewrite !Sum2; ring|].
      unfold det2. rewrite !H by lia. unfold kd; cbn. lra. }
    rewrite Reqb_false by (intro E0; rewrite E0 in E; lra). eauto.
Qed.
Lemma inverts3 : inverts inv_small 3.
Proof.
  intro X. unfold inv_small. split.
  - intro Y. destruct (Reqb_spec (det3 X) 0) as [|H]; [discriminate|]. intro E; injection E as <-. unfold det3 in *.
    split; intros i j Hi Hj; unfold rmul; rewrite Sum3; unfold adj3, kd;
      destruct i as [|[|[|]]]; try lia; destruct j as [|[|[|]]]; try lia;
      cbn [Nat.eqb Nat.modulo Nat.divmod fst snd Nat.sub Nat.add]; field; assumption.
  - intros (Y & [H _]).
    assert (E : det3 X * det3 Y = 1).
    { transitivity (det3 (rmul 3 X Y)); [unfold det3, rmul; rewrite !Sum3; ring|].
      unfold det3. rewrite !H by lia. unfold kd; cbn. lra. }
    rewrite Reqb_false by (intro E0; rewrite E0 in E; lra). eauto.
Qed.

Lemma dist2_flip d B c x : rquad d B (fun i => c i - x i) = dist2 d B c x.
Proof.
  unfold dist2. rewrite (rquad_ext d B B (fun i => c i - x i) (fun i => (-1) * (x i - c i))).
  - rewrite rquad_scal. ring.
  - intros i j _ _; reflexivity.
  - intros; ring.
Qed.
Lemma dist2_ext d B B' c c' x x' : meq d B B' -> (forall i, (i < d)%nat -> c i = c' i) -> (forall i, (i < d)%nat -> x i = x' i) -> dist2 d B c x = dist2 d B' c' x'.
Proof. intros H1 H2 H3. apply rquad_ext; [assumption|]. intros i Hi. now rewrite H2, H3. Qed.

Lemma in_ellipsoid_ok inv d xs B c Bi : inverts inv d -> is_inv d B Bi ->
  exists bs, in_ellipsoid inv d xs B c = Ok bs /\ bs = map (fun x => Rleb (dist2 d Bi c x) 1) xs.
Proof.
  intros Hinv HB. destruct (Hinv B) as [H1 H2]. destruct (H2 (ex_intro _ Bi HB)) as [Y HY]. specialize (H1 Y HY).
  unfold in_ellipsoid. rewrite HY. eexists; split; [reflexivity|]. apply map_ext. intro x. rewrite dist2_flip. f_equal.
  apply dist2_ext; [now apply (is_inv_unique d B)| |]; reflexivity.
Qed.

Section P.
  Import String. Local Open Scope string_scope.
  Variables (inv : nat -> rmat -> option rmat) (ppf : R -> nat -> R) (hv : list (list R) -> list nat) (fs : list (list R) -> vec -> Z).
  Variables (fuel nmp : nat) (cols asc : list nat) (w : list R) (l : list (list R)) (points : list vec) (level : R) (tol : option R).
  Let k := List.length cols.
  Let region m := in_credible_region inv ppf hv fs fuel nmp cols asc w l points level m tol.
  Let mean : vec := fun i => expect (List.length w) (fun a => nth a w 0) (coord l (nth i cols 0%nat)).
  Let cov : rmat := fun i j => covar (List.length w) (fun a => nth a w 0) (coord l (nth i cols 0%nat)) (coord l (nth j cols 0%nat)).

  Lemma pce_ok Ci : prob_vector w -> List.length w = List.length l -> (forall j, In j cols -> (j < nmp)%nat) -> inverts inv k ->
    is_inv k cov Ci -> 0 < ppf level k ->
    region "pce" = Some (Ok (map (fun x => Rleb (dist2 k Ci mean x) (ppf level k)) points)).
  Proof.
    intros Hw Hl Hc Hinv HCi Hp. unfold region, in_credible_region. cbn [String.eqb Ascii.eqb Bool.eqb]. fold k.
    set (mult := ppf level k) in *.
    match goal with |- Some (in_ellipsoid _ _ _ ?B ?c) = _ => set (Bm := B); set (cm := c) end.
    assert (HB : is_inv k Bm (fun i j => / mult * Ci i j)).
    { eapply is_inv_ext; [|intros ? ? _ _; reflexivity|apply (is_inv_scal k mult cov Ci); [lra|assumption]].
      intros i j Hi Hj. unfold Bm, cov. f_equal. symmetry. apply c17_covariance_is_mean_outer_deviation; auto; apply Hc; apply nth_In; assumption. }
    destruct (in_ellipsoid_ok inv k points Bm cm _ Hinv HB) as (bs & -> & ->). f_equal. f_equal. apply map_ext. intro x.
    assert (E : dist2 k (fun i j => / mult * Ci i j) cm x = / mult * dist2 k Ci mean x).
    { unfold dist2. rewrite rquad_mscal. f_equal. apply rquad_ext; [intros ? ? _ _; reflexivity|]. intros i Hi. f_equal.
      unfold cm, mean. apply c17_mean_is_weighted_average; auto. apply Hc; apply nth_In; assumption. }
    rewrite E. clear E. set (q := dist2 k Ci mean x). clearbody q mult.
    destruct (Rleb_spec q mult) as [H|H].
    - apply Rleb_true. apply (Rmult_le_reg_l mult); [lra|]. rewrite <- Rmult_assoc, Rinv_r by lra. lra.
    - apply Rleb_false. apply (Rmult_lt_reg_l mult); [lra|]. rewrite <- Rmult_assoc, Rinv_r by lra. lra.
  Qed.

  Lemma pce_zero : inverts inv k -> (0 < k)%nat -> ppf level k = 0 -> region "pce" = Some (Err ValueError).
  Proof.
    intros Hinv Hk Hp. unfold region, in_credible_region. cbn [String.eqb Ascii.eqb Bool.eqb]. fold k. rewrite Hp.
    unfold in_ellipsoid. match goal with |- context [inv k ?B] => destruct (inv k B) as [Y|] eqn:E end; [|reflexivity].
    exfalso. apply Hinv in E. destruct E as [E _]. specialize (E 0%nat 0%nat Hk Hk). unfold rmul in E. rewrite kd_same in E.
    rewrite Sum_zero in E; [lra|]. intros; ring.
  Qed.

  Lemma mvee_inv_S B c N d pts t : inverts inv d -> mvee inv fuel N d pts t = Some (Ok (B, c)) -> (0 < d)%nat ->
    exists Bi, is_inv d B Bi.
  Proof.
    intros Hinv H Hd. unfold mvee in H. destruct (mvee_loop _ _ _ _ _ _ _ _) as [[u|e]|]; try discriminate.
    unfold mvee_result in H. destruct (inv d (mvee_S N pts u)) as [Z|] eqn:E; [|discriminate]. injection H as <- <-.
    apply Hinv in E. assert (0 < INR d) by now apply lt_0_INR.
    eexists. apply (is_inv_scal d (1 / INR d) Z (mvee_S N pts u)); [|now apply is_inv_sym].
    apply Rgt_not_eq. apply Rdiv_lt_0_compat; lra.
  Qed.

  Lemma mvee_region B c : inverts inv k -> (0 < k)%nat ->
    region_est_ellipsoid inv hv fuel k asc (fun x => map (fun j => nth j x 0) cols) w l level (match tol with None => 1 / 10000 | Some t => t end) = Some (Ok (B, c)) ->
    region "hpd-mvee" = Some (Ok (map (fun x => Rleb (dist2 k B c x) 1) points)).
  Proof.
    intros Hinv Hk H. unfold region, in_credible_region. cbn [String.eqb Ascii.eqb Bool.eqb]. fold k. rewrite H.
    assert (exists Bi, is_inv k B Bi) as [Bi HBi].
    { unfold region_est_ellipsoid in H. destruct (region_est_hull_vertices _ _ _ _ _ _ _); [|discriminate]. eapply mvee_inv_S; eauto. }
    destruct (Hinv B) as [H1 H2]. destruct (H2 (ex_intro _ Bi HBi)) as [Y HY]. specialize (H1 Y HY). rewrite HY.
    destruct (in_ellipsoid_ok inv k points Y c B Hinv (is_inv_sym _ _ _ H1)) as (bs & -> & ->). reflexivity.
  Qed.

  Lemma hull_region pts rest : (2 <= k)%nat ->
    est_credible_region asc (fun x => map (fun j => nth j x 0) cols) w l level = Ok (pts, rest) ->
    region "hpd-hull" = Some (Ok (map (fun x => Z.leb 0 (fs pts x)) points)).
  Proof.
    intros Hk H. unfold region, in_credible_region. cbn [String.eqb Ascii.eqb Bool.eqb]. rewrite H. cbn [bind fst].
    unfold qhull_check. fold k. destruct (Nat.ltb_spec k 2); [lia|]. reflexivity.
  Qed.

  Lemma other_method m : m <> "pce" -> m <> "hpd-mvee" -> m <> "hpd-hull" -> region m = Some (Err UnboundLocalError).
  Proof.
    intros H1 H2 H3. unfold region, in_credible_region. apply String.eqb_neq in H1, H2, H3. now rewrite H1, H2, H3.
  Qed.
End P.

Lemma in_hull_vertex N d p a : (a < N)%nat -> in_hull N d p (p a).
Proof.
  intro Ha. exists (fun b => kd a b). split; [split|].
  - intros b _. unfold kd. destruct (Nat.eqb a b); lra.
  - rewrite (Sum_ext N _ (fun b => kd a b * 1)) by (intros; ring). now apply (Sum_kd_l N a (fun _ => 1)).
  - intros i Hi. now rewrite (Sum_kd_l N a (fun b => p b i)).
Qed.
Lemma in_hull_ext N d p x y : (forall i, (i < d)%nat -> x i = y i) -> in_hull N d p x -> in_hull N d p y.
Proof. intros H (u & Hu & Hx). exists u. split; [assumption|]. intros i Hi. rewrite <- H, Hx by assumption. reflexivity. Qed.
Lemma in_hull_convex N d p x y t : 0 <= t <= 1 -> in_hull N d p x -> in_hull N d p y -> in_hull N d p (fun i => t * x i + (1 - t) * y i).
Proof.
  intros Ht (u & [Hu Hus] & Hx) (v & [Hv Hvs] & Hy). exists (fun a => t * u a + (1 - t) * v a). split; [split|].
  - intros a Ha. specialize (Hu a Ha). specialize (Hv a Ha). apply Rplus_le_le_0_compat; apply Rmult_le_pos; lra.
  - rewrite Sum_plus, !Sum_scal, Hus, Hvs. ring.
  - intros i Hi. rewrite Hx, Hy by assumption. rewrite !Sum_mul_l, <- Sum_plus. apply Sum_ext. intros; ring.
Qed.

Lemma filter_id {A} (f : A -> bool) l : (forall x, In x l -> f x = true) -> filter f l = l.
Proof. induction l as [|x l IH]; intro H; [reflexivity|]. cbn [filter]. rewrite H by now left. f_equal. apply IH. intros; apply H; now right. Qed.
Lemma uniquify_nodup l : NoDup l -> uniquify_nat l = l.
Proof.
  induction 1 as [|x l Hx Hl IH]; [reflexivity|]. cbn [uniquify_nat]. rewrite IH. f_equal.
  apply filter_id. intros y Hy. destruct (Nat.eqb_spec y x) as [->|]; [contradiction|reflexivity].
Qed.

(** Mass carried by the accepted particles *)
Lemma mass_perm_le w I J (bs : nat -> bool) : Permutation (I ++ J) (seq 0 (length w)) -> Forall (fun x => 0 <= x) w ->
  (forall i, In i I -> bs i = true) -> mass w I <= Sum (length w) (fun i => if bs i then nth i w 0 else 0).
Proof.
  intros HP Hw Hb. unfold mass.
  assert (E : Sum (length w) (fun i => if bs i then nth i w 0 else 0) = SumL (I ++ J) (fun i => if bs i then nth i w 0 else 0)).
  { rewrite Sum_rsum, SumL_rsum. apply RList.rsum_perm. apply Permutation_map. now apply Permutation_sym. }
  rewrite E, SumL_app. rewrite (SumL_ext I (fun i => if bs i then nth i w 0 else 0) (fun i => nth i w 0)) by (intros i Hi; now rewrite Hb).
  enough (0 <= SumL J (fun i => if bs i then nth i w 0 else 0)) by lra.
  apply SumL_nonneg. intros i Hi. destruct (bs i); [|lra].
  assert (Hi' : (i < length w)%nat). { assert (In i (seq 0 (length w))) by (eapply Permutation_in; [exact HP|apply in_app_iff; now right]). apply in_seq in H. lia. }
  rewrite Forall_forall in Hw. apply Hw. now apply nth_In.
Qed.
