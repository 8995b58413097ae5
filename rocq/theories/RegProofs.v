(** Proofs about the Khachiyan iteration (RegModel.v). *)
From Verif Require Import Base Sums LinAlg LinProofs RegModel.

Definition probf (N : nat) (u : vec) : Prop := (forall a, (a < N)%nat -> 0 <= u a) /\ Sum N u = 1.

Section M.
  Variables (inv : nat -> rmat -> option rmat) (N d : nat) (points : nat -> vec).
  Hypothesis HN : (0 < N)%nat.
  Hypothesis Hd : (0 < d)%nat.
  Hypothesis Hinv : inverts inv (S d).
  Let q : nat -> vec := fun a i => if Nat.ltb i d then points a i else 1.
  Let n1 : R := INR d + 1.

  Lemma Hd1 : 1 <= INR d. Proof. change 1 with (INR 1). apply le_INR. lia. Qed.

  Lemma mvee_X_gram u i j : mvee_X N d points u i j = gram N q u i j.
  Proof.
    unfold mvee_X, gram. unfold rmul at 1. apply Sum_ext. intros a Ha. rewrite rmul_diag by assumption. reflexivity.
  Qed.
  Lemma mvee_M_quad Y a : mvee_M d points Y a = rquad (S d) Y (q a).
  Proof.
    unfold mvee_M, rmul, rquad. rewrite (Sum_ext (S d) _ (fun k => Sum (S d) (fun l => q a l * Y l k * q a k))).
    - now rewrite Sum_swap.
    - intros k Hk. rewrite Sum_mul_r. reflexivity.
  Qed.

  Definition good (u : vec) : Prop := probf N u /\ exists Y, is_inv (S d) (gram N q u) Y.

  Lemma max_ge u Y : probf N u -> is_inv (S d) (gram N q u) Y ->
    n1 <= rquad (S d) Y (q (argmaxf N (mvee_M d points Y))).
  Proof.
    intros [Hu Hs] HY. pose proof (trace_inv N (S d) q u Y HY) as Ht. rewrite S_INR in Ht. fold n1 in Ht.
    destruct (Rle_dec n1 (rquad (S d) Y (q (argmaxf N (mvee_M d points Y))))) as [|Hn]; [assumption|exfalso].
    set (mx := rquad (S d) Y (q (argmaxf N (mvee_M d points Y)))) in *.
    assert (Sum N (fun a => u a * rquad (S d) Y (q a)) <= mx).
    { rewrite <- (Rmult_1_l mx), <- Hs, Sum_mul_r. apply Sum_le. intros a Ha. apply Rmult_le_compat_l; [now apply Hu|].
      unfold mx. rewrite <- !mvee_M_quad. now apply argmaxf_max. }
    lra.
  Qed.

  Lemma step_range m : n1 <= m -> 0 <= step_size d m /\ step_size d m * n1 < 1 /\
     (m - 1) * (1 - step_size d m * n1) = INR d.
  Proof.
    intro H. pose proof Hd1 as H1. unfold n1 in *. unfold step_size. repeat split.
    - apply Rmult_le_pos; [lra|]. left. apply Rinv_0_lt_compat. apply Rmult_lt_0_compat; lra.
    - replace ((m - INR d - 1) / ((INR d + 1) * (m - 1)) * (INR d + 1)) with (1 - INR d / (m - 1)) by (field; lra).
      assert (0 < INR d / (m - 1)) by (apply Rdiv_lt_0_compat; lra). lra.
    - field. lra.
  Qed.

  Lemma gram_new u s j i k : (j < N)%nat ->
    gram N q (new_u s j u) i k = (1 - s) * gram N q u i k + s * (q j i * q j k).
  Proof.
    intro Hj. unfold gram, new_u.
    rewrite (Sum_ext N _ (fun a => (1 - s) * (q a i * u a * q a k) + s * (kd j a * (q a i * q a k)))).
    - rewrite Sum_plus, !Sum_scal. now rewrite (Sum_kd_l N j (fun a => q a i * q a k)).
    - intros a Ha. unfold kd. rewrite (Nat.eqb_sym j a). destruct (Nat.eqb a j); ring.
  Qed.
  Lemma probf_new u s j : (j < N)%nat -> 0 <= s <= 1 -> probf N u -> probf N (new_u s j u).
  Proof.
    intros Hj Hs [Hu H1]. split.
    - intros a Ha. unfold new_u. specialize (Hu a Ha). destruct (Nat.eqb a j); nra.
    - unfold new_u. rewrite (Sum_ext N _ (fun a => (1 - s) * u a + s * (kd j a * 1))).
      + rewrite Sum_plus, !Sum_scal, H1, (Sum_kd_l N j (fun _ => 1)) by assumption. ring.
      + intros a Ha. unfold kd. rewrite (Nat.eqb_sym j a). destruct (Nat.eqb a j); ring.
  Qed.

  Lemma gram_new_inv u Y s j : (j < N)%nat -> 0 <= s < 1 -> probf N u -> is_inv (S d) (gram N q u) Y ->
    exists Y', is_inv (S d) (gram N q (new_u s j u)) Y'.
  Proof.
    intros Hj Hs [Hu _] HY. set (t := s / (1 - s)).
    assert (Ht : 0 <= t) by (unfold t; apply Rmult_le_pos; [lra|left; apply Rinv_0_lt_compat; lra]).
    pose proof (quad_inv_nonneg N (S d) q u Y Hu HY (q j)) as Hq. cbv beta in Hq.
    assert (Hne : 1 + t * rquad (S d) Y (q j) <> 0) by nra.
    pose proof (sherman_morrison (S d) _ _ t (q j) HY Hne) as HI.
    pose proof (is_inv_scal (S d) (1 - s) _ _ ltac:(lra) HI) as HI'.
    eexists. eapply is_inv_ext; [|intros i k _ _; reflexivity|exact HI'].
    intros i k _ _. rewrite gram_new by assumption. unfold t. field. lra.
  Qed.

  Lemma quad_new_le u Y s j Y' i : (j < N)%nat -> 0 <= s < 1 -> probf N u -> is_inv (S d) (gram N q u) Y ->
    is_inv (S d) (gram N q (new_u s j u)) Y' -> rquad (S d) Y' (q i) <= rquad (S d) Y (q i) / (1 - s).
  Proof.
    intros Hj Hs HP HY HY'. assert (Hu := proj1 HP).
    assert (HP' : probf N (new_u s j u)) by (apply probf_new; [assumption|lra|assumption]). assert (Hu' := proj1 HP').
    set (x := q i). set (v := rmv (S d) Y' x). set (w := rmv (S d) Y x). set (r := / (1 - s)).
    assert (Hr : 0 < r) by (apply Rinv_0_lt_compat; lra).
    assert (Hrs : r * (1 - s) = 1) by (unfold r; field; lra).
    set (X := gram N q u).
    assert (E1 : rquad (S d) Y' x = rdotv (S d) v (rmv (S d) (gram N q (new_u s j u)) v)) by (apply (quad_inv N (S d) q _ Y' HY')).
    assert (E2 : rquad (S d) Y x = rdotv (S d) w (rmv (S d) X w)) by (apply (quad_inv N (S d) q _ Y HY)).
    assert (E3 : rquad (S d) Y' x = rdotv (S d) v (rmv (S d) X w)).
    { rewrite rquad_dot, rdotv_sym. apply Sum_ext. intros k Hk. unfold w. rewrite (rmv_inv (S d) X Y) by assumption. reflexivity. }
    assert (E4 : (1 - s) * rdotv (S d) v (rmv (S d) X v) <= rquad (S d) Y' x).
    { rewrite E1. unfold X. rewrite !gram_form, Sum_mul_l. apply Sum_le. intros a Ha. unfold new_u.
      specialize (Hu a Ha). set (z := rdotv (S d) (q a) v). clearbody z.
      revert Hu Hs. generalize (u a). clear. intros ua Hu Hs.
      assert (Hz : 0 <= z * z) by apply Rle_0_sqr. assert (Hsz : 0 <= s * (z * z)) by (apply Rmult_le_pos; lra).
      cbv beta. destruct (Nat.eqb a j); lra. }
    (* (v - r w)^T X (v - r w) >= 0 *)
    assert (E5 : 0 <= rdotv (S d) v (rmv (S d) X v) - 2 * r * rdotv (S d) v (rmv (S d) X w) + r * r * rdotv (S d) w (rmv (S d) X w)).
    { unfold X. rewrite !gram_form. rewrite (Rmult_comm (2 * r)), Sum_mul_r, (Sum_mul_l N (r * r)), <- Sum_minus, <- Sum_plus.
      apply Sum_nonneg. intros a Ha. specialize (Hu a Ha). set (z1 := rdotv (S d) (q a) v). set (z2 := rdotv (S d) (q a) w).
      replace (u a * z1 * z1 - u a * z1 * z2 * (2 * r) + r * r * (u a * z2 * z2)) with (u a * ((z1 - r * z2) * (z1 - r * z2))) by ring.
      apply Rmult_le_pos; [assumption|apply (Rle_0_sqr (z1 - r * z2))]. }
    rewrite <- E3, <- E2 in E5. unfold Rdiv. fold r.
    set (mm := rquad (S d) Y' x) in *. set (m0 := rquad (S d) Y x) in *. set (f := rdotv (S d) v (rmv (S d) X v)) in *.
    clearbody mm m0 f. clear E1 E2 E3. clearbody r.
    assert (r * ((1 - s) * f) <= r * mm) by (apply Rmult_le_compat_l; [lra|assumption]).
    assert (f <= r * mm) by (replace f with (r * ((1 - s) * f)) by (rewrite <- Rmult_assoc, Hrs; ring); assumption).
    assert (0 <= r * (r * m0 - mm)) by nra.
    assert (0 <= r * m0 - mm). { apply (Rmult_le_reg_l r); [assumption|]. lra. }
    lra.
  Qed.

  Lemma body_good u : good u -> exists Y s j u',
    is_inv (S d) (gram N q u) Y /\ (j < N)%nat /\ (forall a, (a < N)%nat -> rquad (S d) Y (q a) <= rquad (S d) Y (q j)) /\
    s = step_size d (rquad (S d) Y (q j)) /\ n1 <= rquad (S d) Y (q j) /\ u' = new_u s j u /\
    mvee_body inv N d points u = Ok (vnorm N (fun a => u' a - u a), u') /\ good u'.
  Proof.
    intros [HP [Y0 HY0]].
    assert (HX : is_inv (S d) (mvee_X N d points u) Y0).
    { eapply is_inv_ext; [|intros ? ? _ _; reflexivity|exact HY0]. intros i k _ _. now rewrite mvee_X_gram. }
    destruct (Hinv (mvee_X N d points u)) as [H1 H2]. destruct (H2 (ex_intro _ Y0 HX)) as [Y HYe].
    specialize (H1 Y HYe).
    assert (HY : is_inv (S d) (gram N q u) Y).
    { eapply is_inv_ext; [|intros ? ? _ _; reflexivity|exact H1]. intros i k _ _. now rewrite mvee_X_gram. }
    set (j := argmaxf N (mvee_M d points Y)). set (s := step_size d (rquad (S d) Y (q j))).
    assert (Hj : (j < N)%nat) by now apply argmaxf_lt.
    assert (Hm : n1 <= rquad (S d) Y (q j)) by now apply (max_ge u Y).
    destruct (step_range _ Hm) as (Hs0 & Hs1 & _). fold s in Hs0, Hs1.
    assert (Hs : s < 1). { pose proof Hd1. unfold n1 in *. nra. }
    exists Y, s, j, (new_u s j u). split; [exact HY|]. split; [exact Hj|]. split.
    { intros a Ha. rewrite <- !mvee_M_quad. now apply argmaxf_max. }
    split; [reflexivity|]. split; [exact Hm|]. split; [reflexivity|]. split.
    { unfold mvee_body. rewrite HYe. fold j. rewrite mvee_M_quad. reflexivity. }
    split; [apply probf_new; [assumption|lra|assumption]|]. now apply (gram_new_inv u Y).
  Qed.

  Lemma vnorm_term v j : (j < N)%nat -> Rabs (v j) <= vnorm N v.
  Proof.
    intro Hj. unfold vnorm. rewrite <- sqrt_Rsqr_abs. apply sqrt_le_1_alt. unfold Rsqr.
    apply (Sum_ge_term N (fun a => v a * v a)); [assumption|]. intros; nra.
  Qed.

  (** After a pass whose change is at most [tol], every lifted point is below the bound *)
  Lemma last_pass u tol u' : good u -> mvee_body inv N d points u = Ok (vnorm N (fun a => u' a - u a), u') ->
    vnorm N (fun a => u' a - u a) <= tol -> tol * n1 * n1 < INR d ->
    forall Y', is_inv (S d) (gram N q u') Y' -> forall i, (i < N)%nat ->
    rquad (S d) Y' (q i) <= n1 / (1 - tol * n1 / INR d * n1).
  Proof.
    intros Hg Hb Ht Htol Y' HY' i Hi. destruct (body_good u Hg) as (Y & s & j & u2 & HY & Hj & Hmax & Hs & Hm & Hu2 & Hb2 & _).
    rewrite Hb in Hb2. injection Hb2 as _ E. subst u2. rewrite E in *. clear E Hb.
    destruct Hg as [HP _]. pose proof (leverage_le_1 N (S d) q u Y (proj1 HP) HY j Hj) as Hlev. cbv beta in Hlev.
    set (mj := rquad (S d) Y (q j)) in *. pose proof Hd1 as Hd1.
    destruct (step_range mj Hm) as (Hs0 & Hs1 & Hs2). rewrite <- Hs in *.
    pose proof (proj1 HP j Hj) as Huj.
    pose proof (vnorm_term (fun a => new_u s j u a - u a) j Hj) as Hn. cbv beta in Hn. unfold new_u in Hn at 1. rewrite Nat.eqb_refl in Hn.
    replace ((1 - s) * u j + s - u j) with (s * (1 - u j)) in Hn by ring.
    assert (Hn1 : s * (1 - u j) <= tol). { pose proof (Rle_abs (s * (1 - u j))). lra. }
    unfold n1 in *. set (D := INR d) in *.
    (* u_j <= 1/(D+1) *)
    assert (Hun : u j * (D + 1) <= 1). { apply Rle_trans with (u j * mj); [apply Rmult_le_compat_l; lra|lra]. }
    assert (HsD : s * D <= tol * (D + 1)).
    { assert (s * (1 - u j) * (D + 1) <= tol * (D + 1)) by (apply Rmult_le_compat_r; lra). nra. }
    set (sg := tol * (D + 1) / D). assert (Hsg : s <= sg).
    { unfold sg. apply (Rmult_le_reg_r D); [lra|]. replace (tol * (D + 1) / D * D) with (tol * (D + 1)) by (field; lra). lra. }
    assert (Hsg1 : sg * (D + 1) < 1).
    { unfold sg. apply (Rmult_lt_reg_r D); [lra|]. replace (tol * (D + 1) / D * (D + 1) * D) with (tol * (D + 1) * (D + 1)) by (field; lra). lra. }
    assert (Hslt : s < 1) by nra.
    pose proof (quad_new_le u Y s j Y' i Hj ltac:(lra) HP HY HY') as Hle.
    assert (Hmj : mj / (1 - s) = (D + 1) / (1 - s * (D + 1))).
    { assert (Emj : mj = D / (1 - s * (D + 1)) + 1). { assert (mj - 1 = D / (1 - s * (D + 1))); [|lra]. apply (Rmult_eq_reg_r (1 - s * (D + 1))); [|lra]. rewrite Hs2. field. lra. }
      rewrite Emj. field. split; lra. }
    apply Rle_trans with (mj / (1 - s)).
    - apply Rle_trans with (rquad (S d) Y (q i) / (1 - s)); [assumption|].
      apply Rmult_le_compat_r; [left; apply Rinv_0_lt_compat; lra|]. now apply Hmax.
    - rewrite Hmj. apply Rmult_le_compat_l; [lra|]. apply Rinv_le_contravar; [lra|].
      assert (s * (D + 1) <= sg * (D + 1)) by (apply Rmult_le_compat_r; lra). lra.
  Qed.

  Lemma loop_good fuel : forall tol err u, good u ->
    match mvee_loop inv fuel N d points tol err u with
    | None => True
    | Some (Err _) => False
    | Some (Ok u') => good u' /\ (u' = u /\ err <= tol \/
        exists u0, good u0 /\ mvee_body inv N d points u0 = Ok (vnorm N (fun a => u' a - u0 a), u') /\ vnorm N (fun a => u' a - u0 a) <= tol)
    end.
  Proof.
    induction fuel as [|f IH]; intros tol err u Hg; cbn [mvee_loop]; destruct (Rltb_spec tol err) as [H|H]; try exact I;
      try (split; [assumption|left; split; [reflexivity|lra]]).
    destruct (body_good u Hg) as (Y & s & j & u2 & HY & Hj & Hmax & Hs & Hm & Hu2 & Hb2 & Hg2).
    rewrite Hb2. specialize (IH tol (vnorm N (fun a => u2 a - u a)) u2 Hg2).
    destruct (mvee_loop inv f N d points tol (vnorm N (fun a => u2 a - u a)) u2) as [[u3|e]|]; [|assumption|exact I].
    destruct IH as [Hg3 [[-> Ht]|(u0 & H0 & H1 & H2)]]; (split; [assumption|right]).
    - exists u. auto.
    - exists u0. auto.
  Qed.

  Lemma gram_corner u : probf N u -> gram N q u d d = 1.
  Proof.
    intros [_ H]. unfold gram, q. rewrite Nat.ltb_irrefl. rewrite (Sum_ext N _ u); [assumption|]. intros; ring.
  Qed.
  Lemma gram_sym u i j : gram N q u i j = gram N q u j i.
  Proof. apply Sum_ext. intros; ring. Qed.
  Lemma gram_col u i : (i < d)%nat -> gram N q u i d = mvee_c N points u i.
  Proof.
    intro Hi. unfold gram, mvee_c, q. apply Sum_ext. intros a _. rewrite Nat.ltb_irrefl.
    destruct (Nat.ltb_spec i d); [ring|lia].
  Qed.
  Lemma S_schur u i j : (i < d)%nat -> (j < d)%nat ->
    mvee_S N points u i j = gram N q u i j - gram N q u i d * gram N q u j d.
  Proof.
    intros Hi Hj. unfold mvee_S, router. rewrite !gram_col by assumption. f_equal.
    unfold rmul at 1. unfold gram. apply Sum_ext. intros a Ha. rewrite rmul_diag by assumption. unfold q, rtr.
    destruct (Nat.ltb_spec i d); [|lia]. destruct (Nat.ltb_spec j d); [|lia]. reflexivity.
  Qed.

  Hypothesis Hinvd : inverts inv d.

  Lemma result_good u : good u -> exists Y Z,
    is_inv (S d) (gram N q u) Y /\ meq d Y Z /\ is_inv d (mvee_S N points u) Z /\
    mvee_result inv N d points u = Ok ((fun i j => 1 / INR d * Z i j), mvee_c N points u) /\
    forall p, rquad (S d) Y (fun i => if Nat.ltb i d then p i else 1) = 1 + rquad d Z (fun i => p i - mvee_c N points u i).
  Proof.
    intros [HP [Y HY]].
    pose proof (border_inv d _ Y (gram_corner u HP) (fun k _ => gram_sym u d k) HY) as Hb.
    assert (HS : is_inv d (mvee_S N points u) Y).
    { eapply is_inv_ext; [|intros ? ? _ _; reflexivity|exact Hb]. intros i j Hi Hj. cbv beta. now rewrite S_schur. }
    destruct (Hinvd (mvee_S N points u)) as [H1 H2]. destruct (H2 (ex_intro _ Y HS)) as [Z HZe]. specialize (H1 Z HZe).
    exists Y, Z. split; [assumption|]. split; [now apply (is_inv_unique d (mvee_S N points u))|]. split; [assumption|]. split.
    - unfold mvee_result. now rewrite HZe.
    - intro p. rewrite (border_quad d _ Y (gram_corner u HP) (fun k _ => gram_sym u d k) HY). f_equal. apply rquad_ext.
      + now apply (is_inv_unique d (mvee_S N points u)).
      + intros i Hi. now rewrite gram_col.
  Qed.
End M.

From Verif Require Import RegSpec.

Section N.
  Variables (inv : nat -> rmat -> option rmat) (N d : nat) (points : nat -> vec).
  Hypothesis HN : (0 < N)%nat.
  Hypothesis Hd : (0 < d)%nat.
  Hypothesis Hinv : inverts inv (S d).
  Hypothesis Hinvd : inverts inv d.
  Hypothesis Hspan : spanning N d points.

  Lemma const_sum k : Sum k (fun _ => 1 / INR N) = INR k * (1 / INR N).
  Proof. induction k as [|k IH]; [rewrite Sum_0; cbn; lra|]. rewrite Sum_last, IH, S_INR. ring. Qed.
  Lemma start_good : good N d points (fun _ => 1 / INR N).
  Proof.
    assert (0 < INR N) by now apply lt_0_INR. split; [split|].
    - intros. left. apply Rdiv_lt_0_compat; lra.
    - rewrite const_sum. field. lra.
    - exact Hspan.
  Qed.

  Lemma mvee_shape fuel tol :
    match mvee inv fuel N d points tol with
    | None => True
    | Some (Err _) => False
    | Some (Ok (B, c)) => exists u Z, good N d points u /\ is_inv d (mvee_S N points u) Z /\ B = (fun i j => 1 / INR d * Z i j) /\ c = mvee_c N points u
    end.
  Proof.
    unfold mvee. pose proof (loop_good inv N d points HN Hd Hinv fuel tol 1 _ start_good) as H.
    destruct (mvee_loop _ _ _ _ _ _ _ _) as [[u|e]|]; [|assumption|exact I].
    destruct H as [Hg _]. destruct (result_good inv N d points HN Hd Hinvd u Hg) as (Y & Z & _ & _ & HZ & E & _).
    rewrite E. exists u, Z. auto.
  Qed.

  Lemma enclose fuel tol B c : tol < 1 -> tol * (INR d + 1) * (INR d + 1) < INR d ->
    mvee inv fuel N d points tol = Some (Ok (B, c)) -> forall a, (a < N)%nat -> dist2 d B c (points a) <= slack d tol.
  Proof.
    intros Ht1 Ht H a Ha. unfold mvee in H.
    pose proof (loop_good inv N d points HN Hd Hinv fuel tol 1 _ start_good) as HL.
    destruct (mvee_loop _ _ _ _ _ _ _ _) as [[u|e]|]; [|contradiction|discriminate].
    destruct HL as [Hg [[_ Hbad]|(u0 & Hg0 & Hb & Hn)]]; [lra|].
    destruct (result_good inv N d points HN Hd Hinvd u Hg) as (Y & Z & HY & _ & _ & E & Hq).
    rewrite E in H. injection H as <- <-.
    pose proof (last_pass inv N d points HN Hd Hinv u0 tol u Hg0 Hb Hn Ht Y HY a Ha) as HM.
    specialize (Hq (points a)). cbv beta zeta in HM. rewrite Hq in HM. unfold dist2. rewrite rquad_mscal.
    assert (HD : 1 <= INR d) by (change 1 with (INR 1); apply le_INR; lia). unfold slack. set (D := INR d) in *.
    set (sg := tol * (D + 1) / D) in *. set (r := rquad d Z (fun i => points a i - mvee_c N points u i)) in *.
    assert (Hsg : sg * (D + 1) < 1).
    { unfold sg. apply (Rmult_lt_reg_r D); [lra|]. replace (tol * (D + 1) / D * (D + 1) * D) with (tol * (D + 1) * (D + 1)) by (field; lra). lra. }
    replace ((1 + sg * (D + 1) / D) / (1 - sg * (D + 1))) with (1 / D * ((D + 1) / (1 - sg * (D + 1)) - 1)) by (field; split; lra).
    apply Rmult_le_compat_l; [left; apply Rdiv_lt_0_compat; lra|]. lra.
  Qed.

  Lemma S_gram u i j : weights_on N u -> mvee_S N points u i j = gram N (fun a k => points a k - mvee_c N points u k) u i j.
  Proof.
    intros [_ Hs]. unfold mvee_S, router, gram. unfold rmul at 1.
    rewrite (Sum_ext N _ (fun a => points a i * u a * points a j)) by (intros a Ha; rewrite rmul_diag by assumption; reflexivity).
    rewrite (Sum_ext N (fun a => (points a i - _) * _ * _)
      (fun a => points a i * u a * points a j - mvee_c N points u i * (points a j * u a) - mvee_c N points u j * (points a i * u a)
        + mvee_c N points u i * mvee_c N points u j * u a)) by (intros; ring).
    rewrite Sum_plus, !Sum_minus, !Sum_scal, Hs. fold (mvee_c N points u i). fold (mvee_c N points u j). ring.
  Qed.

  Lemma mvee_psd fuel tol B c : mvee inv fuel N d points tol = Some (Ok (B, c)) ->
    in_hull N d points c /\ (forall y, 0 <= rquad d B y) /\ meq d B (rtr B).
  Proof.
    intro H. pose proof (mvee_shape fuel tol) as HS. rewrite H in HS. destruct HS as (u & Z & [[Hu Hs] _] & HZ & -> & ->).
    assert (HZ' : is_inv d (gram N (fun a k => points a k - mvee_c N points u k) u) Z).
    { eapply is_inv_ext; [|intros ? ? _ _; reflexivity|exact HZ]. intros i j _ _. apply S_gram. now split. }
    assert (HD : 1 <= INR d) by (change 1 with (INR 1); apply le_INR; lia). split; [|split].
    - exists u. split; [now split|]. intros i Hi. unfold mvee_c. apply Sum_ext. intros; ring.
    - intro y. rewrite rquad_mscal. apply Rmult_le_pos; [left; apply Rdiv_lt_0_compat; lra|]. now apply (quad_inv_nonneg N d _ u Z Hu HZ').
    - intros i j Hi Hj. unfold rtr. f_equal. change (Z j i) with (rtr Z i j).
      revert i j Hi Hj. apply (is_inv_unique d _ Z (rtr Z) HZ').
      destruct HZ' as [H1 H2]. split; intros i j Hi Hj.
      + rewrite kd_sym, <- (H2 j i) by assumption. unfold rmul, rtr, gram. apply Sum_ext. intros k Hk. rewrite Rmult_comm. f_equal. apply Sum_ext. intros; ring.
      + rewrite kd_sym, <- (H1 j i) by assumption. unfold rmul, rtr, gram. apply Sum_ext. intros k Hk. rewrite Rmult_comm. f_equal. apply Sum_ext. intros; ring.
  Qed.
End N.

(** Positive semidefinite quadratic forms are convex *)
Lemma quad_jensen n N B u (y : nat -> vec) : weights_on N u -> (forall z, 0 <= rquad n B z) ->
  rquad n B (fun i => Sum N (fun a => u a * y a i)) <= Sum N (fun a => u a * rquad n B (y a)).
Proof.
  intros [Hu Hs] HB. set (m := fun i => Sum N (fun a => u a * y a i)).
  assert (H : 0 <= Sum N (fun a => u a * rquad n B (fun i => y a i - m i))).
  { apply Sum_nonneg. intros a Ha. apply Rmult_le_pos; [now apply Hu|apply HB]. }
  enough (Sum N (fun a => u a * rquad n B (fun i => y a i - m i)) = Sum N (fun a => u a * rquad n B (y a)) - rquad n B m) by lra.
  assert (Hexp : forall a, rquad n B (fun i => y a i - m i) =
     rquad n B (y a) - Sum n (fun j => Sum n (fun l => y a j * (B j l * m l))) - Sum n (fun j => Sum n (fun l => m j * B j l * y a l)) + rquad n B m).
  { intro a. unfold rquad. rewrite <- !Sum_minus, <- Sum_plus. apply Sum_ext; intros. rewrite <- !Sum_minus, <- Sum_plus. apply Sum_ext; intros. ring. }
  rewrite (Sum_ext N _ (fun a => u a * rquad n B (y a) - Sum n (fun j => Sum n (fun l => (u a * y a j) * (B j l * m l)))
     - Sum n (fun j => Sum n (fun l => m j * B j l * (u a * y a l))) + u a * rquad n B m)).
  2:{ intros a Ha. rewrite Hexp. rewrite Rmult_plus_distr_l, !Rmult_minus_distr_l. f_equal. f_equal; [f_equal|].
      - rewrite Sum_mul_l. apply Sum_ext; intros. rewrite Sum_mul_l. apply Sum_ext; intros. ring.
      - rewrite Sum_mul_l. apply Sum_ext; intros. rewrite Sum_mul_l. apply Sum_ext; intros. ring. }
  rewrite Sum_plus, !Sum_minus, Sum_scal_r, Hs.
  assert (E1 : Sum N (fun a => Sum n (fun j => Sum n (fun l => (u a * y a j) * (B j l * m l)))) = rquad n B m).
  { rewrite Sum_swap. unfold rquad. apply Sum_ext; intros j Hj. rewrite Sum_swap. apply Sum_ext; intros l Hl.
    rewrite Sum_scal_r. fold (m j). ring. }
  assert (E2 : Sum N (fun a => Sum n (fun j => Sum n (fun l => m j * B j l * (u a * y a l)))) = rquad n B m).
  { rewrite Sum_swap. unfold rquad. apply Sum_ext; intros j Hj. rewrite Sum_swap. apply Sum_ext; intros l Hl.
    rewrite Sum_scal. reflexivity. }
  rewrite E1, E2. ring.
Qed.
