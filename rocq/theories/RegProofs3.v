(** Stopping of the Khachiyan iteration: the product of the pivots of the moment matrix (its determinant) grows by a
    fixed factor in every pass that changes the weights by more than the tolerance, and is bounded. *)
From Verif Require Import Base Sums LinAlg LinProofs RegModel RegProofs RegSpec RegSpec2.

Lemma pdet_ext n : forall X Y, meq n X Y -> pdet n X = pdet n Y.
Proof.
  induction n as [|n IH]; intros X Y H; [reflexivity|]. cbn [pdet]. rewrite (H 0%nat 0%nat) by lia. f_equal. apply IH.
  intros i j Hi Hj. unfold schur. rewrite !H by lia. reflexivity.
Qed.
Lemma Sum_const0 n : Sum n (fun _ => 0) = 0.
Proof. apply Sum_zero. reflexivity. Qed.
Lemma posdef_pivot n X : posdef (S n) X -> 0 < X 0%nat 0%nat.
Proof.
  intros [_ H]. specialize (H (fun i => kd 0 i)). assert (E : rquad (S n) X (fun i => kd 0 i) = X 0%nat 0%nat).
  { unfold rquad. rewrite (Sum_ext (S n) _ (fun j => kd 0 j * X j 0%nat)).
    - now rewrite Sum_kd_l by lia.
    - intros j Hj. rewrite (Sum_ext (S n) _ (fun l => kd 0 l * (kd 0 j * X j l))) by (intros; ring). rewrite Sum_kd_l by lia. reflexivity. }
  rewrite E in H. apply H. exists 0%nat. split; [lia|]. rewrite kd_same. lra.
Qed.
Lemma posdef_schur n X : posdef (S n) X -> posdef n (schur X).
Proof.
  intros HX. pose proof (posdef_pivot n X HX) as Hp. destruct HX as [Hs Hq]. split.
  - intros i j Hi Hj. unfold rtr, schur. rewrite (Hs (S i) (S j)), (Hs (S i) 0%nat), (Hs 0%nat (S j)) by lia. unfold rtr. unfold Rdiv. ring.
  - intros w (k & Hk & Hw). set (p := X 0%nat 0%nat) in *. set (t := Sum n (fun j => X 0%nat (S j) * w j)).
    set (v := fun i => match i with O => - t / p | S i' => w i' end).
    assert (Hv : 0 < rquad (S n) X v) by (apply Hq; exists (S k); split; [lia|exact Hw]).
    assert (E : rquad (S n) X v = rquad n (schur X) w); [|now rewrite <- E].
    unfold rquad. rewrite Sum_S. rewrite Sum_S.
    assert (T' : Sum n (fun j => w j * X (S j) 0%nat) = t) by (apply Sum_ext; intros j Hj; rewrite (Hs (S j) 0%nat) by lia; unfold rtr; ring).
    rewrite (Sum_ext n (fun i => v 0%nat * X 0%nat (S i) * v (S i)) (fun j => (- t / p) * (X 0%nat (S j) * w j))) by (intros; unfold v; ring).
    rewrite Sum_scal. fold t.
    rewrite (Sum_ext n (fun i => Sum (S n) (fun l => v (S i) * X (S i) l * v l)) (fun i => (w i * X (S i) 0%nat) * (- t / p) + Sum n (fun l => w i * X (S i) (S l) * w l))).
    2:{ intros i Hi. rewrite Sum_S. reflexivity. }
    rewrite Sum_plus, Sum_scal_r, T'. cbn [v]. change (v 0%nat) with (- t / p). fold p.
    rewrite (Sum_ext n (fun j => Sum n (fun l => w j * schur X j l * w l))
               (fun j => Sum n (fun l => w j * X (S j) (S l) * w l) - (w j * X (S j) 0%nat) * (t / p))).
    2:{ intros j Hj. unfold schur. fold p. rewrite (Sum_ext n _ (fun l => w j * X (S j) (S l) * w l - (w j * X (S j) 0%nat / p) * (X 0%nat (S l) * w l))) by (intros; field; lra).
        rewrite Sum_minus, Sum_scal. fold t. field. lra. }
    rewrite Sum_minus, Sum_scal_r, T'. field. lra.
Qed.
Lemma pdet_pos n : forall X, posdef n X -> 0 < pdet n X.
Proof.
  induction n as [|n IH]; intros X H; cbn [pdet]; [lra|]. apply Rmult_lt_0_compat; [now apply (posdef_pivot n)|]. apply IH. now apply posdef_schur.
Qed.
Lemma pdet_bound n : forall X B, posdef n X -> (forall i, (i < n)%nat -> X i i <= B) -> pdet n X <= B ^ n.
Proof.
  induction n as [|n IH]; intros X B H HB; cbn [pdet pow]; [lra|]. pose proof (posdef_pivot n X H) as Hp. pose proof (posdef_schur n X H) as HS.
  apply Rmult_le_compat; [lra|left; now apply pdet_pos|apply HB; lia|]. apply IH; [assumption|]. intros i Hi. apply Rle_trans with (X (S i) (S i)); [|apply HB; lia].
  unfold schur. destruct H as [Hs _]. rewrite (Hs 0%nat (S i)) by lia. unfold rtr.
  assert (0 <= X (S i) 0%nat * X (S i) 0%nat / X 0%nat 0%nat); [|lra]. apply Rmult_le_pos; [nra|left; now apply Rinv_0_lt_compat].
Qed.
Lemma pdet_scal n : forall X c, 0 < c -> posdef n X -> pdet n (fun i j => c * X i j) = c ^ n * pdet n X.
Proof.
  induction n as [|n IH]; intros X c Hc H; cbn [pdet pow]; [ring|]. pose proof (posdef_pivot n X H) as Hp.
  rewrite (pdet_ext n (schur (fun i j => c * X i j)) (fun i j => c * schur X i j)).
  - rewrite IH by (try assumption; now apply posdef_schur). ring.
  - intros i j _ _. unfold schur. field. lra.
Qed.
(** Adding a multiple of a projector *)
Lemma pdet_rank1 n : forall X a q y, posdef n X -> 0 <= a -> (forall i, (i < n)%nat -> Sum n (fun k => X i k * y k) = q i) ->
  pdet n (fun i j => X i j + a * (q i * q j)) = pdet n X * (1 + a * Sum n (fun k => q k * y k)).
Proof.
  induction n as [|n IH]; intros X a q y H Ha Hy; cbn [pdet]; [rewrite Sum_0; ring|]. pose proof (posdef_pivot n X H) as Hp. pose proof (posdef_schur n X H) as HS. destruct H as [Hs _].
  set (p := X 0%nat 0%nat) in *. set (q0 := q 0%nat). set (P := p + a * (q0 * q0)). assert (HP : 0 < P) by (unfold P; nra).
  set (a' := a * p / P). set (q' := fun i => q (S i) - X (S i) 0%nat * q0 / p). set (y' := fun i => y (S i)).
  assert (Ha' : 0 <= a') by (unfold a'; apply Rmult_le_pos; [nra|left; now apply Rinv_0_lt_compat]).
  assert (Hrow : Sum n (fun k => X 0%nat (S k) * y' k) = q0 - p * y 0%nat) by (pose proof (Hy 0%nat ltac:(lia)) as E; rewrite Sum_S in E; fold p q0 in E; unfold y'; lra).
  rewrite (pdet_ext n (schur (fun i j => X i j + a * (q i * q j))) (fun i j => schur X i j + a' * (q' i * q' j))).
  2:{ intros i j Hi Hj. unfold schur, q', a'. cbv beta. fold p q0. rewrite (Hs 0%nat (S j)) by lia. unfold rtr. fold P. unfold P in *. field. split; lra. }
  rewrite (IH (schur X) a' q' y' HS Ha').
  2:{ intros i Hi. unfold schur. fold p. rewrite (Sum_ext n _ (fun k => X (S i) (S k) * y' k - X (S i) 0%nat / p * (X 0%nat (S k) * y' k))) by (intros; field; lra).
      rewrite Sum_minus, Sum_scal, Hrow. pose proof (Hy (S i) ltac:(lia)) as E. rewrite Sum_S in E. unfold q'. rewrite <- E. unfold y'. field. lra. }
  set (T := Sum n (fun k => q (S k) * y (S k))).
  assert (ET : Sum n (fun k => q' k * y' k) = T - q0 / p * (q0 - p * y 0%nat)).
  { unfold q'. rewrite (Sum_ext n _ (fun k => q (S k) * y (S k) - q0 / p * (X 0%nat (S k) * y' k))).
    - rewrite Sum_minus, Sum_scal, Hrow. reflexivity.
    - intros k Hk. rewrite (Hs (S k) 0%nat) by lia. unfold rtr, y'. field. lra. }
  rewrite ET, Sum_S. fold T q0. fold p. unfold a', P in *. field. split; lra.
Qed.

Lemma gram_posdef N n q u : (forall a, (a < N)%nat -> 0 <= u a) -> (exists Y, is_inv n (gram N q u) Y) -> posdef n (gram N q u).
Proof.
  intros Hu [Y HY]. split; [intros i j _ _; unfold rtr; apply Sum_ext; intros; ring|].
  intros v (i & Hi & Hv). rewrite rquad_dot, gram_form.
  assert (Hnn : forall a, (a < N)%nat -> 0 <= u a * rdotv n (q a) v * rdotv n (q a) v) by (intros a Ha; specialize (Hu a Ha); rewrite Rmult_assoc; apply Rmult_le_pos; [assumption|nra]).
  destruct (Rle_lt_or_eq_dec 0 _ (Sum_nonneg N _ Hnn)) as [L|E]; [assumption|exfalso]. apply Hv.
  assert (Hz : forall a, (a < N)%nat -> u a * rdotv n (q a) v = 0).
  { intros a Ha. pose proof (Sum_ge_term N _ a Ha Hnn) as G. rewrite <- E in G. cbv beta in G. pose proof (Hnn a Ha) as G'. specialize (Hu a Ha).
    set (z := rdotv n (q a) v) in *. destruct (Req_dec z 0) as [->|Dz]; [ring|]. assert (0 < z * z) by nra. nra. }
  assert (HX : forall k, rmv n (gram N q u) v k = 0).
  { intros k. unfold rmv, gram. rewrite (Sum_ext n _ (fun l => Sum N (fun a => q a k * (u a * (q a l * v l))))).
    - rewrite Sum_swap. apply Sum_zero. intros a Ha. rewrite <- Sum_mul_l, <- Sum_mul_l. fold (rdotv n (q a) v). rewrite Hz by assumption. ring.
    - intros l Hl. rewrite Sum_mul_r. apply Sum_ext. intros; ring. }
  rewrite <- (rmv_inv n Y (gram N q u) v i (is_inv_sym _ _ _ HY) Hi). unfold rmv at 1. apply Sum_zero. intros k Hk. rewrite HX. ring.
Qed.

(** ** The iteration *)
Section M.
  Variables (inv : nat -> rmat -> option rmat) (N d : nat) (points : nat -> vec).
  Hypothesis HN : (0 < N)%nat.
  Hypothesis Hd : (0 < d)%nat.
  Hypothesis Hinv : inverts inv (S d).
  Let q : nat -> vec := fun a i => if Nat.ltb i d then points a i else 1.

  Lemma good_posdef u : good N d points u -> posdef (S d) (gram N q u).
  Proof. intros [[Hu _] HY]. now apply gram_posdef. Qed.
  Definition bound : R := 1 + Sum N (fun a => Sum (S d) (fun i => q a i * q a i)).
  Lemma gram_diag u i : probf N u -> (i < S d)%nat -> gram N q u i i <= bound.
  Proof.
    intros [Hu H1] Hi. unfold gram, bound.
    assert (Hb : forall a, (a < N)%nat -> q a i * q a i <= 1 + Sum N (fun a => Sum (S d) (fun i => q a i * q a i))).
    { intros a Ha. pose proof (Sum_ge_term (S d) (fun i => q a i * q a i) i Hi ltac:(intros; nra)) as G1. cbv beta in G1.
      pose proof (Sum_ge_term N (fun a => Sum (S d) (fun i => q a i * q a i)) a Ha ltac:(intros; apply Sum_nonneg; intros; nra)) as G2. cbv beta in G2. lra. }
    set (B := 1 + Sum N _) in *. apply Rle_trans with (Sum N (fun a => u a * B)).
    - apply Sum_le. intros a Ha. specialize (Hb a Ha). specialize (Hu a Ha). replace (q a i * u a * q a i) with (u a * (q a i * q a i)) by ring. now apply Rmult_le_compat_l.
    - rewrite Sum_scal_r, H1. lra.
  Qed.
  Lemma good_bound u : good N d points u -> 0 < pdet (S d) (gram N q u) <= bound ^ S d.
  Proof.
    intros H. pose proof (good_posdef u H) as P. split; [now apply pdet_pos|]. apply pdet_bound; [assumption|]. intros i Hi. apply gram_diag; [apply H|assumption].
  Qed.
  Lemma step_norm u s j : probf N u -> (j < N)%nat -> 0 <= s -> vnorm N (fun a => new_u s j u a - u a) <= 2 * s.
  Proof.
    intros [Hu H1] Hj Hs. unfold vnorm. rewrite <- (sqrt_Rsqr (2 * s)) by lra. apply sqrt_le_1_alt. unfold Rsqr.
    assert (Hle : forall a, (a < N)%nat -> u a <= 1) by (intros a Ha; rewrite <- H1; now apply Sum_ge_term).
    apply Rle_trans with (Sum N (fun a => s * s * (kd j a * 1 + u a))).
    - apply Sum_le. intros a Ha. specialize (Hu a Ha). specialize (Hle a Ha). unfold new_u, kd. rewrite (Nat.eqb_sym j a).
      assert (0 <= s * s) by nra. destruct (Nat.eqb a j).
      + replace ((1 - s) * u a + s - u a) with (s * (1 - u a)) by ring. replace (s * (1 - u a) * (s * (1 - u a))) with (s * s * ((1 - u a) * (1 - u a))) by ring. apply Rmult_le_compat_l; [assumption|nra].
      + replace ((1 - s) * u a - u a) with (s * - u a) by ring. replace (s * - u a * (s * - u a)) with (s * s * (u a * u a)) by ring. apply Rmult_le_compat_l; [assumption|nra].
    - rewrite Sum_scal, Sum_plus, H1, (Sum_kd_l N j (fun _ => 1)) by assumption. nra.
  Qed.
  Lemma bernoulli2 s k : 0 <= s <= 1 -> 1 - INR k * s <= (1 - s) ^ k.
  Proof.
    intros Hs. induction k as [|k IH]; [cbn; lra|]. rewrite S_INR. cbn [pow]. assert (0 <= INR k) by apply pos_INR.
    apply Rle_trans with ((1 - s) * (1 - INR k * s)); [nra|]. apply Rmult_le_compat_l; lra.
  Qed.
  Lemma solve_M M D w : 0 < w -> (M - 1) * w = D -> M = 1 + D / w.
  Proof. intros Hw E. subst D. field. lra. Qed.
  (** One pass multiplies the pivot product by (1-s)^(d+1) / (1 - s (d+1)), at least 1 + s^2. *)
  Lemma pass_growth u : good N d points u -> exists s u',
    mvee_body inv N d points u = Ok (vnorm N (fun a => u' a - u a), u') /\ good N d points u' /\ 0 <= s /\ vnorm N (fun a => u' a - u a) <= 2 * s /\
    pdet (S d) (gram N q u) * (1 + s * s) <= pdet (S d) (gram N q u').
  Proof.
    intros Hg. destruct (body_good inv N d points HN Hd Hinv u Hg) as (Y & s & j & u' & HY & Hj & _ & Es & Hm & Eu & Eb & Hg'). fold q in HY, Es, Hm.
    destruct (step_range N d HN Hd _ Hm) as (S0 & S1 & S2). cbv beta in *. rewrite <- Es in S0, S1, S2. set (M := rquad (S d) Y (q j)) in *.
    pose proof (Hd1 N d HN Hd) as D1. assert (Sl : s < 1) by nra. exists s, u'. split; [exact Eb|]. split; [exact Hg'|]. split; [exact S0|]. split; [rewrite Eu; apply step_norm; [apply Hg|assumption|assumption]|].
    pose proof (good_posdef u Hg) as PD. set (t := s / (1 - s)). assert (Ht : 0 <= t) by (unfold t; apply Rmult_le_pos; [lra|left; apply Rinv_0_lt_compat; lra]).
    assert (E : pdet (S d) (gram N q u') = (1 - s) ^ S d * (pdet (S d) (gram N q u) * (1 + t * M))).
    { rewrite (pdet_ext (S d) (gram N q u') (fun i k => (1 - s) * (gram N q u i k + t * (q j i * q j k)))).
      2:{ intros i k _ _. rewrite Eu. pose proof (gram_new N d points u s j i k Hj) as G. fold q in G. rewrite G. unfold t. field. lra. }
      rewrite pdet_scal; [|lra|].
      2:{ split; [intros i k _ _; unfold rtr; pose proof (gram_sym N d points u i k) as G; fold q in G; rewrite G; ring|].
        intros v Hv. destruct PD as [_ PD]. specialize (PD v Hv). revert PD. unfold rquad. intros PD.
        rewrite (Sum_ext (S d) _ (fun i => Sum (S d) (fun k => v i * gram N q u i k * v k) + t * (q j i * v i) * rdotv (S d) (q j) v))
          by (intros i Hi; unfold rdotv; rewrite Sum_mul_l, <- Sum_plus; apply Sum_ext; intros; ring).
        rewrite Sum_plus, Sum_scal_r, Sum_scal. fold (rdotv (S d) (q j) v). set (z := rdotv (S d) (q j) v) in *. assert (0 <= t * (z * z)) by (apply Rmult_le_pos; [assumption|nra]). lra. }
      f_equal. rewrite (pdet_rank1 (S d) (gram N q u) t (q j) (rmv (S d) Y (q j)) PD Ht).
      - do 3 f_equal. unfold M. rewrite rquad_dot. reflexivity.
      - intros i Hi. exact (rmv_inv (S d) (gram N q u) Y (q j) i HY Hi). }
    rewrite E. set (P0 := pdet (S d) (gram N q u)) in *. assert (HP0 : 0 < P0) by now apply pdet_pos.
    set (D := INR d) in *. assert (EM : M = 1 + D / (1 - s * (D + 1))) by (apply solve_M; [lra|exact S2]).
    assert (E2 : 1 + t * M = / (1 - s * (D + 1))) by (rewrite EM; unfold t; field; split; lra).
    rewrite E2. replace ((1 - s) ^ S d * (P0 * / (1 - s * (D + 1)))) with (P0 * ((1 - s) ^ S d / (1 - s * (D + 1)))) by (unfold Rdiv; ring).
    apply Rmult_le_compat_l; [lra|]. apply (Rmult_le_reg_r (1 - s * (D + 1))); [lra|]. unfold Rdiv. rewrite Rmult_assoc, Rinv_l, Rmult_1_r by lra. cbn [pow].
    pose proof (bernoulli2 s d ltac:(lra)) as HB. fold D in HB. apply Rle_trans with ((1 - s) * (1 - D * s)); [|apply Rmult_le_compat_l; lra]. clearbody D.
    assert (0 <= s * s) by nra. assert (0 <= s * s * (s * (D + 1))) by (apply Rmult_le_pos; [assumption|nra]). assert (s * s * 1 <= s * s * D) by (apply Rmult_le_compat_l; lra). lra.
  Qed.
  Lemma loop_progress fuel : forall tol err u, 0 < tol -> good N d points u -> mvee_loop inv fuel N d points tol err u = None ->
    pdet (S d) (gram N q u) * (1 + tol / 2 * (tol / 2)) ^ fuel <= bound ^ S d.
  Proof.
    induction fuel as [|f IH]; intros tol err u Ht Hg H; [cbn [pow]; rewrite Rmult_1_r; now apply good_bound|]. cbn [mvee_loop] in H.
    destruct (Rltb tol err); [|discriminate]. destruct (pass_growth u Hg) as (s & u' & Eb & Hg' & Hs & Hn & Hp). rewrite Eb in H.
    assert (Hlt : tol < vnorm N (fun a => u' a - u a)).
    { destruct f as [|f]; cbn [mvee_loop] in H; destruct (Rltb_spec tol (vnorm N (fun a => u' a - u a))); [assumption|discriminate|assumption|discriminate]. }
    specialize (IH tol _ u' Ht Hg' H). apply Rle_trans with (2 := IH). cbn [pow]. rewrite <- Rmult_assoc. apply Rmult_le_compat_r; [apply pow_le; nra|].
    apply Rle_trans with (2 := Hp). pose proof (good_bound u Hg). apply Rmult_le_compat_l; [lra|nra].
  Qed.
  Lemma growth_unbounded a P B : 0 < a -> 0 < P -> exists k, forall f, (k <= f)%nat -> B < P * (1 + a) ^ f.
  Proof.
    intros Ha HP. destruct (archimed_cor1 (P * a / (Rabs B + 1))) as (k & Hk & Hk0).
    { apply Rdiv_lt_0_compat; [nra|]. pose proof (Rabs_pos B). lra. }
    exists k. intros f Hf. assert (G : 1 + INR f * a <= (1 + a) ^ f).
    { clear - Ha. induction f as [|f IH]; [cbn; lra|]. rewrite S_INR. cbn [pow]. pose proof (pos_INR f). apply Rle_trans with ((1 + a) * (1 + INR f * a)); [nra|]. apply Rmult_le_compat_l; lra. }
    apply Rlt_le_trans with (P * (1 + INR f * a)); [|apply Rmult_le_compat_l; lra].
    assert (K : 0 < INR k) by now apply lt_0_INR. assert (F : INR k <= INR f) by now apply le_INR. pose proof (Rle_abs B) as AB. pose proof (Rabs_pos B) as AP.
    assert (HK : Rabs B + 1 < P * a * INR k).
    { apply (Rmult_lt_compat_r (INR k * (Rabs B + 1))) in Hk; [|nra]. replace (/ INR k * (INR k * (Rabs B + 1))) with (Rabs B + 1) in Hk by (field; lra).
      replace (P * a / (Rabs B + 1) * (INR k * (Rabs B + 1))) with (P * a * INR k) in Hk by (field; lra). assumption. }
    assert (P * a * INR k <= P * a * INR f) by (apply Rmult_le_compat_l; [nra|assumption]). lra.
  Qed.
End M.
