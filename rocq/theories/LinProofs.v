(** Linear algebra used by the region proofs. *)
From Verif Require Import Base Sums LinAlg.

Lemma Sum_single n j f : (j < n)%nat -> (forall k, (k < n)%nat -> k <> j -> f k = 0) -> Sum n f = f j.
Proof.
  revert j f; induction n as [|n IH]; intros j f Hj H; [lia|]. rewrite Sum_S. destruct j as [|j].
  - rewrite Sum_zero; [lra|]. intros i Hi. apply H; lia.
  - rewrite (H 0%nat) by lia. rewrite (IH j (fun i => f (S i))); [lra|lia|]. intros k Hk Hne. apply H; lia.
Qed.
Lemma kd_same i : kd i i = 1. Proof. unfold kd. now rewrite Nat.eqb_refl. Qed.
Lemma kd_diff i j : i <> j -> kd i j = 0.
Proof. intro H. unfold kd. destruct (Nat.eqb_spec i j); [contradiction|reflexivity]. Qed.
Lemma kd_sym i j : kd i j = kd j i. Proof. unfold kd. rewrite Nat.eqb_sym. reflexivity. Qed.
Lemma Sum_kd_l n i f : (i < n)%nat -> Sum n (fun k => kd i k * f k) = f i.
Proof. intro H. rewrite (Sum_single n i); [rewrite kd_same; lra|assumption|]. intros k _ Hk. rewrite kd_diff by congruence. lra. Qed.
Lemma Sum_kd_r n j f : (j < n)%nat -> Sum n (fun k => f k * kd k j) = f j.
Proof. intro H. rewrite (Sum_single n j); [rewrite kd_same; lra|assumption|]. intros k _ Hk. rewrite kd_diff by congruence. lra. Qed.

Lemma Sum_last n f : Sum (S n) f = Sum n f + f n.
Proof.
  revert f; induction n as [|n IH]; intro f; [rewrite Sum_S, !Sum_0; lra|].
  rewrite Sum_S, IH, (Sum_S n f). lra.
Qed.
Lemma Sum_mul_l n c f : c * Sum n f = Sum n (fun i => c * f i).
Proof. now rewrite Sum_scal. Qed.
Lemma Sum_mul_r n c f : Sum n f * c = Sum n (fun i => f i * c).
Proof. now rewrite Sum_scal_r. Qed.
Lemma Sum_opp n f : Sum n (fun i => - f i) = - Sum n f.
Proof. rewrite (Sum_ext n _ (fun i => (-1) * f i)) by (intros; ring). rewrite Sum_scal. ring. Qed.
Lemma Sum_prod n m f g : Sum n f * Sum m g = Sum n (fun i => Sum m (fun j => f i * g j)).
Proof. rewrite Sum_mul_r. apply Sum_ext. intros. now rewrite Sum_mul_l. Qed.
Lemma Sum_pos_ex n f : 0 < Sum n f -> exists i, (i < n)%nat /\ 0 < f i.
Proof.
  revert f; induction n as [|n IH]; intros f H; [rewrite Sum_0 in H; lra|]. rewrite Sum_last in H.
  destruct (Rlt_dec 0 (f n)); [exists n; split; [lia|assumption]|].
  destruct (IH f) as (i & Hi & H'); [lra|]. exists i. split; [lia|assumption].
Qed.
Lemma Sum_ge_term n f j : (j < n)%nat -> (forall i, (i < n)%nat -> 0 <= f i) -> f j <= Sum n f.
Proof.
  intros Hj H. induction n as [|n IH]; [lia|]. rewrite Sum_last.
  destruct (Nat.eq_dec j n) as [->|Hne].
  - assert (0 <= Sum n f) by (apply Sum_nonneg; intros; apply H; lia). lra.
  - assert (f j <= Sum n f) by (apply IH; [lia|intros; apply H; lia]). assert (0 <= f n) by (apply H; lia). lra.
Qed.

Lemma argmaxf_lt n f : (0 < n)%nat -> (argmaxf n f < n)%nat.
Proof.
  induction n as [|n IH]; [lia|]. intros _. cbn [argmaxf]. destruct (Rltb_spec (f (argmaxf n f)) (f n)); [lia|].
  destruct n; [cbn; lia|]. specialize (IH ltac:(lia)). lia.
Qed.
Lemma argmaxf_max n f i : (i < n)%nat -> f i <= f (argmaxf n f).
Proof.
  induction n as [|n IH]; [lia|]. intros Hi. cbn [argmaxf]. destruct (Rltb_spec (f (argmaxf n f)) (f n)) as [H|H].
  - destruct (Nat.eq_dec i n) as [->|]; [lra|]. specialize (IH ltac:(lia)). lra.
  - destruct (Nat.eq_dec i n) as [->|]; [lra|]. apply IH; lia.
Qed.

Lemma rmul_ext n X X' Y Y' i j : (forall k, (k < n)%nat -> X i k = X' i k) -> (forall k, (k < n)%nat -> Y k j = Y' k j) ->
  rmul n X Y i j = rmul n X' Y' i j.
Proof. intros H1 H2. apply Sum_ext. intros k Hk. rewrite H1, H2 by assumption. reflexivity. Qed.
Lemma rmul_assoc n m X Y Z i j : rmul m (rmul n X Y) Z i j = rmul n X (rmul m Y Z) i j.
Proof.
  unfold rmul. rewrite (Sum_ext m _ (fun k => Sum n (fun l => X i l * Y l k * Z k j))) by (intros; now rewrite Sum_mul_r).
  rewrite Sum_swap. apply Sum_ext. intros l Hl. rewrite Sum_mul_l. apply Sum_ext. intros. ring.
Qed.
Lemma rmv_rmul n m X Y v i : rmv m (rmul n X Y) v i = rmv n X (rmv m Y v) i.
Proof.
  unfold rmv, rmul. rewrite (Sum_ext m _ (fun k => Sum n (fun l => X i l * Y l k * v k))) by (intros; now rewrite Sum_mul_r).
  rewrite Sum_swap. apply Sum_ext. intros l Hl. rewrite Sum_mul_l. apply Sum_ext. intros. ring.
Qed.
Lemma rmul_diag n X u i j : (j < n)%nat -> rmul n X (rdiag u) i j = X i j * u j.
Proof.
  intro H. unfold rmul, rdiag. rewrite (Sum_single n j); [now rewrite Nat.eqb_refl|assumption|].
  intros k _ Hk. destruct (Nat.eqb_spec k j); [contradiction|lra].
Qed.
Lemma rmv_ext n X v w i : (forall k, (k < n)%nat -> v k = w k) -> rmv n X v i = rmv n X w i.
Proof. intro H. apply Sum_ext. intros k Hk. now rewrite H. Qed.
Lemma rmv_inv n X Y v i : is_inv n X Y -> (i < n)%nat -> rmv n X (rmv n Y v) i = v i.
Proof.
  intros [H _] Hi. rewrite <- rmv_rmul. unfold rmv. rewrite (Sum_ext n _ (fun k => kd i k * v k)).
  - now apply Sum_kd_l.
  - intros k Hk. now rewrite (H i k).
Qed.
Lemma is_inv_sym n X Y : is_inv n X Y -> is_inv n Y X.
Proof. intros [H1 H2]. now split. Qed.
Lemma is_inv_unique n X Y Z : is_inv n X Y -> is_inv n X Z -> meq n Y Z.
Proof.
  intros [HY1 HY2] [HZ1 HZ2] i j Hi Hj.
  transitivity (rmul n (rmul n Y X) Z i j).
  - rewrite rmul_assoc. unfold rmul at 1. rewrite (Sum_ext n _ (fun k => Y i k * kd k j)); [now rewrite Sum_kd_r|].
    intros k Hk. now rewrite (HZ1 k j).
  - unfold rmul at 1. rewrite (Sum_ext n _ (fun k => kd i k * Z k j)); [now rewrite Sum_kd_l|].
    intros k Hk. now rewrite (HY2 i k).
Qed.
Lemma is_inv_ext n X X' Y Y' : meq n X X' -> meq n Y Y' -> is_inv n X Y -> is_inv n X' Y'.
Proof.
  intros HX HY [H1 H2]. split; intros i j Hi Hj.
  - rewrite <- (H1 i j) by assumption. symmetry. apply rmul_ext; intros; [apply HX|apply HY]; assumption.
  - rewrite <- (H2 i j) by assumption. symmetry. apply rmul_ext; intros; [apply HY|apply HX]; assumption.
Qed.
Lemma rquad_dot n X y : rquad n X y = rdotv n y (rmv n X y).
Proof. unfold rquad, rdotv, rmv. apply Sum_ext. intros. rewrite Sum_mul_l. apply Sum_ext. intros. ring. Qed.
Lemma rquad_ext n X Y y z : meq n X Y -> (forall i, (i < n)%nat -> y i = z i) -> rquad n X y = rquad n Y z.
Proof. intros H1 H2. apply Sum_ext; intros i Hi. apply Sum_ext; intros j Hj. now rewrite H1, !H2 by assumption. Qed.
Lemma rquad_scal n X c y : rquad n X (fun i => c * y i) = c * c * rquad n X y.
Proof. unfold rquad. rewrite Sum_mul_l. apply Sum_ext; intros. rewrite Sum_mul_l. apply Sum_ext; intros. ring. Qed.
Lemma rquad_mscal n X c y : rquad n (fun i j => c * X i j) y = c * rquad n X y.
Proof. unfold rquad. rewrite Sum_mul_l. apply Sum_ext; intros. rewrite Sum_mul_l. apply Sum_ext; intros. ring. Qed.
Lemma rdotv_sym n v w : rdotv n v w = rdotv n w v.
Proof. apply Sum_ext. intros. ring. Qed.
Lemma is_inv_scal n c X Y : c <> 0 -> is_inv n X Y -> is_inv n (fun i j => c * X i j) (fun i j => / c * Y i j).
Proof.
  intros Hc [H1 H2]. split; intros i j Hi Hj.
  - rewrite <- (H1 i j) by assumption. unfold rmul. apply Sum_ext. intros. field. assumption.
  - rewrite <- (H2 i j) by assumption. unfold rmul. apply Sum_ext. intros. field. assumption.
Qed.

(** Weighted Gram matrices  X = sum_a u_a q_a q_a^T *)
Definition gram (N : nat) (q : nat -> vec) (u : vec) : rmat := fun i j => Sum N (fun a => q a i * u a * q a j).

Lemma gram_form N n q u v w : rdotv n v (rmv n (gram N q u) w) = Sum N (fun a => u a * rdotv n (q a) v * rdotv n (q a) w).
Proof.
  unfold rdotv, rmv, gram.
  transitivity (Sum n (fun i => Sum N (fun a => Sum n (fun j => v i * (q a i * u a * q a j) * w j)))).
  { apply Sum_ext; intros i Hi. rewrite Sum_swap. rewrite Sum_mul_l. apply Sum_ext; intros j Hj.
    rewrite Sum_mul_r, Sum_mul_l. apply Sum_ext; intros. ring. }
  rewrite Sum_swap. apply Sum_ext; intros a Ha.
  rewrite (Rmult_assoc (u a)), Sum_prod, Sum_mul_l. apply Sum_ext; intros i Hi. rewrite Sum_mul_l. apply Sum_ext; intros j Hj. ring.
Qed.

Section Gram.
  Variables (N n : nat) (q : nat -> vec) (u : vec) (Y : rmat).
  Hypothesis Hu : forall a, (a < N)%nat -> 0 <= u a.
  Hypothesis HY : is_inv n (gram N q u) Y.
  Let m (x : vec) := rquad n Y x.

  Lemma gram_psd v : 0 <= rdotv n v (rmv n (gram N q u) v).
  Proof. rewrite gram_form. apply Sum_nonneg. intros a Ha. specialize (Hu a Ha). rewrite Rmult_assoc. apply Rmult_le_pos; [assumption|]. nra. Qed.
  (** x.Yx = (Yx)^T X (Yx) *)
  Lemma quad_inv x : m x = rdotv n (rmv n Y x) (rmv n (gram N q u) (rmv n Y x)).
  Proof.
    unfold m. rewrite rquad_dot, rdotv_sym. apply Sum_ext. intros i Hi. rewrite (rmv_inv n _ Y) by assumption. reflexivity.
  Qed.
  Lemma quad_inv_nonneg x : 0 <= m x.
  Proof. rewrite quad_inv. apply gram_psd. Qed.
  Lemma trace_inv : Sum N (fun a => u a * m (q a)) = INR n.
  Proof.
    unfold m, rquad. transitivity (Sum n (fun i => rmul n Y (gram N q u) i i)).
    - transitivity (Sum N (fun a => Sum n (fun i => Sum n (fun j => u a * (q a i * Y i j * q a j))))).
      { apply Sum_ext; intros. rewrite Sum_mul_l. apply Sum_ext; intros. now rewrite Sum_mul_l. }
      rewrite Sum_swap. apply Sum_ext; intros i Hi. rewrite Sum_swap. unfold rmul, gram. apply Sum_ext; intros j Hj.
      rewrite Sum_mul_l. apply Sum_ext; intros. ring.
    - destruct HY as [_ H2]. rewrite (Sum_ext n _ (fun _ => 1)).
      + clear. induction n as [|k IH]; [reflexivity|]. rewrite Sum_last, IH, S_INR. reflexivity.
      + intros i Hi. rewrite H2 by assumption. apply kd_same.
  Qed.
  Lemma leverage_le_1 j : (j < N)%nat -> u j * m (q j) <= 1.
  Proof.
    intro Hj. set (v := rmv n Y (q j)).
    assert (Hv : rdotv n (q j) v = m (q j)) by (unfold m; rewrite rquad_dot; reflexivity).
    assert (H : u j * (m (q j) * m (q j)) <= m (q j)).
    { rewrite (quad_inv (q j)) at 3. fold v. rewrite gram_form.
      apply Rle_trans with ((fun a => u a * rdotv n (q a) v * rdotv n (q a) v) j).
      - cbv beta. rewrite Hv. lra.
      - apply (Sum_ge_term N (fun a => u a * rdotv n (q a) v * rdotv n (q a) v)); [assumption|].
        intros a Ha. specialize (Hu a Ha). rewrite Rmult_assoc. apply Rmult_le_pos; [assumption|]. nra. }
    pose proof (quad_inv_nonneg (q j)) as Hm. pose proof (Hu j Hj).
    destruct (Req_dec (m (q j)) 0) as [E|E]; [rewrite E; lra|].
    apply (Rmult_le_reg_r (m (q j))); [lra|]. rewrite Rmult_1_l. lra.
  Qed.
End Gram.

(** Rank-one update of an inverse *)
Lemma sherman_morrison n X Y t x : is_inv n X Y -> 1 + t * rquad n Y x <> 0 ->
  is_inv n (fun i j => X i j + t * (x i * x j))
           (fun i j => Y i j - t / (1 + t * rquad n Y x) * (rmv n Y x i * rmv n (rtr Y) x j)).
Proof.
  intros HI Hne. set (mu := rquad n Y x) in *. set (k := t / (1 + t * mu)). set (av := rmv n Y x). set (bv := rmv n (rtr Y) x).
  assert (Hk : t - k - t * k * mu = 0) by (unfold k; field; assumption).
  assert (Hxa : Sum n (fun l => x l * av l) = mu) by (unfold mu; rewrite rquad_dot; reflexivity).
  assert (Hbx : Sum n (fun l => bv l * x l) = mu).
  { unfold mu, rquad, bv, rmv, rtr. rewrite Sum_swap. apply Sum_ext; intros l Hl. rewrite Sum_mul_r. apply Sum_ext; intros; ring. }
  assert (HXa : forall i, (i < n)%nat -> Sum n (fun l => X i l * av l) = x i) by (intros i Hi; apply (rmv_inv n X Y x i HI Hi)).
  assert (HbX : forall j, (j < n)%nat -> Sum n (fun l => bv l * X l j) = x j).
  { intros j Hj. unfold bv, rmv, rtr.
    transitivity (Sum n (fun i => x i * rmul n Y X i j)).
    - unfold rmul. transitivity (Sum n (fun l => Sum n (fun i => x i * (Y i l * X l j)))).
      + apply Sum_ext; intros. rewrite Sum_mul_r. apply Sum_ext; intros; ring.
      + rewrite Sum_swap. apply Sum_ext; intros. now rewrite Sum_mul_l.
    - destruct HI as [_ H2]. rewrite (Sum_ext n _ (fun i => x i * kd i j)); [now rewrite Sum_kd_r|]. intros i Hi. now rewrite H2. }
  assert (HxY : forall j, Sum n (fun l => x l * Y l j) = bv j) by (intro j; unfold bv, rmv, rtr; apply Sum_ext; intros; ring).
  assert (HYx : forall i, Sum n (fun l => Y i l * x l) = av i) by reflexivity.
  destruct HI as [H1 H2]. split; intros i j Hi Hj; unfold rmul.
  - transitivity (rmul n X Y i j - k * Sum n (fun l => X i l * av l) * bv j + t * x i * Sum n (fun l => x l * Y l j)
        - t * k * x i * Sum n (fun l => x l * av l) * bv j).
    + unfold rmul. rewrite !Sum_mul_l, !Sum_mul_r. rewrite <- Sum_minus, <- Sum_plus, <- Sum_minus. apply Sum_ext; intros; ring.
    + rewrite H1, HXa, HxY, Hxa by assumption. replace (t * k * x i * mu * bv j) with ((t - k) * x i * bv j); [ring|].
      replace (t - k) with (t * k * mu) by lra. ring.
  - transitivity (rmul n Y X i j + t * Sum n (fun l => Y i l * x l) * x j - k * av i * Sum n (fun l => bv l * X l j)
        - t * k * av i * Sum n (fun l => bv l * x l) * x j).
    + unfold rmul. rewrite !Sum_mul_l, !Sum_mul_r. rewrite <- Sum_plus, <- !Sum_minus. apply Sum_ext; intros; ring.
    + rewrite H2, HbX, HYx, Hbx by assumption. replace (t * k * av i * mu * x j) with ((t - k) * av i * x j); [ring|].
      replace (t - k) with (t * k * mu) by lra. ring.
Qed.

(** Bordered matrices: the leading block of the inverse inverts the Schur complement *)
Section Border.
  Variables (d : nat) (X Y : rmat).
  Hypothesis Hcorner : X d d = 1.
  Hypothesis Hsym : forall k, (k < d)%nat -> X d k = X k d.
  Hypothesis HY : is_inv (S d) X Y.
  Let c : vec := fun i => X i d.

  Lemma border_row j : (j < d)%nat -> Y d j = - Sum d (fun k => c k * Y k j).
  Proof.
    intro Hj. destruct HY as [H1 _]. specialize (H1 d j ltac:(lia) ltac:(lia)). unfold rmul in H1.
    rewrite Sum_last, Hcorner, kd_diff in H1 by lia.
    rewrite (Sum_ext d _ (fun k => c k * Y k j)) in H1; [lra|]. intros k Hk. unfold c. rewrite Hsym by assumption. reflexivity.
  Qed.
  Lemma border_col i : (i < d)%nat -> Y i d = - Sum d (fun k => Y i k * c k).
  Proof.
    intro Hi. destruct HY as [_ H2]. specialize (H2 i d ltac:(lia) ltac:(lia)). unfold rmul in H2.
    rewrite Sum_last, Hcorner, kd_diff in H2 by lia. unfold c. lra.
  Qed.
  Lemma border_corner : Y d d = 1 + rquad d Y c.
  Proof.
    destruct HY as [H1 _]. specialize (H1 d d ltac:(lia) ltac:(lia)). unfold rmul in H1.
    rewrite Sum_last, Hcorner, kd_same in H1.
    rewrite (Sum_ext d _ (fun k => - (c k * Sum d (fun l => Y k l * c l)))) in H1.
    - assert (E : Sum d (fun k => - (c k * Sum d (fun l => Y k l * c l))) = - rquad d Y c).
      { rewrite Sum_opp. f_equal. unfold rquad. apply Sum_ext; intros. rewrite Sum_mul_l. apply Sum_ext; intros; ring. }
      lra.
    - intros k Hk. rewrite border_col by assumption. rewrite Hsym by assumption. fold (c k). ring.
  Qed.
  Lemma border_inv : is_inv d (fun i j => X i j - c i * c j) Y.
  Proof.
    split; intros i j Hi Hj; unfold rmul.
    - pose proof HY as [H1 _]. specialize (H1 i j ltac:(lia) ltac:(lia)). unfold rmul in H1. rewrite Sum_last in H1.
      rewrite border_row in H1 by assumption. rewrite <- H1. fold (c i).
      rewrite (Sum_ext d _ (fun k => X i k * Y k j - c i * (c k * Y k j))) by (intros; ring).
      rewrite Sum_minus, Sum_scal. ring.
    - pose proof HY as [_ H2]. specialize (H2 i j ltac:(lia) ltac:(lia)). unfold rmul in H2. rewrite Sum_last in H2.
      rewrite border_col in H2 by assumption. rewrite <- H2. rewrite Hsym by assumption. fold (c j).
      rewrite (Sum_ext d _ (fun k => Y i k * X k j - (Y i k * c k) * c j)) by (intros; ring).
      rewrite Sum_minus, Sum_scal_r. ring.
  Qed.
  Lemma border_quad (p : vec) : rquad (S d) Y (fun i => if Nat.ltb i d then p i else 1) = 1 + rquad d Y (fun i => p i - c i).
  Proof.
    set (q := fun i => if Nat.ltb i d then p i else 1).
    assert (Hq : forall i, (i < d)%nat -> q i = p i) by (intros i Hi; unfold q; destruct (Nat.ltb_spec i d); [reflexivity|lia]).
    assert (Hqd : q d = 1) by (unfold q; now rewrite Nat.ltb_irrefl).
    unfold rquad at 1. rewrite Sum_last.
    rewrite (Sum_ext d _ (fun i => Sum d (fun j => p i * Y i j * p j) + p i * Y i d)).
    2:{ intros i Hi. rewrite Sum_last, Hqd, (Hq i Hi). f_equal; [|ring]. apply Sum_ext; intros j Hj. now rewrite (Hq j Hj). }
    rewrite Sum_plus, Sum_last, Hqd, border_corner.
    rewrite (Sum_ext d (fun i => p i * Y i d) (fun i => Sum d (fun k => - (p i * Y i k * c k)))).
    2:{ intros i Hi. rewrite border_col by assumption. rewrite Sum_opp, Ropp_mult_distr_r_reverse, Sum_mul_l. f_equal. apply Sum_ext; intros; ring. }
    rewrite (Sum_ext d (fun j => 1 * Y d j * q j) (fun j => Sum d (fun k => - (c k * Y k j * p j)))).
    2:{ intros j Hj. rewrite border_row, (Hq j Hj) by assumption. rewrite Sum_opp, Rmult_1_l, Ropp_mult_distr_l_reverse, Sum_mul_r. reflexivity. }
    rewrite (Sum_swap d d (fun j k => - (c k * Y k j * p j))).
    unfold rquad.
    rewrite (Sum_ext d (fun j => Sum d (fun l => (p j - c j) * Y j l * (p l - c l)))
      (fun j => Sum d (fun l => p j * Y j l * p l) + Sum d (fun l => - (p j * Y j l * c l)) + Sum d (fun l => - (c j * Y j l * p l)) + Sum d (fun l => c j * Y j l * c l))).
    2:{ intros j Hj. rewrite <- !Sum_plus. apply Sum_ext; intros; ring. }
    rewrite !Sum_plus. ring.
  Qed.
End Border.
