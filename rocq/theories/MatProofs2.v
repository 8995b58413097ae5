(** Integrals and slices for C109. *)
From Verif Require Import Base Sums Cplx LinAlg LinProofs RegSpec2 RegProofs3 RegProofs4 MatSpec MatModel.
From Coq Require Import Reals Lra Lia.

Lemma anti_unique f a b G H : a < b -> antiderivative_on f a b G -> antiderivative_on f a b H -> G b - G a = H b - H a.
Proof.
  intros Hab [GC GD] [HC HD].
  assert (D : forall c, a < c < b -> derivable_pt (fun x => G x - H x) c).
  { intros c Hc. exists (f c - f c). apply (derivable_pt_lim_minus G H); [now apply GD|now apply HD]. }
  assert (Di : forall c, a < c < b -> derivable_pt id c) by (intros; apply derivable_pt_id).
  destruct (MVT (fun x => G x - H x) id a b D Di Hab) as (c & P & E).
  - intros c Hc. apply (continuity_pt_minus G H); [now apply GC|now apply HC].
  - intros c _. apply derivable_continuous_pt, derivable_pt_id.
  - assert (Z : derive_pt (fun x => G x - H x) c (D c P) = 0).
    { rewrite (derive_pt_eq _ _ 0). replace 0 with (f c - f c) by ring. apply (derivable_pt_lim_minus G H); [now apply GD|now apply HD]. }
    rewrite Z in E. assert (Z1 : derive_pt id c (Di c P) = 1) by (rewrite (derive_pt_eq _ _ 1); apply derivable_pt_lim_id). rewrite Z1 in E. lra.
Qed.
Lemma integral_intro f a b G : a < b -> antiderivative_on f a b G -> integral_is f a b (G b - G a).
Proof. intros Hab HG. split; [now exists G|]. intros H HH. now apply (anti_unique f a b). Qed.
(** asin is continuous on [-1, 1] *)
Lemma asin_ge x y : -1 <= x <= 1 -> -(PI/2) <= y <= PI/2 -> sin y <= x -> y <= asin x.
Proof.
  intros Hx Hy H. destruct (Rle_lt_dec y (asin x)) as [|L]; [assumption|]. pose proof (asin_bound x) as Hb. exfalso.
  pose proof (sin_increasing_1 (asin x) y) as M. rewrite sin_asin in M by assumption. pose proof PI_RGT_0. specialize (M ltac:(lra) ltac:(lra) ltac:(lra) ltac:(lra) L). lra.
Qed.
Lemma asin_ge_1 x : 1 <= x -> asin x = PI / 2.
Proof. intros H. unfold asin. destruct (Rle_dec x (-1)); [lra|]. destruct (Rle_dec 1 x); [reflexivity|contradiction]. Qed.
Lemma asin_cont_1 : continuity_pt asin 1.
Proof.
  intros eps He. set (e := Rmin (eps / 2) (PI / 2)). pose proof PI_RGT_0 as Hpi. assert (e0 : 0 < e) by (apply Rmin_glb_lt; lra). assert (e1 : e <= eps / 2) by apply Rmin_l. assert (e2 : e <= PI / 2) by apply Rmin_r.
  assert (S1 : sin (PI / 2 - e) < 1). { rewrite <- sin_PI2. apply sin_increasing_1; lra. }
  assert (S0 : 0 <= sin (PI / 2 - e)) by (apply sin_ge_0; lra).
  exists (1 - sin (PI / 2 - e)). split; [lra|]. intros x [_ Hd]. cbn in Hd. unfold R_dist in *. cbn. unfold R_dist. rewrite asin_1.
  destruct (Rle_lt_dec 1 x) as [L|L]; [rewrite asin_ge_1 by assumption; rewrite Rminus_diag_eq, Rabs_R0 by reflexivity; assumption|].
  assert (Hx : sin (PI / 2 - e) < x). { rewrite Rabs_left in Hd by lra. lra. }
  pose proof (asin_ge x (PI / 2 - e) ltac:(lra) ltac:(lra) ltac:(lra)) as A1. pose proof (asin_bound x) as A2. rewrite Rabs_left1 by lra. lra.
Qed.
Lemma asin_cont_m1 : continuity_pt asin (-1).
Proof.
  apply (continuity_pt_locally_ext (fun x => - asin (- x)) asin 1 (-1)); [lra| |].
  - intros y _. rewrite asin_opp. ring.
  - apply continuity_pt_opp. apply (continuity_pt_comp (fun x => - x) asin); [apply continuity_pt_opp, derivable_continuous_pt, derivable_pt_id|]. replace (- -1) with 1 by ring. apply asin_cont_1.
Qed.
Lemma asin_cont x : -1 <= x <= 1 -> continuity_pt asin x.
Proof.
  intros [L H]. destruct (Rle_lt_or_eq_dec _ _ L) as [L'| <- ]; [|apply asin_cont_m1]. destruct (Rle_lt_or_eq_dec _ _ H) as [H'| -> ]; [|apply asin_cont_1].
  apply derivable_continuous_pt, derivable_pt_asin. lra.
Qed.
Lemma asin_der x : -1 < x < 1 -> derivable_pt_lim asin x (/ sqrt (1 - x²)).
Proof.
  intros Hx. pose proof (derive_pt_asin x Hx) as E. replace (/ sqrt (1 - x²)) with (1 / sqrt (1 - x²)) by (unfold Rdiv; ring). rewrite <- E. destruct (derivable_pt_asin x Hx) as [l Hl]. exact Hl.
Qed.
(** Antiderivatives of the powers of the cosine *)
Fixpoint wal (n : nat) (t : R) : R := match n with O => t | S O => sin t | S (S m) => (cos t ^ S m * sin t + INR (S m) * wal m t) / INR (S (S m)) end.
Lemma wal_der n t : derivable_pt_lim (wal n) t (cos t ^ n).
Proof.
  revert t. assert (P : forall n, (forall t, derivable_pt_lim (wal n) t (cos t ^ n)) /\ (forall t, derivable_pt_lim (wal (S n)) t (cos t ^ S n))); [|apply P].
  clear n. induction n as [|n [IH1 IH2]].
  - split; intros t; [apply derivable_pt_lim_id|]. cbn [wal]. rewrite pow_1. apply derivable_pt_lim_sin.
  - split; [exact IH2|]. intros t. assert (n0 : INR (S (S n)) <> 0) by (apply not_0_INR; lia).
    assert (D : derivable_pt_lim (fun t => / INR (S (S n)) * (cos t ^ S n * sin t + INR (S n) * wal n t)) t
      (/ INR (S (S n)) * ((INR (S n) * cos t ^ n * - sin t) * sin t + cos t ^ S n * cos t + INR (S n) * cos t ^ n))).
    { apply (derivable_pt_lim_scal (fun t => cos t ^ S n * sin t + INR (S n) * wal n t)). apply (derivable_pt_lim_plus (fun t => cos t ^ S n * sin t) (fun t => INR (S n) * wal n t)).
      - apply (derivable_pt_lim_mult (fun t => cos t ^ S n) sin); [|apply derivable_pt_lim_sin]. apply (derivable_pt_lim_comp cos (fun x => x ^ S n)); [apply derivable_pt_lim_cos|]. apply (derivable_pt_lim_pow (cos t) (S n)).
      - apply (derivable_pt_lim_scal (wal n)). apply IH1. }
    replace (cos t ^ S (S n)) with (/ INR (S (S n)) * ((INR (S n) * cos t ^ n * - sin t) * sin t + cos t ^ S n * cos t + INR (S n) * cos t ^ n)).
    + intros eps He. destruct (D eps He) as [del Hd]. exists del. intros h H1 H2. specialize (Hd h H1 H2). cbn [wal]. unfold Rdiv at 2 3. rewrite !(Rmult_comm _ (/ INR (S (S n)))). exact Hd.
    + cbn [pow]. set (k := cos t ^ n). rewrite (S_INR (S n)) in *. pose proof (sin2_cos2 t) as P. unfold Rsqr in P.
      replace (INR (S n) * k * - sin t * sin t + cos t * k * cos t + INR (S n) * k) with (INR (S n) * k * (1 - sin t * sin t) + cos t * cos t * k) by ring. replace (1 - sin t * sin t) with (cos t * cos t) by lra. field. assumption.
Qed.
Lemma wal_cont n t : continuity_pt (wal n) t.
Proof. apply derivable_continuous_pt. exists (cos t ^ n). apply wal_der. Qed.
(** The integral of sqrt(1 - x^2)^n over [-1, 1] *)
Definition wallis (n : nat) : R := wal (S n) (PI / 2) - wal (S n) (- (PI / 2)).
Lemma slice_integral n : integral_is (fun x => sqrt (1 - x²) ^ n) (-1) 1 (wallis n).
Proof.
  unfold wallis. rewrite <- asin_1 at 1. replace (- (PI / 2)) with (asin (-1)) by (replace (-1) with (- (1)) by ring; rewrite asin_opp, asin_1; reflexivity).
  apply (integral_intro _ (-1) 1 (fun x => wal (S n) (asin x))); [lra|]. split.
  - intros x Hx. apply (continuity_pt_comp asin (wal (S n))); [now apply asin_cont|apply wal_cont].
  - intros x Hx. assert (s0 : 0 < sqrt (1 - x²)) by (apply sqrt_lt_R0; unfold Rsqr; nra).
    replace (sqrt (1 - x²) ^ n) with (cos (asin x) ^ S n * / sqrt (1 - x²)) by (rewrite cos_asin by lra; cbn [pow]; field; lra).
    apply (derivable_pt_lim_comp asin (wal (S n))); [now apply asin_der|apply wal_der].
Qed.
Lemma wal_step n : wal (S (S n)) (PI / 2) - wal (S (S n)) (- (PI / 2)) = INR (S n) / INR (S (S n)) * (wal n (PI / 2) - wal n (- (PI / 2))).
Proof.
  cbn [wal]. rewrite cos_neg, cos_PI2. rewrite pow_i by lia. assert (n0 : INR (S (S n)) <> 0) by (apply not_0_INR; lia). field. assumption.
Qed.
Lemma wallis_prod n : wallis n * wallis (S n) = 2 * PI / INR (S (S n)).
Proof.
  induction n as [|n IH].
  - unfold wallis. rewrite wal_step. cbn [wal INR]. rewrite sin_neg, sin_PI2. field.
  - unfold wallis at 2. rewrite wal_step. fold (wallis n). rewrite (Rmult_comm (wallis (S n))), Rmult_assoc, IH. field. split; apply not_0_INR; lia.
Qed.
Lemma wallis_0 : wallis 0 = 2.
Proof. unfold wallis. cbn [wal]. rewrite sin_neg, sin_PI2. ring. Qed.
(** Volume of the unit ball *)
Section Gamma.
  Variable gamma : R -> R.
  Hypothesis gamma_1 : gamma 1 = 1.
  Hypothesis gamma_half : gamma (1 / 2) = sqrt PI.
  Hypothesis gamma_step : forall k, (0 < k)%nat -> gamma (INR k / 2 + 1) = INR k / 2 * gamma (INR k / 2).
  Lemma unit_volume_0 : unit_volume gamma 0 = 1.
  Proof. unfold unit_volume. cbn [INR]. replace (0 / 2) with 0 by field. rewrite Rpower_O by apply PI_RGT_0. rewrite Rplus_0_r, gamma_1. field. Qed.
  Lemma unit_volume_1 : unit_volume gamma 1 = 2.
  Proof.
    unfold unit_volume. rewrite Rplus_comm, gamma_step by lia. cbn [INR]. rewrite gamma_half. replace (1 / 2) with (/ 2) by field. rewrite Rpower_sqrt by apply PI_RGT_0. field. apply Rgt_not_eq, sqrt_lt_R0, PI_RGT_0.
  Qed.
  Lemma gamma_pos n : 0 < gamma (1 + INR n / 2).
  Proof.
    assert (P : 0 < gamma (1 + INR n / 2) /\ 0 < gamma (1 + INR (S n) / 2)); [|apply P]. induction n as [|n [I1 I2]].
    - split.
      + cbn [INR]. replace (1 + 0 / 2) with 1 by field. rewrite gamma_1. lra.
      + rewrite Rplus_comm, gamma_step by lia. cbn [INR]. rewrite gamma_half. assert (0 < sqrt PI) by (apply sqrt_lt_R0, PI_RGT_0). lra.
    - split; [exact I2|]. rewrite Rplus_comm, gamma_step by lia. assert (n0 : 0 < INR (S (S n)) / 2) by (apply Rdiv_lt_0_compat; [apply lt_0_INR; lia|lra]).
      apply Rmult_lt_0_compat; [exact n0|]. replace (INR (S (S n)) / 2) with (1 + INR n / 2) by (rewrite !S_INR; field). exact I1.
  Qed.
  Lemma unit_volume_step n : unit_volume gamma (S (S n)) = 2 * PI / INR (S (S n)) * unit_volume gamma n.
  Proof.
    unfold unit_volume. rewrite (Rplus_comm 1 (INR (S (S n)) / 2)), gamma_step by lia. replace (INR (S (S n)) / 2) with (1 + INR n / 2) at 1 3 by (rewrite !S_INR; field).
    rewrite Rpower_plus, Rpower_1 by apply PI_RGT_0. pose proof (gamma_pos n). field. split; [lra|apply not_0_INR; lia].
  Qed.
  Lemma unit_volume_slices n : unit_volume gamma (S n) = unit_volume gamma n * wallis n.
  Proof.
    induction n as [|n IH]; [rewrite unit_volume_0, unit_volume_1, wallis_0; ring|]. rewrite unit_volume_step, IH, Rmult_assoc, wallis_prod. ring.
  Qed.
  Lemma unit_volume_pos n : 0 < unit_volume gamma n.
  Proof. unfold unit_volume. apply Rdiv_lt_0_compat; [apply exp_pos|apply gamma_pos]. Qed.
End Gamma.
(** Stretching an integral *)
Lemma integral_stretch f K r I : 0 < r -> integral_is f (-1) 1 I -> integral_is (fun h => K * f (h / r)) (- r) r (K * r * I).
Proof.
  intros Hr [[G HG] HI]. specialize (HI G HG). destruct HG as [GC GD].
  assert (Hs : forall h, - r <= h <= r -> -1 <= h / r <= 1). { intros h Hh. split; [apply Rmult_le_reg_r with r; [lra|]|apply Rmult_le_reg_r with r; [lra|]]; unfold Rdiv; rewrite Rmult_assoc, Rinv_l, Rmult_1_r by lra; lra. }
  assert (Hs' : forall h, - r < h < r -> -1 < h / r < 1). { intros h Hh. split; [apply Rmult_lt_reg_r with r; [lra|]|apply Rmult_lt_reg_r with r; [lra|]]; unfold Rdiv; rewrite Rmult_assoc, Rinv_l, Rmult_1_r by lra; lra. }
  assert (Dl : forall h, derivable_pt_lim (fun h => h / r) h (/ r)).
  { intros h. assert (D : derivable_pt_lim (fun h => / r * id h) h (/ r * 1)) by (apply derivable_pt_lim_scal, derivable_pt_lim_id). rewrite Rmult_1_r in D.
    intros eps He. destruct (D eps He) as [del Hd]. exists del. intros t H1 H2. specialize (Hd t H1 H2). unfold id in Hd. unfold Rdiv at 2 3. rewrite !(Rmult_comm _ (/ r)). exact Hd. }
  replace (K * r * I) with ((fun h => K * r * G (h / r)) r - (fun h => K * r * G (h / r)) (- r)).
  2:{ cbv beta. replace (r / r) with 1 by (field; lra). replace (- r / r) with (-1) by (field; lra). rewrite <- HI. ring. }
  apply (integral_intro _ (- r) r (fun h => K * r * G (h / r))); [lra|]. split.
  - intros h Hh. apply (continuity_pt_scal (fun h => G (h / r))). apply (continuity_pt_comp (fun h => h / r) G); [|now apply GC, Hs].
    apply derivable_continuous_pt. exists (/ r). apply Dl.
  - intros h Hh. replace (K * f (h / r)) with (K * r * (f (h / r) * / r)) by (field; lra). apply (derivable_pt_lim_scal (fun h => G (h / r))). apply (derivable_pt_lim_comp (fun h => h / r) G); [apply Dl|now apply GD, Hs'].
Qed.
Lemma integral_ext f g a b I : (forall x, a < x < b -> f x = g x) -> integral_is f a b I -> integral_is g a b I.
Proof.
  intros E. assert (An : forall u v G, (forall x, a < x < b -> u x = v x) -> antiderivative_on u a b G -> antiderivative_on v a b G) by (intros u v G Huv [H1 H2]; split; [exact H1|intros x Hx; rewrite <- Huv by assumption; now apply H2]).
  intros [[G HG] HI]. split; [exists G; now apply (An f g)|]. intros H HH. apply HI. apply (An g f); [intros x Hx; symmetry; now apply E|exact HH].
Qed.
(** Slices of an ellipsoid *)
Lemma rquad_split n X a b : meq n X (rtr X) -> rquad n X (fun i => a i + b i) = rquad n X a + rquad n X b + 2 * Sum n (fun i => b i * Sum n (fun k => X i k * a k)).
Proof.
  intros Hs. unfold rquad.
  rewrite (Sum_ext n (fun j => Sum n (fun l => (a j + b j) * X j l * (a l + b l))) (fun j => Sum n (fun l => a j * X j l * a l) + Sum n (fun l => b j * X j l * b l) + (Sum n (fun l => b l * (X l j * a j)) + b j * Sum n (fun k => X j k * a k)))).
  - rewrite !Sum_plus. rewrite (Sum_swap n n (fun i i0 => b i0 * (X i0 i * a i))). rewrite (Sum_ext n (fun j => Sum n (fun i => b j * (X j i * a i))) (fun j => b j * Sum n (fun k => X j k * a k))) by (intros; now rewrite Sum_scal). ring.
  - intros j Hj. rewrite <- (Sum_scal n (b j)). rewrite <- !Sum_plus. apply Sum_ext. intros l Hl. rewrite (Hs l j) by assumption. unfold rtr. ring.
Qed.
Lemma slice_form n B z h y : posdef (S n) B -> (forall i, (i < S n)%nat -> Sum (S n) (fun k => B i k * z k) = kd i 0) -> 0 < z 0%nat ->
  rquad (S n) B (vcons h y) = h * h / z 0%nat + rquad n (minor B) (fun i => y i - h * (z (S i) / z 0%nat)).
Proof.
  intros HB Hz Hp. destruct HB as [Hs _]. set (u := fun i => y i - h * (z (S i) / z 0%nat)).
  rewrite (rquad_ext (S n) B B (vcons h y) (fun i => (h / z 0%nat) * z i + vcons 0 u i)) by (try (intros ? ? _ _; reflexivity); intros [|i] _; cbn [vcons]; unfold u; field; lra).
  rewrite (rquad_split (S n) B (fun i => h / z 0%nat * z i) (vcons 0 u)) by assumption. rewrite rquad_scal.
  assert (Qz : rquad (S n) B z = z 0%nat).
  { rewrite rquad_dot. unfold rdotv, rmv. rewrite (Sum_ext (S n) _ (fun k => z k * kd k 0)) by (intros k Hk; now rewrite Hz). apply (Sum_kd_r (S n) 0 z). lia. }
  assert (Qu : rquad (S n) B (vcons 0 u) = rquad n (minor B) u).
  { unfold rquad. rewrite Sum_S. cbn [vcons]. rewrite Sum_zero by (intros; ring). rewrite Rplus_0_l. apply Sum_ext. intros i _. rewrite Sum_S. cbn [vcons]. rewrite Rmult_0_r, Rplus_0_l. reflexivity. }
  rewrite Qz, Qu. rewrite (Sum_zero (S n)).
  - field. lra.
  - intros i Hi. rewrite (Sum_ext (S n) _ (fun k => h / z 0%nat * (B i k * z k))) by (intros; ring). rewrite Sum_scal, Hz by assumption. destruct i; cbn [vcons]; [ring|]. rewrite kd_diff by lia. ring.
Qed.
Lemma sqrt_pow_n x n : 0 <= x -> sqrt (x ^ n) = sqrt x ^ n.
Proof. intros H. induction n as [|n IH]; [apply sqrt_1|]. cbn [pow]. rewrite sqrt_mult by (try assumption; now apply pow_le). now rewrite IH. Qed.
Lemma posdef_has_inverse n X : posdef n X -> exists Y, is_inv n X Y.
Proof.
  intros HX.
  assert (C : forall m, exists f : nat -> vec, forall j, (j < m)%nat -> forall i, (i < n)%nat -> Sum n (fun k => X i k * f j k) = kd i j).
  { induction m as [|m [f Hf]]; [exists (fun _ _ => 0); intros; lia|]. destruct (solve n X (fun i => kd i m) HX) as [z Hz]. exists (fun j => if Nat.eqb j m then z else f j).
    intros j Hj i Hi. destruct (Nat.eqb_spec j m) as [->|Hn]; [now apply Hz|]. apply Hf; [lia|assumption]. }
  destruct (C n) as [f Hf]. exists (fun k j => f j k). set (Y := fun k j => f j k).
  assert (H1 : meq n (rmul n X Y) kd) by (intros i j Hi Hj; apply (Hf j Hj i Hi)).
  assert (Ys : forall i j, (i < n)%nat -> (j < n)%nat -> Y i j = Y j i).
  { intros i j Hi Hj. destruct HX as [Hs _].
    (* Y i j = sum_k kd k i Y k j = sum_k (X Y) k i ... = f_i . X f_j *)
    assert (B : forall a b, (a < n)%nat -> (b < n)%nat -> rdotv n (f a) (rmv n X (f b)) = f a b).
    { intros a b Ha Hb. unfold rdotv, rmv. rewrite (Sum_ext n _ (fun k => f a k * kd k b)) by (intros k Hk; now rewrite Hf). now apply Sum_kd_r. }
    unfold Y. rewrite <- (B j i Hj Hi), <- (B i j Hi Hj). unfold rdotv, rmv.
    rewrite (Sum_ext n _ (fun k => Sum n (fun l => f j k * (X k l * f i l)))) by (intros; now rewrite Sum_scal). rewrite Sum_swap. apply Sum_ext. intros k Hk. rewrite <- Sum_scal. apply Sum_ext. intros l Hl. rewrite (Hs l k) by assumption. unfold rtr. ring. }
  split; [exact H1|]. intros i j Hi Hj. rewrite kd_sym. rewrite <- (H1 j i Hj Hi). unfold rmul. apply Sum_ext. intros k Hk. rewrite (Ys i k), (Ys k i) by assumption.
  destruct HX as [Hs _]. rewrite (Hs k j) by assumption. unfold rtr. rewrite (Ys i k) by assumption. ring.
Qed.
