(** C108: the matrix square root of utils.py is the root of the nearest positive semidefinite matrix. C109: ellipsoid volumes. *)
From Verif Require Import Base Sums Cplx LinAlg LinProofs TomoSpec TomoProofs3 RegSpec2 RegProofs3 RegProofs4 MatSpec MatModel MatProofs MatProofs2.

(** ** C108 *)
Section Root.
  Variable eigh : nat -> mat -> (nat -> R) * mat.
  Variable d : nat.
  Variable A : mat.
  Let w := fst (eigh d A).
  Let v := snd (eigh d A).
  Let root := fst (sqrtm_psd eigh d A true).
  Lemma root_vwv i j : root i j = vwv d (root_vals w) v i j.
  Proof. unfold root, sqrtm_psd, sqrtm_root, w, v. cbn [fst]. destruct (eigh d A). reflexivity. Qed.
  Definition pos (w : nat -> R) (k : nat) : R := Rmax (w k) 0.
  Definition neg (w : nat -> R) (k : nat) : R := Rmax (- w k) 0.
  Lemma root_vals_sq k : root_vals w k * root_vals w k = pos w k.
  Proof. unfold root_vals, pos. destruct (Rleb_spec (w k) 0) as [H|H]; rewrite sqrt_sqrt by lra; [now rewrite Rmax_right|rewrite Rmax_left; lra]. Qed.
  (** Whatever the eigensolver returns, the result is positive semidefinite. *)
  Theorem c108_root_is_psd : psd d (fst (sqrtm_psd eigh d A true)).
  Proof.
    apply (psd_ext d (vwv d (root_vals w) v)); [intros; symmetry; apply root_vwv|]. apply vwv_psd. intros k _. apply sqrt_pos.
  Qed.
  Lemma square_vwv : (forall k l, (k < d)%nat -> (l < d)%nat -> csum d (fun i => cmul (conj (v i k)) (v i l)) = delta k l) ->
    forall i j, mmul d root root i j = vwv d (pos w) v i j.
  Proof.
    intros Ho i j. transitivity (mmul d (vwv d (root_vals w) v) (vwv d (root_vals w) v) i j).
    - apply csum_ext. intros k _. now rewrite !root_vwv.
    - rewrite mmul_vwv by exact Ho. apply csum_ext. intros k _. now rewrite root_vals_sq.
  Qed.
  Hypothesis He : eigh_of d A w v.
  Lemma A_vwv i j : (i < d)%nat -> (j < d)%nat -> A i j = vwv d w v i j.
  Proof.
    intros Hi Hj. destruct He as (H1 & _ & H3). transitivity (csum d (fun l => cmul (A i l) (delta l j))).
    - rewrite (csum_single d j) by (try assumption; intros l _ Hl; rewrite delta_diff by assumption; ring). rewrite delta_same. ring.
    - transitivity (csum d (fun l => csum d (fun k => cmul (cmul (A i l) (v l k)) (conj (v j k))))).
      + apply csum_ext. intros l Hl. rewrite <- (H3 l j) by assumption. rewrite <- csum_scal. apply csum_ext. intros k _. ring.
      + rewrite csum_swap. apply csum_ext. intros k Hk. rewrite csum_scal_r, H1 by assumption. ring.
  Qed.
  (** On a positive semidefinite matrix the result squares to it, the error estimate is zero, and no other positive semidefinite matrix does. *)
  Theorem c108_exact : psd d A -> (forall i j, (i < d)%nat -> (j < d)%nat -> mmul d root root i j = A i j) /\ snd (sqrtm_psd eigh d A true) = Some 0 /\
    forall Q, psd d Q -> (forall i j, (i < d)%nat -> (j < d)%nat -> mmul d Q Q i j = A i j) -> forall i j, (i < d)%nat -> (j < d)%nat -> Q i j = root i j.
  Proof.
    intros HA. pose proof He as (_ & Ho & _).
    assert (Wp : forall k, (k < d)%nat -> 0 <= w k).
    { intros k Hk. pose proof (proj2 HA (col v k)) as Q. rewrite (quad_ext d A (vwv d w v) (col v k) A_vwv), quad_vwv in Q. cbn [re rc] in Q.
      rewrite (Sum_single d k) in Q by (try assumption; intros l Hl Hn; rewrite proj_orth by assumption; rewrite cabs2_delta, (proj2 (Nat.eqb_neq l k) Hn); ring). rewrite proj_orth, cabs2_delta, Nat.eqb_refl in Q by assumption. lra. }
    assert (Sq : forall i j, (i < d)%nat -> (j < d)%nat -> mmul d root root i j = A i j).
    { intros i j Hi Hj. rewrite square_vwv by exact Ho. rewrite A_vwv by assumption. apply csum_ext. intros k Hk. unfold pos. rewrite Rmax_left by now apply Wp. reflexivity. }
    split; [exact Sq|]. split.
    - cbn [snd sqrtm_psd]. f_equal. unfold fro. rewrite Sum_zero; [apply sqrt_0|]. intros i Hi. apply Sum_zero. intros j Hj. fold root. specialize (Sq i j Hi Hj).
      change (sqrtm_root eigh d A) with root. rewrite Sq. replace (csub (A i j) (A i j)) with c0 by ring. unfold cabs2. cbn. ring.
    - intros Q HQ HE. apply psd_root_unique; [exact HQ|apply c108_root_is_psd|]. intros i j Hi Hj. rewrite HE by assumption. symmetry. now apply Sq.
  Qed.
  (** On any Hermitian matrix the square of the result is the positive semidefinite matrix nearest to it, and the error estimate is their
      distance, the root of the sum of the squared negative eigenvalues. *)
  Theorem c108_nearest P : psd d P ->
    dist_fro2 d P A >= dist_fro2 d (mmul d root root) A + dist_fro2 d P (mmul d root root) /\
    psd d (mmul d root root) /\ dist_fro2 d (mmul d root root) A = Sum d (fun k => Rmax (- w k) 0 ^ 2) /\
    snd (sqrtm_psd eigh d A true) = Some (sqrt (dist_fro2 d (mmul d root root) A)).
  Proof.
    intros HP. pose proof He as (_ & Ho & _). set (B := mmul d root root).
    assert (EB : forall i j, B i j = vwv d (pos w) v i j) by (intros; now apply square_vwv).
    assert (EN : forall i j, (i < d)%nat -> (j < d)%nat -> csub (B i j) (A i j) = vwv d (neg w) v i j).
    { intros i j Hi Hj. rewrite EB, A_vwv by assumption. unfold vwv. transitivity (cadd (csum d (fun k => cmul (cmul (v i k) (rc (pos w k))) (conj (v j k)))) (cmul (rc (-1)) (csum d (fun k => cmul (cmul (v i k) (rc (w k))) (conj (v j k)))))); [apply C_eq; cbn; ring|].
      rewrite <- csum_scal, <- csum_add. apply csum_ext. intros k _. replace (neg w k) with (pos w k + (-1) * w k).
      - rewrite rc_add, rc_mul. ring.
      - unfold neg, pos. destruct (Rle_lt_dec (w k) 0) as [L|L]; [rewrite Rmax_right, Rmax_left by lra|rewrite Rmax_left, Rmax_right by lra]; ring. }
    assert (Dist : forall X Y, dist_fro2 d X Y = fro2 d (fun i j => csub (X i j) (Y i j))) by reflexivity.
    assert (Nsum : dist_fro2 d B A = Sum d (fun k => neg w k ^ 2)).
    { rewrite Dist, (fro2_ext d _ (vwv d (neg w) v)) by exact EN. rewrite fro2_inner, inner_vwv2 by exact Ho. apply Sum_ext. intros; ring. }
    split; [|split; [|split]].
    - rewrite (Dist P A). rewrite (fro2_ext d _ (mplus (fun i j => csub (P i j) (B i j)) (vwv d (neg w) v))) by (intros i j Hi Hj; unfold mplus; rewrite <- EN by assumption; apply C_eq; cbn; ring).
      rewrite fro2_plus. rewrite <- (Dist P B). rewrite <- (fro2_ext d (fun i j => csub (B i j) (A i j)) (vwv d (neg w) v)) by exact EN. rewrite <- (Dist B A).
      assert (I : 0 <= re (inner d (fun i j => csub (P i j) (B i j)) (vwv d (neg w) v))); [|lra].
      rewrite inner_swap, inner_vwv. rewrite csum_re. apply Sum_nonneg. intros k Hk.
      assert (Qk : quad d (fun i j => csub (P i j) (B i j)) (col v k) = csub (quad d P (col v k)) (rc (pos w k))).
      { transitivity (csub (quad d P (col v k)) (quad d (vwv d (pos w) v) (col v k))).
        - unfold quad. transitivity (cadd (csum d (fun i => csum d (fun j => cmul (cmul (conj (col v k i)) (P i j)) (col v k j)))) (cmul (rc (-1)) (csum d (fun i => csum d (fun j => cmul (cmul (conj (col v k i)) (vwv d (pos w) v i j)) (col v k j)))))); [|apply C_eq; cbn; ring].
          rewrite <- csum_scal, <- csum_add. apply csum_ext. intros i _. rewrite <- csum_scal, <- csum_add. apply csum_ext. intros j _. rewrite EB. apply C_eq; cbn; ring.
        - rewrite quad_vwv. rewrite (Sum_single d k) by (try assumption; intros l Hl Hn; rewrite proj_orth by assumption; rewrite cabs2_delta, (proj2 (Nat.eqb_neq l k) Hn); ring). rewrite proj_orth, cabs2_delta, Nat.eqb_refl by assumption. now rewrite Rmult_1_r. }
      rewrite Qk. cbn [re cmul rc csub cadd copp im]. pose proof (proj2 HP (col v k)) as Q0. unfold neg, pos.
      destruct (Rle_lt_dec (w k) 0) as [L|L]; [rewrite (Rmax_right (w k)), (Rmax_left (- w k)) by lra|rewrite (Rmax_left (w k)), (Rmax_right (- w k)) by lra]; nra.
    - apply (psd_ext d (vwv d (pos w) v)); [intros; symmetry; apply EB|]. apply vwv_psd. intros k _. apply Rmax_r.
    - exact Nsum.
    - reflexivity.
  Qed.
End Root.

(** ** C109 *)
(** Outer products *)
Theorem c109_outer_products n c M v : (forall y, rquad n (outer_vec v) y = rdotv n v y ^ 2) /\
  (forall y, rquad n (outer_mat c M) y = Sum c (fun k => Sum n (fun i => M i k * y i) ^ 2)).
Proof.
  assert (V : forall (u : vec) y, rquad n (outer_vec u) y = rdotv n u y ^ 2).
  { intros u y. unfold rquad, outer_vec, rdotv. rewrite (Sum_ext n _ (fun j => (u j * y j) * Sum n (fun k => u k * y k))) by (intros j _; rewrite <- Sum_scal; apply Sum_ext; intros; ring). rewrite Sum_scal_r. ring. }
  split; [apply V|]. intros y. rewrite (Sum_ext c _ (fun k => rquad n (outer_vec (fun i => M i k)) y)) by (intros k _; now rewrite V). unfold rquad, outer_mat, outer_vec.
  rewrite (Sum_swap c n). apply Sum_ext. intros i _. rewrite (Sum_swap c n). apply Sum_ext. intros j _.
  rewrite (Sum_ext c (fun k => y i * (M i k * M j k) * y j) (fun k => (y i * y j) * (M i k * M j k))) by (intros; ring). rewrite Sum_scal. ring.
Qed.
Section Vol.
  Variable inv : nat -> rmat -> option rmat.
  Variable det : nat -> rmat -> R.
  Variable sqrtm : nat -> rmat -> rmat.
  Variable gamma : R -> R.
  (** The gamma function at multiples of one half *)
  Definition gamma_spec : Prop := gamma 1 = 1 /\ gamma (1 / 2) = sqrt PI /\ forall k, (0 < k)%nat -> gamma (INR k / 2 + 1) = INR k / 2 * gamma (INR k / 2).
  (** The determinant of the principal root of a positive definite matrix is the root of its determinant. *)
  Definition root_det : Prop := forall n Y, posdef n Y -> det n (sqrtm n Y) = sqrt (pdet n Y).
  (** This follows from the separate contracts of det and sqrtm. *)
  Theorem c109_contracts : (forall n X Y, det n (rmul n X Y) = det n X * det n Y) -> (forall n X Y, meq n X Y -> det n X = det n Y) -> (forall n X, posdef n X -> det n X = pdet n X) ->
    (forall n Y, posdef n Y -> posdef n (sqrtm n Y) /\ meq n (rmul n (sqrtm n Y) (sqrtm n Y)) Y) -> root_det.
  Proof.
    intros Hm He Hp Hs n Y HY. destruct (Hs n Y HY) as [S1 S2]. rewrite <- (Hp n Y HY), <- (He _ _ _ S2), Hm. rewrite sqrt_square; [reflexivity|]. rewrite Hp by assumption. left. now apply pdet_pos.
  Qed.
  Let vol := ellipsoid_volume inv det sqrtm gamma.
  Hypothesis HG : gamma_spec.
  Hypothesis HD : root_det.
  (** The ellipsoid x^T B x <= 1 *)
  Theorem c109_value n B Y : posdef n B -> is_inv n B Y -> inv n B = Some Y -> vol (Some (n, B)) None = Ok (unit_volume gamma n / sqrt (pdet n B)) /\
    vol None (Some (n, Y)) = vol (Some (n, B)) None /\ (forall X, vol (Some X) (Some (n, Y)) = vol None (Some (n, Y))) /\ vol None None = Err ValueError.
  Proof.
    intros HB HY Hi. assert (E : vol (Some (n, B)) None = Ok (unit_volume gamma n * sqrt (pdet n Y))).
    { unfold vol, ellipsoid_volume. rewrite Hi. rewrite HD by (now apply (posdef_inv n B)). reflexivity. }
    split; [|split; [|split]].
    - rewrite E. f_equal. pose proof (det_inv n B Y HB HY) as D. pose proof (pdet_pos n B HB) as P. replace (pdet n Y) with (/ pdet n B) by (field_simplify_eq; lra). rewrite sqrt_inv. reflexivity.
    - unfold vol, ellipsoid_volume. now rewrite Hi.
    - intros [m X]. reflexivity.
    - reflexivity.
  Qed.
  (** Unit balls: a point, an interval of length 2, and V_(n+2) = 2 pi / (n+2) V_n. *)
  Theorem c109_unit_balls : unit_volume gamma 0 = 1 /\ unit_volume gamma 1 = 2 /\ forall n, unit_volume gamma (S (S n)) = 2 * PI / INR (S (S n)) * unit_volume gamma n.
  Proof. destruct HG as (G1 & G2 & G3). repeat split; [now apply unit_volume_0|now apply unit_volume_1|intros; now apply unit_volume_step]. Qed.
  (** Cavalieri's principle, which with the volume 1 in dimension 0 determines the volume of all ellipsoids. The slice of the ellipsoid at first
      coordinate h is an ellipsoid, empty for h^2 > s; the integral over h of the volumes of the slices is the volume. *)
  Theorem c109_slices n B Y : posdef (S n) B -> is_inv (S n) B Y -> inv (S n) B = Some Y -> inverts inv n ->
    exists s centre V slice, 0 < s /\
      (forall h y, rquad (S n) B (vcons h y) = h * h / s + rquad n (minor B) (fun i => y i - h * centre i)) /\
      (forall h, - sqrt s < h < sqrt s -> vol (Some (n, fun i j => minor B i j / (1 - h * h / s))) None = Ok (slice h)) /\
      vol (Some (S n, B)) None = Ok V /\ integral_is slice (- sqrt s) (sqrt s) V.
  Proof.
    intros HB HY Hi Hv. destruct HG as (G1 & G2 & G3). set (z := fun k => Y k 0%nat).
    assert (Hz : forall i, (i < S n)%nat -> Sum (S n) (fun k => B i k * z k) = kd i 0) by (intros i Hi'; apply (proj1 HY i 0%nat Hi'); lia).
    pose proof (solve_pos (S n) B z 0 HB ltac:(lia) Hz) as z0. pose proof (posdef_rest n B HB) as HR. change (restm B) with (minor B) in HR.
    pose proof (pdet_pos n _ HR) as R0. pose proof (pdet_pos _ _ HB) as B0. pose proof (det_first n B z HB Hz) as DF. change (restm B) with (minor B) in DF.
    exists (z 0%nat), (fun i => z (S i) / z 0%nat), (unit_volume gamma (S n) / sqrt (pdet (S n) B)), (fun h => unit_volume gamma n / sqrt (pdet n (minor B)) * sqrt (1 - (h / sqrt (z 0%nat))²) ^ n).
    assert (r0 : 0 < sqrt (z 0%nat)) by now apply sqrt_lt_R0.
    assert (Hh : forall h, (h / sqrt (z 0%nat))² = h * h / z 0%nat). { intros h. unfold Rsqr. rewrite <- (sqrt_sqrt (z 0%nat)) at 3 by lra. field. lra. }
    split; [exact z0|]. split; [intros h y; now apply slice_form|]. split; [|split].
    - intros h Hlt. rewrite Hh. set (q := 1 - h * h / z 0%nat).
      assert (q0 : 0 < q). { unfold q. rewrite <- Hh. assert (T : -1 < h / sqrt (z 0%nat) < 1) by (split; [apply Rmult_lt_reg_r with (sqrt (z 0%nat)); [lra|]|apply Rmult_lt_reg_r with (sqrt (z 0%nat)); [lra|]]; unfold Rdiv; rewrite Rmult_assoc, Rinv_l, Rmult_1_r by lra; lra). unfold Rsqr. nra. }
      set (X := fun i j => minor B i j / q). assert (HX : posdef n X).
      { destruct HR as [R1 R2]. split; [intros i j Hi' Hj'; unfold X, rtr; rewrite (R1 i j) by assumption; reflexivity|]. intros u Hu. specialize (R2 u Hu).
        replace (rquad n X u) with (/ q * rquad n (minor B) u) by (rewrite <- rquad_mscal; apply rquad_ext; [intros i j _ _; unfold X; field; lra|reflexivity]). apply Rmult_lt_0_compat; [now apply Rinv_0_lt_compat|assumption]. }
      assert (DX : pdet n X = (/ q) ^ n * pdet n (minor B)). { rewrite <- (pdet_scal n (minor B) (/ q)) by (try assumption; now apply Rinv_0_lt_compat). apply pdet_ext. intros i j _ _. unfold X. field. lra. }
      assert (IX : exists Y', is_inv n X Y').
      { pose proof HX as HX'. destruct (posdef_has_inverse n X HX') as [Y' HY']. now exists Y'. }
      destruct (proj2 (Hv X) IX) as [Y' HY']. destruct (c109_value n X Y' HX (proj1 (Hv X) Y' HY') HY') as [EV _]. etransitivity; [exact EV|]. f_equal. rewrite DX.
      rewrite sqrt_mult by (try (apply pow_le; left; now apply Rinv_0_lt_compat); lra). rewrite sqrt_pow_n by (left; now apply Rinv_0_lt_compat). rewrite sqrt_inv. rewrite pow_inv. pose proof (sqrt_lt_R0 q q0). pose proof (sqrt_lt_R0 _ R0). field. split; [lra|apply pow_nonzero; lra].
    - apply (proj1 (c109_value (S n) B Y HB HY Hi)).
    - rewrite (unit_volume_slices gamma G1 G2 G3 n). replace (unit_volume gamma n * wallis n / sqrt (pdet (S n) B)) with (unit_volume gamma n / sqrt (pdet n (minor B)) * sqrt (z 0%nat) * wallis n).
      + apply (integral_stretch (fun x => sqrt (1 - x²) ^ n)); [exact r0|]. apply slice_integral.
      + rewrite DF, sqrt_mult by lra. pose proof (sqrt_lt_R0 _ B0). field. lra.
  Qed.
End Vol.
(** A Hermitian matrix that is not positive: diag(4, -9), with its eigendecomposition. The root is diag(2, 0), the error 9. *)
Definition ex_mat : mat := fun i j => match i, j with O, O => rc 4 | S O, S O => rc (-9) | _, _ => c0 end.
Definition ex_eigh (d : nat) (A : mat) : (nat -> R) * mat := ((fun k => re (A k k)), meye).
Example c108_example : eigh_of 2 ex_mat (fst (ex_eigh 2 ex_mat)) (snd (ex_eigh 2 ex_mat)) /\
  fst (sqrtm_psd ex_eigh 2 ex_mat true) 0%nat 0%nat = rc 2 /\ fst (sqrtm_psd ex_eigh 2 ex_mat true) 1%nat 1%nat = c0 /\ snd (sqrtm_psd ex_eigh 2 ex_mat true) = Some 9.
Proof.
  assert (E : eigh_of 2 ex_mat (fst (ex_eigh 2 ex_mat)) (snd (ex_eigh 2 ex_mat))).
  { unfold eigh_of, ex_eigh. cbn [fst snd]. repeat split; intros [|[|i]] [|[|j]] Hi Hj; try lia; unfold csum; rewrite !Sum_S, !Sum_0; apply C_eq; cbn; ring. }
  assert (s4 : sqrt 4 = 2) by (replace 4 with (2 * 2) by ring; apply sqrt_square; lra).
  split; [exact E|]. split; [|split].
  - unfold sqrtm_psd, sqrtm_root, ex_eigh, csum, root_vals. cbn [fst]. rewrite !Sum_S, !Sum_0. cbn [ex_mat re rc]. rewrite (Rleb_false 4 0) by lra. rewrite s4. apply C_eq; cbn; ring.
  - unfold sqrtm_psd, sqrtm_root, ex_eigh, csum, root_vals. cbn [fst]. rewrite !Sum_S, !Sum_0. cbn [ex_mat re rc]. rewrite (Rleb_true (-9) 0) by lra. rewrite sqrt_0. apply C_eq; cbn; ring.
  - destruct (c108_nearest ex_eigh 2 ex_mat E mzero) as (_ & _ & N & ->).
    + split; [intros i j _ _; apply C_eq; cbn; ring|]. intros u. unfold quad, csum. rewrite !Sum_S, !Sum_0. cbn. lra.
    + rewrite N. rewrite !Sum_S, Sum_0. cbn [ex_eigh fst ex_mat re rc]. rewrite Rmax_right, Rmax_left by lra. replace (0 ^ 2 + ((- -9) ^ 2 + 0)) with (9 * 9) by ring. f_equal. apply sqrt_square. lra.
Qed.
(** The contracts of C109 can be met, and give the area of a disc of radius 3. *)
Fixpoint gh (k : nat) : R := match k with O => 1 | S O => sqrt PI | S (S k') => match k' with O => 1 | _ => INR k' / 2 * gh k' end end.
Definition ex_gamma (x : R) : R := gh (Z.to_nat (up (2 * x) - 1)).
Lemma ex_gamma_half k : ex_gamma (INR k / 2) = gh k.
Proof.
  unfold ex_gamma. replace (2 * (INR k / 2)) with (INR k) by field. rewrite INR_IZR_INZ. rewrite <- (tech_up (IZR (Z.of_nat k)) (Z.of_nat k + 1)) by (rewrite plus_IZR; lra).
  f_equal. lia.
Qed.
Definition ex_det (n : nat) (X : rmat) : R := sqrt (pdet n X).
Definition ex_sqrtm (n : nat) (X : rmat) : rmat := X.
Definition ex_disc : rmat := fun i j => if Nat.eqb i j then / 9 else 0.
Definition ex_inv (n : nat) (X : rmat) : option rmat := Some (fun i j => if Nat.eqb i j then 9 else 0).
Example c109_example : gamma_spec ex_gamma /\ root_det ex_det ex_sqrtm /\ posdef 2 ex_disc /\ is_inv 2 ex_disc (fun i j => if Nat.eqb i j then 9 else 0) /\
  ellipsoid_volume ex_inv ex_det ex_sqrtm ex_gamma (Some (2%nat, ex_disc)) None = Ok (9 * PI).
Proof.
  assert (G : gamma_spec ex_gamma).
  { split; [|split].
    - transitivity (gh 2); [|reflexivity]. rewrite <- ex_gamma_half. f_equal. cbn. field.
    - transitivity (gh 1); [|reflexivity]. rewrite <- ex_gamma_half. f_equal.
    - intros k Hk. replace (INR k / 2 + 1) with (INR (S (S k)) / 2) by (rewrite !S_INR; field). rewrite !ex_gamma_half. destruct k; [lia|]. reflexivity. }
  assert (D : root_det ex_det ex_sqrtm) by (intros n Y _; reflexivity).
  assert (P : posdef 2 ex_disc).
  { split; [intros i j _ _; unfold rtr, ex_disc; now rewrite Nat.eqb_sym|]. intros u (i & Hi & Hu). unfold rquad, ex_disc. rewrite !Sum_S, !Sum_0. cbn [Nat.eqb].
    destruct i as [|[|i]]; [| |lia]; assert (0 < u 0%nat * u 0%nat + u 1%nat * u 1%nat) by nra; nra. }
  assert (I : is_inv 2 ex_disc (fun i j => if Nat.eqb i j then 9 else 0)).
  { split; intros [|[|i]] [|[|j]] Hi Hj; try lia; unfold rmul, ex_disc, kd; rewrite !Sum_S, !Sum_0; cbn [Nat.eqb]; field. }
  repeat (split; [assumption|]). destruct (c109_value ex_inv ex_det ex_sqrtm ex_gamma D 2 ex_disc _ P I eq_refl) as [-> _]. f_equal.
  destruct (c109_unit_balls ex_gamma G) as (V0 & _ & V2). rewrite V2, V0. unfold pdet, schur, ex_disc. cbn [Nat.eqb INR]. replace (/ 9 * ((/ 9 - 0 * 0 / / 9) * 1)) with (/ 9 * / 9) by field. rewrite sqrt_square by lra. field.
Qed.
Print Assumptions c108_root_is_psd.
Print Assumptions c108_exact.
Print Assumptions c108_nearest.
Print Assumptions c109_outer_products.
Print Assumptions c109_contracts.
Print Assumptions c109_value.
Print Assumptions c109_unit_balls.
Print Assumptions c109_slices.
