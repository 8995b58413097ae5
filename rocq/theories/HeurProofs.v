(** Lemmas for HeurProps. *)
From Verif Require Import Base Ext RList Sums Cplx TomoModel TomoSpec TomoProofs TomoProofs2 TomoProofs3 TomoProps HeurModel.

(** ** Powers of the root of unity *)
Lemma cpow_add w a b : cpow w (a + b) = cmul (cpow w a) (cpow w b).
Proof. induction a as [|a IH]; cbn [cpow plus]; [ring|]. rewrite IH. ring. Qed.
Lemma cpow_mul w a b : cpow (cpow w a) b = cpow w (a * b).
Proof. induction b as [|b IH]; [now rewrite Nat.mul_0_r|]. cbn [cpow]. rewrite IH, Nat.mul_succ_r, Nat.add_comm, cpow_add. reflexivity. Qed.
Lemma cpow_polar t n : cpow (mkC (cos t) (sin t)) n = mkC (cos (INR n * t)) (sin (INR n * t)).
Proof.
  induction n as [|n IH]; [cbn; rewrite Rmult_0_l, cos_0, sin_0; reflexivity|]. cbn [cpow]. rewrite IH, S_INR. replace ((INR n + 1) * t) with (t + INR n * t) by ring.
  rewrite cos_plus, sin_plus. apply C_eq; cbn; ring.
Qed.
Lemma cpow_unit w n : cabs2 w = 1 -> cabs2 (cpow w n) = 1.
Proof. intros H. induction n as [|n IH]; [cbn; unfold cabs2; cbn; ring|]. cbn [cpow]. unfold cabs2 in *. cbn. nra. Qed.
Lemma cinv_unit a b : cabs2 a = 1 -> cmul a b = c1 -> conj a = b.
Proof.
  intros Ha H. assert (E : cmul (conj a) (cmul a b) = conj a) by (rewrite H; ring).
  assert (E2 : cmul (conj a) (cmul a b) = cmul (rc (cabs2 a)) b) by (apply C_eq; unfold cabs2; cbn; ring). rewrite Ha in E2. rewrite <- E, E2. apply C_eq; cbn; ring.
Qed.
Lemma cmul_zero a b : cmul a b = c0 -> a = c0 \/ b = c0.
Proof.
  intros H. assert (N : cabs2 a * cabs2 b = 0). { transitivity (cabs2 (cmul a b)); [unfold cabs2; cbn; ring|]. rewrite H. unfold cabs2. cbn. ring. }
  assert (Z : forall z, cabs2 z = 0 -> z = c0). { intros z Hz. unfold cabs2 in Hz. apply C_eq; cbn; nra. }
  apply Rmult_integral in N. destruct N; [left|right]; now apply Z.
Qed.

Section Root.
Variable d : nat.
Hypothesis Hd : (0 < d)%nat.
Notation w := (hw_root d).
Lemma INR_d : INR d <> 0. Proof. apply not_0_INR. lia. Qed.
Lemma root_unit : cabs2 w = 1.
Proof. unfold hw_root, cabs2. cbn [re im]. pose proof (sin2_cos2 (2 * PI / INR d)) as H. unfold Rsqr in H. lra. Qed.
Lemma root_pow n : cpow w n = mkC (cos (INR n * (2 * PI / INR d))) (sin (INR n * (2 * PI / INR d))).
Proof. apply cpow_polar. Qed.
Lemma root_d : cpow w d = c1.
Proof. rewrite root_pow. replace (INR d * (2 * PI / INR d)) with (2 * PI) by (field; apply INR_d). rewrite cos_2PI, sin_2PI. reflexivity. Qed.
Lemma root_mult n : cpow w (n * d) = c1.
Proof. induction n as [|n IH]; [reflexivity|]. rewrite Nat.mul_succ_l, cpow_add, IH, root_d. ring. Qed.
Lemma root_mod n : cpow w n = cpow w (n mod d).
Proof. rewrite (Nat.div_mod n d) at 1 by lia. rewrite cpow_add, Nat.mul_comm, root_mult. ring. Qed.
Lemma root_ne n : (0 < n < d)%nat -> cpow w n <> c1.
Proof.
  intros Hn E. rewrite root_pow in E. apply (f_equal re) in E. cbn in E. set (x := INR n * (2 * PI / INR d)) in *.
  assert (0 < INR n) by (apply lt_0_INR; lia). assert (0 < INR d) by (apply lt_0_INR; lia). assert (INR n < INR d) by (apply lt_INR; lia). pose proof PI_RGT_0 as HP.
  assert (X : 0 < x / 2 < PI).
  { unfold x. replace (INR n * (2 * PI / INR d) / 2) with (PI * (INR n / INR d)) by (field; lra).
    assert (0 < INR n / INR d < 1) by (split; [now apply Rdiv_lt_0_compat|apply Rmult_lt_reg_r with (INR d); [assumption|]; field_simplify; lra]). nra. }
  assert (S := sin_gt_0 _ (proj1 X) (proj2 X)). replace x with (2 * (x / 2)) in E by field. rewrite cos_2a_sin in E. nra.
Qed.
Lemma root_sum n : csum d (fun k => cpow (cpow w n) k) = if Nat.eqb (n mod d) 0 then rc (INR d) else c0.
Proof.
  set (z := cpow w n).
  assert (G : forall m, cmul (csub z c1) (csum m (fun k => cpow z k)) = csub (cpow z m) c1).
  { induction m as [|m IH]; [cbn; apply C_eq; cbn; ring|]. rewrite csum_last. replace (cmul (csub z c1) (cadd (csum m (fun k => cpow z k)) (cpow z m))) with (cadd (cmul (csub z c1) (csum m (fun k => cpow z k))) (cmul (csub z c1) (cpow z m))) by ring. rewrite IH. cbn [cpow]. ring. }
  destruct (Nat.eqb_spec (n mod d) 0) as [E|E].
  - assert (Z : z = c1) by (unfold z; rewrite root_mod, E; reflexivity). rewrite (csum_ext d _ (fun _ => rc 1)).
    + rewrite csum_rc. f_equal. now apply Sum_ones.
    + intros k _. rewrite Z. induction k as [|k IH]; [reflexivity|]. cbn [cpow]. rewrite IH. apply C_eq; cbn; ring.
  - specialize (G d). assert (Z : cpow z d = c1) by (unfold z; rewrite cpow_mul; apply root_mult). rewrite Z in G. replace (csub c1 c1) with c0 in G by ring. apply cmul_zero in G. destruct G as [G|G]; [|exact G]. exfalso.
    apply (root_ne (n mod d)); [pose proof (Nat.mod_upper_bound n d); lia|]. rewrite <- root_mod. fold z. replace z with (cadd (csub z c1) c1) by ring. rewrite G. ring.
Qed.
Lemma root_conj n : (n <= d)%nat -> conj (cpow w n) = cpow w (d - n).
Proof. intros H. apply cinv_unit; [apply cpow_unit, root_unit|]. rewrite <- cpow_add. replace (n + (d - n))%nat with d by lia. apply root_d. Qed.

(** ** Closed form of the operators *)
Lemma modd x : (x mod d < d)%nat. Proof. apply Nat.mod_upper_bound. lia. Qed.
Lemma X_pow n r c : (r < d)%nat -> (c < d)%nat -> mpow d (hw_X d) n r c = if Nat.eqb c ((r + n) mod d) then c1 else c0.
Proof.
  revert r. induction n as [|n IH]; intros r Hr Hc.
  - rewrite Nat.add_0_r, Nat.mod_small by assumption. cbn [mpow]. unfold meye, delta. now rewrite Nat.eqb_sym.
  - cbn [mpow]. unfold mmul. rewrite (csum_single d ((r + 1) mod d)); [|apply modd|].
    + unfold hw_X at 1. rewrite Nat.eqb_refl. rewrite IH by (try apply modd; assumption). rewrite Nat.add_mod_idemp_l by lia. replace (r + 1 + n)%nat with (r + S n)%nat by lia. ring.
    + intros k Hk Hn. unfold hw_X. destruct (Nat.eqb_spec k ((r + 1) mod d)); [contradiction|ring].
Qed.
Lemma Z_pow n r c : (r < d)%nat -> (c < d)%nat -> mpow d (hw_Z d) n r c = if Nat.eqb r c then cpow w (n * c) else c0.
Proof.
  intros Hr Hc. induction n as [|n IH]; [reflexivity|]. cbn [mpow]. unfold mmul. rewrite (csum_single d r); [|assumption|].
  - rewrite IH. unfold hw_Z. rewrite Nat.eqb_refl. destruct (Nat.eqb_spec r c) as [->|]; [|ring]. cbn [Nat.mul]. now rewrite cpow_add.
  - intros k Hk Hn. unfold hw_Z. destruct (Nat.eqb_spec r k); [congruence|ring].
Qed.
Definition hw (i j : nat) : mat := mmul d (mpow d (hw_X d) i) (mpow d (hw_Z d) j).
Lemma hw_entry i j r c : (r < d)%nat -> (c < d)%nat -> hw i j r c = if Nat.eqb c ((r + i) mod d) then cpow w (j * c) else c0.
Proof.
  intros Hr Hc. unfold hw, mmul. rewrite (csum_single d c); [|assumption|].
  - rewrite X_pow, Z_pow by assumption. rewrite Nat.eqb_refl. destruct (Nat.eqb c ((r + i) mod d)); ring.
  - intros k Hk Hn. rewrite Z_pow by assumption. destruct (Nat.eqb_spec k c); [contradiction|ring].
Qed.
Lemma preimage i c r : (i <= d)%nat -> (r < d)%nat -> (c < d)%nat -> c = ((r + i) mod d)%nat <-> r = ((c + (d - i)) mod d)%nat.
Proof.
  intros Hi Hr Hc. split; intros ->.
  - rewrite Nat.add_mod_idemp_l by lia. replace (r + i + (d - i))%nat with (r + 1 * d)%nat by lia. rewrite Nat.mod_add by lia. symmetry. now apply Nat.mod_small.
  - rewrite Nat.add_mod_idemp_l by lia. replace (c + (d - i) + i)%nat with (c + 1 * d)%nat by lia. rewrite Nat.mod_add by lia. symmetry. now apply Nat.mod_small.
Qed.
Lemma hw_mul i j k l r c : (i < d)%nat -> (k < d)%nat -> (r < d)%nat -> (c < d)%nat ->
  mmul d (hw i j) (hw k l) r c = cmul (cpow (conj w) (j * k)) (hw ((i + k) mod d) ((j + l) mod d) r c).
Proof.
  intros Hi Hk Hr Hc. unfold mmul. rewrite (csum_single d ((r + i) mod d)); [|apply modd|].
  - rewrite !hw_entry by (try apply modd; assumption). rewrite Nat.eqb_refl. rewrite Nat.add_mod_idemp_l, Nat.add_mod_idemp_r by lia. replace (r + (i + k))%nat with (r + i + k)%nat by lia.
    destruct (Nat.eqb_spec c ((r + i + k) mod d)) as [Ec|]; [|ring].
    assert (P : cpow w (((j + l) mod d) * c) = cmul (cpow w (j * c)) (cpow w (l * c))).
    { rewrite <- cpow_add, <- Nat.mul_add_distr_r. rewrite root_mod. rewrite (root_mod ((j + l) * c)). f_equal. rewrite Nat.mul_mod_idemp_l by lia. reflexivity. }
    rewrite P. assert (Q : cmul (cpow w (j * k)) (cpow w (j * ((r + i) mod d))) = cpow w (j * c)).
    { rewrite <- cpow_add, <- Nat.mul_add_distr_l. rewrite (root_mod (j * c)), (root_mod (j * (k + (r + i) mod d))). f_equal. rewrite Ec. rewrite Nat.mul_mod_idemp_r by lia. rewrite <- (Nat.mul_mod_idemp_r j (k + _)) by lia. rewrite Nat.add_mod_idemp_r by lia. rewrite Nat.mul_mod_idemp_r by lia. f_equal. f_equal. lia. }
    rewrite <- Q. assert (U : cmul (cpow (conj w) (j * k)) (cpow w (j * k)) = c1).
    { generalize (j * k)%nat as n. induction n as [|n IH]; [cbn; ring|]. cbn [cpow]. replace (cmul (cmul (conj w) (cpow (conj w) n)) (cmul w (cpow w n))) with (cmul (cmul w (conj w)) (cmul (cpow (conj w) n) (cpow w n))) by ring. rewrite IH, cmul_conj_re, root_unit. apply C_eq; cbn; ring. }
    replace (cmul (cpow (conj w) (j * k)) (cmul (cmul (cpow w (j * k)) (cpow w (j * ((r + i) mod d)))) (cpow w (l * c)))) with (cmul (cmul (cpow (conj w) (j * k)) (cpow w (j * k))) (cmul (cpow w (j * ((r + i) mod d))) (cpow w (l * c)))) by ring. rewrite U. ring.
  - intros x Hx Hn. rewrite hw_entry by assumption. destruct (Nat.eqb_spec x ((r + i) mod d)); [contradiction|ring].
Qed.
Lemma hw_inner i j k l : (i < d)%nat -> (j < d)%nat -> (k < d)%nat -> (l < d)%nat ->
  inner d (hw i j) (hw k l) = if Nat.eqb i k && Nat.eqb j l then rc (INR d) else c0.
Proof.
  intros Hi Hj Hk Hl. unfold inner. rewrite csum_swap.
  rewrite (csum_ext d _ (fun c => if Nat.eqb i k then cpow (cpow w (d - j + l)) c else c0)).
  - destruct (Nat.eqb_spec i k) as [->|]; cbn [andb]; [|now apply csum_zero]. rewrite root_sum.
    assert (E : ((d - j + l) mod d = 0 <-> j = l)%nat).
    { split; [|intros ->; replace (d - l + l)%nat with d by lia; apply Nat.mod_same; lia]. intros E. apply Nat.mod_divide in E; [|lia]. destruct E as [q E]. destruct q as [|[|q]]; nia. }
    destruct (Nat.eqb_spec ((d - j + l) mod d) 0), (Nat.eqb_spec j l); try reflexivity; tauto.
  - intros c Hc. rewrite (csum_single d ((c + (d - i)) mod d)); [|apply modd|].
    + assert (Ei : c = (((c + (d - i)) mod d + i) mod d)%nat) by (apply preimage; [lia|apply modd|assumption|reflexivity]).
      rewrite !hw_entry by (try apply modd; assumption). rewrite <- Ei, Nat.eqb_refl.
      destruct (Nat.eqb_spec i k) as [<-|Hn].
      * rewrite <- Ei, Nat.eqb_refl. rewrite <- !cpow_mul. assert (CJ : forall z n, conj (cpow z n) = cpow (conj z) n) by (intros z n; induction n as [|n IH]; [apply conj_c1|cbn [cpow]; now rewrite conj_mul, IH]).
        rewrite CJ, root_conj by lia. assert (CM : forall a b n, cmul (cpow a n) (cpow b n) = cpow (cmul a b) n) by (intros a b n; induction n as [|n IH]; [cbn; ring|cbn [cpow]; rewrite <- IH; ring]). rewrite CM, <- cpow_add. reflexivity.
      * destruct (Nat.eqb_spec c (((c + (d - i)) mod d + k) mod d)) as [Ek|]; [|ring]. exfalso. apply Hn.
        set (r := ((c + (d - i)) mod d)%nat) in *. assert (Hr : (r < d)%nat) by apply modd. clearbody r. rewrite Ek in Ei.
        destruct (Nat.lt_ge_cases (r + i) d) as [A1|A1], (Nat.lt_ge_cases (r + k) d) as [A2|A2].
        { rewrite !Nat.mod_small in Ei by assumption. lia. }
        { rewrite (Nat.mod_small (r + i)) in Ei by assumption. replace (r + k)%nat with (r + k - d + 1 * d)%nat in Ei by lia. rewrite Nat.mod_add, Nat.mod_small in Ei by lia. lia. }
        { rewrite (Nat.mod_small (r + k)) in Ei by assumption. replace (r + i)%nat with (r + i - d + 1 * d)%nat in Ei by lia. rewrite Nat.mod_add, Nat.mod_small in Ei by lia. lia. }
        { replace (r + i)%nat with (r + i - d + 1 * d)%nat in Ei by lia. replace (r + k)%nat with (r + k - d + 1 * d)%nat in Ei by lia. rewrite !Nat.mod_add, !Nat.mod_small in Ei by lia. lia. }
    + intros r Hr Hn. rewrite (hw_entry i j) by assumption. destruct (Nat.eqb_spec c ((r + i) mod d)) as [E|]; [|rewrite conj_c0; ring]. exfalso. apply Hn. apply (preimage i c r); [lia|assumption|assumption|exact E].
Qed.
End Root.

(** ** Pauli operators square to the identity *)
Lemma mmul_kron p q A B A' B' r c : (r < p * q)%nat -> (c < p * q)%nat -> mmul (p * q) (kron q A B) (kron q A' B') r c = kron q (mmul p A A') (mmul q B B') r c.
Proof.
  intros Hr Hc. destruct (split_index p q r Hr) as (i & j & Hi & Hj & ->). destruct (split_index p q c Hc) as (k & l & Hk & Hl & ->).
  unfold mmul. rewrite <- csum_prod. unfold kron. destruct (divmod_pair q i j Hj) as [-> ->]. destruct (divmod_pair q k l Hl) as [-> ->].
  rewrite <- csum_scal_r. apply csum_ext. intros a _. rewrite <- csum_scal. apply csum_ext. intros b Hb. destruct (divmod_pair q a b Hb) as [-> ->]. ring.
Qed.
Definition squares (b : basis) : Prop := forall a i j, (a < length (bdata b))%nat -> (i < bdim b)%nat -> (j < bdim b)%nat ->
  mmul (bdim b) (bnth b a) (bnth b a) i j = cmul (rc (/ INR (bdim b))) (delta i j).
Lemma squares_tensor2 b c : (0 < bdim b)%nat -> (0 < bdim c)%nat -> squares b -> squares c -> squares (tensor2 b c).
Proof.
  intros Pb Pc Sb Sc a i j Ha Hi Hj. rewrite tensor2_length in Ha. destruct (split_index _ _ a Ha) as (x & y & Hx & Hy & ->). rewrite tensor2_nth by assumption.
  change (bdim (tensor2 b c)) with (bdim b * bdim c)%nat in *. rewrite mmul_kron by assumption.
  destruct (split_index _ _ i Hi) as (i1 & i2 & Hi1 & Hi2 & ->). destruct (split_index _ _ j Hj) as (j1 & j2 & Hj1 & Hj2 & ->).
  unfold kron. destruct (divmod_pair _ i1 i2 Hi2) as [-> ->]. destruct (divmod_pair _ j1 j2 Hj2) as [-> ->]. rewrite Sb, Sc by assumption. rewrite delta_pair by assumption.
  rewrite mult_INR, Rinv_mult, rc_mul. ring.
Qed.
Lemma squares_fold bs b0 : tomographic b0 -> squares b0 -> Forall (fun b => tomographic b /\ squares b) bs -> squares (fold_left tensor2 bs b0).
Proof.
  revert b0. induction bs as [|b bs IH]; intros b0 T S F; [exact S|]. inversion F as [|? ? [Tb Sb] F']; subst. cbn [fold_left]. apply IH; [now apply tensor2_tomographic| |assumption].
  apply squares_tensor2; try assumption; now apply tg_dim.
Qed.
Lemma pauli_factor_squares p : pauli_factor = Ok p -> squares p.
Proof.
  intros E. destruct c61_pauli_one as (b & Eb & B0 & B1 & B2 & B3). destruct (pauli_factor_tomographic p E) as [Hd Ht].
  assert (P : b = p). { unfold pauli_basis in Eb. rewrite E in Eb. cbn [bind repeat] in Eb. assert (H := tensor_product_fold p [] Ht (Forall_nil _)). cbn [fold_left] in H. congruence. }
  subst b. intros a i j Ha Hi Hj. rewrite (tg_len p Ht) in Ha. rewrite Hd in *. cbn in Ha.
  assert (Q : 1 / sqrt 2 * (1 / sqrt 2) = / 2) by (assert (H := sqrt_sqrt 2 ltac:(lra)); assert (sqrt 2 <> 0) by (apply Rgt_not_eq, sqrt_lt_R0; lra); replace (1 / sqrt 2 * (1 / sqrt 2)) with (/ (sqrt 2 * sqrt 2)) by (field; assumption); now rewrite H).
  set (s := 1 / sqrt 2) in *. clearbody s. replace (INR 2) with 2 by (cbn; lra). unfold mmul. rewrite !csum_S, csum_0.
  destruct a as [|[|[|[|a]]]]; try lia; (destruct i as [|[|i]]; try lia); (destruct j as [|[|j]]; try lia); rewrite ?B0, ?B1, ?B2, ?B3 by lia; apply C_eq; cbn; lra.
Qed.
Lemma pauli_squares nq b : (0 < nq)%nat -> pauli_basis nq = Ok b -> squares b.
Proof.
  intros Hn. unfold pauli_basis. destruct pauli_factor as [p|] eqn:E; [|discriminate]. cbn [bind]. destruct nq as [|n]; [lia|]. cbn [repeat].
  assert (S := pauli_factor_squares p E). destruct (pauli_factor_tomographic p E) as [_ T]. rewrite tensor_product_fold; [|assumption|]; [|apply Forall_forall; intros x Hx; apply repeat_spec in Hx; now subst].
  intros H. injection H as <-. apply squares_fold; try assumption. apply Forall_forall. intros x Hx. apply repeat_spec in Hx. now subst.
Qed.
