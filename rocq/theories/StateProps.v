(** Theorems for property C90: samplers of quantum states. *)
From Verif Require Import Base RList Ext Sums Cplx TomoModel TomoSpec TomoProofs2 TomoProofs3 TomoProofs LinProofs StateModel.

Lemma cinv_re_scal t m i j : t <> 0 -> cinv_re t m i j = cmul (rc (/ t)) (m i j).
Proof. intros Ht. unfold cinv_re. apply C_eq; cbn; field; assumption. Qed.
Lemma herm_trace_real d m : hermitian d m -> mtrace d m = rc (re (mtrace d m)).
Proof.
  intros H. apply C_eq; [reflexivity|]. cbn. apply Sum_zero. intros i Hi. pose proof (f_equal im (H i i Hi Hi)) as E. cbn in E. lra.
Qed.
(** Whatever operator of non-zero trace is drawn, the returned parameters describe it divided by its trace; a positive operator gives a state. *)
Theorem c90_density_operator b m : tomographic b -> hermitian (bdim b) m -> re (mtrace (bdim b) m) <> 0 ->
  exists rho, modelparams_to_state b (dm_sample b m) = Ok rho /\ length (dm_sample b m) = (bdim b ^ 2)%nat /\ mtrace (bdim b) rho = c1 /\
    (forall i j, (i < bdim b)%nat -> (j < bdim b)%nat -> cmul (mtrace (bdim b) m) (rho i j) = m i j) /\ (psd (bdim b) m -> density (bdim b) rho).
Proof.
  intros Hb Hh Ht. set (d := bdim b) in *. set (t := re (mtrace d m)) in *.
  assert (Hr : forall i j, (i < d)%nat -> (j < d)%nat -> synth b (dm_sample b m) i j = cmul (rc (/ t)) (m i j)).
  { intros i j Hi Hj. rewrite <- (cinv_re_scal t m i j Ht). unfold dm_sample. fold d t. apply state_roundtrip; [apply Hb|apply Hb| |assumption|assumption].
    intros a c Ha Hc. rewrite !cinv_re_scal by assumption. rewrite (Hh a c Ha Hc). apply C_eq; cbn; ring. }
  assert (Htr : mtrace d m = rc t) by (now apply herm_trace_real).
  assert (T1 : mtrace d (synth b (dm_sample b m)) = c1).
  { unfold mtrace. rewrite (csum_ext d _ (fun i => cmul (rc (/ t)) (m i i))) by (intros; now apply Hr). rewrite csum_scal. change (csum d (fun i => m i i)) with (mtrace d m).
    rewrite Htr. apply C_eq; cbn; field; assumption. }
  exists (synth b (dm_sample b m)). split; [apply modelparams_to_state_Ok, stm_length|]. split; [unfold dm_sample; rewrite stm_length; apply (tg_len b Hb)|]. split; [exact T1|]. split.
  - intros i j Hi Hj. rewrite Hr, Htr by assumption. apply C_eq; cbn; field; assumption.
  - intros Hp. split; [|exact T1]. apply (psd_ext d (fun i j => cmul (rc (/ t)) (m i j))); [intros; symmetry; now apply Hr|]. apply psd_scal; [|assumption].
    left. apply Rinv_0_lt_compat. pose proof (psd_trace_nonneg d m Hp). fold t in H. lra.
Qed.

(** Real Ginibre states: density operators with real entries, for every rank. *)
Lemma gram_r_psd d k x c : 0 <= c -> psd d (fun i j => rc (c * gram_r k x i j)).
Proof.
  intros Hc. split.
  - intros i j _ _. apply C_eq; cbn; [|ring]. f_equal. unfold gram_r. apply Sum_ext. intros; ring.
  - intros v. assert (E : re (quad d (fun i j => rc (c * gram_r k x i j)) v) = c * Sum k (fun l => (Sum d (fun i => re (v i) * x i l)) ^ 2 + (Sum d (fun i => im (v i) * x i l)) ^ 2)).
    { unfold quad. rewrite csum_re. rewrite (Sum_ext d _ (fun i => c * Sum k (fun l => Sum d (fun j => (re (v i) * x i l) * (re (v j) * x j l) + (im (v i) * x i l) * (im (v j) * x j l))))).
      - rewrite Sum_scal. f_equal. rewrite Sum_swap. apply Sum_ext. intros l _. rewrite <- !Rsqr_pow2. unfold Rsqr. rewrite <- !Sum_scal_r, <- Sum_plus. apply Sum_ext. intros i _.
        rewrite <- !Sum_scal, <- Sum_plus. reflexivity.
      - intros i _. rewrite csum_re. rewrite <- Sum_scal. rewrite (Sum_ext d _ (fun j => Sum k (fun l => c * ((re (v i) * x i l) * (re (v j) * x j l) + (im (v i) * x i l) * (im (v j) * x j l))))).
        + rewrite Sum_swap. apply Sum_ext. intros l _. now rewrite Sum_scal.
        + intros j _. rewrite Sum_scal. transitivity (c * gram_r k x i j * (re (v i) * re (v j) + im (v i) * im (v j))); [cbn; ring|].
          unfold gram_r. rewrite Rmult_assoc, <- Sum_scal_r. f_equal. apply Sum_ext. intros; ring. }
    rewrite E. apply Rmult_le_pos; [assumption|]. apply Sum_nonneg. intros l _. pose proof (pow2_ge_0 (Sum d (fun i => re (v i) * x i l))). pose proof (pow2_ge_0 (Sum d (fun i => im (v i) * x i l))). lra.
Qed.
Theorem c90_real_ginibre b rank x : tomographic b -> let k := match rank with None => bdim b | Some r => r end in
  (exists i l, (i < bdim b)%nat /\ (l < k)%nat /\ x i l <> 0) ->
  exists rho t, modelparams_to_state b (redit_sample b rank x) = Ok rho /\ density (bdim b) rho /\ 0 < t /\
    forall i j, (i < bdim b)%nat -> (j < bdim b)%nat -> rho i j = rc (Sum k (fun l => x i l * x j l) / t) /\ im (rho i j) = 0.
Proof.
  intros Hb k (i0 & l0 & Hi0 & Hl0 & Hx). set (d := bdim b) in *. set (t := Sum d (fun a => gram_r k x a a)).
  assert (Ht : 0 < t).
  { assert (N : forall a, 0 <= gram_r k x a a) by (intros a; apply Sum_nonneg; intros l _; nra).
    apply Rlt_le_trans with (gram_r k x i0 i0); [|exact (Sum_ge_term d (fun a => gram_r k x a a) i0 Hi0 (fun a _ => N a))].
    apply Rlt_le_trans with (x i0 l0 * x i0 l0); [nra|]. exact (Sum_ge_term k (fun l => x i0 l * x i0 l) l0 Hl0 (fun l _ => ltac:(nra))). }
  set (m := redit d rank x).
  assert (Em : forall i j, m i j = rc (/ t * gram_r k x i j)) by (intros i j; apply C_eq; cbn; [|reflexivity]; unfold Rdiv; rewrite Rmult_comm; reflexivity).
  assert (Hp : psd d m).
  { apply (psd_ext d (fun i j => rc (/ t * gram_r k x i j))); [intros; symmetry; apply Em|]. apply gram_r_psd. left. now apply Rinv_0_lt_compat. }
  assert (Htr : mtrace d m = c1).
  { unfold mtrace. rewrite (csum_ext d _ (fun i => rc (/ t * gram_r k x i i))) by (intros; apply Em). rewrite csum_rc. apply C_eq; cbn; [|reflexivity]. rewrite Sum_scal. fold t. field. lra. }
  destruct (c90_density_operator b m Hb (proj1 Hp)) as (rho & E & _ & _ & Hv & Hden); [fold d; rewrite Htr; cbn; lra|].
  exists rho, t. split; [exact E|]. split; [now apply Hden|]. split; [exact Ht|]. intros i j Hi Hj. fold d in Hv. pose proof (Hv i j Hi Hj) as H. rewrite Htr, Em in H.
  assert (Hm : rho i j = rc (/ t * gram_r k x i j)) by (rewrite <- H; ring). rewrite Hm. split; [|reflexivity]. apply C_eq; cbn; [|reflexivity]. unfold gram_r, Rdiv. ring.
Qed.
(** The rank is checked by one of the two classes only. *)
Theorem c90_rank_check dim r : ginibre_new dim (Some r) = (if Nat.ltb dim r then Err ValueError else Ok (Some r)) /\ ginibre_new dim None = Ok None.
Proof. split; reflexivity. Qed.
Theorem c90_rank_unchecked_refuted : exists dim r, (dim < r)%nat /\ ginibre_new dim (Some r) = Err ValueError /\ ginibre_redit_new dim (Some r) = Ok (Some r).
Proof. exists 2%nat, 3%nat. split; [lia|]. split; reflexivity. Qed.

(** ** One-qubit samplers: the three numbers are the Bloch coordinates of the state. *)
Definition bloch (x y z : R) : mat := fun i j => match i, j with
  | O, O => rc ((1 + z) / 2) | 1%nat, 1%nat => rc ((1 - z) / 2) | O, _ => mkC (x / 2) (- y / 2) | _, _ => mkC (x / 2) (y / 2) end.
Lemma sum2 f : csum 2 f = cadd (f 0%nat) (f 1%nat).
Proof. rewrite !csum_S, csum_0. ring. Qed.
Lemma phase_one z : cabs2 z <> 0 -> cabs2 (cdiv_abs z) = 1.
Proof.
  intros H. assert (P : 0 < cabs2 z) by (pose proof (cabs2_nonneg z); lra). unfold cdiv_abs, cabs2. cbn [re im]. set (n := sqrt (re z * re z + im z * im z)).
  assert (Hn : n * n = re z * re z + im z * im z) by (apply sqrt_sqrt; unfold cabs2 in P; lra). unfold cabs2 in *. assert (n <> 0) by (intro E; rewrite E in Hn; lra).
  replace (re z / n * (re z / n) + im z / n * (im z / n)) with ((re z * re z + im z * im z) / (n * n)) by (field; assumption). rewrite Hn. field. lra.
Qed.
Lemma expect_phase P q r : cabs2 (r 0%nat 0%nat) <> 0 -> expect P (haar_psi q r) = expect P (fun i _ => q i 0%nat).
Proof.
  intros Hr. pose proof (phase_one _ Hr) as Hph. unfold haar_psi. set (ph := cdiv_abs (r 0%nat 0%nat)) in *. clearbody ph. unfold expect. rewrite !sum2.
  match goal with |- _ = ?rhs => transitivity (cabs2 ph * rhs); [|rewrite Hph; ring] end. unfold cabs2. cbn [re im cadd cmul conj]. ring.
Qed.
Theorem c90_haar q r : norm2 2 (fun i => q i 0%nat) = 1 -> cabs2 (r 0%nat 0%nat) <> 0 ->
  exists x y z, haar_row 2 q r = Ok [Fin x; Fin y; Fin z] /\ x ^ 2 + y ^ 2 + z ^ 2 = 1 /\
    forall i j, (i < 2)%nat -> (j < 2)%nat -> cmul (q i 0%nat) (conj (q j 0%nat)) = bloch x y z i j.
Proof.
  intros Hq Hr. unfold haar_row. cbn [Nat.eqb negb]. destruct (Reqb_spec (cabs2 (r 0%nat 0%nat)) 0) as [|_]; [contradiction|].
  do 3 eexists. split; [reflexivity|]. rewrite !expect_phase by assumption. unfold norm2 in Hq. rewrite !Sum_S in Hq. change (Sum 0 _) with 0 in Hq. unfold cabs2 in Hq. unfold expect. rewrite !sum2.
  cbn [pauli_x pauli_y pauli_z]. cbn. set (a := re (q 0%nat 0%nat)) in *. set (b := im (q 0%nat 0%nat)) in *. set (c := re (q 1%nat 0%nat)) in *. set (e := im (q 1%nat 0%nat)) in *.
  assert (N : a * a + b * b = 1 - (c * c + e * e)) by lra. split.
  - transitivity ((a * a + b * b + (c * c + e * e)) * (a * a + b * b + (c * c + e * e))); [ring|rewrite N; ring].
  - intros [|[|i]] [|[|j]] Hi Hj; try lia; apply C_eq; cbn; fold a b c e; nra.
Qed.
Theorem c90_haar_dimension dim q r : dim <> 2%nat -> haar_row dim q r = Err ValueError.
Proof. intros H. unfold haar_row. destruct (Nat.eqb_spec dim 2); [contradiction|reflexivity]. Qed.

(** Ginibre ensemble with any number of columns: inside the Bloch ball, and on its surface for one column. *)
Lemma cs_step A B p q s t m n : 0 <= p -> 0 <= q -> 0 <= m -> 0 <= n -> A * A + B * B <= p * q -> s * s + t * t = m * n -> (A + s) * (A + s) + (B + t) * (B + t) <= (p + m) * (q + n).
Proof.
  intros Hp Hq Hm Hn H1 H2. enough (2 * (A * s + B * t) <= p * n + q * m) by nra.
  apply Rsqr_incr_0_var; [|nra]. unfold Rsqr. assert (C1 : (A * s + B * t) * (A * s + B * t) <= (A * A + B * B) * (s * s + t * t)) by (pose proof (Rle_0_sqr (A * t - B * s)) as S; unfold Rsqr in S; nra).
  assert (C2 : (A * A + B * B) * (s * s + t * t) <= (p * q) * (m * n)) by (rewrite H2; apply Rmult_le_compat_r; [nra|assumption]).
  pose proof (Rle_0_sqr (p * n - q * m)) as S. unfold Rsqr in S. nra.
Qed.
Lemma cs_sum k (z : mat) : let g := gram_c k z in
  im (g 0%nat 0%nat) = 0 /\ im (g 1%nat 1%nat) = 0 /\ g 1%nat 0%nat = conj (g 0%nat 1%nat) /\ 0 <= re (g 0%nat 0%nat) /\ 0 <= re (g 1%nat 1%nat) /\
  cabs2 (g 0%nat 1%nat) <= re (g 0%nat 0%nat) * re (g 1%nat 1%nat).
Proof.
  cbv zeta. unfold gram_c. induction k as [|k IH]; [rewrite !csum_0; unfold cabs2; cbn; repeat split; try lra; apply C_eq; cbn; lra|].
  rewrite !csum_last. destruct IH as (I1 & I2 & I3 & I4 & I5 & I6). rewrite I3. unfold cabs2 in *. cbn [re im cadd cmul conj].
  set (G0 := csum k (fun l => cmul (z 0%nat l) (conj (z 0%nat l)))) in *. set (G1 := csum k (fun l => cmul (z 1%nat l) (conj (z 1%nat l)))) in *. set (G := csum k (fun l => cmul (z 0%nat l) (conj (z 1%nat l)))) in *.
  repeat split; try (rewrite ?I1, ?I2; ring); try nra; [apply C_eq; cbn; ring|].
  apply cs_step; try assumption; try nra.
Qed.
Theorem c90_ginibre_uniform k z : let g := gram_c k z in mtrace 2 g <> c0 ->
  exists x y z', ginibre_row 2 k z = Ok [Fin x; Fin y; Fin z'] /\ x ^ 2 + y ^ 2 + z' ^ 2 <= 1 /\ (k = 1%nat -> x ^ 2 + y ^ 2 + z' ^ 2 = 1) /\
    forall i j, (i < 2)%nat -> (j < 2)%nat -> g i j = cmul (mtrace 2 g) (bloch x y z' i j).
Proof.
  intros g Ht. destruct (cs_sum k z) as (I1 & I2 & I3 & I4 & I5 & I6). fold g in I1, I2, I3, I4, I5, I6. unfold ginibre_row. cbn [Nat.eqb negb].
  assert (Hg : g = gram_c k z) by reflexivity. clearbody g. rewrite <- Hg. cbv zeta.
  set (a := re (g 0%nat 0%nat)) in *. set (b := re (g 1%nat 1%nat)) in *. set (c := re (g 0%nat 1%nat)) in *. set (e := im (g 0%nat 1%nat)) in *.
  assert (Et : mtrace 2 g = rc (a + b)) by (unfold mtrace; rewrite sum2; apply C_eq; cbn; [reflexivity|rewrite I1, I2; ring]). rewrite Et in *.
  assert (P : 0 < a + b) by (destruct (Req_dec (a + b) 0) as [E|E]; [rewrite E in Ht; now elim Ht|lra]).
  assert (A2 : cabs2 (rc (a + b)) = (a + b) * (a + b)) by (unfold cabs2; cbn; ring).
  destruct (Reqb_spec (cabs2 (rc (a + b))) 0) as [E|_]; [rewrite A2 in E; nra|].
  do 3 eexists. split; [reflexivity|]. unfold cdiv. unfold mtrace, mmul. rewrite A2, !sum2. cbn [re im rc pauli_x pauli_y pauli_z cadd cmul conj copp c0 c1 ci].
  rewrite I1, I2, I3. cbn [re im conj]. fold a b c e.
  assert (X : forall v, (a + b) / ((a + b) * (a + b)) * v = v / (a + b)) by (intro v; field; lra).
  match goal with |- ?X ^ 2 + ?Y ^ 2 + ?Z ^ 2 <= 1 /\ _ => assert (EX : X = 2 * c / (a + b)) by (field; lra); assert (EY : Y = - 2 * e / (a + b)) by (field; lra); assert (EZ : Z = (a - b) / (a + b)) by (field; lra) end.
  rewrite EX, EY, EZ. clear EX EY EZ X. unfold cabs2 in I6. fold c e in I6.
  assert (EN : (2 * c / (a + b)) ^ 2 + (- 2 * e / (a + b)) ^ 2 + ((a - b) / (a + b)) ^ 2 = 1 - 4 * (a * b - (c * c + e * e)) / (a + b) ^ 2) by (field; lra).
  rewrite EN. assert (Q : 0 < (a + b) ^ 2) by nra. split; [|split].
  - enough (0 <= 4 * (a * b - (c * c + e * e)) / (a + b) ^ 2) by lra. apply Rmult_le_pos; [lra|]. left. now apply Rinv_0_lt_compat.
  - intros ->. enough (a * b - (c * c + e * e) = 0) as -> by (field; lra). unfold a, b, c, e. rewrite Hg. unfold gram_c. rewrite !csum_S, !csum_0. cbn. ring.
  - intros [|[|i]] [|[|j]] Hi Hj; try lia; apply C_eq; cbn; rewrite ?I1, ?I2, ?I3; cbn; fold a b c e; field; lra.
Qed.
Theorem c90_ginibre_dimension dim k z : dim <> 2%nat -> ginibre_row dim k z = Err ValueError.
Proof. intros H. unfold ginibre_row. destruct (Nat.eqb_spec dim 2); [contradiction|reflexivity]. Qed.

(** ** Which samplers exist, and the shape of what they return *)
Theorem c90_instances : instantiate mro_Haar = Ok tt /\ instantiate mro_GinibreUniform = Ok tt /\ instantiate mro_Ginibre = Ok tt /\ instantiate mro_DensityOperator = Err TypeError.
Proof. repeat split. Qed.
(** HilbertSchmidtUniform overrides [sample] and leaves [_sample] abstract: no instance can be made. *)
Theorem c90_hilbert_schmidt_refuted : instantiate mro_HilbertSchmidt = Err TypeError.
Proof. reflexivity. Qed.
Lemma F2_len {A B} (P : A -> B -> Prop) l m : Forall2 P l m -> length l = length m.
Proof. induction 1; cbn; congruence. Qed.
Theorem c90_shape n_rvs f n rows : single_sample n_rvs f n = Ok rows -> length rows = n /\
  forall i, (i < n)%nat -> length (nth i rows []) = n_rvs /\ exists r, f i = Ok r /\ (length r = n_rvs -> nth i rows [] = r).
Proof.
  unfold single_sample. intros H. apply map_res_Forall2 in H. assert (L : length rows = n) by (apply F2_len in H; rewrite seq_length in H; congruence).
  split; [exact L|]. intros i Hi. assert (G : forall (l : list nat) rows, Forall2 (fun i b => bind (f i) (put_row n_rvs) = Ok b) l rows -> forall i, (i < length l)%nat -> bind (f (nth i l 0%nat)) (put_row n_rvs) = Ok (nth i rows [])).
  { clear. induction 1 as [|a b l m Hab H IH]; intros i Hi; [cbn in Hi; lia|]. destruct i as [|i]; [exact Hab|]. cbn [nth]. apply IH. cbn in Hi. lia. }
  specialize (G _ _ H i ltac:(now rewrite seq_length)). rewrite seq_nth in G by assumption. cbn [Nat.add] in G. destruct (f i) as [r|]; [|discriminate]. cbn [bind] in G. unfold put_row in G.
  destruct (Nat.eqb_spec (length r) n_rvs) as [E|E].
  - injection G as <-. split; [exact E|]. exists r. now split.
  - destruct r as [|a [|? ?]]; try discriminate. injection G as <-. rewrite repeat_length. split; [reflexivity|]. exists [a]. split; [reflexivity|]. intros ?. contradiction.
Qed.
(** Concrete instances: the identity is a legal q factor, and two columns give the centre of the ball. *)
Example c90_haar_case : haar_row 2 meye meye = Ok [Fin 0; Fin 0; Fin 1].
Proof.
  unfold haar_row. cbn [Nat.eqb negb]. unfold cabs2, meye, delta. cbn [Nat.eqb re im c1]. destruct (Reqb_spec (1 * 1 + 0 * 0) 0) as [E|_]; [lra|].
  rewrite !expect_phase by (unfold cabs2; cbn; lra). unfold expect. rewrite !sum2. cbn. repeat f_equal; ring.
Qed.
Example c90_ginibre_case : mtrace 2 (gram_c 2 meye) <> c0.
Proof. unfold mtrace, gram_c. rewrite !sum2. cbn. intro E. apply (f_equal re) in E. cbn in E. lra. Qed.

Print Assumptions c90_density_operator.
Print Assumptions c90_real_ginibre.
Print Assumptions c90_rank_check.
Print Assumptions c90_rank_unchecked_refuted.
Print Assumptions c90_haar.
Print Assumptions c90_haar_dimension.
Print Assumptions c90_ginibre_uniform.
Print Assumptions c90_ginibre_dimension.
Print Assumptions c90_instances.
Print Assumptions c90_hilbert_schmidt_refuted.
Print Assumptions c90_shape.
