(** Proofs for C141: states in a tomographic basis. *)
From Coq Require Import String List Lia Lra Psatz.
From Verif Require Import Base RList Sums SmcModel PartModel PlotModel Cplx TomoModel TomoSpec TomoProofs TomoProofs2 TomoProofs3 PicModel.
Import ListNotations.
Open Scope R_scope.

(** Entries of a positive semidefinite matrix *)
Lemma psd_two d A i j x y : psd d A -> (i < d)%nat -> (j < d)%nat -> i <> j ->
  0 <= cabs2 x * re (A i i) + 2 * re (cmul (cmul (conj x) (A i j)) y) + cabs2 y * re (A j j).
Proof.
  intros [H P] Hi Hj N. set (v := fun k => if Nat.eqb k i then x else if Nat.eqb k j then y else c0).
  assert (Vi : v i = x) by (unfold v; now rewrite Nat.eqb_refl). assert (Vj : v j = y).
  { unfold v. destruct (Nat.eqb_spec j i); [congruence|]. now rewrite Nat.eqb_refl. }
  assert (V0 : forall k, k <> i -> k <> j -> v k = c0) by (intros k K1 K2; unfold v; destruct (Nat.eqb_spec k i), (Nat.eqb_spec k j); congruence).
  specialize (P v). unfold quad in P. rewrite (csum_two d i j) in P by (try assumption; intros k Hk K1 K2; apply csum_zero; intros; rewrite (V0 k K1 K2); unfold cmul, conj, c0; cbn; f_equal; ring).
  rewrite !(csum_two d i j) in P by (try assumption; intros k Hk K1 K2; rewrite (V0 k K1 K2); unfold cmul, c0; cbn; f_equal; ring).
  rewrite Vi, Vj in P. pose proof (H j i Hj Hi) as Hji. rewrite Hji in P. pose proof (H i i Hi Hi) as Hii. pose proof (H j j Hj Hj) as Hjj.
  apply (f_equal im) in Hii, Hjj. cbn in Hii, Hjj. unfold cabs2. cbn in *. nra.
Qed.
Lemma psd_diag d A i : psd d A -> (i < d)%nat -> 0 <= re (A i i).
Proof.
  intros [H P] Hi. specialize (P (fun k => if Nat.eqb k i then c1 else c0)). unfold quad in P.
  rewrite (csum_single d i) in P; [|assumption|intros k Hk K; apply csum_zero; intros; destruct (Nat.eqb_spec k i); [contradiction|]; unfold cmul, conj, c0; cbn; f_equal; ring].
  rewrite (csum_single d i) in P; [|assumption|intros k Hk K; destruct (Nat.eqb_spec k i); [contradiction|]; unfold cmul, c0; cbn; f_equal; ring].
  rewrite Nat.eqb_refl in P. cbn in P. lra.
Qed.
Lemma psd_minor d A i j : psd d A -> (i < d)%nat -> (j < d)%nat -> cabs2 (A i j) <= re (A i i) * re (A j j).
Proof.
  intros P Hi Hj. destruct (Nat.eq_dec i j) as [->|N].
  - destruct P as [H _]. pose proof (f_equal im (H j j Hj Hj)) as Q. cbn in Q. unfold cabs2. replace (im (A j j)) with 0 by lra. lra.
  - pose proof (psd_diag d A i P Hi) as Di. pose proof (psd_diag d A j P Hj) as Dj.
    assert (Q : forall s t, 0 <= cabs2 (A i j) * s ^ 2 * re (A i i) + 2 * (cabs2 (A i j) * s * t) + t ^ 2 * re (A j j)).
    { intros s t. pose proof (psd_two d A i j (cmul (rc s) (A i j)) (rc t) P Hi Hj N) as X. unfold cabs2 in *. cbn in *. nra. }
    assert (M : 0 <= cabs2 (A i j)) by (unfold cabs2; nra). set (m := cabs2 (A i j)) in *. set (a := re (A i i)) in *. set (c := re (A j j)) in *. clearbody m a c. clear P.
    destruct (Req_dec c 0) as [->|C].
    + specialize (Q 1 (- (a + 1))). nra.
    + pose proof (Q c (- m)) as Q1. destruct (Req_dec m 0) as [->|Nm]; [nra|]. assert (0 < m * c) by (apply Rmult_lt_0_compat; lra). 
      assert (0 <= (m * c) * (a * c - m)) by nra. nra.
Qed.
(** The trace of the square of a density operator is at most one. *)
Lemma purity d rho : density d rho -> re (mtrace d (mmul d rho rho)) <= 1.
Proof.
  intros [P T]. assert (E : re (mtrace d (mmul d rho rho)) = Sum d (fun i => Sum d (fun j => cabs2 (rho i j)))).
  { unfold mtrace, mmul. cbn [re csum]. apply Sum_ext. intros i Hi. cbn [re csum]. apply Sum_ext. intros j Hj. destruct P as [H _]. rewrite (H j i Hj Hi). unfold cabs2. cbn. ring. }
  rewrite E. apply Rle_trans with (Sum d (fun i => Sum d (fun j => re (rho i i) * re (rho j j)))).
  - apply Sum_le. intros i Hi. apply Sum_le. intros j Hj. now apply (psd_minor d).
  - rewrite (Sum_ext _ _ (fun i => re (rho i i) * Sum d (fun j => re (rho j j)))) by (intros; now rewrite Sum_scal). rewrite Sum_scal_r.
    apply (f_equal re) in T. unfold mtrace in T. cbn [re csum c1] in T. rewrite T. lra.
Qed.
(** In a tomographic basis: the first parameter is one over the root of the dimension, and the squares of the others add up to at most
    one minus one over the dimension. *)
Lemma bloch_radius b rho : tomographic b -> density (bdim b) rho ->
  Sum (bdim b ^ 2 - 1) (fun a => nth (S a) (state_to_modelparams b rho) 0 ^ 2) <= 1 - / INR (bdim b) /\ nth 0 (state_to_modelparams b rho) 0 = 1 / sqrt (INR (bdim b)).
Proof.
  intros T D. destruct T as [Td Tl Th To Tc Tf Tt]. pose proof D as [[H P] Tr]. pose proof (purity _ _ D) as Q. rewrite (born b rho rho) in Q by assumption. cbn [re rc] in Q.
  rewrite (rdot_Sum _ _ (length (bdata b))) in Q by apply stm_length.
  assert (L : (0 < length (bdata b))%nat) by (rewrite Tl; apply Nat.neq_0_lt_0, Nat.pow_nonzero; lia).
  assert (F : nth 0 (state_to_modelparams b rho) 0 = 1 / sqrt (INR (bdim b))).
  { rewrite stm_nth by assumption. unfold inner. assert (X : csum (bdim b) (fun i => csum (bdim b) (fun j => cmul (conj (bnth b 0 i j)) (rho i j))) = cmul (rc (1 / sqrt (INR (bdim b)))) (mtrace (bdim b) rho)).
    { unfold mtrace. rewrite <- csum_scal. apply csum_ext. intros i Hi. rewrite (csum_single _ i); [|assumption|].
      - rewrite Tf, delta_same by assumption. unfold cmul, conj, rc, c1. cbn. f_equal; ring.
      - intros j Hj Nj. rewrite Tf, delta_diff by auto. unfold cmul, conj, rc, c0. cbn. f_equal; ring. }
    rewrite X, Tr. cbn. ring. }
  split; [|exact F]. rewrite Tl in Q. replace (bdim b ^ 2)%nat with (S (bdim b ^ 2 - 1)) in Q by lia. rewrite Sum_S in Q. rewrite F in Q.
  rewrite (Sum_ext _ _ (fun a => nth (S a) (state_to_modelparams b rho) 0 * nth (S a) (state_to_modelparams b rho) 0)) by (intros; ring).
  assert (Pd : 0 < INR (bdim b)) by (now apply lt_0_INR). assert (E : 1 / sqrt (INR (bdim b)) * (1 / sqrt (INR (bdim b))) = / INR (bdim b)).
  { rewrite <- (sqrt_sqrt (INR (bdim b))) at 3 by lra. field. apply Rgt_not_eq, sqrt_lt_R0, Pd. }
  rewrite E in Q. lra.
Qed.
Lemma Sum_two_le n f i j : (forall k, (k < n)%nat -> 0 <= f k) -> (i < n)%nat -> (j < n)%nat -> i <> j -> f i + f j <= Sum n f.
Proof.
  revert f i j. induction n as [|n IH]; intros f i j H Hi Hj N; [lia|]. rewrite Sum_S.
  assert (G : forall m g k, (forall q, (q < m)%nat -> 0 <= g q) -> (k < m)%nat -> g k <= Sum m g).
  { induction m as [|m IHm]; intros g k Hg Hk; [lia|]. rewrite Sum_S. assert (0 <= Sum m (fun q => g (S q))) by (apply Sum_nonneg; intros; apply Hg; lia).
    destruct k as [|k]; [lra|]. specialize (IHm (fun q => g (S q)) k). cbv beta in IHm. assert (0 <= g 0%nat) by (apply Hg; lia).
    assert (g (S k) <= Sum m (fun q => g (S q))) by (apply IHm; [intros; apply Hg; lia|lia]). lra. }
  assert (0 <= f 0%nat) by (apply H; lia). destruct i as [|i], j as [|j].
  - contradiction.
  - assert (f (S j) <= Sum n (fun q => f (S q))) by (apply (G n (fun q => f (S q)) j); [intros; apply H; lia|lia]). lra.
  - assert (f (S i) <= Sum n (fun q => f (S q))) by (apply (G n (fun q => f (S q)) i); [intros; apply H; lia|lia]). lra.
  - assert (f (S i) + f (S j) <= Sum n (fun q => f (S q))) by (apply (IH (fun q => f (S q)) i j); [intros; apply H; lia|lia|lia|lia]). lra.
Qed.
