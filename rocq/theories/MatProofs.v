(** Lemmas for C108 and C109. *)
From Verif Require Import Base Sums Cplx LinAlg LinProofs TomoSpec TomoProofs3 MatModel.

(** Inner products and products of matrices given by the same orthonormal columns *)
Definition col (v : mat) (k : nat) : nat -> C := fun i => v i k.
Definition orth (d : nat) (v : mat) : Prop := forall k l, (k < d)%nat -> (l < d)%nat -> csum d (fun i => cmul (conj (v i k)) (v i l)) = delta k l.
Lemma inner_vwv d w v M : inner d (vwv d w v) M = csum d (fun k => cmul (rc (w k)) (quad d M (col v k))).
Proof.
  unfold inner, vwv, quad, col.
  transitivity (csum d (fun i => csum d (fun j => csum d (fun k => cmul (rc (w k)) (cmul (cmul (conj (v i k)) (M i j)) (v j k)))))).
  - apply csum_ext. intros i _. apply csum_ext. intros j _. rewrite csum_conj, <- csum_scal_r. apply csum_ext. intros k _. rewrite !conj_mul, conj_conj, conj_rc. ring.
  - transitivity (csum d (fun i => csum d (fun k => csum d (fun j => cmul (rc (w k)) (cmul (cmul (conj (v i k)) (M i j)) (v j k)))))).
    + apply csum_ext. intros i _. apply csum_swap.
    + rewrite csum_swap. apply csum_ext. intros k _. rewrite <- csum_scal. apply csum_ext. intros i _. now rewrite <- csum_scal.
Qed.
Lemma mmul_vwv d a b v i j : orth d v -> mmul d (vwv d a v) (vwv d b v) i j = vwv d (fun k => a k * b k) v i j.
Proof.
  intros Ho. unfold mmul, vwv.
  transitivity (csum d (fun m => csum d (fun k => csum d (fun l => cmul (cmul (cmul (v i k) (rc (a k))) (cmul (rc (b l)) (conj (v j l)))) (cmul (conj (v m k)) (v m l)))))).
  - apply csum_ext. intros m _. rewrite <- csum_scal_r. apply csum_ext. intros k _. rewrite <- csum_scal. apply csum_ext. intros l _. ring.
  - rewrite csum_swap. apply csum_ext. intros k Hk. rewrite csum_swap.
    transitivity (csum d (fun l => cmul (cmul (cmul (v i k) (rc (a k))) (cmul (rc (b l)) (conj (v j l)))) (delta k l))).
    + apply csum_ext. intros l Hl. rewrite csum_scal. now rewrite Ho.
    + rewrite (csum_single d k) by (try assumption; intros l Hl Hn; rewrite delta_diff by congruence; ring). rewrite delta_same, rc_mul. ring.
Qed.
Lemma proj_orth d v l k : orth d v -> (l < d)%nat -> (k < d)%nat -> proj d v (col v l) k = delta k l.
Proof. intros Ho Hl Hk. unfold proj, col. now apply Ho. Qed.
Lemma cabs2_delta k l : cabs2 (delta k l) = if Nat.eqb k l then 1 else 0.
Proof. unfold delta. destruct (Nat.eqb k l); unfold cabs2; cbn; ring. Qed.
Lemma inner_vwv2 d a b v : orth d v -> re (inner d (vwv d a v) (vwv d b v)) = Sum d (fun k => a k * b k).
Proof.
  intros Ho. rewrite inner_vwv. rewrite csum_re. apply Sum_ext. intros k Hk. rewrite quad_vwv. cbn [re cmul rc im].
  rewrite (Sum_ext d _ (fun l => if Nat.eqb l k then b k else 0)).
  - rewrite (LinProofs.Sum_single d k) by (try assumption; intros l _ Hl; now rewrite (proj2 (Nat.eqb_neq l k) Hl)). rewrite Nat.eqb_refl. ring.
  - intros l Hl. rewrite proj_orth by assumption. rewrite cabs2_delta. destruct (Nat.eqb_spec l k) as [->|]; ring.
Qed.
(** Frobenius norm *)
Definition fro2 (d : nat) (M : mat) : R := Sum d (fun i => Sum d (fun j => cabs2 (M i j))).
Lemma fro2_inner d M : fro2 d M = re (inner d M M).
Proof. unfold fro2, inner. rewrite csum_re. apply Sum_ext. intros i _. rewrite csum_re. apply Sum_ext. intros j _. unfold cabs2. cbn. ring. Qed.
Lemma fro2_nonneg d M : 0 <= fro2 d M.
Proof. apply Sum_nonneg. intros i _. apply Sum_nonneg. intros j _. apply cabs2_nonneg. Qed.
Lemma fro2_ext d M N : (forall i j, (i < d)%nat -> (j < d)%nat -> M i j = N i j) -> fro2 d M = fro2 d N.
Proof. intros H. apply Sum_ext. intros i Hi. apply Sum_ext. intros j Hj. now rewrite H. Qed.
Lemma fro2_zero d M : fro2 d M = 0 -> forall i j, (i < d)%nat -> (j < d)%nat -> M i j = c0.
Proof.
  intros H i j Hi Hj. assert (Z : cabs2 (M i j) = 0).
  { apply Rle_antisym; [|apply cabs2_nonneg]. rewrite <- H. unfold fro2. apply Rle_trans with (Sum d (fun j => cabs2 (M i j))).
    - apply (LinProofs.Sum_ge_term d (fun j => cabs2 (M i j)) j Hj). intros; apply cabs2_nonneg.
    - apply (LinProofs.Sum_ge_term d (fun i => Sum d (fun j => cabs2 (M i j))) i Hi). intros; apply Sum_nonneg. intros; apply cabs2_nonneg. }
  unfold cabs2 in Z. apply C_eq; cbn; nra.
Qed.
Lemma inner_mplus_r d M N P : inner d M (mplus N P) = cadd (inner d M N) (inner d M P).
Proof. unfold inner, mplus. rewrite <- csum_add. apply csum_ext. intros i _. rewrite <- csum_add. apply csum_ext. intros j _. ring. Qed.
Lemma inner_swap d M N : re (inner d M N) = re (inner d N M).
Proof. unfold inner. rewrite !csum_re. apply Sum_ext. intros i _. rewrite !csum_re. apply Sum_ext. intros j _. cbn. ring. Qed.
Lemma fro2_plus d M N : fro2 d (mplus M N) = fro2 d M + fro2 d N + 2 * re (inner d M N).
Proof.
  rewrite !fro2_inner. rewrite inner_mplus_r. cbn [re cadd]. rewrite (inner_swap d (mplus M N) M), (inner_swap d (mplus M N) N), !inner_mplus_r. cbn [re cadd]. rewrite (inner_swap d N M). ring.
Qed.
(** A positive semidefinite form vanishes only on the kernel *)
Lemma quad_shift d A v w t : hermitian d A -> re (quad d A (fun i => cadd (v i) (cmul (rc t) (w i)))) =
  re (quad d A v) + 2 * t * re (csum d (fun i => cmul (conj (w i)) (csum d (fun j => cmul (A i j) (v j))))) + t * t * re (quad d A w).
Proof.
  intros Hh. set (B := fun x y => csum d (fun i => csum d (fun j => cmul (cmul (conj (x i)) (A i j)) (y j)))).
  assert (E : quad d A (fun i => cadd (v i) (cmul (rc t) (w i))) = cadd (cadd (B v v) (cmul (rc t) (cadd (B v w) (B w v)))) (cmul (rc (t * t)) (B w w))).
  { unfold quad, B. rewrite <- !csum_add, <- !csum_scal, <- !csum_add. apply csum_ext. intros i _. rewrite <- !csum_add, <- !csum_scal, <- !csum_add. apply csum_ext. intros j _. rewrite conj_add, conj_mul, conj_rc, rc_mul. ring. }
  assert (Bs : B v w = conj (B w v)).
  { unfold B. rewrite csum_conj, csum_swap. rewrite (csum_ext d (fun i => conj (csum d _)) (fun i => csum d (fun j => conj (cmul (cmul (conj (w i)) (A i j)) (v j))))) by (intros; apply csum_conj).
    apply csum_ext. intros i Hi. apply csum_ext. intros j Hj. rewrite !conj_mul, conj_conj. rewrite (Hh i j) by assumption. rewrite conj_conj. ring. }
  assert (Bw : csum d (fun i => cmul (conj (w i)) (csum d (fun j => cmul (A i j) (v j)))) = B w v).
  { unfold B. apply csum_ext. intros i _. rewrite <- csum_scal. apply csum_ext. intros j _. ring. }
  rewrite Bw, E, Bs. unfold quad. fold (B v v) (B w w). cbn [re im cadd cmul conj rc]. ring.
Qed.
Lemma psd_kernel d A v : psd d A -> re (quad d A v) = 0 -> forall i, (i < d)%nat -> csum d (fun j => cmul (A i j) (v j)) = c0.
Proof.
  intros [Hh Hq] H0. set (w := fun i => csum d (fun j => cmul (A i j) (v j))).
  assert (Nw : re (csum d (fun i => cmul (conj (w i)) (csum d (fun j => cmul (A i j) (v j))))) = norm2 d w) by (change (re (csum d (fun i => cmul (conj (w i)) (w i))) = norm2 d w); rewrite csum_re; apply Sum_ext; intros i _; unfold cabs2; cbn; ring).
  assert (N0 : norm2 d w = 0).
  { assert (Nn : 0 <= norm2 d w) by (apply Sum_nonneg; intros; apply cabs2_nonneg). set (N := norm2 d w) in *. set (q := re (quad d A w)).
    assert (Q : forall t, 0 <= 2 * t * N + t * t * q) by (intros t; specialize (Hq (fun i => cadd (v i) (cmul (rc t) (w i)))); rewrite quad_shift, H0 in Hq by assumption; rewrite Nw in Hq; fold N q in Hq; lra).
    assert (q0 : 0 <= q) by apply Hq. destruct (Req_EM_T q 0) as [Z|Z]; [specialize (Q (-1)); rewrite Z in Q; lra|].
    specialize (Q (- N / q)). replace (2 * (- N / q) * N + - N / q * (- N / q) * q) with (- (N * N / q)) in Q by (field; assumption).
    destruct (Req_EM_T N 0) as [|Nz]; [assumption|exfalso]. assert (0 < N * N / q) by (apply Rdiv_lt_0_compat; nra). lra. }
  intros i Hi. change (w i = c0). assert (Z : cabs2 (w i) = 0).
  { apply Rle_antisym; [|apply cabs2_nonneg]. rewrite <- N0. apply (LinProofs.Sum_ge_term d (fun i => cabs2 (w i)) i Hi). intros; apply cabs2_nonneg. }
  generalize dependent (w i). intros z Z. unfold cabs2 in Z. apply C_eq; cbn; nra.
Qed.
Lemma quad_add d A B u : quad d (mplus A B) u = cadd (quad d A u) (quad d B u).
Proof. unfold quad, mplus. rewrite <- csum_add. apply csum_ext. intros i _. rewrite <- csum_add. apply csum_ext. intros j _. ring. Qed.
Lemma mmul_add_r d A B D i j : mmul d A (mplus B D) i j = cadd (mmul d A B i j) (mmul d A D i j).
Proof. unfold mmul, mplus. rewrite <- csum_add. apply csum_ext. intros k _. ring. Qed.
(** Positive semidefinite square roots are unique *)
Lemma psd_root_unique d P Q : psd d P -> psd d Q -> (forall i j, (i < d)%nat -> (j < d)%nat -> mmul d P P i j = mmul d Q Q i j) ->
  forall i j, (i < d)%nat -> (j < d)%nat -> P i j = Q i j.
Proof.
  intros HP HQ HE. set (D := fun i j => csub (P i j) (Q i j)).
  assert (HD : hermitian d D) by (intros i j Hi Hj; unfold D; rewrite (proj1 HP i j), (proj1 HQ i j) by assumption; apply C_eq; cbn; ring).
  (* sum over the columns c of D of quad (P + Q) c is 0 *)
  set (T := fun A => Sum d (fun k => re (quad d A (fun i => D i k)))).
  assert (TP : 0 <= T P) by (apply Sum_nonneg; intros; apply HP). assert (TQ : 0 <= T Q) by (apply Sum_nonneg; intros; apply HQ).
  assert (TA : forall A, hermitian d A -> rc (T A) = csum d (fun k => csum d (fun i => csum d (fun j => cmul (cmul (D k i) (A i j)) (D j k))))).
  { intros A HA. unfold T. rewrite <- csum_rc. apply csum_ext. intros k Hk. rewrite rc_re.
    - unfold quad. apply csum_ext. intros i Hi. apply csum_ext. intros j Hj. now rewrite <- (HD k i).
    - apply conj_real. unfold quad. rewrite csum_conj. rewrite (csum_ext d (fun i => conj (csum d _)) (fun i => csum d (fun j => conj (cmul (cmul (conj (D i k)) (A i j)) (D j k))))) by (intros; apply csum_conj).
      rewrite csum_swap. apply csum_ext. intros i Hi. apply csum_ext. intros j Hj. rewrite !conj_mul, conj_conj. rewrite (HA i j) by assumption. ring. }
  (* trace of D (P + Q) D: D P + D Q and P D + Q D add up to 2 (P P - Q Q) = 0 *)
  assert (Tz : T P + T Q = 0).
  { set (tr3 := fun X Y Z => csum d (fun k => csum d (fun i => csum d (fun j => cmul (cmul (X k i) (Y i j)) (Z j k))))).
    assert (cyc : forall X Y Z, tr3 X Y Z = tr3 Z X Y).
    { intros X Y Z. unfold tr3.
      transitivity (csum d (fun k => csum d (fun j => csum d (fun i => cmul (cmul (Z j k) (X k i)) (Y i j))))).
      - apply csum_ext. intros k _. rewrite csum_swap. apply csum_ext. intros j _. apply csum_ext. intros i _. ring.
      - rewrite csum_swap. reflexivity. }
    assert (lin2 : forall X Y Y' Z, tr3 X (fun i j => csub (Y i j) (Y' i j)) Z = csub (tr3 X Y Z) (tr3 X Y' Z)).
    { intros. unfold tr3. transitivity (cadd (csum d (fun k => csum d (fun i => csum d (fun j => cmul (cmul (X k i) (Y i j)) (Z j k))))) (cmul (copp c1) (csum d (fun k => csum d (fun i => csum d (fun j => cmul (cmul (X k i) (Y' i j)) (Z j k))))))); [|ring].
      rewrite <- csum_scal, <- csum_add. apply csum_ext. intros k _. rewrite <- csum_scal, <- csum_add. apply csum_ext. intros i _. rewrite <- csum_scal, <- csum_add. apply csum_ext. intros j _. ring. }
    assert (lin1 : forall X X' Y Z, tr3 (fun i j => csub (X i j) (X' i j)) Y Z = csub (tr3 X Y Z) (tr3 X' Y Z)).
    { intros. rewrite (cyc X), (cyc X'), (cyc (fun i j => csub (X i j) (X' i j))). apply lin2. }
    assert (lin3 : forall X Y Z Z', tr3 X Y (fun i j => csub (Z i j) (Z' i j)) = csub (tr3 X Y Z) (tr3 X Y Z')).
    { intros. rewrite (cyc X Y Z), (cyc X Y Z'), (cyc X Y). apply lin1. }
    assert (sq : forall X, tr3 P P X = tr3 Q Q X).
    { intros X. unfold tr3. apply csum_ext. intros k Hk. rewrite csum_swap. rewrite (csum_swap d d (fun i j => cmul (cmul (Q k i) (Q i j)) (X j k))). apply csum_ext. intros j Hj. rewrite !csum_scal_r. f_equal. apply HE; assumption. }
    assert (E : forall A, tr3 D A D = csub (csub (tr3 P A P) (tr3 P A Q)) (csub (tr3 Q A P) (tr3 Q A Q))).
    { intros A. unfold D. rewrite lin1, !lin3. reflexivity. }
    assert (F : cadd (tr3 D P D) (tr3 D Q D) = c0).
    { rewrite !E. (* tr PPP - tr PPQ - tr QPP + tr QPQ + tr PQP - tr PQQ - tr QQP + tr QQQ *)
      assert (a1 : tr3 Q P P = tr3 P P Q) by (symmetry; apply cyc). assert (a2 : tr3 Q P Q = tr3 Q Q P) by apply cyc. assert (a3 : tr3 P Q P = tr3 P P Q) by apply cyc.
      assert (a4 : tr3 P Q Q = tr3 Q Q P) by (rewrite (cyc P Q Q); apply cyc). rewrite a1, a2, a3, a4, <- (sq P), <- (sq Q). ring. }
    assert (HP' := TA P (proj1 HP)). assert (HQ' := TA Q (proj1 HQ)). fold (tr3 D P D) in HP'. fold (tr3 D Q D) in HQ'. rewrite <- HP', <- HQ', <- rc_add in F. apply (f_equal re) in F. exact F. }
  assert (ZP : T P = 0) by lra. assert (ZQ : T Q = 0) by lra.
  assert (KP : forall A, psd d A -> T A = 0 -> forall i k, (i < d)%nat -> (k < d)%nat -> mmul d A D i k = c0).
  { intros A HA HT i k Hi Hk. apply (psd_kernel d A (fun i => D i k) HA); [|assumption]. apply Rle_antisym; [|apply HA]. rewrite <- HT. apply (LinProofs.Sum_ge_term d (fun k => re (quad d A (fun i => D i k))) k Hk). intros; apply HA. }
  assert (DD : forall i k, (i < d)%nat -> (k < d)%nat -> mmul d D D i k = c0).
  { intros i k Hi Hk. transitivity (csub (mmul d P D i k) (mmul d Q D i k)).
    - unfold mmul. transitivity (cadd (csum d (fun j => cmul (P i j) (D j k))) (cmul (copp c1) (csum d (fun j => cmul (Q i j) (D j k))))); [|ring]. rewrite <- csum_scal, <- csum_add. apply csum_ext. intros j _. unfold D. ring.
    - rewrite (KP P HP ZP i k Hi Hk), (KP Q HQ ZQ i k Hi Hk). ring. }
  assert (D0 : fro2 d D = 0).
  { unfold fro2. apply Sum_zero. intros i Hi. transitivity (re (mmul d D D i i)); [|rewrite DD by assumption; reflexivity]. unfold mmul. rewrite csum_re. apply Sum_ext. intros j Hj. rewrite (HD j i) by assumption. unfold cabs2. cbn. ring. }
  intros i j Hi Hj. pose proof (fro2_zero d D D0 i j Hi Hj) as Z. unfold D in Z. transitivity (cadd (csub (P i j) (Q i j)) (Q i j)); [ring|]. rewrite Z. ring.
Qed.
