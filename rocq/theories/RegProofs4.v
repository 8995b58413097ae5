(** Determinants of positive definite matrices and the volume of the ellipsoid returned by mvee. *)
From Verif Require Import Base Sums LinAlg LinProofs RegModel RegProofs RegSpec RegSpec2 RegProofs3.

Definition revm (n : nat) (G : rmat) : rmat := fun i j => G (n - 1 - i)%nat (n - 1 - j)%nat.
Definition restm (G : rmat) : rmat := fun i j => G (S i) (S j).

Lemma Sum_rev n f : Sum n (fun i => f (n - 1 - i)%nat) = Sum n f.
Proof.
  revert f. induction n as [|n IH]; intros f; [reflexivity|]. rewrite Sum_S, Sum_last. rewrite <- (IH f). rewrite Rplus_comm. f_equal.
  - apply Sum_ext. intros i Hi. f_equal. lia.
  - f_equal. lia.
Qed.
Lemma complete_square m X v : meq (S m) X (rtr X) -> X 0%nat 0%nat <> 0 ->
  rquad (S m) X v = X 0%nat 0%nat * (v 0%nat + Sum m (fun j => X 0%nat (S j) * v (S j)) / X 0%nat 0%nat) ^ 2 + rquad m (schur X) (fun i => v (S i)).
Proof.
  intros Hs Hp. set (p := X 0%nat 0%nat) in *. set (t := Sum m (fun j => X 0%nat (S j) * v (S j))).
  assert (T' : Sum m (fun j => v (S j) * X (S j) 0%nat) = t) by (apply Sum_ext; intros j Hj; rewrite (Hs (S j) 0%nat) by lia; unfold rtr; ring).
  unfold rquad. rewrite Sum_S. rewrite Sum_S.
  rewrite (Sum_ext m (fun i => v 0%nat * X 0%nat (S i) * v (S i)) (fun j => v 0%nat * (X 0%nat (S j) * v (S j)))) by (intros; ring). rewrite Sum_scal. fold t.
  rewrite (Sum_ext m (fun i => Sum (S m) (fun l => v (S i) * X (S i) l * v l)) (fun i => (v (S i) * X (S i) 0%nat) * v 0%nat + Sum m (fun l => v (S i) * X (S i) (S l) * v (S l)))) by (intros; now rewrite Sum_S).
  rewrite Sum_plus, Sum_scal_r, T'. fold p.
  rewrite (Sum_ext m (fun j => Sum m (fun l => v (S j) * schur X j l * v (S l)))
             (fun j => Sum m (fun l => v (S j) * X (S j) (S l) * v (S l)) - (v (S j) * X (S j) 0%nat) * (t / p))).
  2:{ intros j Hj. unfold schur. fold p. rewrite (Sum_ext m _ (fun l => v (S j) * X (S j) (S l) * v (S l) - (v (S j) * X (S j) 0%nat / p) * (X 0%nat (S l) * v (S l)))) by (intros; field; assumption).
      rewrite Sum_minus, Sum_scal. fold t. field. assumption. }
  rewrite Sum_minus, Sum_scal_r, T'. field. assumption.
Qed.
Lemma posdef_ext n X Y : meq n X Y -> posdef n X -> posdef n Y.
Proof.
  intros E [Hs Hq]. split; [intros i j Hi Hj; unfold rtr; rewrite <- !E by assumption; now apply Hs|].
  intros v Hv. rewrite <- (rquad_ext n X Y v v E) by reflexivity. now apply Hq.
Qed.
Lemma posdef_lead n X : posdef (S n) X -> posdef n X.
Proof.
  intros [Hs Hq]. split; [intros i j Hi Hj; apply Hs; lia|]. intros v (k & Hk & Hv).
  specialize (Hq (fun i => if Nat.ltb i n then v i else 0)). assert (E : rquad (S n) X (fun i => if Nat.ltb i n then v i else 0) = rquad n X v); [|rewrite E in Hq; apply Hq; exists k; split; [lia|now rewrite (proj2 (Nat.ltb_lt k n) Hk)]].
  unfold rquad. rewrite Sum_last. rewrite (Sum_zero (S n) (fun l => (if Nat.ltb n n then v n else 0) * _ * _)) by (intros; rewrite Nat.ltb_irrefl; ring).
  rewrite Rplus_0_r. apply Sum_ext. intros i Hi. rewrite Sum_last, Nat.ltb_irrefl, (proj2 (Nat.ltb_lt i n) Hi). rewrite Rmult_0_r, Rplus_0_r. apply Sum_ext. intros j Hj. now rewrite (proj2 (Nat.ltb_lt j n) Hj).
Qed.
Lemma posdef_rest n X : posdef (S n) X -> posdef n (restm X).
Proof.
  intros [Hs Hq]. split; [intros i j Hi Hj; unfold restm, rtr; apply Hs; lia|]. intros v (k & Hk & Hv).
  specialize (Hq (fun i => match i with O => 0 | S i => v i end)).
  assert (E : rquad (S n) X (fun i => match i with O => 0 | S i => v i end) = rquad n (restm X) v); [|rewrite E in Hq; apply Hq; exists (S k); split; [lia|assumption]].
  unfold rquad. rewrite Sum_S, Sum_zero by (intros; ring). rewrite Rplus_0_l. apply Sum_ext. intros i Hi. rewrite Sum_S, Rmult_0_r, Rplus_0_l. reflexivity.
Qed.
Lemma rquad_rev n G v : rquad n (revm n G) v = rquad n G (fun i => v (n - 1 - i)%nat).
Proof.
  unfold rquad, revm. rewrite <- (Sum_rev n (fun j => Sum n (fun l => v (n - 1 - j)%nat * G j l * v (n - 1 - l)%nat))). apply Sum_ext. intros i Hi.
  rewrite <- (Sum_rev n (fun l => v (n - 1 - (n - 1 - i))%nat * G (n - 1 - i)%nat l * v (n - 1 - l)%nat)). apply Sum_ext. intros l Hl.
  replace (n - 1 - (n - 1 - i))%nat with i by lia. replace (n - 1 - (n - 1 - l))%nat with l by lia. reflexivity.
Qed.
Lemma posdef_rev n G : posdef n G -> posdef n (revm n G).
Proof.
  intros [Hs Hq]. split; [intros i j Hi Hj; unfold revm, rtr; apply Hs; lia|]. intros v (k & Hk & Hv). rewrite rquad_rev. apply Hq. exists (n - 1 - k)%nat. split; [lia|].
  replace (n - 1 - (n - 1 - k))%nat with k by lia. assumption.
Qed.
(** Removing the last row and column divides the determinant by at most the value of the form on a vector ending in 1 *)
Lemma lead_le n : forall G v, posdef (S n) G -> v n = 1 -> pdet (S n) G <= pdet n G * rquad (S n) G v.
Proof.
  induction n as [|n IH]; intros G v HG Hv.
  - cbn [pdet]. unfold rquad. rewrite !Sum_S, !Sum_0, Hv. lra.
  - pose proof (posdef_pivot (S n) G HG) as Hp. pose proof (posdef_schur (S n) G HG) as HS. specialize (IH (schur G) (fun i => v (S i)) HS Hv).
    rewrite (complete_square (S n) G v) by (try lra; apply HG). change (pdet (S (S n)) G) with (G 0%nat 0%nat * pdet (S n) (schur G)). change (pdet (S n) G) with (G 0%nat 0%nat * pdet n (schur G)).
    pose proof (pdet_pos n (schur G) (posdef_lead n _ HS)) as Hd. rewrite Rmult_assoc. apply Rmult_le_compat_l; [lra|]. apply Rle_trans with (1 := IH). apply Rmult_le_compat_l; [lra|].
    assert (0 <= G 0%nat 0%nat * (v 0%nat + Sum (S n) (fun j => G 0%nat (S j) * v (S j)) / G 0%nat 0%nat) ^ 2) by (apply Rmult_le_pos; [lra|apply pow2_ge_0]). lra.
Qed.
Lemma bernoulli y k : 0 <= y -> 1 + INR k * (y - 1) <= y ^ k.
Proof.
  intros Hy. induction k as [|k IH]; [cbn; lra|]. rewrite S_INR. cbn [pow]. pose proof (pos_INR k) as Hk. set (K := INR k) in *. clearbody K.
  apply Rle_trans with (y * (1 + K * (y - 1))); [|apply Rmult_le_compat_l; assumption]. assert (0 <= K * ((y - 1) * (y - 1))) by (apply Rmult_le_pos; [assumption|apply Rle_0_sqr]). lra.
Qed.
Lemma amgm n a b : 0 <= a -> 0 <= b -> (n = 0%nat -> b = 0) -> a * (b / INR n) ^ n <= ((a + b) / INR (S n)) ^ S n.
Proof.
  intros Ha Hb H0. destruct n as [|n]; [rewrite (H0 eq_refl); cbn; lra|]. set (N := S n) in *. clear H0. assert (HN : 0 < INR N) by (apply lt_0_INR; lia). rewrite S_INR.
  set (x := b / INR N). assert (Hx : 0 <= x) by (apply Rmult_le_pos; [assumption|left; now apply Rinv_0_lt_compat]).
  assert (Hyp : 0 <= (a + b) / (INR N + 1)) by (apply Rmult_le_pos; [lra|left; apply Rinv_0_lt_compat; lra]).
  destruct (Req_dec x 0) as [Z|Nz].
  - rewrite Z. unfold N at 1. rewrite pow_i by lia. rewrite Rmult_0_r. now apply pow_le.
  - assert (Hx' : 0 < x) by lra. set (y := (a + b) / (INR N + 1) / x). assert (Hy : 0 <= y) by (apply Rmult_le_pos; [assumption|left; now apply Rinv_0_lt_compat]).
    pose proof (bernoulli y (S N) Hy) as HB. rewrite S_INR in HB. replace (1 + (INR N + 1) * (y - 1)) with (a / x) in HB.
    2:{ unfold y, x. field. repeat split; try lra. intro Hb0. apply Nz. unfold x. rewrite Hb0. unfold Rdiv. ring. }
    replace ((a + b) / (INR N + 1)) with (y * x) by (unfold y; field; split; lra). rewrite Rpow_mult_distr.
    apply Rle_trans with (a / x * x ^ S N); [|apply Rmult_le_compat_r; [apply pow_le; lra|assumption]]. right. change (x ^ S N) with (x * x ^ N). field. lra.
Qed.
Definition trace2 (n : nat) (H X : rmat) : R := Sum n (fun i => Sum n (fun j => H i j * X i j)).
Lemma trace2_split m H X : posdef (S m) X -> trace2 (S m) H X =
  X 0%nat 0%nat * rquad (S m) H (fun i => match i with O => 1 | S k => X 0%nat (S k) / X 0%nat 0%nat end) + trace2 m (restm H) (schur X).
Proof.
  intros HX. pose proof (posdef_pivot m X HX) as Hp. destruct HX as [Hs _]. unfold trace2, rquad. set (p := X 0%nat 0%nat) in *. rewrite !Sum_S.
  rewrite (Sum_ext m (fun i => Sum (S m) (fun j => H (S i) j * X (S i) j)) (fun i => H (S i) 0%nat * X 0%nat (S i) + (Sum m (fun j => H (S i) (S j) * (X 0%nat (S i) * X 0%nat (S j) / p)) + Sum m (fun j => restm H i j * schur X i j)))).
  2:{ intros i Hi. rewrite Sum_S, (Hs (S i) 0%nat) by lia. unfold rtr at 1. f_equal. rewrite <- Sum_plus. apply Sum_ext. intros j Hj. unfold restm, schur. fold p. rewrite (Hs (S i) 0%nat) by lia. unfold rtr. field. lra. }
  rewrite !Sum_plus. rewrite (Sum_ext m (fun i => Sum (S m) (fun l => X 0%nat (S i) / p * H (S i) l * _)) (fun i => (H (S i) 0%nat * X 0%nat (S i)) * / p + Sum m (fun j => H (S i) (S j) * (X 0%nat (S i) * X 0%nat (S j) / p)) * / p)).
  2:{ intros i Hi. rewrite Sum_S. f_equal; [unfold Rdiv; ring|]. rewrite Sum_mul_r. apply Sum_ext. intros; field; lra. }
  rewrite Sum_plus, !Sum_scal_r. rewrite (Sum_ext m (fun i => 1 * H 0%nat (S i) * (X 0%nat (S i) / p)) (fun i => (H 0%nat (S i) * X 0%nat (S i)) * / p)) by (intros; unfold Rdiv; ring). rewrite Sum_scal_r. fold p. field. lra.
Qed.
(** det X det H <= (tr (H X) / n)^n *)
Lemma det_trace n : forall X H, posdef n X -> posdef n H -> 0 <= trace2 n H X /\ pdet n X * pdet n (revm n H) <= (trace2 n H X / INR n) ^ n.
Proof.
  induction n as [|m IH]; intros X H HX HH.
  - unfold trace2. rewrite Sum_0. cbn. lra.
  - pose proof (posdef_pivot m X HX) as Hp. pose proof (posdef_schur m X HX) as HS. destruct (IH (schur X) (restm H) HS (posdef_rest m H HH)) as [IH0 IH1].
    rewrite (trace2_split m H X HX). set (e := fun i => match i with O => 1 | S k => X 0%nat (S k) / X 0%nat 0%nat end).
    assert (He : 0 < rquad (S m) H e) by (apply HH; exists 0%nat; split; [lia|cbn; lra]). set (a := X 0%nat 0%nat * rquad (S m) H e). assert (Ha : 0 < a) by (unfold a; now apply Rmult_lt_0_compat).
    set (b := trace2 m (restm H) (schur X)) in *. split; [lra|]. eapply Rle_trans; [|apply (amgm m a b); [lra|assumption|intros ->; unfold b, trace2; apply Sum_0]].
    pose proof (lead_le m (revm (S m) H) (fun i => e (m - i)%nat) (posdef_rev _ _ HH) ltac:(cbv beta; rewrite Nat.sub_diag; reflexivity)) as L.
    rewrite rquad_rev in L. rewrite (rquad_ext (S m) H H _ e (fun i j _ _ => eq_refl)) in L by (intros i Hi; f_equal; lia).
    rewrite (pdet_ext m (revm (S m) H) (revm m (restm H))) in L by (intros i j Hi Hj; unfold revm, restm; f_equal; lia).
    change (pdet (S m) X) with (X 0%nat 0%nat * pdet m (schur X)). pose proof (pdet_pos m _ HS) as D1.
    apply Rle_trans with (X 0%nat 0%nat * pdet m (schur X) * (pdet m (revm m (restm H)) * rquad (S m) H e)); [apply Rmult_le_compat_l; [nra|exact L]|].
    replace (X 0%nat 0%nat * pdet m (schur X) * (pdet m (revm m (restm H)) * rquad (S m) H e)) with (a * (pdet m (schur X) * pdet m (revm m (restm H)))) by (unfold a; ring).
    apply Rmult_le_compat_l; lra.
Qed.
(** Solving, and the determinant through single entries of the inverse *)
Lemma solve n : forall G b, posdef n G -> exists z : vec, forall i, (i < n)%nat -> Sum n (fun k => G i k * z k) = b i.
Proof.
  induction n as [|n IH]; intros G b HG; [exists (fun _ => 0); intros; lia|]. pose proof (posdef_pivot n G HG) as Hp.
  destruct (IH (schur G) (fun i => b (S i) - G (S i) 0%nat * b 0%nat / G 0%nat 0%nat) (posdef_schur n G HG)) as (z & Hz). set (p := G 0%nat 0%nat) in *.
  set (t := Sum n (fun k => G 0%nat (S k) * z k)). exists (fun i => match i with O => (b 0%nat - t) / p | S i => z i end). intros [|i] Hi; rewrite Sum_S; cbv iota beta.
  - fold t p. field. lra.
  - specialize (Hz i ltac:(lia)). unfold schur in Hz. fold p in Hz. rewrite (Sum_ext n _ (fun k => G (S i) (S k) * z k - G (S i) 0%nat / p * (G 0%nat (S k) * z k))) in Hz by (intros; field; lra).
    rewrite Sum_minus, Sum_scal in Hz. fold t in Hz. apply (Rplus_eq_reg_r (- (G (S i) 0%nat / p * t))). replace (G (S i) 0%nat * ((b 0%nat - t) / p) + Sum n (fun i0 => G (S i) (S i0) * z i0) + - (G (S i) 0%nat / p * t)) with (G (S i) 0%nat * ((b 0%nat - t) / p) + (Sum n (fun i0 => G (S i) (S i0) * z i0) - G (S i) 0%nat / p * t)) by ring.
    rewrite Hz. field. lra.
Qed.
Lemma tail_solves n G z b : posdef (S n) G -> b 0%nat = 0 -> (forall i, (i < S n)%nat -> Sum (S n) (fun k => G i k * z k) = b i) ->
  forall i, (i < n)%nat -> Sum n (fun k => schur G i k * z (S k)) = b (S i).
Proof.
  intros HG Hb Hz i Hi. pose proof (posdef_pivot n G HG) as Hp. set (p := G 0%nat 0%nat) in *. pose proof (Hz 0%nat ltac:(lia)) as E0. pose proof (Hz (S i) ltac:(lia)) as E1. rewrite Sum_S in E0, E1. fold p in E0.
  unfold schur. fold p. rewrite (Sum_ext n _ (fun k => G (S i) (S k) * z (S k) - G (S i) 0%nat / p * (G 0%nat (S k) * z (S k)))) by (intros; field; lra). rewrite Sum_minus, Sum_scal.
  rewrite <- E1. replace (Sum n (fun k => G 0%nat (S k) * z (S k))) with (- (p * z 0%nat)) by lra. field. lra.
Qed.
Lemma det_last n : forall G z, posdef (S n) G -> (forall i, (i < S n)%nat -> Sum (S n) (fun k => G i k * z k) = kd i n) -> pdet n G = pdet (S n) G * z n.
Proof.
  induction n as [|n IH]; intros G z HG Hz.
  - specialize (Hz 0%nat ltac:(lia)). rewrite Sum_S, Sum_0, kd_same in Hz. cbn [pdet]. lra.
  - change (pdet (S n) G) with (G 0%nat 0%nat * pdet n (schur G)). change (pdet (S (S n)) G) with (G 0%nat 0%nat * pdet (S n) (schur G)). rewrite Rmult_assoc. f_equal.
    apply (IH (schur G) (fun k => z (S k)) (posdef_schur _ _ HG)). intros i Hi.
    exact (tail_solves (S n) G z (fun i => kd i (S n)) HG (kd_diff 0 (S n) (O_S n)) Hz i Hi).
Qed.
Lemma det_first n G z : posdef (S n) G -> (forall i, (i < S n)%nat -> Sum (S n) (fun k => G i k * z k) = kd i 0) -> pdet n (restm G) = pdet (S n) G * z 0%nat.
Proof.
  intros HG Hz. pose proof (posdef_pivot n G HG) as Hp. pose proof (posdef_schur n G HG) as HS. pose proof HG as [Hs _]. cbn [pdet]. set (p := G 0%nat 0%nat) in *.
  pose proof (Hz 0%nat ltac:(lia)) as E0. rewrite Sum_S, kd_same in E0. fold p in E0.
  rewrite (pdet_ext n (restm G) (fun i j => schur G i j + / p * (G (S i) 0%nat * G (S j) 0%nat))).
  2:{ intros i j Hi Hj. unfold restm, schur. fold p. rewrite (Hs (S j) 0%nat) by lia. unfold rtr. field. lra. }
  rewrite (pdet_rank1 n (schur G) (/ p) (fun i => G (S i) 0%nat) (fun k => - p * z (S k)) HS).
  - rewrite (Sum_ext n _ (fun k => - p * (G 0%nat (S k) * z (S k)))) by (intros k Hk; rewrite (Hs (S k) 0%nat) by lia; unfold rtr; ring). rewrite Sum_scal.
    replace (Sum n (fun k => G 0%nat (S k) * z (S k))) with (1 - p * z 0%nat) by lra. field. lra.
  - left. now apply Rinv_0_lt_compat.
  - intros i Hi. pose proof (Hz (S i) ltac:(lia)) as E1. rewrite Sum_S, kd_diff in E1 by lia. unfold schur. fold p.
    rewrite (Sum_ext n _ (fun k => - p * (G (S i) (S k) * z (S k)) + G (S i) 0%nat * (G 0%nat (S k) * z (S k)))) by (intros; field; lra). rewrite Sum_plus, !Sum_scal.
    replace (Sum n (fun k => G 0%nat (S k) * z (S k))) with (1 - p * z 0%nat) by lra. replace (Sum n (fun k => G (S i) (S k) * z (S k))) with (- (G (S i) 0%nat * z 0%nat)) by lra. ring.
Qed.
Lemma solve_pos n G z k : posdef n G -> (k < n)%nat -> (forall i, (i < n)%nat -> Sum n (fun j => G i j * z j) = kd i k) -> 0 < z k.
Proof.
  intros [_ HG] Hk Hz. assert (Hne : exists i, (i < n)%nat /\ z i <> 0).
  { destruct (Req_dec (Sum n (fun j => z j * z j)) 0) as [E|E].
    - exfalso. specialize (Hz k Hk). rewrite kd_same in Hz. rewrite Sum_zero in Hz; [lra|]. intros j Hj. pose proof (Sum_ge_term n (fun j => z j * z j) j Hj ltac:(intros; nra)) as Q. cbv beta in Q. assert (z j = 0) as -> by nra. ring.
    - assert (P : 0 < Sum n (fun j => z j * z j)) by (pose proof (Sum_nonneg n (fun j => z j * z j) ltac:(intros; nra)); lra).
      destruct (Sum_pos_ex n _ P) as (i & Hi & Pi). exists i. split; [assumption|]. intros Z. rewrite Z in Pi. lra. }
  specialize (HG z Hne). rewrite rquad_dot in HG. unfold rdotv, rmv in HG. rewrite (Sum_ext n _ (fun i => z i * kd i k)) in HG by (intros i Hi; now rewrite Hz). now rewrite Sum_kd_r in HG.
Qed.
Lemma det_rev n : forall G, posdef n G -> pdet n (revm n G) = pdet n G.
Proof.
  induction n as [|n IH]; intros G HG; [reflexivity|]. destruct (solve (S n) G (fun i => kd i 0) HG) as (z & Hz). pose proof (solve_pos (S n) G z 0%nat HG ltac:(lia) Hz) as P.
  pose proof (det_first n G z HG Hz) as F. pose proof (det_last n (revm (S n) G) (fun k => z (S n - 1 - k)%nat) (posdef_rev _ _ HG)) as L.
  rewrite (pdet_ext n (revm (S n) G) (revm n (restm G))) in L by (intros i j Hi Hj; unfold revm, restm; f_equal; lia). rewrite IH in L by now apply posdef_rest.
  replace (S n - 1 - n)%nat with 0%nat in L by lia. assert (pdet (S n) (revm (S n) G) * z 0%nat = pdet (S n) G * z 0%nat); [|nra].
  rewrite <- F. symmetry. apply L. intros i Hi. unfold revm. rewrite (Sum_rev (S n) (fun k => G (S n - 1 - i)%nat k * z k)), Hz by lia. unfold kd. destruct (Nat.eqb_spec (S n - 1 - i) 0), (Nat.eqb_spec i n); try reflexivity; lia.
Qed.
Lemma posdef_inv n G Z : posdef n G -> is_inv n G Z -> posdef n Z.
Proof.
  intros [Hs HG] HZ. assert (Zs : meq n Z (rtr Z)).
  { apply (is_inv_unique n G Z (rtr Z) HZ). destruct HZ as [H1 H2]. split; intros i j Hi Hj.
    - rewrite kd_sym, <- (H2 j i) by assumption. unfold rmul, rtr. apply Sum_ext. intros k Hk. rewrite (Hs i k) by assumption. unfold rtr. ring.
    - rewrite kd_sym, <- (H1 j i) by assumption. unfold rmul, rtr. apply Sum_ext. intros k Hk. rewrite (Hs k j) by assumption. unfold rtr. ring. }
  split; [assumption|]. intros v (i & Hi & Hv).
  assert (E : rquad n Z v = rquad n G (rmv n Z v)).
  { rewrite !rquad_dot. rewrite rdotv_sym. unfold rdotv. apply Sum_ext. intros k Hk. rewrite (rmv_inv n G Z v k HZ Hk). reflexivity. }
  rewrite E. apply HG. destruct (Req_dec (Sum n (fun j => rmv n Z v j * rmv n Z v j)) 0) as [E0|E0].
  - exfalso. apply Hv. rewrite <- (rmv_inv n G Z v i HZ Hi). unfold rmv at 1. apply Sum_zero. intros j Hj.
    pose proof (Sum_ge_term n (fun j => rmv n Z v j * rmv n Z v j) j Hj ltac:(intros; nra)) as Q. cbv beta in Q. assert (rmv n Z v j = 0) as -> by nra. ring.
  - assert (P : 0 < Sum n (fun j => rmv n Z v j * rmv n Z v j)) by (pose proof (Sum_nonneg n (fun j => rmv n Z v j * rmv n Z v j) ltac:(intros; nra)); lra).
    destruct (Sum_pos_ex n _ P) as (j & Hj & Pj). exists j. split; [assumption|]. intros Zj. rewrite Zj in Pj. lra.
Qed.
Lemma det_inv n : forall G Z, posdef n G -> is_inv n G Z -> pdet n G * pdet n Z = 1.
Proof.
  induction n as [|n IH]; intros G Z HG HZ; [cbn; ring|]. pose proof (posdef_inv _ _ _ HG HZ) as PZ. pose proof (posdef_pivot n Z PZ) as Pz. pose proof HZ as [H1 H2].
  assert (Hz : forall i, (i < S n)%nat -> Sum (S n) (fun k => G i k * Z k 0%nat) = kd i 0) by (intros i Hi; apply H1; lia).
  pose proof (det_first n G (fun k => Z k 0%nat) HG Hz) as F. cbv beta in F.
  assert (HR : is_inv n (restm G) (schur Z)).
  { split; intros i j Hi Hj; unfold rmul, restm, schur; set (p := Z 0%nat 0%nat) in *.
    - rewrite (Sum_ext n _ (fun k => G (S i) (S k) * Z (S k) (S j) - (G (S i) (S k) * Z (S k) 0%nat) * (Z 0%nat (S j) / p))) by (intros; field; lra). rewrite Sum_minus, Sum_scal_r.
      pose proof (H1 (S i) (S j) ltac:(lia) ltac:(lia)) as A. pose proof (H1 (S i) 0%nat ltac:(lia) ltac:(lia)) as B. unfold rmul in A, B. rewrite Sum_S in A, B. rewrite kd_diff in B by lia. fold p in B.
      replace (Sum n (fun k => G (S i) (S k) * Z (S k) (S j))) with (kd (S i) (S j) - G (S i) 0%nat * Z 0%nat (S j)) by lra. replace (Sum n (fun k => G (S i) (S k) * Z (S k) 0%nat)) with (- (G (S i) 0%nat * p)) by lra.
      change (kd (S i) (S j)) with (kd i j). field. lra.
    - rewrite (Sum_ext n _ (fun k => Z (S i) (S k) * G (S k) (S j) - (Z (S i) 0%nat / p) * (Z 0%nat (S k) * G (S k) (S j)))) by (intros; field; lra). rewrite Sum_minus, Sum_scal.
      pose proof (H2 (S i) (S j) ltac:(lia) ltac:(lia)) as A. pose proof (H2 0%nat (S j) ltac:(lia) ltac:(lia)) as B. unfold rmul in A, B. rewrite Sum_S in A, B. rewrite kd_diff in B by lia. fold p in B.
      replace (Sum n (fun k => Z (S i) (S k) * G (S k) (S j))) with (kd (S i) (S j) - Z (S i) 0%nat * G 0%nat (S j)) by lra. replace (Sum n (fun k => Z 0%nat (S k) * G (S k) (S j))) with (- (p * G 0%nat (S j))) by lra.
      change (kd (S i) (S j)) with (kd i j). field. lra. }
  specialize (IH _ _ (posdef_rest n G HG) HR). change (pdet (S n) Z) with (Z 0%nat 0%nat * pdet n (schur Z)). rewrite <- Rmult_assoc, <- F. exact IH.
Qed.

(** ** The returned ellipsoid is at most as large as any enclosing one *)
Section V.
  Variables (N d : nat) (points : nat -> vec).
  Hypothesis Hd : (0 < d)%nat.
  Let q : nat -> vec := fun a i => if Nat.ltb i d then points a i else 1.
  Variables (B' : rmat) (c' : vec).
  Hypothesis HB : posdef d B'.
  Variables (al be : R).
  Hypothesis Hal : 0 < al.
  Hypothesis Hbe : 0 < be.
  Let Bc : vec := fun i => Sum d (fun k => B' i k * c' k).
  (** al (x - c' t)^T B' (x - c' t) + be t^2 as a form in (x, t) *)
  Let H : rmat := fun i j => if Nat.ltb i d then (if Nat.ltb j d then al * B' i j else - (al * Bc i))
                             else (if Nat.ltb j d then - (al * Bc j) else al * rquad d B' c' + be).
  Lemma lift_form v : rquad (S d) H v = al * rquad d B' (fun i => v i - c' i * v d) + be * (v d * v d).
  Proof.
    destruct HB as [Hs _]. assert (Sy : forall i j, (i < d)%nat -> (j < d)%nat -> B' j i = B' i j) by (intros; symmetry; now apply Hs).
    assert (E1 : rquad d B' (fun i => v i - c' i * v d) = rquad d B' v - 2 * v d * Sum d (fun i => v i * Bc i) + v d * v d * rquad d B' c').
    { unfold rquad. assert (X1 : Sum d (fun j => Sum d (fun l => c' j * B' j l * v l)) = Sum d (fun i => v i * Bc i)).
      { rewrite Sum_swap. apply Sum_ext. intros l Hl. unfold Bc. rewrite Sum_mul_l. apply Sum_ext. intros j Hj. rewrite (Sy l j) by assumption. ring. }
      assert (X2 : Sum d (fun j => Sum d (fun l => v j * B' j l * c' l)) = Sum d (fun i => v i * Bc i)).
      { apply Sum_ext. intros j Hj. unfold Bc. rewrite Sum_mul_l. apply Sum_ext. intros; ring. }
      rewrite (Sum_ext d _ (fun j => Sum d (fun l => v j * B' j l * v l) - (v d * Sum d (fun l => v j * B' j l * c' l) + v d * Sum d (fun l => c' j * B' j l * v l)) + v d * v d * Sum d (fun l => c' j * B' j l * c' l))).
      - rewrite Sum_plus, Sum_minus, Sum_plus, !Sum_scal, X1, X2. ring.
      - intros j Hj. rewrite !Sum_mul_l, <- Sum_plus, <- Sum_minus, <- Sum_plus. apply Sum_ext. intros; ring. }
    rewrite E1. unfold rquad at 1. rewrite Sum_last. rewrite Sum_last. unfold H at 2 3. rewrite Nat.ltb_irrefl.
    rewrite (Sum_ext d (fun j => Sum (S d) (fun l => v j * H j l * v l)) (fun j => al * Sum d (fun l => v j * B' j l * v l) + (v j * Bc j) * - (al * v d))).
    2:{ intros j Hj. rewrite Sum_last. unfold H. rewrite Nat.ltb_irrefl, (proj2 (Nat.ltb_lt j d) Hj). rewrite Sum_mul_l. f_equal; [|ring]. apply Sum_ext. intros l Hl. rewrite (proj2 (Nat.ltb_lt l d) Hl). ring. }
    rewrite (Sum_ext d (fun i => v d * (if Nat.ltb i d then _ else _) * v i) (fun i => (v i * Bc i) * - (al * v d))) by (intros i Hi; rewrite (proj2 (Nat.ltb_lt i d) Hi); ring).
    rewrite Sum_plus, Sum_scal, !Sum_scal_r. fold (rquad d B' v). ring.
  Qed.
  Lemma rquad_zero n X v : (forall i, (i < n)%nat -> v i = 0) -> rquad n X v = 0.
  Proof. intros Hv. unfold rquad. apply Sum_zero. intros i Hi. apply Sum_zero. intros j Hj. rewrite Hv by assumption. ring. Qed.
  Lemma posdef_nonneg n X v : posdef n X -> 0 <= rquad n X v.
  Proof.
    intros [_ HX]. destruct (Req_dec (Sum n (fun j => v j * v j)) 0) as [E0|E0].
    - rewrite rquad_zero; [lra|]. intros j Hj. pose proof (Sum_ge_term n (fun j => v j * v j) j Hj ltac:(intros; nra)) as Q. cbv beta in Q. nra.
    - assert (P : 0 < Sum n (fun j => v j * v j)) by (pose proof (Sum_nonneg n (fun j => v j * v j) ltac:(intros; nra)); lra).
      destruct (Sum_pos_ex n _ P) as (j & Hj & Pj). left. apply HX. exists j. split; [assumption|]. intros Zj. rewrite Zj in Pj. lra.
  Qed.
  Lemma lift_posdef : posdef (S d) H.
  Proof.
    split.
    - intros i j Hi Hj. unfold H, rtr. destruct (Nat.ltb_spec i d), (Nat.ltb_spec j d); try reflexivity. f_equal. now apply HB.
    - intros v (k & Hk & Hv). rewrite lift_form. pose proof (posdef_nonneg d B' (fun i => v i - c' i * v d) HB) as P0. destruct (Req_dec (v d) 0) as [Z|Nz].
      + assert (Hkd : (k < d)%nat) by (destruct (Nat.eq_dec k d); [now subst|lia]). rewrite Z. destruct HB as [_ P].
        assert (0 < rquad d B' (fun i => v i - c' i * 0)) by (apply P; exists k; split; [assumption|now rewrite Rmult_0_r, Rminus_0_r]).
        assert (0 < al * rquad d B' (fun i => v i - c' i * 0)) by now apply Rmult_lt_0_compat. lra.
      + assert (0 < v d * v d) by nra. assert (0 <= al * rquad d B' (fun i => v i - c' i * v d)) by (apply Rmult_le_pos; lra). assert (0 < be * (v d * v d)) by now apply Rmult_lt_0_compat. lra.
  Qed.
  Lemma lift_det : pdet (S d) H = be * (al ^ d * pdet d B').
  Proof.
    pose proof (det_last d H (fun i => if Nat.ltb i d then c' i / be else / be) lift_posdef) as L. cbv beta in L. rewrite Nat.ltb_irrefl in L.
    rewrite (pdet_ext d H (fun i j => al * B' i j)) in L by (intros i j Hi Hj; unfold H; now rewrite (proj2 (Nat.ltb_lt i d) Hi), (proj2 (Nat.ltb_lt j d) Hj)).
    rewrite pdet_scal in L by assumption. rewrite L; [field; lra|]. clear L. intros i Hi. rewrite Sum_last, Nat.ltb_irrefl.
    rewrite (Sum_ext d _ (fun k => H i k * c' k * / be)) by (intros k Hk; rewrite (proj2 (Nat.ltb_lt k d) Hk); unfold Rdiv; ring). rewrite Sum_scal_r. unfold H. rewrite Nat.ltb_irrefl.
    destruct (Nat.ltb_spec i d) as [L|L].
    - rewrite (Sum_ext d _ (fun k => al * (B' i k * c' k))) by (intros k Hk; rewrite (proj2 (Nat.ltb_lt k d) Hk); ring). rewrite Sum_scal. fold (Bc i). rewrite kd_diff by lia. ring.
    - assert (i = d) as -> by lia. rewrite kd_same. rewrite (Sum_ext d _ (fun k => - al * (c' k * Bc k))) by (intros k Hk; rewrite (proj2 (Nat.ltb_lt k d) Hk); ring). rewrite Sum_scal.
      replace (Sum d (fun k => c' k * Bc k)) with (rquad d B' c'); [field; lra|]. unfold rquad, Bc. apply Sum_ext. intros j Hj. rewrite Sum_mul_l. apply Sum_ext. intros; ring.
  Qed.
  Lemma lift_trace u : probf N u -> (forall a, (a < N)%nat -> rquad d B' (fun i => points a i - c' i) <= 1) -> trace2 (S d) H (gram N q u) <= al + be.
  Proof.
    intros [Hu H1] Hin. assert (E : trace2 (S d) H (gram N q u) = Sum N (fun a => u a * rquad (S d) H (q a))).
    { unfold trace2, gram, rquad. rewrite (Sum_ext (S d) _ (fun i => Sum N (fun a => Sum (S d) (fun j => u a * (q a i * H i j * q a j))))).
      - rewrite Sum_swap. apply Sum_ext. intros a Ha. rewrite Sum_mul_l. apply Sum_ext. intros i Hi. now rewrite Sum_mul_l.
      - intros i Hi. rewrite <- Sum_swap. apply Sum_ext. intros j Hj. rewrite Sum_mul_l. apply Sum_ext. intros; ring. }
    rewrite E. apply Rle_trans with (Sum N (fun a => u a * (al + be))); [|rewrite Sum_scal_r, H1; lra]. apply Sum_le. intros a Ha. apply Rmult_le_compat_l; [now apply Hu|].
    rewrite lift_form. assert (Q : q a d = 1) by (unfold q; now rewrite Nat.ltb_irrefl). rewrite Q. rewrite (rquad_ext d B' B' _ (fun i => points a i - c' i) (fun i j _ _ => eq_refl)).
    - specialize (Hin a Ha). assert (al * rquad d B' (fun i => points a i - c' i) <= al * 1) by (apply Rmult_le_compat_l; lra). lra.
    - intros i Hi. unfold q. rewrite (proj2 (Nat.ltb_lt i d) Hi). ring.
  Qed.
End V.
Lemma corner_det (N d : nat) (points : nat -> vec) u (HN : (0 < N)%nat) (Hd : (0 < d)%nat) : let X := gram N (fun a i => if Nat.ltb i d then points a i else 1) u in
  probf N u -> (exists Y, is_inv (S d) X Y) -> posdef d (mvee_S N points u) /\ pdet (S d) X = pdet d (mvee_S N points u).
Proof.
  intros X HP [Y HY]. pose proof (gram_corner N d points u HP) as Hc. pose proof (fun k (_ : (k < d)%nat) => gram_sym N d points u d k) as Hs. fold X in Hc, Hs.
  pose proof (gram_posdef N (S d) _ u (proj1 HP) (ex_intro _ Y HY)) as PX. fold X in PX.
  set (c := fun k => X k d). set (W := fun i j => X i j - c i * c j).
  assert (HI : is_inv d W Y) by exact (border_inv d X Y Hc Hs HY).
  assert (EW : meq d W (mvee_S N points u)) by (intros i j Hi Hj; unfold W, c; now rewrite (S_schur N d points HN Hd u i j Hi Hj)).
  assert (PW : posdef d W).
  { split; [intros i j Hi Hj; unfold W, rtr; unfold X; rewrite (gram_sym N d points u i j); ring|]. intros v (k & Hk & Hv). set (t := Sum d (fun i => c i * v i)).
    assert (E : rquad (S d) X (fun i => if Nat.ltb i d then v i else - t) = rquad d W v).
    { unfold rquad. rewrite Sum_last, Nat.ltb_irrefl. rewrite Sum_last, Nat.ltb_irrefl, Hc.
      rewrite (Sum_ext d (fun i => - t * X d i * _) (fun i => - t * (c i * v i))) by (intros i Hi; rewrite (proj2 (Nat.ltb_lt i d) Hi), (Hs i Hi); unfold c; ring). rewrite Sum_scal. fold t.
      rewrite (Sum_ext d (fun j => Sum (S d) _) (fun j => Sum d (fun l => v j * X j l * v l) + - t * (c j * v j))).
      2:{ intros j Hj. rewrite Sum_last, Nat.ltb_irrefl, (proj2 (Nat.ltb_lt j d) Hj). f_equal; [|unfold c; ring]. apply Sum_ext. intros l Hl. now rewrite (proj2 (Nat.ltb_lt l d) Hl). }
      rewrite (Sum_ext d (fun j => Sum d (fun l => v j * W j l * v l)) (fun j => Sum d (fun l => v j * X j l * v l) - (c j * v j) * t)).
      2:{ intros j Hj. unfold t. rewrite Sum_mul_l, <- Sum_minus. apply Sum_ext. intros l Hl. unfold W. ring. }
      rewrite Sum_plus, Sum_minus, Sum_scal, Sum_scal_r. fold t. ring. }
    rewrite <- E. apply PX. exists k. split; [lia|]. now rewrite (proj2 (Nat.ltb_lt k d) Hk). }
  split; [exact (posdef_ext d _ _ EW PW)|]. rewrite <- (pdet_ext d _ _ EW).
  pose proof (det_last d X (fun k => Y k d) PX) as L. cbv beta in L. rewrite (border_corner d X Y Hc Hs HY) in L. fold c in L.
  assert (Q : 0 <= rquad d Y c) by (apply posdef_nonneg, (posdef_inv d W); assumption).
  pose proof (pdet_rank1 d W 1 c (rmv d Y c) PW Rle_0_1 (fun i Hi => rmv_inv d W Y c i HI Hi)) as K.
  rewrite (pdet_ext d _ X) in K by (intros i j Hi Hj; unfold W; ring). fold (rdotv d c (rmv d Y c)) in K. rewrite <- rquad_dot in K.
  specialize (L ltac:(intros i Hi; apply HY; lia)). rewrite K in L. nra.
Qed.
Lemma smallest inv N d points fuel tol B c B' c' : (0 < N)%nat -> (0 < d)%nat -> inverts inv (S d) -> inverts inv d -> spanning N d points ->
  mvee inv fuel N d points tol = Some (Ok (B, c)) -> posdef d B' -> (forall a, (a < N)%nat -> dist2 d B' c' (points a) <= 1) ->
  posdef d B /\ pdet d B' <= pdet d B.
Proof.
  intros HN Hd Hi Hid Hsp Hm HB' Hin. pose proof (mvee_shape inv N d points HN Hd Hi Hid Hsp fuel tol) as M. rewrite Hm in M. destruct M as (u & Z & Hg & HZ & -> & ->).
  destruct Hg as [HP HY]. destruct (corner_det N d points u HN Hd HP HY) as [PS ES]. pose proof (gram_posdef N (S d) _ u (proj1 HP) HY) as PX. cbv zeta in ES.
  set (X := gram N _ u) in *. pose proof (posdef_inv d _ Z PS HZ) as PZ. pose proof (det_inv d _ Z PS HZ) as EI.
  assert (HD : 0 < INR d) by now apply lt_0_INR. split.
  { destruct PZ as [P1 P2]. split; [intros i j Hi' Hj'; unfold rtr; f_equal; now apply P1|]. intros v Hv. rewrite rquad_mscal. apply Rmult_lt_0_compat; [apply Rdiv_lt_0_compat; lra|now apply P2]. }
  set (n := INR d + 1). assert (Hn : 0 < n) by (unfold n; lra). set (al := INR d / n). set (be := / n).
  assert (Hal : 0 < al) by (unfold al; now apply Rdiv_lt_0_compat). assert (Hbe : 0 < be) by (unfold be; now apply Rinv_0_lt_compat).
  pose proof (lift_trace N d points B' c' HB' al be Hal u HP Hin) as T. fold X in T. pose proof (lift_posdef d Hd B' c' HB' al be Hal Hbe) as PH. pose proof (lift_det d Hd B' c' HB' al be Hal Hbe) as DH.
  cbv beta zeta in T, PH, DH. set (H := fun i j : nat => _ : R) in T, PH, DH.
  destruct (det_trace (S d) X H PX PH) as [T0 T1]. rewrite (det_rev (S d) H PH), DH, S_INR in T1. fold n in T1.
  assert (T2 : (trace2 (S d) H X / n) ^ S d <= be ^ S d).
  { apply pow_incr. split; [apply Rmult_le_pos; [assumption|left; now apply Rinv_0_lt_compat]|]. unfold be. replace (/ n) with (1 / n) by (unfold Rdiv; ring). apply Rmult_le_compat_r; [left; now apply Rinv_0_lt_compat|].
    replace 1 with (al + be) by (unfold al, be, n; field; unfold n in Hn; lra). exact T. }
  rewrite pdet_scal by (try assumption; apply Rdiv_lt_0_compat; lra).
  assert (E1 : al = INR d * be) by (unfold al, be; unfold Rdiv; ring). rewrite E1, Rpow_mult_distr in T1. change (be ^ S d) with (be * be ^ d) in T2.
  assert (Pb : 0 < be ^ d) by now apply pow_lt. assert (PD : 0 < INR d ^ d) by now apply pow_lt. pose proof (pdet_pos d _ PS) as PS0. pose proof (pdet_pos d _ PZ) as PZ0.
  unfold Rdiv. rewrite Rmult_1_l, pow_inv.
  assert (K : pdet (S d) X * (INR d ^ d * pdet d B') <= 1).
  { apply (Rmult_le_reg_r (be * be ^ d)); [now apply Rmult_lt_0_compat|]. lra. }
  rewrite ES in K. set (s := pdet d (mvee_S N points u)) in *. set (z := pdet d Z) in *. set (D := INR d ^ d) in *.
  apply (Rmult_le_reg_l (s * D)); [now apply Rmult_lt_0_compat|]. replace (s * D * (/ D * z)) with (s * z) by (field; lra). rewrite EI. lra.
Qed.
Lemma mvee_posdef inv N d points fuel tol B c : (0 < N)%nat -> (0 < d)%nat -> inverts inv (S d) -> inverts inv d -> spanning N d points ->
  mvee inv fuel N d points tol = Some (Ok (B, c)) -> posdef d B.
Proof.
  intros HN Hd Hi Hid Hsp Hm. pose proof (mvee_shape inv N d points HN Hd Hi Hid Hsp fuel tol) as M. rewrite Hm in M. destruct M as (u & Z & Hg & HZ & -> & ->).
  destruct Hg as [HP HY]. destruct (corner_det N d points u HN Hd HP HY) as [PS _]. destruct (posdef_inv d _ Z PS HZ) as [P1 P2]. assert (HD : 0 < INR d) by now apply lt_0_INR.
  split; [intros i j Hi' Hj'; unfold rtr; f_equal; now apply P1|]. intros v Hv. rewrite rquad_mscal. apply Rmult_lt_0_compat; [apply Rdiv_lt_0_compat; lra|now apply P2].
Qed.
