(** C152: symmetric priors have symmetric means and covariances *)
From Verif Require Import Base RList Ext Sums Cplx TomoModel TomoSpec TomoProofs2 TomoProofs3 TomoProofs LinProofs StateModel StateProps DistModel DistProofs DistProps MomSpec MomProofs ConvProofs SymSpec.

(** The row in terms of the Gram matrix *)
Definition gx (g00 g01 g10 g11 : C) : R := 2 * re g01 / (re g00 + re g11).
Definition gy (g00 g01 g10 g11 : C) : R := -2 * im g01 / (re g00 + re g11).
Definition gz (g00 g01 g10 g11 : C) : R := (re g00 - re g11) / (re g00 + re g11).
Definition of_gram {A} (F : C -> C -> C -> C -> A) (k : nat) (m : mat) : A := let g := gram_c k m in F (g 0%nat 0%nat) (g 0%nat 1%nat) (g 1%nat 0%nat) (g 1%nat 1%nat).
Lemma ginibre_value k z : mtrace 2 (gram_c k z) <> c0 -> ginibre_row 2 k z = Ok [Fin (of_gram gx k z); Fin (of_gram gy k z); Fin (of_gram gz k z)] /\ 0 < re (gram_c k z 0%nat 0%nat) + re (gram_c k z 1%nat 1%nat).
Proof.
  intros Ht. destruct (c90_ginibre_uniform k z Ht) as (x & y & t & E & _ & _ & H). destruct (cs_sum k z) as (I1 & I2 & I3 & I4 & I5 & I6).
  assert (H00 := H 0%nat 0%nat ltac:(lia) ltac:(lia)). assert (H01 := H 0%nat 1%nat ltac:(lia) ltac:(lia)). assert (H11 := H 1%nat 1%nat ltac:(lia) ltac:(lia)). set (g := gram_c k z) in *.
  assert (Et : mtrace 2 g = mkC (re (g 0%nat 0%nat) + re (g 1%nat 1%nat)) 0) by (unfold mtrace; rewrite sum2; apply C_eq; cbn [re im cadd]; [reflexivity|rewrite I1, I2; ring]).
  assert (P : 0 < re (g 0%nat 0%nat) + re (g 1%nat 1%nat)) by (destruct (Req_dec (re (g 0%nat 0%nat) + re (g 1%nat 1%nat)) 0) as [Z0|]; [rewrite Z0 in Et; now elim Ht|lra]).
  split; [|exact P]. rewrite E. unfold of_gram. fold g. unfold gx, gy, gz. clear E; clearbody g. rewrite Et in H00, H01, H11. apply (f_equal re) in H00 as A0. apply (f_equal re) in H11 as A1. apply (f_equal re) in H01 as B0. apply (f_equal im) in H01 as B1.
  cbn in A0, A1, B0, B1. set (a := re (g 0%nat 0%nat)) in *. set (b := re (g 1%nat 1%nat)) in *. set (c := re (g 0%nat 1%nat)) in *. set (e := im (g 0%nat 1%nat)) in *.
  assert (EX : x = 2 * c / (a + b)) by (apply Rmult_eq_reg_r with (a + b); [unfold Rdiv; rewrite Rmult_assoc, Rinv_l by lra; nra|lra]).
  assert (EY : y = -2 * e / (a + b)) by (apply Rmult_eq_reg_r with (a + b); [unfold Rdiv; rewrite Rmult_assoc, Rinv_l by lra; nra|lra]).
  assert (EZ : t = (a - b) / (a + b)) by (apply Rmult_eq_reg_r with (a + b); [unfold Rdiv; rewrite Rmult_assoc, Rinv_l by lra; nra|lra]).
  rewrite EX, EY, EZ. reflexivity.
Qed.

(** What the gates do to the Bloch vector *)
Lemma gram_act u k z i j : gram_c k (act u z) i j = cadd (cadd (cmul (cmul (u i 0%nat) (conj (u j 0%nat))) (gram_c k z 0%nat 0%nat)) (cmul (cmul (u i 0%nat) (conj (u j 1%nat))) (gram_c k z 0%nat 1%nat)))
  (cadd (cmul (cmul (u i 1%nat) (conj (u j 0%nat))) (gram_c k z 1%nat 0%nat)) (cmul (cmul (u i 1%nat) (conj (u j 1%nat))) (gram_c k z 1%nat 1%nat))).
Proof.
  unfold gram_c. induction k as [|k IH]; [rewrite !csum_0; apply C_eq; cbn; ring|]. rewrite !csum_last, IH. unfold act. apply C_eq; cbn [re im cadd cmul conj]; ring.
Qed.
Lemma sqrt2_sq : / sqrt 2 * / sqrt 2 = 1/2.
Proof. assert (X := sqrt_sqrt 2 ltac:(lra)). assert (Y : 0 < sqrt 2) by (apply sqrt_lt_R0; lra). rewrite <- Rinv_mult, X. lra. Qed.
Ltac gates := unfold of_gram, gx, gy, gz; rewrite !gram_act; unfold gate_x, gate_z, gate_s, gate_h, gate; cbn [re im cadd cmul conj c0 c1 ci];
  match goal with |- context [gram_c ?k ?z 1%nat 0%nat] => destruct (cs_sum k z) as (I1 & I2 & I3 & _); cbv zeta in I1, I2, I3; rewrite ?I3; cbn [re im conj]; rewrite ?I1, ?I2 end.
Lemma act_x k z : of_gram gx k (act gate_x z) = of_gram gx k z /\ of_gram gy k (act gate_x z) = - of_gram gy k z /\ of_gram gz k (act gate_x z) = - of_gram gz k z.
Proof. repeat split; gates; unfold Rdiv; match goal with |- _ * / ?p = _ => replace p with (re (gram_c k z 0%nat 0%nat) + re (gram_c k z 1%nat 1%nat)) by ring end; ring. Qed.
Lemma act_z k z : of_gram gx k (act gate_z z) = - of_gram gx k z /\ of_gram gy k (act gate_z z) = - of_gram gy k z /\ of_gram gz k (act gate_z z) = of_gram gz k z.
Proof. repeat split; gates; unfold Rdiv; match goal with |- _ * / ?p = _ => replace p with (re (gram_c k z 0%nat 0%nat) + re (gram_c k z 1%nat 1%nat)) by ring end; ring. Qed.
Lemma act_s k z : of_gram gx k (act gate_s z) = - of_gram gy k z /\ of_gram gy k (act gate_s z) = of_gram gx k z /\ of_gram gz k (act gate_s z) = of_gram gz k z.
Proof. repeat split; gates; unfold Rdiv; match goal with |- _ * / ?p = _ => replace p with (re (gram_c k z 0%nat 0%nat) + re (gram_c k z 1%nat 1%nat)) by ring end; ring. Qed.

Lemma act_h k z : of_gram gx k (act gate_h z) = of_gram gz k z /\ of_gram gy k (act gate_h z) = - of_gram gy k z /\ of_gram gz k (act gate_h z) = of_gram gx k z.
Proof.
  destruct (cs_sum k z) as (I1 & I2 & I3 & _). cbv zeta in I1, I2, I3. unfold of_gram, gx, gy, gz. rewrite !gram_act. unfold gate_h, gate. cbn [re im cadd cmul conj]. rewrite !I3. cbn [re im conj]. rewrite ?I1, ?I2.
  assert (Q := sqrt2_sq). set (s := / sqrt 2) in *. clearbody s. set (a := re (gram_c k z 0%nat 0%nat)). set (b := re (gram_c k z 1%nat 1%nat)). set (c := re (gram_c k z 0%nat 1%nat)). set (e := im (gram_c k z 0%nat 1%nat)).
  assert (HN : forall n m, n = s * s * (2 * m) -> n = m) by (intros n m ->; rewrite Q; field).
  repeat split; unfold Rdiv; match goal with |- ?n * / ?p = ?m => replace p with (a + b) by (symmetry; apply HN; ring) end.
  - match goal with |- ?n * _ = _ => replace n with (a - b) by (symmetry; apply HN; ring) end. reflexivity.
  - match goal with |- ?n * _ = _ => replace n with (2 * e) by (symmetry; apply HN; ring) end. ring.
  - match goal with |- ?n * _ = _ => replace n with (2 * c) by (symmetry; apply HN; ring) end. reflexivity.
Qed.

Lemma entry_value k z i : mtrace 2 (gram_c k z) <> c0 -> (i < 3)%nat -> entry_of (ginibre_row 2 k z) i = nth i [of_gram gx k z; of_gram gy k z; of_gram gz k z] 0.
Proof. intros H Hi. destruct (ginibre_value k z H) as [-> _]. destruct i as [|[|[|]]]; cbn; try reflexivity; lia. Qed.

Section Symmetric.
Context {W : Type} (Ex : (W -> R) -> R) (k : nat) (z : W -> mat).
Hypothesis HE : expectation Ex.
Hypothesis Hz : forall w, mtrace 2 (gram_c k (z w)) <> c0.
Let X w := of_gram gx k (z w). Let Y w := of_gram gy k (z w). Let Z w := of_gram gz k (z w).
Lemma inv_of u (F : R -> R -> R -> R) : invariant Ex k z u -> Ex (fun w => F (of_gram gx k (act u (z w))) (of_gram gy k (act u (z w))) (of_gram gz k (act u (z w)))) = Ex (fun w => F (X w) (Y w) (Z w)).
Proof. intros H. exact (H (fun a b c d => F (gx a b c d) (gy a b c d) (gz a b c d))). Qed.
Lemma inv_x F : invariant Ex k z gate_x -> Ex (fun w => F (X w) (- Y w) (- Z w)) = Ex (fun w => F (X w) (Y w) (Z w)).
Proof. intros H. rewrite <- (inv_of gate_x F H). apply (ex_ext _ HE). intros w. destruct (act_x k (z w)) as (-> & -> & ->). reflexivity. Qed.
Lemma inv_z F : invariant Ex k z gate_z -> Ex (fun w => F (- X w) (- Y w) (Z w)) = Ex (fun w => F (X w) (Y w) (Z w)).
Proof. intros H. rewrite <- (inv_of gate_z F H). apply (ex_ext _ HE). intros w. destruct (act_z k (z w)) as (-> & -> & ->). reflexivity. Qed.
Lemma inv_s F : invariant Ex k z gate_s -> Ex (fun w => F (- Y w) (X w) (Z w)) = Ex (fun w => F (X w) (Y w) (Z w)).
Proof. intros H. rewrite <- (inv_of gate_s F H). apply (ex_ext _ HE). intros w. destruct (act_s k (z w)) as (-> & -> & ->). reflexivity. Qed.
Lemma inv_h F : invariant Ex k z gate_h -> Ex (fun w => F (Z w) (- Y w) (X w)) = Ex (fun w => F (X w) (Y w) (Z w)).
Proof. intros H. rewrite <- (inv_of gate_h F H). apply (ex_ext _ HE). intros w. destruct (act_h k (z w)) as (-> & -> & ->). reflexivity. Qed.
Lemma ex_opp f : Ex (fun w => - f w) = - Ex f.
Proof. rewrite (ex_ext _ HE _ (fun w => -1 * f w)) by (intros; ring). rewrite (ex_scal _ HE). ring. Qed.
Lemma odd_zero f g : Ex g = Ex f -> (forall w, g w = - f w) -> Ex f = 0.
Proof. intros H G. rewrite (ex_ext _ HE g (fun w => - f w) G), ex_opp in H. lra. Qed.

Lemma means : invariant Ex k z gate_x -> invariant Ex k z gate_z -> Ex X = 0 /\ Ex Y = 0 /\ Ex Z = 0.
Proof.
  intros Hx Hzz. repeat split.
  - apply (odd_zero X (fun w => - X w)); [exact (inv_z (fun x y t => x) Hzz)|reflexivity].
  - apply (odd_zero Y (fun w => - Y w)); [exact (inv_x (fun x y t => y) Hx)|reflexivity].
  - apply (odd_zero Z (fun w => - Z w)); [exact (inv_x (fun x y t => t) Hx)|reflexivity].
Qed.
Lemma moments : invariant Ex k z gate_x -> invariant Ex k z gate_z -> invariant Ex k z gate_s -> invariant Ex k z gate_h ->
  Ex (fun w => X w * Y w) = 0 /\ Ex (fun w => X w * Z w) = 0 /\ Ex (fun w => Y w * Z w) = 0 /\ Ex (fun w => X w * X w) = Ex (fun w => Z w * Z w) /\ Ex (fun w => Y w * Y w) = Ex (fun w => Z w * Z w).
Proof.
  intros Hx Hzz Hs Hh. repeat split.
  - apply (odd_zero _ (fun w => X w * - Y w)); [exact (inv_x (fun x y t => x * y) Hx)|intros; ring].
  - apply (odd_zero _ (fun w => X w * - Z w)); [exact (inv_x (fun x y t => x * t) Hx)|intros; ring].
  - apply (odd_zero _ (fun w => - Y w * Z w)); [exact (inv_z (fun x y t => y * t) Hzz)|intros; ring].
  - symmetry. exact (inv_h (fun x y t => x * x) Hh).
  - transitivity (Ex (fun w => X w * X w)); [|symmetry; exact (inv_h (fun x y t => x * x) Hh)]. symmetry. exact (inv_s (fun x y t => y * y) Hs).
Qed.
End Symmetric.

(** ** The sampled Bloch vectors average to the completely mixed state *)
Theorem c152_ginibre_mean {W} (Ex : (W -> R) -> R) k z i : expectation Ex -> (forall w, mtrace 2 (gram_c k (z w)) <> c0) -> invariant Ex k z gate_x -> invariant Ex k z gate_z -> (i < 3)%nat ->
  Ex (fun w => entry_of (ginibre_row 2 k (z w)) i) = 0.
Proof.
  intros HE Hz Hx Hzz Hi. rewrite (ex_ext _ HE _ (fun w => nth i [of_gram gx k (z w); of_gram gy k (z w); of_gram gz k (z w)] 0)) by (intros w; apply entry_value; [apply Hz|exact Hi]).
  destruct (means Ex k z HE Hx Hzz) as (A1 & A2 & A3). destruct i as [|[|[|]]]; [exact A1|exact A2|exact A3|lia].
Qed.
(** ** and their covariance is isotropic *)
Theorem c152_ginibre_covariance {W} (Ex : (W -> R) -> R) k z i j : expectation Ex -> (forall w, mtrace 2 (gram_c k (z w)) <> c0) ->
  invariant Ex k z gate_x -> invariant Ex k z gate_z -> invariant Ex k z gate_s -> invariant Ex k z gate_h -> (i < 3)%nat -> (j < 3)%nat ->
  let v a w := entry_of (ginibre_row 2 k (z w)) a in
  Cov Ex (v i) (v j) = if Nat.eqb i j then Ex (fun w => v 0%nat w ^ 2 + v 1%nat w ^ 2 + v 2%nat w ^ 2) / 3 else 0.
Proof.
  intros HE Hz Hx Hzz Hs Hh Hi Hj v. rewrite (cov_moments Ex HE). unfold v at 3 4. rewrite (c152_ginibre_mean Ex k z i), (c152_ginibre_mean Ex k z j) by assumption.
  set (V := fun w => [of_gram gx k (z w); of_gram gy k (z w); of_gram gz k (z w)]).
  rewrite (ex_ext _ HE _ (fun w => nth i (V w) 0 * nth j (V w) 0)) by (intros w; unfold v; rewrite !entry_value by (assumption || apply Hz); reflexivity).
  assert (HR : Ex (fun w => v 0%nat w ^ 2 + v 1%nat w ^ 2 + v 2%nat w ^ 2) = Ex (fun w => of_gram gx k (z w) * of_gram gx k (z w)) + Ex (fun w => of_gram gy k (z w) * of_gram gy k (z w)) + Ex (fun w => of_gram gz k (z w) * of_gram gz k (z w))).
  { rewrite <- !(ex_add _ HE). apply (ex_ext _ HE). intros w. unfold v. rewrite !entry_value by (lia || apply Hz). cbn [nth]. ring. }
  rewrite HR. destruct (moments Ex k z HE Hx Hzz Hs Hh) as (M1 & M2 & M3 & M4 & M5). rewrite M4, M5.
  assert (Sw : forall a b, Ex (fun w => nth a (V w) 0 * nth b (V w) 0) = Ex (fun w => nth b (V w) 0 * nth a (V w) 0)) by (intros; apply (ex_ext _ HE); intros; ring).
  destruct i as [|[|[|]]], j as [|[|[|]]]; try lia; cbn [Nat.eqb].
  all: try (rewrite Rmult_0_l, Rminus_0_r).
  - etransitivity; [exact M4|field].
  - exact M1.
  - exact M2.
  - rewrite Sw. exact M1.
  - etransitivity; [exact M5|field].
  - exact M3.
  - rewrite Sw. exact M2.
  - rewrite Sw. exact M3.
  - unfold V; cbn [nth]. field.
Qed.
(** One column: pure states, variance 1/3 in every direction *)
Theorem c152_pure {W} (Ex : (W -> R) -> R) z i j : expectation Ex -> (forall w, mtrace 2 (gram_c 1 (z w)) <> c0) ->
  invariant Ex 1 z gate_x -> invariant Ex 1 z gate_z -> invariant Ex 1 z gate_s -> invariant Ex 1 z gate_h -> (i < 3)%nat -> (j < 3)%nat ->
  Cov Ex (fun w => entry_of (ginibre_row 2 1 (z w)) i) (fun w => entry_of (ginibre_row 2 1 (z w)) j) = if Nat.eqb i j then 1/3 else 0.
Proof.
  intros HE Hz Hx Hzz Hs Hh Hi Hj. etransitivity; [exact (c152_ginibre_covariance Ex 1 z i j HE Hz Hx Hzz Hs Hh Hi Hj)|]. destruct (Nat.eqb i j); [|reflexivity]. unfold Rdiv. f_equal.
  rewrite <- (ex_one _ HE). apply (ex_ext _ HE). intros w. destruct (c90_ginibre_uniform 1 (z w) (Hz w)) as (x & y & t & E1 & _ & P & _). rewrite E1. cbn [entry_of nth]. now apply P.
Qed.

(** ** HaarUniform returns the state of the first column of the matrix that is decomposed *)
Theorem c152_haar_row q r z : (forall i, (i < 2)%nat -> z i 0%nat = cmul (q i 0%nat) (r 0%nat 0%nat)) -> norm2 2 (fun i => q i 0%nat) = 1 -> cabs2 (r 0%nat 0%nat) <> 0 -> mtrace 2 (gram_c 1 z) <> c0 /\ haar_row 2 q r = ginibre_row 2 1 z.
Proof.
  intros Hz Hq Hr.
  assert (G : forall i j, (i < 2)%nat -> (j < 2)%nat -> gram_c 1 z i j = cmul (mkC (cabs2 (r 0%nat 0%nat)) 0) (cmul (q i 0%nat) (conj (q j 0%nat)))).
  { intros i j Hi Hj. unfold gram_c. rewrite csum_last, csum_0, !Hz by assumption. unfold cabs2. apply C_eq; cbn [re im cadd cmul conj c0]; ring. }
  assert (T : mtrace 2 (gram_c 1 z) = mkC (cabs2 (r 0%nat 0%nat)) 0).
  { unfold mtrace. rewrite sum2, !G by lia. unfold norm2 in Hq. rewrite !Sum_S in Hq. change (Sum 0 _) with 0 in Hq. unfold cabs2 in Hq at 1 2. set (t := cabs2 (r 0%nat 0%nat)). clearbody t. apply C_eq; cbn [re im cadd cmul conj]; [|ring]. transitivity (t * 1); [rewrite <- Hq; ring|ring]. }
  assert (N : mtrace 2 (gram_c 1 z) <> c0) by (rewrite T; intros H; apply (f_equal re) in H; cbn in H; contradiction).
  split; [exact N|]. destruct (c90_haar q r Hq Hr) as (x & y & t & E1 & _ & B). destruct (ginibre_value 1 z N) as [E2 P2]. rewrite E1, E2.
  assert (B0 := B 0%nat 0%nat ltac:(lia) ltac:(lia)). assert (B1 := B 0%nat 1%nat ltac:(lia) ltac:(lia)). assert (B2 := B 1%nat 1%nat ltac:(lia) ltac:(lia)).
  unfold of_gram, gx, gy, gz. rewrite !G by lia. rewrite B0, B1, B2. set (s := cabs2 (r 0%nat 0%nat)) in *. clearbody s. cbn. assert (K : forall a b c a' b' c', a = a' -> b = b' -> c = c' -> Ok [Fin a; Fin b; Fin c] = Ok [Fin a'; Fin b'; Fin c']) by (intros; congruence). apply K; field; lra.
Qed.
Theorem c152_haar_moments {W} (Ex : (W -> R) -> R) (z q r : W -> mat) : expectation Ex ->
  (forall w i, (i < 2)%nat -> z w i 0%nat = cmul (q w i 0%nat) (r w 0%nat 0%nat)) -> (forall w, norm2 2 (fun i => q w i 0%nat) = 1) -> (forall w, cabs2 (r w 0%nat 0%nat) <> 0) ->
  invariant Ex 1 z gate_x -> invariant Ex 1 z gate_z -> invariant Ex 1 z gate_s -> invariant Ex 1 z gate_h ->
  let v a w := entry_of (haar_row 2 (q w) (r w)) a in
  forall i j, (i < 3)%nat -> (j < 3)%nat -> Ex (v i) = 0 /\ Cov Ex (v i) (v j) = if Nat.eqb i j then 1/3 else 0.
Proof.
  intros HE Hz Hq Hr Hx Hzz Hs Hh v i j Hi Hj. assert (H := fun w => c152_haar_row (q w) (r w) (z w) (Hz w) (Hq w) (Hr w)).
  assert (EE : forall a, Ex (v a) = Ex (fun w => entry_of (ginibre_row 2 1 (z w)) a)) by (intros a; apply (ex_ext _ HE); intros w; unfold v; now rewrite (proj2 (H w))).
  assert (N := fun w => proj1 (H w)). split.
  - rewrite EE. now apply c152_ginibre_mean.
  - rewrite <- (c152_pure Ex z i j HE N Hx Hzz Hs Hh Hi Hj). rewrite !(cov_moments Ex HE), !EE. f_equal. apply (ex_ext _ HE). intros w. unfold v. now rewrite (proj2 (H w)).
Qed.

(** ** Rows constrained to a sum *)
Lemma swap_length i j l : length (swap i j l) = length l.
Proof. unfold swap. now rewrite map_length, seq_length. Qed.
Lemma swapped_invol i j a : swapped i j (swapped i j a) = a.
Proof. unfold swapped. destruct (Nat.eqb_spec a i), (Nat.eqb_spec a j); subst; rewrite ?Nat.eqb_refl; try reflexivity; repeat match goal with |- context [Nat.eqb ?p ?q] => destruct (Nat.eqb_spec p q) end; congruence. Qed.
Lemma swapped_lt i j a n : (i < n)%nat -> (j < n)%nat -> (a < n)%nat -> (swapped i j a < n)%nat.
Proof. intros. unfold swapped. destruct (Nat.eqb a i), (Nat.eqb a j); assumption. Qed.
Lemma swap_nth i j l a : (a < length l)%nat -> nth a (swap i j l) 0 = nth (swapped i j a) l 0.
Proof. intros H. unfold swap. rewrite (nth_indep _ 0 ((fun b => nth (swapped i j b) l 0) 0%nat)) by (now rewrite map_length, seq_length). rewrite (map_nth (fun b => nth (swapped i j b) l 0)), seq_nth by exact H. reflexivity. Qed.
Lemma swap_rsum i j l : (i < length l)%nat -> (j < length l)%nat -> rsum (swap i j l) = rsum l.
Proof.
  intros Hi Hj. transitivity (rsum (map (fun a => nth a l 0) (seq 0 (length l)))).
  - unfold swap. rewrite <- (map_map (swapped i j) (fun a => nth a l 0)). apply rsum_perm, Permutation_map. apply Permutation_sym, NoDup_Permutation_bis.
    + apply seq_NoDup.
    + now rewrite map_length.
    + intros a Ha. apply in_seq in Ha. apply in_map_iff. exists (swapped i j a). split; [apply swapped_invol|]. apply in_seq. split; [lia|]. apply swapped_lt; lia.
  - f_equal. apply nth_ext with (d := 0) (d' := 0); rewrite map_length, seq_length; [reflexivity|]. intros a Ha. rewrite (nth_indep _ 0 ((fun b => nth b l 0) 0%nat)) by (now rewrite map_length, seq_length). rewrite (map_nth (fun b => nth b l 0)), seq_nth by exact Ha. reflexivity.
Qed.
Lemma constrain_entry desired s i : 0 < rsum s -> (i < length s)%nat -> entry_of (Ok (constrain desired (map Fin s))) i = desired * nth i s 0 / rsum s.
Proof.
  intros H Hi. unfold constrain, entry_of. rewrite xsum_Fin. cbn [xsign]. rewrite (Rltb_true 0 (rsum s)) by assumption. rewrite map_map.
  rewrite (nth_indep _ NaN ((fun x => xdiv (xmul (xmul (Fin desired) (Fin 1)) (Fin x)) (Fin (rsum s))) 0)) by (now rewrite map_length). rewrite (map_nth (fun x => xdiv (xmul (xmul (Fin desired) (Fin 1)) (Fin x)) (Fin (rsum s)))).
  cbn [xmul]. rewrite xdiv_Fin by lra. field. lra.
Qed.
Lemma nth_Sum l : Sum (length l) (fun a => nth a l 0) = rsum l.
Proof. rewrite Sum_rsum. f_equal. apply nth_ext with (d := 0) (d' := 0); rewrite map_length, seq_length; [reflexivity|]. intros a Ha. rewrite (nth_indep _ 0 ((fun b => nth b l 0) 0%nat)) by (now rewrite map_length, seq_length). rewrite (map_nth (fun b => nth b l 0)), seq_nth by exact Ha. reflexivity. Qed.

Section Constrained.
Context {W : Type} (Ex : (W -> R) -> R) (d : nat) (row : W -> list R) (desired : R).
Hypothesis HE : expectation Ex.
Hypothesis HX : exchangeable Ex d row.
Hypothesis HP : forall w, 0 < rsum (row w).
Let v i w := entry_of (Ok (constrain desired (map Fin (row w)))) i.
Lemma v_value i w : (i < d)%nat -> v i w = desired * nth i (row w) 0 / rsum (row w).
Proof. intros Hi. apply constrain_entry; [apply HP|]. destruct HX as [L _]. now rewrite L. Qed.
Lemma v_total w : Sum d (fun i => v i w) = desired.
Proof.
  destruct HX as [L _]. rewrite (Sum_ext d _ (fun i => desired / rsum (row w) * nth i (row w) 0)) by (intros i Hi; rewrite v_value by assumption; unfold Rdiv; ring).
  rewrite Sum_scal. rewrite <- (L w), nth_Sum. field. specialize (HP w). lra.
Qed.
Lemma v_swap (F : R -> R -> R) i j a b : (i < d)%nat -> (j < d)%nat -> (a < d)%nat -> (b < d)%nat -> Ex (fun w => F (v (swapped i j a) w) (v (swapped i j b) w)) = Ex (fun w => F (v a w) (v b w)).
Proof.
  intros Hi Hj Ha Hb. destruct HX as [L X]. set (G := fun l => F (desired * nth a l 0 / rsum l) (desired * nth b l 0 / rsum l)).
  transitivity (Ex (fun w => G (swap i j (row w)))); [|rewrite (X i j G Hi Hj)]; apply (ex_ext _ HE); intros w; unfold G.
  - rewrite !swap_nth, swap_rsum by (rewrite L; assumption). rewrite !v_value by (apply swapped_lt; assumption). reflexivity.
  - rewrite !v_value by assumption. reflexivity.
Qed.
Lemma v_same i j : (i < d)%nat -> (j < d)%nat -> Ex (v i) = Ex (v j).
Proof. intros Hi Hj. pose proof (v_swap (fun x _ => x) i j j j Hi Hj Hj Hj) as P. cbn beta in P. unfold swapped in P. rewrite Nat.eqb_refl in P. destruct (Nat.eqb_spec j i) as [->|]; [reflexivity|exact P]. Qed.
Lemma v_square i j : (i < d)%nat -> (j < d)%nat -> Ex (fun w => v i w * v i w) = Ex (fun w => v j w * v j w).
Proof. intros Hi Hj. rewrite <- (v_swap (fun x _ => x * x) i j j j Hi Hj Hj Hj). unfold swapped. rewrite Nat.eqb_refl. destruct (Nat.eqb_spec j i) as [->|]; reflexivity. Qed.
Lemma v_cross i j l : (i < d)%nat -> (j < d)%nat -> (l < d)%nat -> i <> j -> i <> l -> Ex (fun w => v i w * v j w) = Ex (fun w => v i w * v l w).
Proof.
  intros Hi Hj Hl N1 N2. rewrite <- (v_swap (fun x y => x * y) j l i l Hj Hl Hi Hl). unfold swapped. rewrite Nat.eqb_refl. destruct (Nat.eqb_spec i j); [contradiction|]. destruct (Nat.eqb_spec i l); [contradiction|]. destruct (Nat.eqb_spec l j) as [->|]; reflexivity.
Qed.
Lemma v_mean i : (i < d)%nat -> Ex (v i) = desired / INR d.
Proof.
  intros Hi. assert (T : Sum d (fun j => Ex (v j)) = desired) by (rewrite <- (ex_Sum Ex HE d v); rewrite (ex_ext _ HE _ (fun _ => desired) v_total); apply (ex_const Ex HE)).
  rewrite (Sum_ext d _ (fun _ => Ex (v i))) in T by (intros j Hj; apply v_same; assumption). rewrite Sum_const in T. assert (0 < INR d) by (apply lt_0_INR; lia). rewrite <- T. field. lra.
Qed.
Lemma v_cov i j : (i < d)%nat -> (j < d)%nat -> i <> j -> Cov Ex (v i) (v j) = - Var Ex (v i) / INR (d - 1).
Proof.
  intros Hi Hj N. unfold Var. rewrite !(cov_moments Ex HE). set (s := Ex (fun w => v i w * v i w)). set (c := Ex (fun w => v i w * v j w)).
  assert (T : Sum d (fun l => Ex (fun w => v i w * v l w)) = desired * Ex (v i)).
  { rewrite <- (ex_Sum Ex HE d (fun l w => v i w * v l w)), <- (ex_scal _ HE). apply (ex_ext _ HE). intros w. rewrite Sum_scal, v_total. ring. }
  rewrite (Sum_ext d _ (fun l => c + (s - c) * (if Nat.eqb l i then 1 else 0))) in T.
  - rewrite Sum_plus, Sum_const, Sum_scal, (Sum_single d i) in T by (exact Hi || (intros l Hl Nl; destruct (Nat.eqb_spec l i); [contradiction|reflexivity])). rewrite Nat.eqb_refl in T. rewrite (v_mean i Hi) in *. rewrite (v_mean j Hj).
    assert (Hd : INR d = INR (d - 1) + 1) by (rewrite minus_INR by lia; change (INR 1) with 1; ring). assert (0 < INR (d - 1)) by (apply lt_0_INR; lia).
    rewrite Hd in T. rewrite Hd. set (n := INR (d - 1)) in *. clearbody n s c. assert (Es : s = desired * (desired / (n + 1)) - n * c) by (rewrite <- T; ring). rewrite Es. field. lra.
  - intros l Hl. destruct (Nat.eqb_spec l i) as [->|Nl]; [fold s; ring|]. rewrite Rmult_0_r, Rplus_0_r. now apply v_cross; auto.
Qed.
End Constrained.
(** An exchangeable underlying distribution (independent equal components, for instance): every entry has mean desired / d, *)
Theorem c152_constrained_mean {W} (Ex : (W -> R) -> R) d row desired i : expectation Ex -> exchangeable Ex d row -> (forall w, 0 < rsum (row w)) -> (i < d)%nat ->
  Ex (fun w => entry_of (Ok (constrain desired (map Fin (row w)))) i) = desired / INR d.
Proof. intros. now apply (v_mean Ex d row desired). Qed.
(** and two entries are anticorrelated, by - Var / (d - 1) *)
Theorem c152_constrained_covariance {W} (Ex : (W -> R) -> R) d row desired i j : expectation Ex -> exchangeable Ex d row -> (forall w, 0 < rsum (row w)) -> (i < d)%nat -> (j < d)%nat -> i <> j ->
  let v a w := entry_of (Ok (constrain desired (map Fin (row w)))) a in
  Var Ex (v j) = Var Ex (v i) /\ Cov Ex (v i) (v j) = - Var Ex (v i) / INR (d - 1).
Proof.
  intros HE HX HP Hi Hj N v. split.
  - unfold Var. rewrite !(cov_moments Ex HE). unfold v. rewrite (v_square Ex d row desired HE HX HP j i Hj Hi). now rewrite (v_same Ex d row desired HE HX HP j i Hj Hi).
  - now apply (v_cov Ex d row desired).
Qed.

(** ** Cases: the six eigenstates of the Pauli matrices are invariant under the gates; two rows exchanged with each other are exchangeable. *)
Definition ket (a b : C) : mat := fun i l => match i with O => a | _ => b end.
Definition six : list mat := [ket (mkC (sqrt 2) 0) c0; ket c0 (mkC (sqrt 2) 0); ket c1 c1; ket c1 (mkC (-1) 0); ket c1 ci; ket c1 (copp ci)].
Definition nth_six (n : nat) : mat := nth n six (ket c1 c1).
Definition isb (s : mat) (x y t : R) : Prop :=
  gram_c 1 s 0%nat 0%nat = mkC (1 + t) 0 /\ gram_c 1 s 0%nat 1%nat = mkC x (- y) /\ gram_c 1 s 1%nat 0%nat = mkC x y /\ gram_c 1 s 1%nat 1%nat = mkC (1 - t) 0.
Ltac isb_tac := intros (A1 & A2 & A3 & A4); unfold isb; rewrite !gram_act, A1, A2, A3, A4; unfold gate_x, gate_z, gate_s, gate_h, gate; repeat split; apply C_eq; cbn [re im cadd cmul conj c0 c1 ci]; try ring.
Lemma isb_x s x y t : isb s x y t -> isb (act gate_x s) x (- y) (- t).
Proof. isb_tac. Qed.
Lemma isb_z s x y t : isb s x y t -> isb (act gate_z s) (- x) (- y) t.
Proof. isb_tac. Qed.
Lemma isb_s s x y t : isb s x y t -> isb (act gate_s s) (- y) x t.
Proof. isb_tac. Qed.
Lemma isb_h s x y t : isb s x y t -> isb (act gate_h s) t (- y) x.
Proof. unfold gate_h. assert (Q := sqrt2_sq). set (q := / sqrt 2) in *. clearbody q. isb_tac. all: try (match goal with |- ?l = ?r => transitivity (q * q * (2 * r)); [ring|rewrite Q; field] end). Qed.
Lemma six_isb : Forall2 (fun s b => isb s (fst (fst b)) (snd (fst b)) (snd b)) six [(0, 0, 1); (0, 0, -1); (1, 0, 0); (-1, 0, 0); (0, 1, 0); (0, -1, 0)].
Proof.
  assert (Q := sqrt_sqrt 2 ltac:(lra)). unfold six. set (q := sqrt 2) in *. clearbody q.
  repeat (constructor; [cbn [fst snd]; unfold isb, gram_c; rewrite !csum_last, !csum_0; unfold ket; repeat split; apply C_eq; cbn [re im cadd cmul conj c0 c1 ci copp]; try lra; try nra|]). constructor.
Qed.
Definition bf (F : C -> C -> C -> C -> R) (x y t : R) : R := F (mkC (1 + t) 0) (mkC x (- y)) (mkC x y) (mkC (1 - t) 0).
Lemma isb_F F s x y t x' y' t' : isb s x y t -> x = x' -> y = y' -> t = t' -> of_gram F 1 s = bf F x' y' t'.
Proof. intros (A1 & A2 & A3 & A4) -> -> ->. unfold of_gram. rewrite A1, A2, A3, A4. reflexivity. Qed.
Example six_invariant : invariant (mean_of (seq 0 6)) 1 nth_six gate_x /\ invariant (mean_of (seq 0 6)) 1 nth_six gate_z /\ invariant (mean_of (seq 0 6)) 1 nth_six gate_s /\ invariant (mean_of (seq 0 6)) 1 nth_six gate_h.
Proof.
  pose proof six_isb as H. unfold nth_six, six in *. repeat match goal with K : Forall2 _ _ _ |- _ => inversion K; subst; clear K end. cbn [fst snd] in *.
  set (s1 := ket (mkC (sqrt 2) 0) c0) in *. set (s2 := ket c0 (mkC (sqrt 2) 0)) in *. set (s3 := ket c1 c1) in *. set (s4 := ket c1 (mkC (-1) 0)) in *. set (s5 := ket c1 ci) in *. set (s6 := ket c1 (copp ci)) in *. clearbody s1 s2 s3 s4 s5 s6.
  assert (V : forall u : mat, (forall F, of_gram F 1 (act u s1) + (of_gram F 1 (act u s2) + (of_gram F 1 (act u s3) + (of_gram F 1 (act u s4) + (of_gram F 1 (act u s5) + of_gram F 1 (act u s6))))) =
    bf F 0 0 1 + (bf F 0 0 (-1) + (bf F 1 0 0 + (bf F (-1) 0 0 + (bf F 0 1 0 + bf F 0 (-1) 0))))) -> invariant (mean_of (seq 0 6)) 1 (fun n => nth n [s1; s2; s3; s4; s5; s6] s3) u).
  { intros u U F. unfold mean_of. f_equal. cbn [map seq nth]. rewrite !rsum_cons. change (rsum []) with 0. specialize (U F). unfold of_gram at 1 2 3 4 5 6 in U. cbv zeta in U |- *. rewrite !Rplus_0_r. etransitivity; [exact U|].
    rewrite <- (isb_F F s1 _ _ _ 0 0 1 ltac:(eassumption)), <- (isb_F F s2 _ _ _ 0 0 (-1) ltac:(eassumption)), <- (isb_F F s3 _ _ _ 1 0 0 ltac:(eassumption)), <- (isb_F F s4 _ _ _ (-1) 0 0 ltac:(eassumption)), <- (isb_F F s5 _ _ _ 0 1 0 ltac:(eassumption)), <- (isb_F F s6 _ _ _ 0 (-1) 0 ltac:(eassumption)) by reflexivity. reflexivity. }
  repeat split; apply V; intros F.
  - rewrite (isb_F F _ _ _ _ 0 0 (-1) (isb_x s1 _ _ _ ltac:(eassumption))), (isb_F F _ _ _ _ 0 0 1 (isb_x s2 _ _ _ ltac:(eassumption))), (isb_F F _ _ _ _ 1 0 0 (isb_x s3 _ _ _ ltac:(eassumption))), (isb_F F _ _ _ _ (-1) 0 0 (isb_x s4 _ _ _ ltac:(eassumption))),
      (isb_F F _ _ _ _ 0 (-1) 0 (isb_x s5 _ _ _ ltac:(eassumption))), (isb_F F _ _ _ _ 0 1 0 (isb_x s6 _ _ _ ltac:(eassumption))) by lra. ring.
  - rewrite (isb_F F _ _ _ _ 0 0 1 (isb_z s1 _ _ _ ltac:(eassumption))), (isb_F F _ _ _ _ 0 0 (-1) (isb_z s2 _ _ _ ltac:(eassumption))), (isb_F F _ _ _ _ (-1) 0 0 (isb_z s3 _ _ _ ltac:(eassumption))), (isb_F F _ _ _ _ 1 0 0 (isb_z s4 _ _ _ ltac:(eassumption))),
      (isb_F F _ _ _ _ 0 (-1) 0 (isb_z s5 _ _ _ ltac:(eassumption))), (isb_F F _ _ _ _ 0 1 0 (isb_z s6 _ _ _ ltac:(eassumption))) by lra. ring.
  - rewrite (isb_F F _ _ _ _ 0 0 1 (isb_s s1 _ _ _ ltac:(eassumption))), (isb_F F _ _ _ _ 0 0 (-1) (isb_s s2 _ _ _ ltac:(eassumption))), (isb_F F _ _ _ _ 0 1 0 (isb_s s3 _ _ _ ltac:(eassumption))), (isb_F F _ _ _ _ 0 (-1) 0 (isb_s s4 _ _ _ ltac:(eassumption))),
      (isb_F F _ _ _ _ (-1) 0 0 (isb_s s5 _ _ _ ltac:(eassumption))), (isb_F F _ _ _ _ 1 0 0 (isb_s s6 _ _ _ ltac:(eassumption))) by lra. ring.
  - rewrite (isb_F F _ _ _ _ 1 0 0 (isb_h s1 _ _ _ ltac:(eassumption))), (isb_F F _ _ _ _ (-1) 0 0 (isb_h s2 _ _ _ ltac:(eassumption))), (isb_F F _ _ _ _ 0 0 1 (isb_h s3 _ _ _ ltac:(eassumption))), (isb_F F _ _ _ _ 0 0 (-1) (isb_h s4 _ _ _ ltac:(eassumption))),
      (isb_F F _ _ _ _ 0 (-1) 0 (isb_h s5 _ _ _ ltac:(eassumption))), (isb_F F _ _ _ _ 0 1 0 (isb_h s6 _ _ _ ltac:(eassumption))) by lra. ring.
Qed.
Example six_trace : expectation (mean_of (seq 0 6)) /\ forall n, mtrace 2 (gram_c 1 (nth_six n)) <> c0.
Proof.
  split; [apply mean_of_expectation; discriminate|]. intros n. apply (Forall_forall (fun s => mtrace 2 (gram_c 1 s) <> c0) six).
  2: { unfold nth_six. destruct (Nat.lt_ge_cases n 6); [now apply nth_In|]. rewrite nth_overflow by assumption. cbn; auto. }
  pose proof six_isb as H. unfold six in *. repeat match goal with K : Forall2 _ _ _ |- _ => inversion K; subst; clear K end.
  repeat constructor; unfold mtrace; rewrite sum2; match goal with K : isb ?s _ _ _ |- context [gram_c 1 ?s] => destruct K as (A1 & _ & _ & A2); rewrite A1, A2 end; cbn; intros Z; apply (f_equal re) in Z; cbn in Z; lra.
Qed.
(** such a decomposition always exists *)
Example haar_case z : mtrace 2 (gram_c 1 z) <> c0 -> exists q r, (forall i, (i < 2)%nat -> z i 0%nat = cmul (q i 0%nat) (r 0%nat 0%nat)) /\ norm2 2 (fun i => q i 0%nat) = 1 /\ cabs2 (r 0%nat 0%nat) <> 0.
Proof.
  intros H. destruct (ginibre_value 1 z H) as [_ P]. unfold gram_c in P. rewrite !csum_last, !csum_0 in P. cbn [re im cadd cmul conj c0] in P. set (a := re (z 0%nat 0%nat)) in *. set (b := im (z 0%nat 0%nat)) in *. set (c := re (z 1%nat 0%nat)) in *. set (e := im (z 1%nat 0%nat)) in *.
  set (t := a * a + b * b + c * c + e * e). assert (T : 0 < t) by (unfold t; lra). assert (Q := sqrt_sqrt t ltac:(lra)). assert (0 < sqrt t) by (now apply sqrt_lt_R0). set (n := sqrt t) in *. clearbody n.
  exists (fun i _ => cmul (z i 0%nat) (mkC (/ n) 0)), (fun _ _ => mkC n 0). split; [|split].
  - intros i _. apply C_eq; cbn [re im cmul]; field; lra.
  - unfold norm2. rewrite !Sum_S. change (Sum 0 _) with 0. unfold cabs2. cbn [re im cmul]. fold a b c e. transitivity (t * / (n * n)); [unfold t; field; lra|]. rewrite Q. field. lra.
  - unfold cabs2. cbn [re im]. nra.
Qed.
Example exchange_case : expectation (mean_of [[1; 3]; [3; 1]]) /\ exchangeable (mean_of [[1; 3]; [3; 1]]) 2 (fun l => match l with [a; b] => [a; b] | _ => [1; 1] end).
Proof.
  split; [apply mean_of_expectation; discriminate|]. split; [intros [|a [|b [|c l]]]; reflexivity|]. intros i j F Hi Hj. unfold mean_of. f_equal. cbn [map]. rewrite !rsum_cons.
  destruct i as [|[|]]; [| |lia]; destruct j as [|[|]]; try lia; cbn; ring.
Qed.

Print Assumptions c152_ginibre_mean.
Print Assumptions c152_ginibre_covariance.
Print Assumptions c152_pure.
Print Assumptions c152_haar_row.
Print Assumptions c152_haar_moments.
Print Assumptions c152_constrained_mean.
Print Assumptions c152_constrained_covariance.
