(** C116, continued: where states are drawn with the default axes. *)
From Verif Require Import Base RList Sums SmcModel PlotModel Cplx TomoModel TomoSpec TomoProps.
From Coq Require Import List.

Lemma density_disc rho : density 2 rho -> (re (rho 0%nat 0%nat) - re (rho 1%nat 1%nat)) ^ 2 + (2 * re (rho 0%nat 1%nat)) ^ 2 <= 1.
Proof.
  intros [[H P] T]. pose proof (f_equal re T) as T1. unfold mtrace in T1. cbn [re csum c1] in T1. rewrite !Sum_S, !Sum_0 in T1.
  pose proof (H 0%nat 1%nat ltac:(lia) ltac:(lia)) as H01. pose proof (f_equal re H01) as R01. cbn [re conj] in R01.
  assert (Q : forall x y, 0 <= re (rho 0%nat 0%nat) * x ^ 2 + 2 * re (rho 0%nat 1%nat) * (x * y) + re (rho 1%nat 1%nat) * y ^ 2).
  { intros x y. specialize (P (fun i => match i with 0%nat => rc x | _ => rc y end)). unfold quad in P. cbn [re csum] in P. rewrite !Sum_S, !Sum_0 in P. cbn [cmul conj rc re im] in P. rewrite <- R01 in P. apply Rle_trans with (1 := P). right. ring. }
  pose proof (Q (re (rho 0%nat 1%nat)) (- re (rho 0%nat 0%nat))) as Q1. pose proof (Q (- re (rho 1%nat 1%nat)) (re (rho 0%nat 1%nat))) as Q2.
  set (a := re (rho 0%nat 0%nat)) in *. set (d := re (rho 1%nat 1%nat)) in *. set (r := re (rho 0%nat 1%nat)) in *.
  assert (Hd : d = 1 - a) by lra. clearbody a d r. rewrite Hd in Q1, Q2 |- *. nra.
Qed.
(** With the Gell-Mann basis the default axes are those of Z and X: a rebit (a state with a real density matrix) is drawn at its Bloch
    coordinates, inside the circle that plot_decorate_rebits draws. *)
Theorem c116_default_axes b rho : gell_mann_basis 2 = Ok b -> density 2 rho ->
  rebit_point rebit_axes (state_to_modelparams b rho) = (re (rho 0%nat 0%nat) - re (rho 1%nat 1%nat), 2 * re (rho 0%nat 1%nat)) /\
  fst (rebit_point rebit_axes (state_to_modelparams b rho)) ^ 2 + snd (rebit_point rebit_axes (state_to_modelparams b rho)) ^ 2 <= 1.
Proof.
  intros E D. assert (X : rebit_point rebit_axes (state_to_modelparams b rho) = (re (rho 0%nat 0%nat) - re (rho 1%nat 1%nat), 2 * re (rho 0%nat 1%nat))); [|rewrite X; split; [reflexivity|now apply density_disc]].
  destruct D as [[H _] _]. pose proof (f_equal re (H 1%nat 0%nat ltac:(lia) ltac:(lia))) as R10. cbn [re conj] in R10. pose proof (sqrt_sqrt 2 ltac:(lra)) as Q. pose proof (sqrt_lt_R0 2 ltac:(lra)) as Q0.
  cbn in E. injection E as <-. unfold rebit_point, rebit_axes, state_to_modelparams. cbn [fst snd bdim bdata map seq Nat.pow nth]. unfold set_plane, gm_diag, set_pair, mzero. cbn -[INR sqrt Rdiv pow Sum]. rewrite !Sum_S, !Sum_0.
  cbn -[INR sqrt Rdiv pow]. replace (INR 1 + INR 1 ^ 2) with 2 by (cbn; ring). rewrite R10.
  assert (K : / sqrt 2 * sqrt 2 = 1) by (field; lra). unfold Rdiv. set (k := / sqrt 2) in *.
  f_equal; [transitivity ((k * sqrt 2) * (re (rho 0%nat 0%nat) - re (rho 1%nat 1%nat)))|transitivity ((k * sqrt 2) * (2 * re (rho 0%nat 1%nat)))]; try (rewrite K; ring); replace (INR 1) with 1 by reflexivity; ring.
Qed.

(** Every point of the circle is the place of a rebit. *)
Theorem c116_default_axes_onto b x z : gell_mann_basis 2 = Ok b -> x ^ 2 + z ^ 2 <= 1 -> exists rho, density 2 rho /\ im (rho 0%nat 1%nat) = 0 /\ rebit_point rebit_axes (state_to_modelparams b rho) = (x, z).
Proof.
  intros E H. set (rho := (fun i j => match i, j with 0%nat, 0%nat => rc ((1 + x) / 2) | 1%nat, 1%nat => rc ((1 - x) / 2) | 0%nat, 1%nat | 1%nat, 0%nat => rc (z / 2) | _, _ => c0 end) : mat).
  assert (D : density 2 rho).
  { split; [split|].
    - intros i j Hi Hj. destruct i as [|[|i]]; [| |lia]; (destruct j as [|[|j]]; [| |lia]); apply C_eq; cbn; ring.
    - intros v. unfold quad. cbn [re csum]. rewrite !Sum_S, !Sum_0. unfold rho. cbn [cmul conj rc re im].
      generalize (re (v 0%nat)) (im (v 0%nat)) (re (v 1%nat)) (im (v 1%nat)). intros a b' c d.
      assert (X : forall p q, 0 <= (1 + x) * p ^ 2 + 2 * z * (p * q) + (1 - x) * q ^ 2).
      { intros p q. assert (1 - x >= 0) by nra. assert (1 + x >= 0) by nra. destruct (Req_EM_T (1 + x) 0) as [Z|Z].
        - assert (z = 0) by nra. subst z. nra.
        - apply (Rmult_le_reg_l (1 + x)); [lra|]. rewrite Rmult_0_r. replace ((1 + x) * ((1 + x) * p ^ 2 + 2 * z * (p * q) + (1 - x) * q ^ 2)) with (((1 + x) * p + z * q) ^ 2 + (1 - x ^ 2 - z ^ 2) * q ^ 2) by ring.
          apply Rplus_le_le_0_compat; [apply pow2_ge_0|apply Rmult_le_pos; [lra|apply pow2_ge_0]]. }
      pose proof (X a c). pose proof (X b' d). lra.
    - apply C_eq; unfold mtrace; cbn [re im csum]; rewrite !Sum_S, Sum_0; cbn; lra. }
  exists rho. split; [exact D|]. split; [reflexivity|]. rewrite (proj1 (c116_default_axes b rho E D)). unfold rho. cbn [re rc]. f_equal; lra.
Qed.
(** With the Pauli basis the same axes are those of X and Y, and every rebit is drawn on a line: its Z coordinate is not shown. *)
Theorem c116_default_axes_pauli_refuted : exists b, pauli_basis 1 = Ok b /\
  forall rho, density 2 rho -> im (rho 0%nat 1%nat) = 0 -> rebit_point rebit_axes (state_to_modelparams b rho) = (2 * re (rho 0%nat 1%nat), 0).
Proof.
  destruct c61_pauli_one as (b & E & _ & HX & HY & _). exists b. split; [exact E|]. intros rho [[H _] _] I0.
  pose proof (H 1%nat 0%nat ltac:(lia) ltac:(lia)) as H10. pose proof (f_equal re H10) as R10. pose proof (f_equal im H10) as I10. cbn [re im conj] in R10, I10. rewrite I0 in I10.
  pose proof (sqrt_lt_R0 2 ltac:(lra)) as Q0. assert (K : / sqrt 2 * sqrt 2 = 1) by (field; lra).
  assert (B : bdim b = 2%nat /\ length (bdata b) = 4%nat) by (destruct (c61_pauli 1 ltac:(lia)) as (b' & E' & _ & B1 & B2); rewrite E in E'; injection E' as <-; now split). destruct B as [B1 B2].
  unfold rebit_point, rebit_axes, state_to_modelparams. cbn [fst snd]. rewrite B1.
  assert (N : forall k (f : mat -> R), (k < 4)%nat -> nth k (map f (bdata b)) 0 = f (bnth b k)). { intros k f Hk. rewrite (nth_indep _ 0 (f mzero)) by (rewrite map_length; lia). now rewrite map_nth. }
  rewrite !N by lia. cbn [re csum]. rewrite !Sum_S, !Sum_0. rewrite !HX, !HY by lia. cbn [Nat.eqb]. cbn [cmul conj rc re im copp ci c0 c1]. rewrite R10, I10, I0. unfold Rdiv. set (k := / sqrt 2) in *.
  f_equal; [transitivity ((k * sqrt 2) * (2 * re (rho 0%nat 1%nat))); [ring|rewrite K; ring]|ring].
Qed.
(** The hypotheses are met by the maximally mixed state. *)
Example c116_default_example : density 2 (fun i j => if Nat.eqb i j then rc (1 / 2) else c0) /\ exists b, gell_mann_basis 2 = Ok b.
Proof.
  split; [|eexists; reflexivity]. split; [split|].
  - intros i j Hi Hj. destruct i as [|[|i]]; [| |lia]; (destruct j as [|[|j]]; [| |lia]); apply C_eq; cbn; ring.
  - intros v. unfold quad. cbn [re csum]. rewrite !Sum_S, !Sum_0. cbn [Nat.eqb cmul conj rc c0 re im]. nra.
  - apply C_eq; unfold mtrace; cbn [re im csum]; rewrite !Sum_S, Sum_0; cbn; lra.
Qed.

Print Assumptions c116_default_axes.
Print Assumptions c116_default_axes_onto.
Print Assumptions c116_default_axes_pauli_refuted.
