(** Rounding errors of sums of products of any sign, and evaluation of concrete double computations. *)
From Flocq Require Import Core Relative Plus_error.
From Coq Require Import List ZArith Permutation Lia Lra Psatz.
From Verif Require Import Base RList Ext Sums SmcModel PartModel FltModel FltSpec FltProofs FltProofs2 FcModel.
Import ListNotations.

(** [xh] differs from [x] by at most ((1+u)^k - 1) a, where a bounds |x| *)
Definition near (k : nat) (xh x a : R) : Prop := Rabs x <= a /\ Rabs (xh - x) <= ((1 + uro) ^ k - 1) * a.

Lemma near_abs k xh x a : near k xh x a -> Rabs xh <= (1 + uro) ^ k * a.
Proof. intros [H1 H2]. replace xh with ((xh - x) + x) by ring. eapply Rle_trans; [apply Rabs_triang|]. lra. Qed.
Lemma near_nonneg k xh x a : near k xh x a -> 0 <= a.
Proof. intros [H1 _]. pose proof (Rabs_pos x). lra. Qed.
Lemma near_refl x : near 0 x x (Rabs x).
Proof. split; [lra|]. rewrite Rminus_diag_eq by reflexivity. rewrite Rabs_R0. cbn [pow]. lra. Qed.
Lemma near_mono j k xh x a : (j <= k)%nat -> near j xh x a -> near k xh x a.
Proof.
  intros H N. pose proof (near_nonneg _ _ _ _ N) as Ha. destruct N as [N1 N2]. split; [assumption|].
  assert (P : (1 + uro) ^ j <= (1 + uro) ^ k) by (apply Rle_pow; [pose proof uro_pos; lra|exact H]).
  apply Rle_trans with (1 := N2). apply Rmult_le_compat_r; lra.
Qed.
Lemma near_rnd k xh x a : Rabs (rnd xh - xh) <= uro * Rabs xh -> near k xh x a -> near (S k) (rnd xh) x a.
Proof.
  intros E N. pose proof (near_abs _ _ _ _ N) as B. pose proof (near_nonneg _ _ _ _ N) as Ha. destruct N as [N1 N2]. split; [assumption|].
  replace (rnd xh - x) with ((rnd xh - xh) + (xh - x)) by ring. eapply Rle_trans; [apply Rabs_triang|]. cbn [pow]. pose proof uro_pos as U.
  assert (uro * Rabs xh <= uro * ((1 + uro) ^ k * a)) by (apply Rmult_le_compat_l; lra). lra.
Qed.
Lemma near_mul j k xh x a yh y b : near j xh x a -> near k yh y b -> near (j + k) (xh * yh) (x * y) (a * b).
Proof.
  intros NX NY. pose proof (near_abs _ _ _ _ NY) as BY. pose proof (near_nonneg _ _ _ _ NX) as Ha. pose proof (near_nonneg _ _ _ _ NY) as Hb.
  destruct NX as [X1 X2], NY as [Y1 Y2]. pose proof (upow_ge1 j) as Pj. pose proof (upow_ge1 k) as Pk. split.
  - rewrite Rabs_mult. apply Rmult_le_compat; try apply Rabs_pos; assumption.
  - replace (xh * yh - x * y) with ((xh - x) * yh + x * (yh - y)) by ring. eapply Rle_trans; [apply Rabs_triang|]. rewrite !Rabs_mult, pow_add.
    assert (T1 : Rabs (xh - x) * Rabs yh <= (((1 + uro) ^ j - 1) * a) * ((1 + uro) ^ k * b)) by (apply Rmult_le_compat; try apply Rabs_pos; assumption).
    assert (T2 : Rabs x * Rabs (yh - y) <= a * (((1 + uro) ^ k - 1) * b)) by (apply Rmult_le_compat; try apply Rabs_pos; assumption).
    apply Rle_trans with ((((1 + uro) ^ j - 1) * a) * ((1 + uro) ^ k * b) + a * (((1 + uro) ^ k - 1) * b)); [lra|]. right. ring.
Qed.
Lemma near_sub k xh x a yh y b : near k xh x a -> near k yh y b -> near k (xh - yh) (x - y) (a + b).
Proof.
  intros [X1 X2] [Y1 Y2]. split.
  - replace (x - y) with (x + - y) by ring. eapply Rle_trans; [apply Rabs_triang|]. rewrite Rabs_Ropp. lra.
  - replace (xh - yh - (x - y)) with ((xh - x) + - (yh - y)) by ring. eapply Rle_trans; [apply Rabs_triang|]. rewrite Rabs_Ropp. lra.
Qed.
Lemma near_sum n t k fh f a : sums_all n t -> (forall i, (i < n)%nat -> double (fh i)) -> (forall i, (i < n)%nat -> near k (fh i) (f i) (a i)) ->
  near (k + depth t) (fsum t fh) (Sum n f) (Sum n a) /\ double (fsum t fh).
Proof.
  intros Ht Hd Hn. destruct (fsum_signed fh t) as [D B]. { intros i Hi. apply Hd. now apply (sums_all_in n t). }
  rewrite !(sums_all_Sum n) in B by assumption. split; [|exact D]. split.
  - eapply Rle_trans; [apply Sum_Rabs|]. apply Sum_le. intros i Hi. apply (Hn i Hi).
  - assert (S1 : Sum n (fun i => Rabs (fh i)) <= (1 + uro) ^ k * Sum n a) by (rewrite <- Sum_scal; apply Sum_le; intros i Hi; apply (near_abs _ _ _ _ (Hn i Hi))).
    assert (S2 : Rabs (Sum n fh - Sum n f) <= ((1 + uro) ^ k - 1) * Sum n a).
    { rewrite <- Sum_minus, <- Sum_scal. eapply Rle_trans; [apply Sum_Rabs|]. apply Sum_le. intros i Hi. apply (Hn i Hi). }
    replace (fsum t fh - Sum n f) with ((fsum t fh - Sum n fh) + (Sum n fh - Sum n f)) by ring. eapply Rle_trans; [apply Rabs_triang|].
    pose proof (upow_ge1 (depth t)) as P. assert (S3 : ((1 + uro) ^ depth t - 1) * Sum n (fun i => Rabs (fh i)) <= ((1 + uro) ^ depth t - 1) * ((1 + uro) ^ k * Sum n a)) by (apply Rmult_le_compat_l; lra).
    rewrite pow_add. lra.
Qed.
#[local] Instance p53c : Prec_gt_0 53. Proof. easy. Qed.
Lemma double_opp x : double x -> double (- x).
Proof. intros (m & e & E & H1 & H2). exists (- m)%Z, e. split; [rewrite E, opp_IZR; ring|]. split; [lia|assumption]. Qed.
Lemma rnd_add_signed x y : double x -> double y -> Rabs (rnd (x + y) - (x + y)) <= uro * Rabs (x + y).
Proof.
  intros Hx Hy. apply double_gf in Hx. apply double_gf in Hy. destruct (FLT_plus_error_N_ex radix2 (-1074) 53 (fun x => negb (Z.even x)) x y Hx Hy) as (d & D1 & D2).
  rewrite u_ro_uro in D1. unfold rnd. rewrite D2. replace ((x + y) * (1 + d) - (x + y)) with ((x + y) * d) by ring. rewrite Rabs_mult, Rmult_comm.
  apply Rmult_le_compat_r; [apply Rabs_pos|]. apply Rle_trans with (1 := D1). pose proof uro_pos. apply Rmult_le_reg_r with (1 + uro); [lra|]. unfold Rdiv. rewrite Rmult_assoc, Rinv_l by lra. nra.
Qed.
Lemma near_rnd_mul k xh x a : normal (Rabs xh) -> near k xh x a -> near (S k) (rnd xh) x a.
Proof. intros Hn N. apply near_rnd; [now apply rnd_signed|assumption]. Qed.
Lemma near_rnd_sub k xh yh x a : double xh -> double yh -> near k (xh - yh) x a -> near (S k) (rnd (xh - yh)) x a.
Proof. intros Hx Hy N. apply near_rnd; [|assumption]. apply (rnd_add_signed xh (- yh)); [assumption|now apply double_opp]. Qed.

(** Concrete numbers: z 2^e *)
Definition val (z e : Z) : R := IZR z * powerRZ 2 e.
Definition Zr (z : Z) : Z := (Zrne z (Z.log2 z - 52) * 2 ^ (Z.log2 z - 52))%Z.
Lemma val_mul a b e f : val a e * val b f = val (a * b) (e + f).
Proof. unfold val. rewrite mult_IZR, powerRZ_add by lra. ring. Qed.
Lemma val_add a b e : val a e + val b e = val (a + b) e.
Proof. unfold val. rewrite plus_IZR. ring. Qed.
Lemma val_sub a b e : val a e - val b e = val (a - b) e.
Proof. unfold val. rewrite minus_IZR. ring. Qed.
Lemma val_shift a e k : (0 <= k)%Z -> val a e = val (a * 2 ^ k) (e - k).
Proof.
  intros Hk. unfold val. rewrite mult_IZR. unfold Z.sub. rewrite powerRZ_add by lra.
  assert (E : IZR (2 ^ k) * powerRZ 2 (- k) = 1).
  { replace (IZR (2 ^ k)) with (powerRZ 2 k). { rewrite <- powerRZ_add by lra. rewrite Z.add_opp_diag_r. reflexivity. }
    change (powerRZ 2 k) with (powerRZ (IZR radix2) k). rewrite <- bpow_powerRZ, <- IZR_Zpower by lia. reflexivity. }
  transitivity (IZR a * powerRZ 2 e * (IZR (2 ^ k) * powerRZ 2 (- k))); [rewrite E; ring|ring].
Qed.
Lemma rnd_val z e z' : (2 ^ 52 <=? z)%Z = true -> (-1074 <=? e)%Z = true -> Zr z = z' -> rnd (val z e) = val z' e.
Proof. intros H1 H2 <-. unfold val, Zr. apply rnd_units; [now apply Z.leb_le|now apply Z.leb_le]. Qed.
