(** Proofs for C123. *)
From Coq Require Import List Lia Lra Psatz.
From Verif Require Import Base RList Ext Sums SmcModel SmcSpec SmcProofs LinProofs LearnSpec LearnProofs RateSpec ReSpec ConvSpec.
Import ListNotations.

Lemma Sum_const n k : Sum n (fun _ => k) = INR n * k.
Proof. induction n as [|n IH]; [rewrite Sum_0; cbn; ring|]. rewrite Sum_S, IH, S_INR. ring. Qed.

(** * Averages over the prior *)
Section Law.
Context {O E RND : Type} (c : @config O E RND) (V : loc -> Prop) (n : nat) (Ep : (loc -> R) -> R) (Er : (RND -> R) -> R).
Hypothesis HS : sampling c V n Ep Er.
Hypothesis Hn : (0 < n)%nat.
Hypothesis Hlen : forall r, length (prior c r n) = n.
Notation lim := (limited c V n).
Notation pt r i := (nth i (prior c r n) []).

Lemma lim_const k : lim (fun _ => k). Proof. exists (Rabs k). intros; lra. Qed.
Lemma lim_plus F G : lim F -> lim G -> lim (fun r => F r + G r).
Proof. intros [a Ha] [b Hb]. exists (a + b). intros r Hr. pose proof (Rabs_triang (F r) (G r)). specialize (Ha r Hr). specialize (Hb r Hr). lra. Qed.
Lemma lim_mult F G : lim F -> lim G -> lim (fun r => F r * G r).
Proof.
  intros [a Ha] [b Hb]. exists (a * b). intros r Hr. rewrite Rabs_mult. specialize (Ha r Hr). specialize (Hb r Hr).
  apply Rmult_le_compat; try assumption; apply Rabs_pos.
Qed.
Lemma lim_Sum m (F : nat -> RND -> R) : (forall i, (i < m)%nat -> lim (F i)) -> lim (fun r => Sum m (fun i => F i r)).
Proof.
  revert F. induction m as [|m IH]; intros F H.
  - exists 0. intros r _. rewrite Sum_0, Rabs_R0. lra.
  - destruct (lim_plus (F 0%nat) (fun r => Sum m (fun i => F (S i) r)) (H 0%nat ltac:(lia)) (IH (fun i => F (S i)) ltac:(intros; apply H; lia))) as [b Hb].
    exists b. intros r Hr. rewrite Sum_S. now apply Hb.
Qed.
Lemma lim_at i g : (i < n)%nat -> bounded V g -> lim (fun r => g (pt r i)).
Proof. intros Hi [b Hb]. exists b. intros r Hr. apply Hb. rewrite Forall_forall in Hr. apply Hr. apply nth_In. now rewrite Hlen. Qed.
Lemma lim_ext F G : (forall r, F r = G r) -> lim F -> lim G.
Proof. intros H [b Hb]. exists b. intros r Hr. rewrite <- H. now apply Hb. Qed.
Lemma lim_ind b : lim (fun r => indicator (b r)).
Proof. exists 1. intros r _. unfold indicator. destruct (b r); [rewrite Rabs_R1|rewrite Rabs_R0]; lra. Qed.

Lemma Er_ext F G : lim F -> lim G -> (forall r, Forall V (prior c r n) -> F r = G r) -> Er F = Er G.
Proof. intros H1 H2 H. apply Rle_antisym; apply (sl_le _ _ _ _ _ HS); try assumption; intros r Hr; rewrite (H r Hr); lra. Qed.
Lemma Er_const k : Er (fun _ => k) = k.
Proof.
  transitivity (Er (fun _ => k * 1)); [apply Er_ext; try apply lim_const; intros; ring|]. rewrite (sl_scal _ _ _ _ _ HS k (fun _ => 1)), (sl_one _ _ _ _ _ HS) by apply lim_const. ring.
Qed.
Lemma Er_Sum m (F : nat -> RND -> R) : (forall i, (i < m)%nat -> lim (F i)) -> Er (fun r => Sum m (fun i => F i r)) = Sum m (fun i => Er (F i)).
Proof.
  revert F. induction m as [|m IH]; intros F H.
  - rewrite Sum_0. rewrite <- (Er_const 0). apply Er_ext; [|apply lim_const|intros; apply Sum_0]. apply (lim_ext (fun _ => 0)); [intros; now rewrite Sum_0|apply lim_const].
  - rewrite Sum_S, <- (IH (fun i => F (S i))) by (intros; apply H; lia).
    assert (L : lim (fun r => Sum m (fun i => F (S i) r))) by (apply (lim_Sum m (fun i => F (S i))); intros; apply H; lia).
    rewrite <- (sl_plus _ _ _ _ _ HS) by (try assumption; apply H; lia). apply Er_ext.
    + apply (lim_Sum (S m) F H).
    + apply lim_plus; [apply H; lia|exact L].
    + intros; apply Sum_S.
Qed.

(** the law of one location *)
Lemma bnd_const k : bounded V (fun _ => k). Proof. exists (Rabs k). intros; lra. Qed.
Lemma bnd_plus f g : bounded V f -> bounded V g -> bounded V (fun x => f x + g x).
Proof. intros [a Ha] [b Hb]. exists (a + b). intros x Hx. pose proof (Rabs_triang (f x) (g x)). specialize (Ha x Hx). specialize (Hb x Hx). lra. Qed.
Lemma bnd_mult f g : bounded V f -> bounded V g -> bounded V (fun x => f x * g x).
Proof. intros [a Ha] [b Hb]. exists (a * b). intros x Hx. rewrite Rabs_mult. apply Rmult_le_compat; try apply Rabs_pos; auto. Qed.
Lemma bnd_ext f g : (forall x, f x = g x) -> bounded V f -> bounded V g.
Proof. intros H [b Hb]. exists b. intros x Hx. rewrite <- H. now apply Hb. Qed.
Lemma bnd_minus f g : bounded V f -> bounded V g -> bounded V (fun x => f x - g x).
Proof. intros Hf Hg. apply (bnd_ext (fun x => f x + (-1) * g x)); [intros; ring|]. apply bnd_plus; [assumption|]. apply bnd_mult; [apply bnd_const|assumption]. Qed.
Lemma bnd_sq f : bounded V f -> bounded V (fun x => f x ^ 2).
Proof. intros H. apply (bnd_ext (fun x => f x * f x)); [intros; ring|]. now apply bnd_mult. Qed.

Ltac bnd := repeat first [assumption|apply bnd_const|apply bnd_sq|apply bnd_minus|apply bnd_plus|apply bnd_mult].
Lemma Ep_eq g : bounded V g -> Ep g = Er (fun r => g (pt r 0)).
Proof. intros H. symmetry. now apply (sl_each _ _ _ _ _ HS). Qed.
Lemma in_V r i : Forall V (prior c r n) -> (i < n)%nat -> V (pt r i).
Proof. intros Hr Hi. rewrite Forall_forall in Hr. apply Hr, nth_In. now rewrite Hlen. Qed.
Lemma Ep_ext f g : bounded V f -> bounded V g -> (forall x, V x -> f x = g x) -> Ep f = Ep g.
Proof. intros Hf Hg H. rewrite !Ep_eq by assumption. apply Er_ext; try (now apply lim_at). intros r Hr. apply H. now apply in_V. Qed.
Lemma Ep_le f g : bounded V f -> bounded V g -> (forall x, V x -> f x <= g x) -> Ep f <= Ep g.
Proof. intros Hf Hg H. rewrite !Ep_eq by assumption. apply (sl_le _ _ _ _ _ HS); try (now apply lim_at). intros r Hr. apply H. now apply in_V. Qed.
Lemma Ep_plus f g : bounded V f -> bounded V g -> Ep (fun x => f x + g x) = Ep f + Ep g.
Proof. intros Hf Hg. rewrite !Ep_eq by (try assumption; now apply bnd_plus). apply (sl_plus _ _ _ _ _ HS (fun r => f (pt r 0)) (fun r => g (pt r 0))); now apply lim_at. Qed.
Lemma Ep_scal k f : bounded V f -> Ep (fun x => k * f x) = k * Ep f.
Proof. intros Hf. rewrite (Ep_eq f), (Ep_eq (fun x => k * f x)) by (first [assumption|apply bnd_mult; [apply bnd_const|assumption]]). apply (sl_scal _ _ _ _ _ HS k (fun r => f (pt r 0))). now apply lim_at. Qed.
Lemma Ep_const k : Ep (fun _ => k) = k.
Proof. rewrite Ep_eq by apply bnd_const. apply Er_const. Qed.

(** * The weak law of large numbers *)
Definition emp (g : loc -> R) (r : RND) : R := Sum n (fun i => / INR n * g (pt r i)).
Lemma nINR : 0 < INR n. Proof. apply lt_0_INR. exact Hn. Qed.
Lemma emp_lim g : bounded V g -> lim (emp g).
Proof. intros H. apply (lim_Sum n (fun i r => / INR n * g (pt r i))). intros i Hi. apply lim_mult; [apply lim_const|now apply lim_at]. Qed.
Lemma emp_mean g : bounded V g -> Er (emp g) = Ep g.
Proof.
  intros H. unfold emp. rewrite (Er_Sum n (fun i r => / INR n * g (pt r i))) by (intros; apply lim_mult; [apply lim_const|now apply lim_at]).
  rewrite (Sum_ext n _ (fun _ => / INR n * Ep g)).
  - rewrite Sum_const. field. pose proof nINR; lra.
  - intros i Hi. rewrite (sl_scal _ _ _ _ _ HS) by now apply lim_at. now rewrite (sl_each _ _ _ _ _ HS).
Qed.
Lemma emp_center g : forall r k, emp g r - k = emp (fun x => g x - k) r.
Proof.
  intros r k. unfold emp. rewrite (Sum_ext n (fun i => / INR n * (g (pt r i) - k)) (fun i => / INR n * g (pt r i) - / INR n * k)) by (intros; ring).
  rewrite Sum_minus, Sum_const. field. pose proof nINR; lra.
Qed.
Lemma mean_square g : bounded V g -> Er (fun r => (emp g r - Ep g) ^ 2) = Ep (fun x => (g x - Ep g) ^ 2) / INR n.
Proof.
  intros Hg. set (m := Ep g). set (h := fun x => g x - m). assert (Bh : bounded V h) by (apply bnd_minus; [assumption|apply bnd_const]).
  assert (Zh : Ep h = 0).
  { unfold h. transitivity (Ep (fun x => g x + - m)); [apply Ep_ext; [assumption|apply bnd_plus; [assumption|apply bnd_const]|intros; ring]|].
    rewrite Ep_plus, Ep_const by (try assumption; apply bnd_const). unfold m. ring. }
  assert (Bhh : bounded V (fun x => h x * h x)) by now apply bnd_mult.
  assert (Lij : forall i j, (i < n)%nat -> (j < n)%nat -> lim (fun r => / INR n * / INR n * (h (pt r i) * h (pt r j)))).
  { intros i j Hi Hj. apply lim_mult; [apply lim_const|]. apply lim_mult; now apply lim_at. }
  assert (Sq : forall r, (emp g r - m) ^ 2 = Sum n (fun i => Sum n (fun j => / INR n * / INR n * (h (pt r i) * h (pt r j))))).
  { intros r. rewrite emp_center. fold h. unfold emp. replace (Sum n (fun i => / INR n * h (pt r i)) ^ 2) with (Sum n (fun i => / INR n * h (pt r i)) * Sum n (fun i => / INR n * h (pt r i))) by ring.
    rewrite <- Sum_scal_r. apply Sum_ext. intros i Hi. rewrite <- Sum_scal. apply Sum_ext. intros; ring. }
  transitivity (Er (fun r => Sum n (fun i => Sum n (fun j => / INR n * / INR n * (h (pt r i) * h (pt r j)))))).
  { apply Er_ext.
    - apply (lim_ext (fun r => (emp g r - m) * (emp g r - m))); [intros; ring|]. apply lim_mult; apply (lim_ext (fun r => emp g r + - m)); try (intros; ring); apply lim_plus; try apply lim_const; now apply emp_lim.
    - apply (lim_Sum n (fun i r => Sum n (fun j => / INR n * / INR n * (h (pt r i) * h (pt r j))))). intros i Hi. apply (lim_Sum n (fun j r => / INR n * / INR n * (h (pt r i) * h (pt r j)))). intros j Hj. now apply Lij.
    - intros r _. apply Sq. }
  rewrite (Er_Sum n (fun i r => Sum n (fun j => / INR n * / INR n * (h (pt r i) * h (pt r j))))).
  2:{ intros i Hi. apply (lim_Sum n (fun j r => / INR n * / INR n * (h (pt r i) * h (pt r j)))). intros j Hj. now apply Lij. }
  rewrite (Sum_ext n _ (fun _ => / INR n * / INR n * Ep (fun x => h x * h x))).
  - rewrite Sum_const. transitivity (Ep (fun x => h x * h x) / INR n); [field; pose proof nINR; lra|]. f_equal. apply Ep_ext; [assumption|apply (bnd_ext (fun x => h x * h x)); [intros; unfold h; ring|assumption]|intros; unfold h; ring].
  - intros i Hi. rewrite (Er_Sum n (fun j r => / INR n * / INR n * (h (pt r i) * h (pt r j)))) by (intros; now apply Lij).
    rewrite (Sum_single n i); [|assumption|].
    + rewrite (sl_scal _ _ _ _ _ HS (/ INR n * / INR n) (fun r => h (pt r i) * h (pt r i))) by (apply lim_mult; now apply lim_at). f_equal. now apply (sl_each _ _ _ _ _ HS i (fun x => h x * h x)).
    + intros j Hj Hne. rewrite (sl_scal _ _ _ _ _ HS (/ INR n * / INR n) (fun r => h (pt r i) * h (pt r j))) by (apply lim_mult; now apply lim_at).
      rewrite (sl_pairs _ _ _ _ _ HS) by (try assumption; auto). rewrite Zh. ring.
Qed.
Lemma Ep_variance g : bounded V g -> Ep (fun x => (g x - Ep g) ^ 2) <= Ep (fun x => g x ^ 2).
Proof.
  intros Hg. set (m := Ep g). assert (Q : Ep (fun x => (g x - m) ^ 2) = Ep (fun x => g x ^ 2) + (-2 * m * Ep g + m ^ 2)).
  { transitivity (Ep (fun x => g x ^ 2 + (-2 * m * g x + m ^ 2))).
    - apply Ep_ext; [apply bnd_sq, bnd_minus; [assumption|apply bnd_const]| |intros; ring]. apply bnd_plus; [now apply bnd_sq|]. apply bnd_plus; [apply bnd_mult; [apply bnd_const|assumption]|apply bnd_const].
    - rewrite Ep_plus, Ep_plus, Ep_const, Ep_scal by bnd. reflexivity. }
  rewrite Q. fold m. pose proof (pow2_ge_0 m). nra.
Qed.
Lemma chebyshev g h : bounded V g -> 0 < h -> chance Er (fun r => Rleb h (Rabs (emp g r - Ep g))) <= Ep (fun x => g x ^ 2) / (INR n * h ^ 2).
Proof.
  intros Hg Hh. pose proof nINR as Pn. assert (Ph : 0 < h ^ 2) by (apply pow_lt; assumption).
  assert (LQ : lim (fun r => (emp g r - Ep g) ^ 2)).
  { apply (lim_ext (fun r => (emp g r + - Ep g) * (emp g r + - Ep g))); [intros; ring|]. apply lim_mult; apply lim_plus; try apply lim_const; now apply emp_lim. }
  apply Rle_trans with (Er (fun r => / h ^ 2 * (emp g r - Ep g) ^ 2)).
  - apply (sl_le _ _ _ _ _ HS); [apply lim_ind|apply lim_mult; [apply lim_const|exact LQ]|]. intros r _. unfold indicator. destruct (Rleb_spec h (Rabs (emp g r - Ep g))) as [Hle|Hle].
    + apply Rmult_le_reg_l with (h ^ 2); [assumption|]. rewrite <- Rmult_assoc, Rinv_r, Rmult_1_l, Rmult_1_r by lra.
      rewrite <- (pow2_abs (emp g r - Ep g)). apply pow_incr. lra.
    + apply Rmult_le_pos; [apply Rlt_le, Rinv_0_lt_compat; assumption|apply pow2_ge_0].
  - rewrite (sl_scal _ _ _ _ _ HS (/ h ^ 2) (fun r => (emp g r - Ep g) ^ 2) LQ), mean_square by assumption.
    apply Rle_trans with (/ h ^ 2 * (Ep (fun x => g x ^ 2) / INR n)); [|apply Req_le; field; split; lra].
    apply Rmult_le_compat_l; [apply Rlt_le, Rinv_0_lt_compat; assumption|]. apply Rmult_le_compat_r; [apply Rlt_le, Rinv_0_lt_compat; assumption|]. now apply Ep_variance.
Qed.
Lemma union m (b : RND -> bool) (b1 : nat -> RND -> bool) (b2 : RND -> bool) :
  (forall r, Forall V (prior c r n) -> b r = true -> b2 r = true \/ exists k, (k < m)%nat /\ b1 k r = true) ->
  chance Er b <= Sum m (fun k => chance Er (b1 k)) + chance Er b2.
Proof.
  intros H. unfold chance. rewrite <- (Er_Sum m (fun k r => indicator (b1 k r))) by (intros; apply lim_ind).
  assert (L1 : lim (fun r => Sum m (fun k => indicator (b1 k r)))) by (apply (lim_Sum m (fun k r => indicator (b1 k r))); intros; apply lim_ind).
  rewrite <- (sl_plus _ _ _ _ _ HS) by (try exact L1; apply lim_ind). apply (sl_le _ _ _ _ _ HS); [apply lim_ind|apply lim_plus; [exact L1|apply lim_ind]|].
  intros r Hr. assert (P : forall b0 : RND -> bool, 0 <= indicator (b0 r)) by (intros b0; unfold indicator; destruct (b0 r); lra).
  assert (PS : forall k, (k < m)%nat -> indicator (b1 k r) <= Sum m (fun k => indicator (b1 k r))).
  { intros k Hk. assert (Z : Sum m (fun j => if Nat.eqb j k then indicator (b1 k r) else 0) = indicator (b1 k r)).
    { rewrite (Sum_single m k); [now rewrite Nat.eqb_refl|assumption|]. intros j _ Hj. apply Nat.eqb_neq in Hj. now rewrite Hj. }
    rewrite <- Z. apply Sum_le. intros j _. destruct (Nat.eqb_spec j k) as [->|_]; [lra|apply P]. }
  pose proof (Sum_nonneg m (fun k => indicator (b1 k r)) (fun k _ => P (b1 k))) as S0. pose proof (P b2) as P2.
  destruct (b r) eqn:Eb; [|unfold indicator at 1; lra]. destruct (H r Hr Eb) as [Z|(k & Hk & Z)].
  - unfold indicator at 1 3. rewrite Z. lra.
  - pose proof (PS k Hk) as Q. unfold indicator at 1 in Q. rewrite Z in Q. unfold indicator at 1. lra.
Qed.
End Law.
