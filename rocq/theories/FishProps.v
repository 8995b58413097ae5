(** C40, continued: the matrix DifferentiableBinomialModel reports is the Fisher information of the counts themselves. *)
From Coquelicot Require Import Coquelicot.
From Verif Require Import Base RList Ext Sums TwoModel DomModel DerModel DerSpec DerProofs.
From Coq Require Import List.

(** Probability of [k] ones in [n] shots *)
Definition count_like (n : nat) (p : R) (k : nat) : R := INR (binom n k) * p ^ k * (1 - p) ^ (n - k).

Lemma SumL_plus {T} (l : list T) f g : SumL l (fun k => f k + g k) = SumL l f + SumL l g.
Proof. induction l as [|x l IH]; [unfold SumL; cbn; ring|]. unfold SumL in *. cbn [fold_right]. rewrite IH. ring. Qed.

Section Moments.
Variable p : nat -> R.
Hypothesis Hp : p 0%nat + p 1%nat = 1.
Definition avg (n : nat) (f : nat -> R) : R := SumL (seq 0 (S n)) (fun k => ones_mass n p k * f k).
Lemma avg_ext n f g : (forall k, (k <= n)%nat -> f k = g k) -> avg n f = avg n g.
Proof. intros H. unfold avg. apply SumL_ext. intros k Hk. apply in_seq in Hk. rewrite H by lia. reflexivity. Qed.
Lemma avg_plus n f g : avg n (fun k => f k + g k) = avg n f + avg n g.
Proof. unfold avg. rewrite <- SumL_plus. apply SumL_ext. intros; ring. Qed.
Lemma avg_scal n a f : avg n (fun k => a * f k) = a * avg n f.
Proof. unfold avg. rewrite <- SumL_scal. apply SumL_ext. intros; ring. Qed.
Lemma avg_const n a : avg n (fun _ => a) = a.
Proof. unfold avg. rewrite (SumL_ext _ _ (fun k => a * ones_mass n p k)) by (intros; ring). rewrite SumL_scal, ones_mass_sum, Hp, pow1. ring. Qed.
Lemma mass_gt n k : (n < k)%nat -> ones_mass n p k = 0.
Proof. intros H. rewrite ones_mass_pmf by exact Hp. rewrite binom_gt by exact H. cbn. ring. Qed.
Lemma SumL_seq_S {n} (f : nat -> R) : SumL (seq 0 (S n)) f = f 0%nat + SumL (seq 0 n) (fun k => f (S k)).
Proof. cbn [seq]. change (SumL (0%nat :: seq 1 n) f) with (f 0%nat + SumL (seq 1 n) f). f_equal. rewrite <- seq_shift. unfold SumL. induction (seq 0 n) as [|x l IH]; [reflexivity|]. cbn [map fold_right]. now rewrite IH. Qed.
Lemma SumL_seq_last {n} (f : nat -> R) : SumL (seq 0 (S n)) f = SumL (seq 0 n) f + f n.
Proof. rewrite seq_S. cbn [Nat.add]. rewrite SumL_app. unfold SumL at 2. cbn. ring. Qed.
Lemma avg_S n f : avg (S n) f = p 0%nat * avg n f + p 1%nat * avg n (fun k => f (S k)).
Proof.
  unfold avg. rewrite SumL_seq_S.
  rewrite (SumL_ext (seq 0 (S n)) (fun k => ones_mass (S n) p (S k) * f (S k)) (fun k => p 0%nat * (ones_mass n p (S k) * f (S k)) + p 1%nat * (ones_mass n p k * f (S k)))) by (intros k _; rewrite ones_mass_S; ring).
  rewrite SumL_plus, !SumL_scal, ones_mass_S. rewrite (SumL_seq_S (n := n) (fun k => ones_mass n p k * f k)). rewrite (SumL_seq_last (n := n) (fun k => ones_mass n p (S k) * f (S k))), (mass_gt n (S n)) by lia. ring.
Qed.
(** Sum of the single-shot scores behind a count *)
Definition score_sum (q : nat -> R) (n k : nat) : R := INR k * q 1%nat + (INR n - INR k) * q 0%nat.
Lemma avg_score q n : p 0%nat * q 0%nat + p 1%nat * q 1%nat = 0 -> avg n (score_sum q n) = 0.
Proof.
  intros Hq. induction n as [|n IH]; [unfold avg, score_sum, SumL; cbn [seq fold_right INR]; rewrite ones_mass_0; cbn [Nat.eqb]; ring|].
  rewrite avg_S. rewrite (avg_ext n (score_sum q (S n)) (fun k => score_sum q n k + q 0%nat)) by (intros; unfold score_sum; rewrite S_INR; ring).
  rewrite (avg_ext n (fun k => score_sum q (S n) (S k)) (fun k => score_sum q n k + q 1%nat)) by (intros; unfold score_sum; rewrite !S_INR; ring).
  rewrite !avg_plus, !avg_const, IH. lra.
Qed.
Lemma avg_score2 q q' n : p 0%nat * q 0%nat + p 1%nat * q 1%nat = 0 -> p 0%nat * q' 0%nat + p 1%nat * q' 1%nat = 0 ->
  avg n (fun k => score_sum q n k * score_sum q' n k) = INR n * (p 0%nat * q 0%nat * q' 0%nat + p 1%nat * q 1%nat * q' 1%nat).
Proof.
  intros Hq Hq'. induction n as [|n IH]; [unfold avg, score_sum, SumL; cbn [seq fold_right INR]; rewrite ones_mass_0; cbn [Nat.eqb]; ring|].
  pose proof (avg_score q n Hq) as M1. pose proof (avg_score q' n Hq') as M2.
  assert (F : forall a b, avg n (fun k => (score_sum q n k + a) * (score_sum q' n k + b)) = avg n (fun k => score_sum q n k * score_sum q' n k) + a * b).
  { intros a b. rewrite (avg_ext n _ (fun k => score_sum q n k * score_sum q' n k + (b * score_sum q n k + (a * score_sum q' n k + a * b)))) by (intros; ring). rewrite !avg_plus, !avg_scal, avg_const, M1, M2. ring. }
  rewrite avg_S. rewrite (avg_ext n (fun k => score_sum q (S n) k * score_sum q' (S n) k) (fun k => (score_sum q n k + q 0%nat) * (score_sum q' n k + q' 0%nat))) by (intros; unfold score_sum; rewrite S_INR; ring).
  rewrite (avg_ext n (fun k => score_sum q (S n) (S k) * score_sum q' (S n) (S k)) (fun k => (score_sum q n k + q 1%nat) * (score_sum q' n k + q' 1%nat))) by (intros; unfold score_sum; rewrite !S_INR; ring).
  rewrite !F, IH, S_INR. replace (p 0%nat) with (1 - p 1%nat) by lra. ring.
Qed.
End Moments.

Lemma log_deriv f x d : derivable_pt_lim f x d -> 0 < f x -> derivable_pt_lim (fun t => ln (f t)) x (d / f x).
Proof. intros H Hf. apply is_derive_Reals. apply is_derive_Reals in H. evar_last; [apply is_derive_comp; [apply is_derive_ln; exact Hf|exact H]|]. unfold scal. cbn. unfold mult. cbn. unfold Rdiv. ring. Qed.
Lemma count_like_pos n p k : 0 < p < 1 -> (k <= n)%nat -> 0 < count_like n p k.
Proof.
  intros Hp Hk. unfold count_like. apply Rmult_lt_0_compat; [apply Rmult_lt_0_compat|]; [|apply pow_lt; lra|apply pow_lt; lra]. apply (lt_INR 0).
  clear p Hp. revert k Hk. induction n as [|n IH]; intros [|k] H; cbn [binom]; try lia. destruct (Nat.eq_dec k n) as [->|]; [specialize (IH n); lia|specialize (IH k); lia].
Qed.
Lemma pow_deriv f x d k : derivable_pt_lim f x d -> 0 < f x -> derivable_pt_lim (fun t => f t ^ k) x (INR k * (d / f x) * f x ^ k).
Proof.
  intros H Hf. apply is_derive_Reals. apply is_derive_Reals in H. evar_last; [apply is_derive_pow; exact H|]. destruct k as [|k]; [cbn; ring|]. cbn [pred pow]. field. lra.
Qed.
Lemma count_score P x d n k : derivable_pt_lim P x d -> 0 < P x < 1 -> (k <= n)%nat ->
  derivable_pt_lim (fun t => ln (count_like n (P t) k)) x (INR k * (d / P x) + (INR n - INR k) * (- d / (1 - P x))).
Proof.
  intros H HP Hk. assert (H1 : derivable_pt_lim (fun t => 1 - P t) x (- d)) by (replace (- d) with (0 - d) by ring; apply (derivable_pt_lim_minus (fun _ => 1) P); [apply derivable_pt_lim_const|exact H]).
  pose proof (pow_deriv P x d k H (proj1 HP)) as D1. pose proof (pow_deriv (fun t => 1 - P t) x (- d) (n - k) H1 ltac:(lra)) as D2. cbv beta in D2.
  pose proof (derivable_pt_lim_mult _ _ x _ _ (derivable_pt_lim_scal (fun t => P t ^ k) (INR (binom n k)) x _ D1) D2) as D3.
  pose proof (log_deriv (fun t => count_like n (P t) k) x _ D3 (count_like_pos n (P x) k HP Hk)) as D4. pose proof (count_like_pos n (P x) k HP Hk) as HC.
  match type of D4 with derivable_pt_lim _ _ ?v => replace (INR k * (d / P x) + (INR n - INR k) * (- d / (1 - P x))) with v; [exact D4|] end.
  unfold mult_real_fct, count_like in *. rewrite minus_INR by exact Hk. assert (0 < P x ^ k) by (apply pow_lt; lra). assert (0 < (1 - P x) ^ (n - k)) by (apply pow_lt; lra).
  assert (INR (binom n k) <> 0) by (intros Z0; rewrite Z0 in HC; lra). field. repeat split; lra.
Qed.

(** [P i t] is the probability of a one when parameter [i] is moved by [t]; [s] are the scores of a single shot, [Sc] those of the count,
    i.e. the derivatives of the logarithms of the likelihoods.  n_meas times the single-shot information is the information of the counts. *)
Theorem c40_counts n p (P : nat -> R -> R) (d : nat -> R) (s Sc : nat -> nat -> R) i j : 0 < p < 1 ->
  (forall i, P i 0 = p) -> (forall i, derivable_pt_lim (P i) 0 (d i)) ->
  (forall i, derivable_pt_lim (fun t => ln (1 - P i t)) 0 (s i 0%nat)) -> (forall i, derivable_pt_lim (fun t => ln (P i t)) 0 (s i 1%nat)) ->
  (forall i k, (k <= n)%nat -> derivable_pt_lim (fun t => ln (count_like n (P i t) k)) 0 (Sc i k)) ->
  binomial_fisher n (fisher 2 (fun o => match o with O => 1 - p | _ => p end) s) i j = fisher (S n) (count_like n p) Sc i j.
Proof.
  intros Hp HP Hd Hs0 Hs1 HS.
  assert (E1 : forall i, s i 1%nat = d i / p).
  { intros a. apply (uniqueness_limite (fun t => ln (P a t)) 0); [apply Hs1|]. rewrite <- (HP a). apply log_deriv; [apply Hd|rewrite HP; lra]. }
  assert (E0 : forall i, s i 0%nat = - d i / (1 - p)).
  { intros a. apply (uniqueness_limite (fun t => ln (1 - P a t)) 0); [apply Hs0|]. rewrite <- (HP a). apply (log_deriv (fun t => 1 - P a t)); [|rewrite HP; lra].
    replace (- d a) with (0 - d a) by ring. apply (derivable_pt_lim_minus (fun _ => 1) (P a)); [apply derivable_pt_lim_const|apply Hd]. }
  set (q := fun o : nat => match o with O => 1 - p | _ => p end).
  assert (Hq : q 0%nat + q 1%nat = 1) by (cbn; ring). assert (Hz : forall i, q 0%nat * s i 0%nat + q 1%nat * s i 1%nat = 0) by (intros a; cbn; rewrite E0, E1; field; lra).
  assert (EC : forall a k, (k <= n)%nat -> Sc a k = score_sum (s a) n k).
  { intros a k Hk. apply (uniqueness_limite (fun t => ln (count_like n (P a t) k)) 0); [now apply HS|]. unfold score_sum. rewrite E0, E1, <- (HP a). apply count_score; [apply Hd|rewrite HP; lra|exact Hk]. }
  unfold binomial_fisher, fisher. transitivity (avg q n (fun k => score_sum (s i) n k * score_sum (s j) n k)).
  - rewrite (avg_score2 q Hq (s i) (s j) n (Hz i) (Hz j)). cbn [seq map]. rewrite !rsum_cons, rsum_nil. cbn. ring.
  - unfold avg. rewrite <- Sum_rsum. unfold Sum, SumL. assert (F : forall l : list nat, (forall k, In k l -> (k <= n)%nat) -> fold_right (fun a acc => ones_mass n q a * (score_sum (s i) n a * score_sum (s j) n a) + acc) 0 l = fold_right (fun k acc => count_like n p k * Sc i k * Sc j k + acc) 0 l).
    { induction l as [|k l IH]; intros Hl; [reflexivity|]. cbn [fold_right]. rewrite IH by (intros; apply Hl; now right). rewrite !EC by (apply Hl; now left). rewrite ones_mass_pmf by exact Hq. unfold count_like. cbn [q]. ring. }
    apply F. intros k Hk. apply in_seq in Hk. lia.
Qed.
(** One parameter, the bias itself: three shots of a fair coin. *)
Example ex_c40_counts : fisher 4 (count_like 3 (1/2)) (fun _ k => INR k * 2 + (3 - INR k) * -2) 0 0 = 12.
Proof. unfold fisher, count_like. cbn [seq map]. rewrite !rsum_cons, rsum_nil. cbn. lra. Qed.
Example ex_c40_hypotheses : binomial_fisher 3 (fisher 2 (fun o => match o with O => 1 - 1/2 | _ => 1/2 end) (fun _ o => match o with O => -2 | _ => 2 end)) 0 0 = fisher 4 (count_like 3 (1/2)) (fun _ k => INR k * 2 + (3 - INR k) * -2) 0 0.
Proof.
  assert (D : derivable_pt_lim (fun t => 1/2 + t) 0 1) by (apply is_derive_Reals; auto_derive; [exact I|ring]).
  assert (D0 : derivable_pt_lim (fun t => 1 - (1/2 + t)) 0 (-1)) by (apply is_derive_Reals; auto_derive; [exact I|ring]).
  apply (c40_counts 3 (1/2) (fun _ t => 1/2 + t) (fun _ => 1)); try lra; [intros; lra|intros; exact D| | |].
  - intros _. pose proof (log_deriv _ _ _ D0 ltac:(lra)) as C. cbv beta in C. replace (-1 / (1 - (1/2 + 0))) with (-2) in C by field. exact C.
  - intros _. pose proof (log_deriv _ _ _ D ltac:(lra)) as C. cbv beta in C. replace (1 / (1/2 + 0)) with 2 in C by field. exact C.
  - intros _ k Hk. pose proof (count_score (fun t => 1/2 + t) 0 1 3 k D ltac:(lra) Hk) as C. cbv beta in C. replace (INR k * (1 / (1/2 + 0)) + (INR 3 - INR k) * (- (1) / (1 - (1/2 + 0)))) with (INR k * 2 + (3 - INR k) * -2) in C by (cbn [INR]; field). exact C.
Qed.
Print Assumptions c40_counts.
