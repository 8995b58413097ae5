(** Theorems for property C89: how the reference models relate to one another. *)
From Verif Require Import Base RList Ext TwoModel.

(** Unknown T2: dephasing shrinks the deviation from one half of ideal precession by exp(-t/T2), so there is no dephasing at
    t = 0 or 1/T2 = 0, and the outcome becomes fair. *)
Theorem c89_visibility t w i o : o = 0%Z \/ o = 1%Z -> t2_like t w i o - 1 / 2 = exp (- (t * i)) * (prec_like t w o - 1 / 2).
Proof.
  intros Ho. unfold t2_like, prec_like, inv_like, inv_pr0, t2_pr0, pr0_like. replace (t * (w - 0) / 2) with (w * t / 2) by field. replace (- t * i) with (- (t * i)) by ring.
  destruct Ho as [-> | ->]; cbn [Z.eqb]; field.
Qed.
Theorem c89_no_dephasing t w i o : o = 0%Z \/ o = 1%Z -> t2_like t w 0 o = prec_like t w o /\ t2_like 0 w i o = prec_like 0 w o.
Proof.
  intros Ho. pose proof (c89_visibility t w 0 o Ho) as A. pose proof (c89_visibility 0 w i o Ho) as B.
  rewrite Rmult_0_r, Ropp_0, exp_0 in A. rewrite Rmult_0_l, Ropp_0, exp_0 in B. split; lra.
Qed.
Theorem c89_fair_limit t w i o : o = 0%Z \/ o = 1%Z -> 0 <= t * i -> Rabs (t2_like t w i o - 1 / 2) <= exp (- (t * i)) / 2.
Proof.
  intros Ho Ht. rewrite c89_visibility by assumption. rewrite Rabs_mult, (Rabs_right (exp _)) by (apply Rle_ge; left; apply exp_pos).
  unfold Rdiv at 2. apply Rmult_le_compat_l; [left; apply exp_pos|]. unfold prec_like, inv_like, inv_pr0, pr0_like. pose proof (COS_bound (t * (w - 0) / 2)) as [C1 C2].
  assert (0 <= cos (t * (w - 0) / 2) ^ 2 <= 1) by nra. destruct Ho as [-> | ->]; cbn [Z.eqb]; apply Rabs_le; lra.
Qed.
(** Inversion: the likelihood peaks when the guess equals the frequency, and depends on the detuning only. *)
Theorem c89_detuning t w_ w o : inv_like t w_ w o = prec_like t (w - w_) o /\ inv_like t w w 0 = 1.
Proof.
  unfold prec_like, inv_like, inv_pr0, pr0_like. cbn [Z.eqb]. split; [now replace (t * (w - w_ - 0) / 2) with (t * (w - w_) / 2) by field|].
  replace (t * (w - w) / 2) with 0 by field. rewrite cos_0. ring.
Qed.
Theorem c89_valid_frequencies m w : inv_valid m w = true <-> m < w.
Proof. unfold inv_valid. destruct (Rltb_spec m w); split; intros; try assumption; try reflexivity; try discriminate; lra. Qed.
(** Noisy coin: total probability over the true face; [a] and [b] are the chances of reporting heads for heads and for tails. *)
Theorem c89_noisy_coin a b p o : o = 0%Z \/ o = 1%Z ->
  noisy_like a b p o = coin_like p 0 * coin_like a o + coin_like p 1 * coin_like b o.
Proof. intros [-> | ->]; unfold noisy_like, coin_like, pr0_like; cbn [Z.eqb]; ring. Qed.
Theorem c89_noiseless_coin p o : noisy_like 1 0 p o = coin_like p o /\ noisy_like 0 1 p o = 1 - coin_like p o /\ forall a, noisy_like a a p o = coin_like a o.
Proof. unfold noisy_like, coin_like, pr0_like. destruct (o =? 0)%Z; repeat split; intros; ring. Qed.
(** Die: outcome [k] has the k-th parameter; a coin is a two-sided die; a loaded die always shows its face. *)
Theorem c89_coin_is_die p (o : nat) : (o < 2)%nat -> die_like [p; 1 - p] o = coin_like p (Z.of_nat o).
Proof. intros H. destruct o as [|[|o]]; [reflexivity|reflexivity|lia]. Qed.
Theorem c89_loaded_die n k o : (k < n)%nat -> (o < n)%nat -> die_like (map (fun i => if Nat.eqb i k then 1 else 0) (seq 0 n)) o = if Nat.eqb o k then 1 else 0.
Proof. intros Hk Ho. unfold die_like. rewrite (nth_indep _ 0 ((fun i => if Nat.eqb i k then 1 else 0) 0%nat)) by (now rewrite map_length, seq_length). rewrite (map_nth (fun i => if Nat.eqb i k then 1 else 0)). now rewrite seq_nth. Qed.
Theorem c89_die_mixture a p q o : length p = length q -> (o < length p)%nat -> die_like (map2 (fun x y => a * x + (1 - a) * y) p q) o = a * die_like p o + (1 - a) * die_like q o.
Proof. intros Hl Ho. unfold die_like. rewrite (nth_map2 _ _ _ _ 0 0 0); congruence. Qed.
Example c89_case : die_like [1 / 6; 1 / 3; 1 / 2] 2 = 1 / 2 /\ noisy_like (9 / 10) (1 / 5) (1 / 2) 0 = 11 / 20.
Proof. split; [reflexivity|]. unfold noisy_like, pr0_like. cbn [Z.eqb]. field. Qed.

Print Assumptions c89_visibility.
Print Assumptions c89_no_dephasing.
Print Assumptions c89_fair_limit.
Print Assumptions c89_detuning.
Print Assumptions c89_valid_frequencies.
Print Assumptions c89_noisy_coin.
Print Assumptions c89_noiseless_coin.
Print Assumptions c89_coin_is_die.
Print Assumptions c89_loaded_die.
Print Assumptions c89_die_mixture.
