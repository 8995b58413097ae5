(** Theorems for properties C31 (two-outcome models), C38 (randomized benchmarking), C39 (scores),
    C40 (Fisher information) and C41 (model distance). *)
From Verif Require Import Base RList Ext Sums TwoModel TwoProofs TwoProofs2.

(** The two likelihoods are probabilities. *)
Definition two_probabilities (L : Z -> R) : Prop := 0 <= L 0%Z <= 1 /\ 0 <= L 1%Z <= 1 /\ L 0%Z + L 1%Z = 1.
Lemma two_from_pr0 pr0 : 0 <= pr0 <= 1 -> two_probabilities (pr0_like pr0).
Proof. intros H. destruct (pr0_like_prob pr0 H) as [A B]. repeat split; try apply A; apply B. Qed.

(** C31 *)
Theorem c31_inversion t w_ w : two_probabilities (inv_like t w_ w).
Proof. apply two_from_pr0, cos2_range. Qed.
Theorem c31_precession t w : two_probabilities (prec_like t w).
Proof. apply two_from_pr0, cos2_range. Qed.
Theorem c31_accelerated_precession t w : two_probabilities (gpu_like t w) /\ forall o, gpu_like t w o = prec_like t w o.
Proof.
  split; [apply two_from_pr0, cos2_range|]. intros o. unfold gpu_like, prec_like, inv_like, gpu_pr0, inv_pr0. do 2 f_equal. f_equal. unfold Rdiv. ring.
Qed.
Theorem c31_unknown_t2 t w i : t2_valid w i = true -> 0 <= t -> two_probabilities (t2_like t w i).
Proof. unfold t2_valid. intros H Ht. bools. apply two_from_pr0, t2_range; assumption. Qed.
Theorem c31_coin p : coin_valid p = true -> two_probabilities (coin_like p).
Proof. unfold coin_valid. intros H. bools. apply two_from_pr0. lra. Qed.
Theorem c31_noisy_coin a b p : coin_valid p = true -> 0 <= a <= 1 -> 0 <= b <= 1 -> two_probabilities (noisy_like a b p).
Proof. unfold coin_valid. intros H Ha Hb. bools. apply two_from_pr0. nra. Qed.
Theorem c31_randomized_benchmarking m p A B : rb_valid p A B = true -> two_probabilities (rb_like m p A B).
Proof. intros H. apply rb_valid_ok in H. apply two_from_pr0, rb_range; lra. Qed.
Theorem c31_interleaved_benchmarking m reference q p A B : rb_il_valid q p A B = true -> two_probabilities (rb_il_like m reference q p A B).
Proof. intros H. apply rb_il_valid_ok in H. apply two_from_pr0, rb_range; destruct reference; nra. Qed.
Theorem c31_tomography meas params : two_probabilities (tomo_like meas params).
Proof. apply two_from_pr0. pose proof (clip_bounds 0 1 (rdot meas params)). lra. Qed.
(** The die: likelihoods of the faces are in [0,1] and add up to one within the threshold. *)
Theorem c31_die threshold p : die_valid threshold p = true ->
  (forall o, (o < length p)%nat -> 0 <= die_like p o <= 1) /\ Rabs (Sum (length p) (die_like p) - 1) <= threshold.
Proof.
  unfold die_valid. intros H. apply andb_true_iff in H. destruct H as [H1 H2]. rewrite forallb_forall in H2. split.
  - intros o Ho. specialize (H2 _ (nth_In p 0 Ho)). bools. unfold die_like. lra.
  - rewrite rsum_index in H1. unfold die_like. destruct (Rleb_spec (Rabs (Sum (length p) (fun i => nth i p 0) - 1)) threshold); [assumption|discriminate].
Qed.
(** Which parameters count as valid. *)
Theorem c31_valid_parameters :
  (forall w i, t2_valid w i = true <-> 0 <= w /\ 0 <= i) /\ (forall p, coin_valid p = true <-> 0 <= p <= 1) /\
  (forall threshold p, die_valid threshold p = true <-> Rabs (rsum p - 1) <= threshold /\ Forall (fun x => 0 <= x <= 1) p).
Proof.
  split; [|split].
  - intros w i. unfold t2_valid. split; [intros H; bools; lra|]. intros [H K]. now rewrite !Rleb_true.
  - intros p. unfold coin_valid. split; [intros H; bools; lra|]. intros [H K]. now rewrite !Rleb_true.
  - intros threshold p. unfold die_valid. split.
    + intros H. apply andb_true_iff in H as [H K]. split; [destruct (Rleb_spec (Rabs (rsum p - 1)) threshold); [assumption|discriminate]|].
      rewrite forallb_forall in K. apply Forall_forall. intros x Hx. specialize (K x Hx). bools; lra.
    + intros [H1 H2]. rewrite Rleb_true by exact H1. cbn [andb]. apply forallb_forall. intros x Hx. rewrite Forall_forall in H2. destruct (H2 x Hx). now rewrite !Rleb_true.
Qed.
Example c31_hypotheses : t2_valid 1 (1/2) = true /\ coin_valid (1/3) = true /\ rb_valid (9/10) (1/2) (1/4) = true /\ rb_il_valid (99/100) (9/10) (1/2) (1/4) = true /\
  die_valid (1/100) [1/2; 1/4; 1/4] = true /\ rb_like 2 (9/10) (1/2) (1/4) 1 = 131/200.
Proof.
  unfold t2_valid, coin_valid, rb_valid, rb_il_valid, die_valid. rewrite !Rleb_true by (try lra; rewrite ?rsum_cons, ?rsum_nil; rewrite Rabs_right; lra).
  repeat split; try reflexivity; [cbn; rewrite !Rleb_true by lra; reflexivity|]. unfold rb_like, pr0_like. cbn. lra.
Qed.

(** C38 *)
Theorem c38_conversions d : 1 < d -> (forall F, rb_F (rb_p F d) d = F) /\ (forall p, rb_p (rb_F p d) d = p).
Proof. intros H. split; intros x; unfold rb_F, rb_p; field; lra. Qed.
Theorem c38_decay p A B m n : rb_valid p A B = true -> (m <= n)%nat ->
  rb_like n p A B 1 <= rb_like m p A B 1 /\ B <= rb_like m p A B 1 <= A + B.
Proof.
  intros H Hmn. apply rb_valid_ok in H. destruct H as (Hp & HA & HB & HAB). unfold rb_like, pr0_like. cbn [Z.eqb].
  pose proof (pow_decr p m n Hp Hmn). pose proof (pow_range p m Hp). split; [nra|]. nra.
Qed.
Theorem c38_interleaved_decay q p A B reference m n : rb_il_valid q p A B = true -> (m <= n)%nat ->
  rb_il_like n reference q p A B 1 <= rb_il_like m reference q p A B 1 /\ B <= rb_il_like m reference q p A B 1 <= A + B.
Proof.
  intros H Hmn. apply rb_il_valid_ok in H. destruct H as (Hq & Hp & HA & HB & HAB). unfold rb_il_like.
  set (r := if reference then p else q * p). assert (Hr : 0 <= r <= 1) by (unfold r; destruct reference; nra). unfold rb_like, pr0_like. cbn [Z.eqb].
  pose proof (pow_decr r m n Hr Hmn). pose proof (pow_range r m Hr). split; nra.
Qed.
(** No decay at all: the sequence of length zero survives with probability A+B. *)
Theorem c38_length_zero p A B : rb_like 0 p A B 1 = A + B.
Proof. unfold rb_like, pr0_like. cbn. ring. Qed.
(** A perfect interleaved gate: both protocols agree, with each other and with the plain model. *)
Theorem c38_perfect_gate m p A B o : rb_il_like m false 1 p A B o = rb_il_like m true 1 p A B o /\ rb_il_like m true 1 p A B o = rb_like m p A B o.
Proof. unfold rb_il_like. now rewrite Rmult_1_l. Qed.
(** Valid parameters: p, A and B are probabilities and so is A + B.  Among p in [0, 1] and nonnegative A and B those are all for which the
    survival probability is a probability at every length; the last conditions tested follow from the others. *)
Theorem c38_valid p A B : rb_valid p A B = true <-> 0 <= p <= 1 /\ 0 <= A /\ 0 <= B /\ A + B <= 1.
Proof.
  split; intros H.
  - apply rb_valid_ok in H. lra.
  - unfold rb_valid. rewrite !Rleb_true by nra. reflexivity.
Qed.
Theorem c38_interleaved_valid q p A B : rb_il_valid q p A B = true <-> 0 <= q <= 1 /\ rb_valid p A B = true.
Proof.
  rewrite c38_valid. split; intros H.
  - apply rb_il_valid_ok in H. lra.
  - unfold rb_il_valid. rewrite !Rleb_true by nra. reflexivity.
Qed.
Theorem c38_valid_exactly p A B : 0 <= p <= 1 -> 0 <= A -> 0 <= B -> (rb_valid p A B = true <-> forall m, two_probabilities (rb_like m p A B)).
Proof.
  intros Hp HA HB. split; intros H.
  - intros m. now apply c31_randomized_benchmarking.
  - apply c38_valid. destruct (H 0%nat) as (_ & K & _). rewrite c38_length_zero in K. lra.
Qed.
Theorem c38_order interleaved order : rb_new interleaved order = if (order =? 0)%Z then Ok interleaved else Err NotImplementedError.
Proof. reflexivity. Qed.
Example c38_hypotheses : rb_valid (9/10) (1/2) (1/4) = true /\ rb_F (9/10) 2 = 19/20 /\ rb_p (19/20) 2 = 9/10.
Proof. split; [|unfold rb_F, rb_p; lra]. unfold rb_valid. now rewrite !Rleb_true by lra. Qed.

(** C39 *)
Theorem c39_inversion t w_ w o : o = 0%Z \/ o = 1%Z -> 0 < inv_like t w_ w o ->
  exists q, inv_score t w_ w o = Fin q /\ derivable_pt_lim (fun x => ln (inv_like t w_ x o)) w q.
Proof. exact (inv_score_deriv t w_ w o). Qed.
Theorem c39_inversion_mean t w_ w : 0 < inv_like t w_ w 0 -> 0 < inv_like t w_ w 1 ->
  exists q0 q1, inv_score t w_ w 0 = Fin q0 /\ inv_score t w_ w 1 = Fin q1 /\ inv_like t w_ w 0 * q0 + inv_like t w_ w 1 * q1 = 0.
Proof. exact (inv_score_mean t w_ w). Qed.
Theorem c39_precession t w o : o = 0%Z \/ o = 1%Z -> 0 < prec_like t w o ->
  exists q, prec_score t w o = Fin q /\ derivable_pt_lim (fun x => ln (prec_like t x o)) w q.
Proof. exact (inv_score_deriv t 0 w o). Qed.
Theorem c39_precession_mean t w : 0 < prec_like t w 0 -> 0 < prec_like t w 1 ->
  exists q0 q1, prec_score t w 0 = Fin q0 /\ prec_score t w 1 = Fin q1 /\ prec_like t w 0 * q0 + prec_like t w 1 * q1 = 0.
Proof. exact (inv_score_mean t 0 w). Qed.
Theorem c39_coin p o : o = 0%Z \/ o = 1%Z -> 0 < p < 1 ->
  exists q, coin_score p o = Fin q /\ derivable_pt_lim (fun x => ln (coin_like x o)) p q.
Proof. exact (coin_score_deriv p o). Qed.
Theorem c39_coin_mean p : 0 < p < 1 -> exists q0 q1, coin_score p 0 = Fin q0 /\ coin_score p 1 = Fin q1 /\ coin_like p 0 * q0 + coin_like p 1 * q1 = 0.
Proof.
  intros H. unfold coin_score. unfold xdiv. rewrite !Reqb_false by lra. cbn [xsub xadd xopp]. do 2 eexists. split; [reflexivity|]. split; [reflexivity|].
  unfold coin_like, pr0_like. cbn [Z.eqb]. field. lra.
Qed.
(** A coin that never shows heads: outcome 1 has likelihood one, but its score comes out as NaN instead of -1. *)
Theorem c39_coin_boundary_refuted : coin_valid 0 = true /\ coin_like 0 1 = 1 /\ coin_score 0 1 = NaN /\
  derivable_pt_lim (fun x => ln (coin_like x 1)) 0 (-1).
Proof.
  split; [unfold coin_valid; now rewrite !Rleb_true by lra|]. split; [unfold coin_like, pr0_like; cbn; lra|]. split.
  - unfold coin_score, xdiv. rewrite (Reqb_true 0 0) by reflexivity. replace (1 - IZR 1) with 0 by (cbn; lra). unfold inf_times.
    rewrite !(Rltb_false 0 0) by lra. reflexivity.
  - pose proof (deriv_pr0 id 0 1 1 (derivable_pt_lim_id 0)) as D. pose proof (deriv_ln (fun y => pr0_like (id y) 1) 0 _ D) as D'. cbv beta in D'.
    unfold id, pr0_like in D'. cbn [Z.eqb] in D'. unfold coin_like, pr0_like. cbn [Z.eqb]. replace (-1) with (- (1) / (1 - 0)) by field. apply D'. lra.
Qed.
(** The derivatives with respect to p, A and B. *)
Theorem c39_randomized_benchmarking wrap m p A B o : 0 < rb_like m p A B o ->
  exists qp qA qB, rb_score wrap m p A B o = [Fin qp; Fin qA; Fin qB] /\
    derivable_pt_lim (fun x => ln (rb_like m x A B o)) p qp /\
    derivable_pt_lim (fun x => ln (rb_like m p x B o)) A qA /\
    derivable_pt_lim (fun x => ln (rb_like m p A x o)) B qB.
Proof.
  intros H. unfold rb_score. cbn [map]. rewrite !xdiv_ok by assumption. do 3 eexists. split; [reflexivity|]. repeat split.
  - eapply rb_deriv_lemma with (f := fun x => A * x ^ m + B); [apply (pow_deriv wrap m p A B)|reflexivity|assumption|reflexivity].
  - eapply rb_deriv_lemma with (f := fun x => x * p ^ m + B); [apply affine_deriv|reflexivity|assumption|reflexivity].
  - eapply rb_deriv_lemma with (f := fun x => x * 1 + A * p ^ m) (L := fun x => rb_like m p A x o); [apply affine_deriv|intros y; unfold rb_like; f_equal; ring|assumption|reflexivity].
Qed.
Theorem c39_randomized_benchmarking_mean wrap m p A B i : 0 < rb_like m p A B 0 -> 0 < rb_like m p A B 1 -> (i < 3)%nat ->
  exists q0 q1, nth i (rb_score wrap m p A B 0) NaN = Fin q0 /\ nth i (rb_score wrap m p A B 1) NaN = Fin q1 /\
    rb_like m p A B 0 * q0 + rb_like m p A B 1 * q1 = 0.
Proof.
  intros H0 H1 Hi. unfold rb_score. cbn [map]. rewrite !xdiv_ok by assumption. destruct i as [|[|[|i]]]; [| | |lia]; cbn [nth];
    do 2 eexists; (split; [reflexivity|]); (split; [reflexivity|]); unfold sgn01; cbn [Z.eqb]; field; lra.
Qed.
(** Interleaved: derivatives with respect to p_tilde, p_ref, A and B, in both modes. *)
Theorem c39_interleaved_benchmarking wrap m reference q p A B o : 0 < rb_il_like m reference q p A B o ->
  exists qq qp qA qB, rb_il_score wrap m reference q p A B o = [Fin qq; Fin qp; Fin qA; Fin qB] /\
    derivable_pt_lim (fun x => ln (rb_il_like m reference x p A B o)) q qq /\
    derivable_pt_lim (fun x => ln (rb_il_like m reference q x A B o)) p qp /\
    derivable_pt_lim (fun x => ln (rb_il_like m reference q p x B o)) A qA /\
    derivable_pt_lim (fun x => ln (rb_il_like m reference q p A x o)) B qB.
Proof.
  intros H. unfold rb_il_score. cbv zeta. cbn [map]. rewrite !xdiv_ok by assumption. do 4 eexists. split; [reflexivity|]. unfold rb_il_like in *. repeat split.
  - destruct reference.
    + eapply rb_deriv_lemma with (f := fun x => x * 0 + (A * p ^ m + B)) (L := fun _ => rb_like m p A B o); [apply affine_deriv|intros y; unfold rb_like; f_equal; ring|assumption|reflexivity].
    + eapply rb_deriv_lemma with (f := fun x => (A * p ^ m) * x ^ m + B) (L := fun x => rb_like m (x * p) A B o);
        [apply (pow_deriv wrap m q)|intros y; unfold rb_like; f_equal; rewrite Rpow_mult_distr; ring|assumption|]. f_equal. ring.
  - destruct reference.
    + eapply rb_deriv_lemma with (f := fun x => A * x ^ m + B) (L := fun x => rb_like m x A B o); [apply (pow_deriv wrap m p)|reflexivity|assumption|reflexivity].
    + eapply rb_deriv_lemma with (f := fun x => (A * q ^ m) * x ^ m + B) (L := fun x => rb_like m (q * x) A B o);
        [apply (pow_deriv wrap m p)|intros y; unfold rb_like; f_equal; rewrite Rpow_mult_distr; ring|assumption|]. f_equal. ring.
  - eapply rb_deriv_lemma with (f := fun x => x * (if reference then p else q * p) ^ m + B); [apply affine_deriv|reflexivity|assumption|reflexivity].
  - eapply rb_deriv_lemma with (f := fun x => x * 1 + A * (if reference then p else q * p) ^ m) (L := fun x => rb_like m (if reference then p else q * p) A x o);
      [apply affine_deriv|intros y; unfold rb_like; f_equal; ring|assumption|reflexivity].
Qed.
Theorem c39_interleaved_benchmarking_mean wrap m reference q p A B i : 0 < rb_il_like m reference q p A B 0 -> 0 < rb_il_like m reference q p A B 1 -> (i < 4)%nat ->
  exists q0 q1, nth i (rb_il_score wrap m reference q p A B 0) NaN = Fin q0 /\ nth i (rb_il_score wrap m reference q p A B 1) NaN = Fin q1 /\
    rb_il_like m reference q p A B 0 * q0 + rb_il_like m reference q p A B 1 * q1 = 0.
Proof.
  intros H0 H1 Hi. unfold rb_il_score. cbv zeta. cbn [map]. rewrite !xdiv_ok by assumption. destruct i as [|[|[|[|i]]]]; [| | | |lia]; cbn [nth];
    do 2 eexists; (split; [reflexivity|]); (split; [reflexivity|]); unfold sgn01; cbn [Z.eqb]; field; lra.
Qed.
Example c39_hypotheses : 0 < inv_like 1 0 0 0 /\ inv_score 1 0 0 0 = Fin 0 /\ 0 < rb_like 2 (9/10) (1/2) (1/4) 0.
Proof.
  split; [|split].
  - unfold inv_like, pr0_like, inv_pr0. cbn [Z.eqb]. replace (1 * (0 - 0) / 2) with 0 by (unfold Rdiv; ring). rewrite cos_0. lra.
  - unfold inv_score. replace ((0 - 0) * 1 / 2) with 0 by (unfold Rdiv; ring). cbv zeta. unfold xtan. rewrite cos_0, Reqb_false by lra. rewrite tan_0.
    unfold xpow01. cbn -[xdiv]. f_equal. ring.
  - unfold rb_like, pr0_like. cbn. lra.
Qed.

(** C40.  Symmetric and positive semidefinite whenever the likelihoods are non-negative. *)
Theorem c40_symmetric n L s i j : fisher n L s i j = fisher n L s j i.
Proof. unfold fisher. apply rsum_map_ext. intros; ring. Qed.
Theorem c40_positive_semidefinite n L s d (v : nat -> R) : (forall o, (o < n)%nat -> 0 <= L o) ->
  Sum d (fun i => Sum d (fun j => v i * fisher n L s i j * v j)) = Sum n (fun o => L o * (Sum d (fun i => v i * s i o)) ^ 2) /\
  0 <= Sum d (fun i => Sum d (fun j => v i * fisher n L s i j * v j)).
Proof.
  intros H. assert (E : Sum d (fun i => Sum d (fun j => v i * fisher n L s i j * v j)) = Sum n (fun o => L o * (Sum d (fun i => v i * s i o)) ^ 2)).
  { rewrite (Sum_ext d _ (fun i => Sum n (fun o => v i * s i o * L o * Sum d (fun j => v j * s j o)))).
    - rewrite Sum_swap. apply Sum_ext. intros o _. cbn [pow]. rewrite Rmult_1_r.
      rewrite (Sum_ext d _ (fun i => (v i * s i o) * (L o * Sum d (fun j => v j * s j o)))) by (intros; ring). rewrite Sum_scal_r. ring.
    - intros i _. rewrite (Sum_ext d _ (fun j => Sum n (fun o => v i * s i o * L o * (v j * s j o)))).
      + rewrite Sum_swap. apply Sum_ext. intros o _. now rewrite Sum_scal.
      + intros j _. unfold fisher. rewrite <- Sum_rsum. rewrite <- Sum_scal, <- Sum_scal_r. apply Sum_ext. intros; ring. }
  split; [exact E|]. rewrite E. apply Sum_nonneg. intros o Ho. apply Rmult_le_pos; [auto|apply pow2_ge_0].
Qed.
(** The binomial wrapper multiplies by the number of measurements and stays positive semidefinite. *)
Theorem c40_binomial n L s nm d v : (forall o, (o < n)%nat -> 0 <= L o) ->
  (forall i j, binomial_fisher nm (fisher n L s) i j = INR nm * fisher n L s i j) /\
  0 <= Sum d (fun i => Sum d (fun j => v i * binomial_fisher nm (fisher n L s) i j * v j)).
Proof.
  intros H. assert (A : forall i j, binomial_fisher nm (fisher n L s) i j = INR nm * fisher n L s i j) by (intros; unfold binomial_fisher; ring).
  split; [exact A|]. rewrite (Sum_ext d _ (fun i => INR nm * Sum d (fun j => v i * fisher n L s i j * v j))).
  - rewrite Sum_scal. apply Rmult_le_pos; [apply pos_INR|]. now apply c40_positive_semidefinite.
  - intros i _. rewrite <- Sum_scal. apply Sum_ext. intros j _. rewrite A. ring.
Qed.
(** For the coin it is the textbook value. *)
Theorem c40_coin_value p : 0 < p < 1 -> forall q0 q1, coin_score p 0 = Fin q0 -> coin_score p 1 = Fin q1 ->
  fisher 2 (fun o => coin_like p (Z.of_nat o)) (fun _ o => match o with O => q0 | _ => q1 end) 0 0 = 1 / (p * (1 - p)).
Proof.
  intros H q0 q1. unfold coin_score, xdiv. rewrite !Reqb_false by lra. cbn [xsub xadd xopp]. intros E0 E1. injection E0 as <-. injection E1 as <-.
  unfold fisher. cbn [seq map]. rewrite !rsum_cons, rsum_nil. unfold coin_like, pr0_like. cbn [Z.eqb Z.of_nat]. cbn. field. lra.
Qed.

(** The inversion and precession models carry the same information t^2 about the frequency at every frequency. *)
Theorem c40_inversion_value t w_ w : 0 < inv_like t w_ w 0 -> 0 < inv_like t w_ w 1 -> forall q0 q1, inv_score t w_ w 0 = Fin q0 -> inv_score t w_ w 1 = Fin q1 ->
  fisher 2 (fun o => inv_like t w_ w (Z.of_nat o)) (fun _ o => match o with O => q0 | _ => q1 end) 0 0 = t ^ 2.
Proof.
  intros H0 H1 q0 q1. unfold inv_score. cbv zeta. replace ((w - w_) * t / 2) with (t * (w - w_) / 2) by (unfold Rdiv; ring).
  unfold inv_like, pr0_like, inv_pr0 in *. cbn [Z.eqb] in *. set (a := t * (w - w_) / 2) in *.
  assert (S1 : 1 - cos a ^ 2 = sin a ^ 2) by (pose proof (sin2_cos2 a) as X; unfold Rsqr in X; cbn [pow]; lra).
  rewrite S1 in *. unfold xpow01. cbn -[xmul xdiv xtan pow fisher].
  assert (Hc : cos a <> 0) by (intros E; rewrite E in H0; cbn in H0; lra). assert (Hs : sin a <> 0) by (intros E; rewrite E in H1; cbn in H1; lra).
  assert (Ht : tan a <> 0) by (unfold tan; apply Rmult_integral_contrapositive; split; [assumption|now apply Rinv_neq_0_compat]).
  unfold xtan. rewrite Reqb_false by assumption. cbn -[pow fisher]. rewrite Reqb_false by assumption. cbn -[pow fisher]. intros E0 E1. injection E0 as <-. injection E1 as <-.
  unfold fisher. cbn [seq map]. rewrite !rsum_cons, rsum_nil. cbn [Z.of_nat Z.eqb]. cbn -[pow]. unfold tan.
  transitivity (t ^ 2 * (sin a ^ 2 + cos a ^ 2)); [field; now split|]. pose proof (sin2_cos2 a) as X. unfold Rsqr in X. cbn [pow]. rewrite !Rmult_1_r. rewrite X. ring.
Qed.

(** C41 *)
Theorem c41_distance_is_a_metric Q : 
  (forall a b, 0 <= distance Q a b) /\ (forall a b, distance Q a b = distance Q b a) /\ (forall a, distance Q a a = 0) /\
  (forall a b c, length a = length b -> length b = length c -> distance Q a c <= distance Q a b + distance Q b c) /\
  (Forall (fun q => q <> 0) Q -> forall a b, length a = length Q -> length b = length Q -> distance Q a b = 0 -> a = b).
Proof.
  repeat split; [apply distance_nonneg|apply distance_sym|apply distance_zero|apply distance_triangle|].
  intros H a b Ha Hb. now apply distance_separates.
Qed.
(** A zero scale entry makes the distance blind to that parameter. *)
Theorem c41_zero_scale_is_blind : exists Q a b, length a = length Q /\ length b = length Q /\ a <> b /\ distance Q a b = 0.
Proof.
  exists [1; 0], [2; 3], [2; 5]. repeat split.
  - intros E. injection E as E. lra.
  - unfold distance. cbn. rewrite !rsum_cons, rsum_nil. replace (1 * (2 - 2)) with 0 by ring. replace (0 * (3 - 5)) with 0 by ring. rewrite Rabs_R0. ring.
Qed.
Theorem c41_rescaled_distance_is_a_metric Q :
  (forall a b, 0 <= rescaled_distance Q a b) /\ (forall a b, rescaled_distance Q a b = rescaled_distance Q b a) /\ (forall a, rescaled_distance Q a a = 0) /\
  (forall a b c, length a = length Q -> length b = length Q -> length c = length Q -> rescaled_distance Q a c <= rescaled_distance Q a b + rescaled_distance Q b c) /\
  (Forall (fun q => 0 < q) Q -> forall a b, length a = length Q -> length b = length Q -> rescaled_distance Q a b = 0 -> a = b).
Proof.
  repeat split; [intros; apply sqrt_pos|apply rescaled_sym|apply rescaled_zero|apply rescaled_triangle|].
  intros H a b Ha Hb. now apply rescaled_separates.
Qed.
(** It is the Euclidean norm of the root-scaled difference: its square is the Q-weighted quadratic loss. *)
Theorem c41_rescaled_distance_value Q a b : Forall (fun q => 0 <= q) Q -> length a = length Q -> length b = length Q ->
  (rescaled_distance Q a b) ^ 2 = Sum (length Q) (fun i => nth i Q 0 * (nth i a 0 - nth i b 0) ^ 2).
Proof.
  intros HQ Ha Hb. rewrite rescaled_eq. replace (sqrt (sq (scaled Q a b)) ^ 2) with (sqrt (sq (scaled Q a b)) * sqrt (sq (scaled Q a b))) by ring.
  rewrite sqrt_sqrt by apply sq_nonneg. unfold scaled. revert a b Ha Hb. induction HQ as [|q Q Hq HQ IH]; intros [|x a] [|y b] Ha Hb; cbn [length] in *; try discriminate; [reflexivity|].
  cbn [map map2]. rewrite sq_cons, Sum_S. cbn [nth]. rewrite IH by lia. f_equal. rewrite Rpow_mult_distr. f_equal. cbn. rewrite Rmult_1_r. now apply sqrt_sqrt.
Qed.
Example c41_hypotheses : distance [1; 2] [1; 1] [0; 3] = 5 /\ Forall (fun q => q <> 0) [1; 2].
Proof.
  split; [|repeat constructor; lra]. unfold distance. cbn. rewrite !rsum_cons, rsum_nil. rewrite (Rabs_right (1 * (1 - 0))) by lra. rewrite (Rabs_left (2 * (1 - 3))) by lra. lra.
Qed.

Print Assumptions c31_inversion.
Print Assumptions c31_precession.
Print Assumptions c31_accelerated_precession.
Print Assumptions c31_unknown_t2.
Print Assumptions c31_coin.
Print Assumptions c31_noisy_coin.
Print Assumptions c31_randomized_benchmarking.
Print Assumptions c31_interleaved_benchmarking.
Print Assumptions c31_tomography.
Print Assumptions c31_die.
Print Assumptions c38_conversions.
Print Assumptions c38_decay.
Print Assumptions c38_interleaved_decay.
Print Assumptions c38_length_zero.
Print Assumptions c38_perfect_gate.
Print Assumptions c38_order.
Print Assumptions c39_inversion.
Print Assumptions c39_inversion_mean.
Print Assumptions c39_precession.
Print Assumptions c39_precession_mean.
Print Assumptions c39_coin.
Print Assumptions c39_coin_mean.
Print Assumptions c39_coin_boundary_refuted.
Print Assumptions c39_randomized_benchmarking.
Print Assumptions c39_randomized_benchmarking_mean.
Print Assumptions c39_interleaved_benchmarking.
Print Assumptions c39_interleaved_benchmarking_mean.
Print Assumptions c40_symmetric.
Print Assumptions c40_positive_semidefinite.
Print Assumptions c40_binomial.
Print Assumptions c40_coin_value.
Print Assumptions c40_inversion_value.
Print Assumptions c41_distance_is_a_metric.
Print Assumptions c41_zero_scale_is_blind.
Print Assumptions c41_rescaled_distance_is_a_metric.
Print Assumptions c41_rescaled_distance_value.
Print Assumptions c31_valid_parameters.
Print Assumptions c38_valid.
Print Assumptions c38_interleaved_valid.
Print Assumptions c38_valid_exactly.
