(** Proofs about the two-outcome models. *)
From Verif Require Import Base RList Ext Sums TwoModel.
From Coquelicot Require Import Coquelicot.
Open Scope R_scope.

Lemma pr0_like_prob pr0 : 0 <= pr0 <= 1 -> (forall o, 0 <= pr0_like pr0 o <= 1) /\ pr0_like pr0 0 + pr0_like pr0 1 = 1.
Proof. intros H. split; [intros o; unfold pr0_like; destruct (o =? 0)%Z; lra|unfold pr0_like; cbn; lra]. Qed.
Lemma cos2_range a : 0 <= cos a ^ 2 <= 1.
Proof. pose proof (COS_bound a). split; [apply pow2_ge_0|nra]. Qed.
Lemma exp_range x : x <= 0 -> 0 < exp x <= 1.
Proof. intros H. split; [apply exp_pos|]. rewrite <- exp_0. destruct (Rle_lt_or_eq_dec _ _ H) as [H1| ->]; [left; now apply exp_increasing|lra]. Qed.
Lemma t2_range t w i : 0 <= t -> 0 <= i -> 0 <= t2_pr0 t w i <= 1.
Proof.
  intros Ht Hi. unfold t2_pr0. cbv zeta. pose proof (cos2_range (w * t / 2)) as [C0 C1].
  assert (Hx : - t * i <= 0) by nra. destruct (exp_range _ Hx) as [E0 E1]. revert E0 E1 C0 C1. generalize (exp (- t * i)) (cos (w * t / 2) ^ 2). intros v c. nra.
Qed.
Lemma pow_range p m : 0 <= p <= 1 -> 0 <= p ^ m <= 1.
Proof. intros H. split; [now apply pow_le|]. induction m as [|m IH]; cbn; [lra|]. pose proof (pow_le p m (proj1 H)). nra. Qed.
Lemma rb_range m p A B : 0 <= p <= 1 -> 0 <= A -> 0 <= B -> A + B <= 1 -> 0 <= 1 - (A * p ^ m + B) <= 1.
Proof. intros Hp HA HB HAB. pose proof (pow_range p m Hp). nra. Qed.
Ltac bools := repeat match goal with H : (_ && _)%bool = true |- _ => apply andb_true_iff in H; destruct H end;
  repeat match goal with H : Rleb ?x ?y = true |- _ => destruct (Rleb_spec x y); [clear H|discriminate] end.
Lemma rb_valid_ok p A B : rb_valid p A B = true -> 0 <= p <= 1 /\ 0 <= A <= 1 /\ 0 <= B <= 1 /\ A + B <= 1.
Proof. unfold rb_valid. intros H. bools. lra. Qed.
Lemma rb_il_valid_ok q p A B : rb_il_valid q p A B = true -> 0 <= q <= 1 /\ 0 <= p <= 1 /\ 0 <= A <= 1 /\ 0 <= B <= 1 /\ A + B <= 1.
Proof. unfold rb_il_valid. intros H. bools. lra. Qed.

Lemma pow_decr p m n : 0 <= p <= 1 -> (m <= n)%nat -> p ^ n <= p ^ m.
Proof.
  intros Hp. induction 1 as [|n Hmn IH]; [lra|]. cbn. pose proof (pow_range p n Hp). nra.
Qed.

(** ** Derivatives *)
Lemma deriv_ln f x f' : derivable_pt_lim f x f' -> 0 < f x -> derivable_pt_lim (fun y => ln (f y)) x (f' / f x).
Proof.
  intros H Hp. replace (f' / f x) with (/ f x * f') by (field; lra).
  exact (derivable_pt_lim_comp f ln x f' (/ f x) H (derivable_pt_lim_ln _ Hp)).
Qed.
Lemma inv_pr0_deriv t w_ w : derivable_pt_lim (fun x => inv_pr0 t w_ x) w (- t * sin (t * (w - w_) / 2) * cos (t * (w - w_) / 2)).
Proof.
  apply is_derive_Reals. unfold inv_pr0. auto_derive; [exact I|].
  change (t * (w - w_) / 2) with (t * (w + - w_) * / 2). field.
Qed.
Lemma deriv_ext f g x l : (forall y, f y = g y) -> derivable_pt_lim f x l -> derivable_pt_lim g x l.
Proof. intros H D e He. destruct (D e He) as (d & Hd). exists d. intros h H1 H2. rewrite <- !H. auto. Qed.
Lemma deriv_pr0 f x f' o : derivable_pt_lim f x f' -> derivable_pt_lim (fun y => pr0_like (f y) o) x (if (o =? 0)%Z then f' else - f').
Proof.
  intros H. unfold pr0_like. destruct (o =? 0)%Z; [exact H|]. replace (- f') with (0 - f') by ring.
  exact (derivable_pt_lim_minus (fun _ => 1) f x 0 f' (derivable_pt_lim_const 1 x) H).
Qed.
Lemma cos2_pos a : 0 < cos a ^ 2 -> cos a <> 0.
Proof. intros H E. rewrite E in H. lra. Qed.
Lemma sin2 a : 1 - cos a ^ 2 = sin a ^ 2.
Proof. pose proof (sin2_cos2 a) as H. unfold Rsqr in H. lra. Qed.

Lemma inv_score_deriv t w_ w o : o = 0%Z \/ o = 1%Z -> 0 < inv_like t w_ w o ->
  exists q, inv_score t w_ w o = Fin q /\ derivable_pt_lim (fun x => ln (inv_like t w_ x o)) w q.
Proof.
  intros Ho Hp. pose proof (inv_pr0_deriv t w_ w) as D. apply deriv_pr0 with (o := o) in D. pose proof (deriv_ln (fun x => pr0_like (inv_pr0 t w_ x) o) w _ D Hp) as D'.
  cbv beta in D'. unfold inv_score. cbv zeta. replace ((w - w_) * t / 2) with (t * (w - w_) / 2) by (unfold Rdiv; ring).
  unfold inv_like, pr0_like, inv_pr0 in Hp. unfold inv_like. set (a := t * (w - w_) / 2) in *.
  destruct Ho as [-> | ->]; cbn [Z.eqb Z.sub Z.opp Z.add xpow01] in *; unfold xpow01; cbn -[xmul xdiv xtan].
  - pose proof (cos2_pos a Hp) as Hc. unfold xtan. rewrite Reqb_false by assumption. exists (- t * tan a). split.
    + cbn. f_equal. ring.
    + eapply is_derive_Reals. apply is_derive_Reals in D'. replace (- t * tan a) with (- t * sin a * cos a / pr0_like (inv_pr0 t w_ w) 0); [exact D'|].
      unfold pr0_like, inv_pr0. cbn [Z.eqb]. fold a. unfold tan. field. exact Hc.
  - rewrite sin2 in Hp. assert (Hs : sin a <> 0) by (intros E; rewrite E in Hp; lra). unfold xtan. destruct (Reqb_spec (cos a) 0) as [Hc|Hc].
    + exists 0. split; [cbn; f_equal; ring|]. replace 0 with (- (- t * sin a * cos a) / pr0_like (inv_pr0 t w_ w) 1); [exact D'|].
      rewrite Hc. unfold Rdiv. ring.
    + assert (Ht : tan a <> 0) by (unfold tan; apply Rmult_integral_contrapositive; split; [assumption|now apply Rinv_neq_0_compat]).
      exists (t / tan a). split; [cbn; rewrite Reqb_false by assumption; cbn; f_equal; ring|].
      replace (t / tan a) with (- (- t * sin a * cos a) / pr0_like (inv_pr0 t w_ w) 1); [exact D'|].
      unfold pr0_like, inv_pr0. cbn [Z.eqb]. fold a. rewrite sin2. unfold tan. field. now split.
Qed.
Lemma inv_score_mean t w_ w : 0 < inv_like t w_ w 0 -> 0 < inv_like t w_ w 1 ->
  exists q0 q1, inv_score t w_ w 0 = Fin q0 /\ inv_score t w_ w 1 = Fin q1 /\ inv_like t w_ w 0 * q0 + inv_like t w_ w 1 * q1 = 0.
Proof.
  intros H0 H1. unfold inv_score. cbv zeta. replace ((w - w_) * t / 2) with (t * (w - w_) / 2) by (unfold Rdiv; ring).
  unfold inv_like, pr0_like, inv_pr0 in *. cbn [Z.eqb] in *. set (a := t * (w - w_) / 2) in *. rewrite sin2 in *. cbn [xpow01 Z.sub Z.add Z.opp]. unfold xpow01. cbn -[xmul xdiv xtan pow].
  pose proof (cos2_pos a H0) as Hc. assert (Hs : sin a <> 0) by (intros E; rewrite E in H1; lra).
  assert (Ht : tan a <> 0) by (unfold tan; apply Rmult_integral_contrapositive; split; [assumption|now apply Rinv_neq_0_compat]).
  unfold xtan. rewrite Reqb_false by assumption. exists (- t * tan a), (t / tan a). cbn -[pow]. rewrite Reqb_false by assumption. cbn -[pow].
  repeat split; [f_equal; ring|f_equal; ring|]. unfold tan. field. now split.
Qed.

Lemma coin_score_deriv p o : o = 0%Z \/ o = 1%Z -> 0 < p < 1 ->
  exists q, coin_score p o = Fin q /\ derivable_pt_lim (fun x => ln (coin_like x o)) p q.
Proof.
  intros Ho Hp. unfold coin_score, coin_like. unfold xdiv. rewrite !Reqb_false by lra. cbn [xsub xadd xopp].
  eexists. split; [reflexivity|]. pose proof (deriv_pr0 id p 1 o (derivable_pt_lim_id p)) as D.
  assert (Hpos : 0 < pr0_like (id p) o) by (unfold pr0_like, id; destruct (o =? 0)%Z; lra).
  pose proof (deriv_ln (fun y => pr0_like (id y) o) p _ D Hpos) as D'. cbv beta in D'. unfold id in D'.
  destruct Ho as [-> | ->]; cbn [Z.eqb] in D'; unfold pr0_like in *; cbn [Z.eqb] in *.
  - replace ((1 - 0) / p + - (0 / (1 - p))) with (1 / p) by (field; lra). exact D'.
  - replace ((1 - 1) / p + - (1 / (1 - p))) with (- (1) / (1 - p)) by (field; lra). exact D'.
Qed.

(** ** Randomized benchmarking *)
Lemma rb_deriv_lemma f x f' o (L : R -> R) q : derivable_pt_lim f x f' -> (forall y, L y = pr0_like (1 - f y) o) -> 0 < L x ->
  q = sgn01 o * f' / L x -> derivable_pt_lim (fun y => ln (L y)) x q.
Proof.
  intros D E Hp ->. assert (D1 : derivable_pt_lim (fun y => 1 - f y) x (0 - f')) by exact (derivable_pt_lim_minus (fun _ => 1) f x 0 f' (derivable_pt_lim_const 1 x) D).
  apply deriv_pr0 with (o := o) in D1. apply deriv_ext with (g := L) in D1; [|intros; symmetry; apply E].
  apply deriv_ln in D1; [|exact Hp]. replace (sgn01 o * f' / L x) with ((if (o =? 0)%Z then 0 - f' else - (0 - f')) / L x); [exact D1|].
  unfold sgn01. destruct (o =? 0)%Z; f_equal; ring.
Qed.
Lemma affine_deriv a b x : derivable_pt_lim (fun y => y * a + b) x a.
Proof. apply is_derive_Reals. auto_derive; [exact I|]. ring. Qed.
Lemma pow_deriv wrap m x c b : derivable_pt_lim (fun y => c * y ^ m + b) x (c * INR m * pow_pred wrap x m).
Proof.
  pose proof (derivable_pt_lim_plus (fun y => c * y ^ m) (fun _ => b) x _ 0
    (derivable_pt_lim_scal (fun y => y ^ m) c x _ (derivable_pt_lim_pow x m)) (derivable_pt_lim_const b x)) as D.
  replace (c * INR m * pow_pred wrap x m) with (c * (INR m * x ^ pred m) + 0); [exact D|].
  destruct m; cbn [pow_pred pred]; [cbn; ring|ring].
Qed.
Lemma xdiv_ok a b : 0 < b -> xdiv (Fin a) (Fin b) = Fin (a / b).
Proof. intros H. cbn. now rewrite Reqb_false by lra. Qed.
