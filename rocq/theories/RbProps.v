(** C156 *)
From Verif Require Import Base RList Ext Sums Cplx SmcModel SmcSpec SmcProofs TwoModel LearnSpec MisSpec MisProps CountProps RbSpec.
From Coq Require Import List.

Definition meq (d : nat) (X Y : mat) : Prop := forall i j, (i < d)%nat -> (j < d)%nat -> X i j = Y i j.
Lemma meq_refl d X : meq d X X. Proof. intros i j _ _. reflexivity. Qed.
Lemma meq_trans d X Y Z : meq d X Y -> meq d Y Z -> meq d X Z. Proof. intros H1 H2 i j Hi Hj. now rewrite H1, H2. Qed.
Lemma mtrace_meq d X Y : meq d X Y -> mtrace d X = mtrace d Y. Proof. intros H. apply csum_ext. intros i Hi. now apply H. Qed.
Lemma gate_meq d U X Y : meq d X Y -> meq d (gate d U X) (gate d U Y).
Proof. intros H i j Hi Hj. unfold gate. apply csum_ext. intros a Ha. apply csum_ext. intros b Hb. now rewrite (H a b Ha Hb). Qed.
Lemma dep_meq d p X Y : meq d X Y -> meq d (depolarize d p X) (depolarize d p Y).
Proof. intros H i j Hi Hj. unfold depolarize, mplus, mscal. now rewrite (mtrace_meq d X Y H), (H i j Hi Hj). Qed.
Lemma gate_combine d U a b X Y : meq d (gate d U (mplus (mscal a X) (mscal b Y))) (mplus (mscal a (gate d U X)) (mscal b (gate d U Y))).
Proof.
  intros i j Hi Hj. unfold gate, mplus, mscal. rewrite <- !csum_scal, <- csum_add. apply csum_ext. intros s _. rewrite <- !csum_scal, <- csum_add. apply csum_ext. intros t _. ring.
Qed.
Lemma csum_delta d i f : (i < d)%nat -> csum d (fun k => cmul (delta i k) (f k)) = f i.
Proof. intros Hi. rewrite (csum_single d i) by (try assumption; intros k _ Hk; rewrite delta_diff by congruence; ring). rewrite delta_same. ring. Qed.
Lemma gate_eye d U : unitary d U -> meq d (gate d U meye) meye.
Proof.
  intros HU i j Hi Hj. unfold gate, meye. rewrite (csum_ext d _ (fun a => cmul (U i a) (conj (U j a)))); [apply (HU i j Hi Hj)|]. intros a Ha.
  rewrite (csum_ext d _ (fun b => cmul (delta a b) (cmul (U i a) (conj (U j b))))) by (intros; ring). now rewrite csum_delta.
Qed.
Lemma gate_trace d U M : unitary d U -> mtrace d (gate d U M) = mtrace d M.
Proof.
  intros HU. unfold mtrace, gate. rewrite csum_swap. rewrite (csum_ext d _ (fun a => csum d (fun b => cmul (M a b) (csum d (fun i => cmul (conj (U i b)) (U i a)))))).
  - apply csum_ext. intros a Ha. rewrite (csum_ext d _ (fun b => cmul (delta a b) (M a b))); [now rewrite csum_delta|]. intros b Hb. rewrite (proj2 (HU b a Hb Ha)). unfold delta. rewrite Nat.eqb_sym. ring.
  - intros a Ha. rewrite csum_swap. apply csum_ext. intros b Hb. rewrite <- csum_scal. apply csum_ext. intros i _. ring.
Qed.
Lemma gate_undo d U M : unitary d U -> meq d (gate d (dagger U) (gate d U M)) M.
Proof.
  intros HU i j Hi Hj. unfold gate, dagger.
  rewrite (csum_ext d _ (fun a => csum d (fun s => csum d (fun t => cmul (cmul (conj (U a i)) (U a s)) (cmul (M s t) (csum d (fun b => cmul (conj (U b t)) (U b j)))))))).
  - rewrite csum_swap. rewrite (csum_ext d _ (fun s => cmul (delta i s) (M s j))); [now rewrite csum_delta|]. intros s Hs. rewrite csum_swap. rewrite (csum_ext d _ (fun t => cmul (delta t j) (cmul (delta i s) (M s t)))).
    + rewrite (csum_ext d _ (fun t => cmul (delta j t) (cmul (delta i s) (M s t)))) by (intros t _; unfold delta at 1 3; now rewrite Nat.eqb_sym). now rewrite (csum_delta d j (fun t => cmul (delta i s) (M s t))).
    + intros t Ht. rewrite csum_scal_r, (proj2 (HU i s Hi Hs)), (proj2 (HU t j Ht Hj)). ring.
  - intros a Ha. rewrite (csum_ext d _ (fun b => csum d (fun s => csum d (fun t => cmul (cmul (conj (U a i)) (U a s)) (cmul (M s t) (cmul (conj (U b t)) (U b j))))))).
    + rewrite csum_swap. apply csum_ext. intros s _. rewrite csum_swap. apply csum_ext. intros t _. rewrite !csum_scal. reflexivity.
    + intros b Hb. rewrite conj_conj, <- csum_scal, <- csum_scal_r. apply csum_ext. intros s _. rewrite <- csum_scal, <- csum_scal_r. apply csum_ext. intros t _. ring.
Qed.
Lemma dep_trace d p M : (0 < d)%nat -> mtrace d (depolarize d p M) = mtrace d M.
Proof.
  intros Hd. unfold depolarize, mtrace at 1, mplus, mscal, meye. rewrite csum_add, csum_scal. fold (mtrace d M). rewrite csum_scal. rewrite (csum_ext d (fun i => delta i i) (fun _ => rc 1)) by (intros; apply delta_same). rewrite csum_rc.
  replace (Sum d (fun _ => 1)) with (INR d) by (rewrite Sum_rsum, rsum_map_const, seq_length; ring). set (t := mtrace d M). assert (INR d <> 0) by (apply not_0_INR; lia). apply C_eq; cbn; field; assumption.
Qed.
Lemma dep_gate d p U M : unitary d U -> meq d (depolarize d p (gate d U M)) (gate d U (depolarize d p M)).
Proof.
  intros HU i j Hi Hj. unfold depolarize. rewrite (gate_combine d U _ _ M meye i j Hi Hj). rewrite gate_trace by assumption. unfold mplus, mscal. now rewrite (gate_eye d U HU i j Hi Hj).
Qed.
(** Noise of strengths [p] and [q] in turn is noise of strength [p q]. *)
Theorem c156_composition d p q M : (0 < d)%nat -> meq d (depolarize d q (depolarize d p M)) (depolarize d (q * p) M).
Proof.
  intros Hd i j Hi Hj. unfold depolarize at 1 3. rewrite dep_trace by assumption. unfold depolarize, mplus, mscal, meye. set (t := mtrace d M). set (x := M i j). set (e := delta i j). assert (INR d <> 0) by (apply not_0_INR; lia). apply C_eq; cbn; field; assumption.
Qed.
Lemma dep_1 d M : (0 < d)%nat -> meq d (depolarize d 1 M) M.
Proof. intros Hd i j Hi Hj. unfold depolarize, mplus, mscal. apply C_eq; cbn; unfold Rdiv; ring. Qed.
(** Whatever the gates are, a sequence of [m] of them acts as noise of strength [p ^ m]. *)
Theorem c156_sequence d p gates M : (0 < d)%nat -> Forall (unitary d) gates -> meq d (benchmark d p gates M) (depolarize d (p ^ length gates) M).
Proof.
  intros Hd F. revert M. induction F as [|U gates HU F IH]; intros M; cbn [benchmark length].
  - intros i j Hi Hj. cbn [pow]. symmetry. now apply dep_1.
  - eapply meq_trans; [apply gate_meq, IH|]. eapply meq_trans; [apply gate_meq; apply c156_composition; assumption|]. eapply meq_trans; [apply gate_meq, dep_gate; assumption|]. eapply meq_trans; [apply gate_undo; assumption|]. cbn [pow]. rewrite Rmult_comm. apply meq_refl.
Qed.
(** With an interleaved gate of its own strength [q] the strength per gate is [q p]. *)
Theorem c156_interleaved d q p C gates M : (0 < d)%nat -> unitary d C -> Forall (unitary d) gates -> meq d (interleaved d q p C gates M) (depolarize d ((q * p) ^ length gates) M).
Proof.
  intros Hd HC F. revert M. induction F as [|U gates HU F IH]; intros M; cbn [interleaved length].
  - intros i j Hi Hj. cbn [pow]. symmetry. now apply dep_1.
  - eapply meq_trans; [apply gate_meq, gate_meq, IH|]. eapply meq_trans; [apply gate_meq, gate_meq; apply c156_composition; assumption|]. eapply meq_trans; [apply gate_meq, gate_meq, dep_gate; assumption|]. eapply meq_trans; [apply gate_meq, gate_undo; assumption|].
    eapply meq_trans; [apply gate_meq, c156_composition; assumption|]. eapply meq_trans; [apply gate_meq, dep_gate; assumption|]. eapply meq_trans; [apply gate_undo; assumption|]. cbn [pow]. replace ((q * p) ^ length gates * q * p) with (q * p * (q * p) ^ length gates) by ring. apply meq_refl.
Qed.
(** ** Preparation and measurement errors *)
Lemma measured_meq d Q Ks X Y : meq d X Y -> measured d Q Ks X = measured d Q Ks Y.
Proof.
  intros H. unfold measured. f_equal. apply csum_ext. intros i Hi. unfold mmul. apply csum_ext. intros k Hk. f_equal. unfold operation. apply csumL_ext. intros K _. now apply gate_meq.
Qed.
Lemma measured_combine d Q Ks a b X Y : measured d Q Ks (mplus (mscal (rc a) X) (mscal (rc b) Y)) = a * measured d Q Ks X + b * measured d Q Ks Y.
Proof.
  unfold measured. assert (G : mtrace d (mmul d Q (operation d Ks (mplus (mscal (rc a) X) (mscal (rc b) Y)))) = cadd (cmul (rc a) (mtrace d (mmul d Q (operation d Ks X)))) (cmul (rc b) (mtrace d (mmul d Q (operation d Ks Y))))).
  { unfold mtrace, mmul. rewrite <- !csum_scal, <- csum_add. apply csum_ext. intros i Hi. rewrite <- !csum_scal, <- csum_add. apply csum_ext. intros k Hk. unfold operation.
    rewrite (csumL_ext Ks _ (fun K => cadd (cmul (rc a) (gate d K X k i)) (cmul (rc b) (gate d K Y k i)))) by (intros K _; apply (gate_combine d K (rc a) (rc b) X Y k i Hk Hi)). rewrite csumL_add, !csumL_scal. ring. }
  rewrite G. cbn. ring.
Qed.
(** The probability of the effect [Q] after a sequence is the model's likelihood of outcome 1, with A and B as documented, for all gates, preparations, measurements and their errors. *)
Theorem c156_survival d p gates rho Q Ks : (0 < d)%nat -> Forall (unitary d) gates -> mtrace d rho = c1 ->
  measured d Q Ks (benchmark d p gates rho) = rb_like (length gates) p (scale d Q Ks rho) (offset d Q Ks) 1.
Proof.
  intros Hd F Ht. rewrite (measured_meq d Q Ks _ _ (c156_sequence d p gates rho Hd F)). unfold depolarize. rewrite Ht. set (x := p ^ length gates).
  assert (E1 : measured d Q Ks (mplus (mscal (rc x) rho) (mscal (cmul (rc ((1 - x) / INR d)) c1) meye)) = x * measured d Q Ks rho + (1 - x) / INR d * measured d Q Ks meye).
  { rewrite <- measured_combine. apply measured_meq. intros i j _ _. unfold mplus, mscal. f_equal. f_equal. apply C_eq; cbn; ring. }
  rewrite E1. unfold rb_like, pr0_like. cbn [Z.eqb]. fold x. unfold scale, offset.
  assert (E2 : measured d Q Ks (mplus rho (mscal (rc (- / INR d)) meye)) = 1 * measured d Q Ks rho + - / INR d * measured d Q Ks meye).
  { rewrite <- measured_combine. apply measured_meq. intros i j _ _. unfold mplus, mscal. f_equal. apply C_eq; cbn; ring. }
  assert (E3 : measured d Q Ks (mscal (rc (/ INR d)) meye) = / INR d * measured d Q Ks meye + 0 * measured d Q Ks meye).
  { rewrite <- measured_combine. apply measured_meq. intros i j _ _. unfold mplus, mscal. apply C_eq; cbn; ring. }
  rewrite E2, E3. unfold Rdiv. ring.
Qed.
Theorem c156_interleaved_survival d q p C gates rho Q Ks : (0 < d)%nat -> unitary d C -> Forall (unitary d) gates -> mtrace d rho = c1 ->
  measured d Q Ks (interleaved d q p C gates rho) = rb_il_like (length gates) false q p (scale d Q Ks rho) (offset d Q Ks) 1 /\
  measured d Q Ks (benchmark d p gates rho) = rb_il_like (length gates) true q p (scale d Q Ks rho) (offset d Q Ks) 1.
Proof.
  intros Hd HC F Ht. unfold rb_il_like. split; [|now apply c156_survival]. rewrite <- (c156_survival d (q * p) gates rho Q Ks Hd F Ht). apply measured_meq. eapply meq_trans; [now apply c156_interleaved|]. intros i j Hi Hj. symmetry. now apply c156_sequence.
Qed.
(** ** Fidelity *)
(** The function F gives the fidelity of noise of strength [p] on every pure state; *)
Theorem c156_fidelity d p v : (0 < d)%nat -> norm2 d v = 1 -> quad d (depolarize d p (pure v)) v = rc (rb_F p (INR d)).
Proof.
  intros Hd Hv. assert (HN : csum d (fun i => cmul (v i) (conj (v i))) = c1).
  { unfold norm2 in Hv. rewrite (csum_ext d _ (fun i => rc (cabs2 (v i)))) by (intros; apply C_eq; cbn; unfold cabs2; ring). rewrite csum_rc, Hv. reflexivity. }
  unfold quad, depolarize, mplus, mscal, pure at 1. assert (T : mtrace d (pure v) = c1) by exact HN. rewrite T.
  rewrite (csum_ext d _ (fun i => cadd (cmul (rc p) (cmul (cmul (v i) (conj (v i))) c1)) (cmul (rc ((1 - p) / INR d)) (cmul (v i) (conj (v i)))))).
  - rewrite csum_add, !csum_scal. rewrite csum_scal_r, HN. unfold rb_F. assert (INR d <> 0) by (apply not_0_INR; lia). apply C_eq; cbn; field; assumption.
  - intros i Hi. rewrite (csum_ext d _ (fun j => cadd (cmul (cmul (rc p) (cmul (v i) (conj (v i)))) (cmul (v j) (conj (v j)))) (cmul (delta i j) (cmul (rc ((1 - p) / INR d)) (cmul (v j) (conj (v i))))))) by (intros j _; unfold meye; ring).
    rewrite csum_add, csum_scal, HN, csum_delta by assumption. ring.
Qed.
(** of a sequence without preparation and measurement errors it is the survival probability. *)
Theorem c156_fidelity_of_sequence d p gates v : (0 < d)%nat -> norm2 d v = 1 -> Forall (unitary d) gates -> quad d (benchmark d p gates (pure v)) v = rc (rb_like (length gates) p (1 - / INR d) (/ INR d) 1).
Proof.
  intros Hd Hv F. assert (INR d <> 0) by (apply not_0_INR; lia). transitivity (rc (rb_F (p ^ length gates) (INR d))).
  - rewrite <- c156_fidelity with (v := v) by assumption. unfold quad. apply csum_ext. intros i Hi. apply csum_ext. intros j Hj. now rewrite (c156_sequence d p gates (pure v) Hd F i j Hi Hj).
  - f_equal. unfold rb_F, rb_like, pr0_like. cbn [Z.eqb]. field. assumption.
Qed.
Definition level (k : nat) : mat := fun i j => if (Nat.eqb i k && Nat.eqb j k)%bool then c1 else c0.
(** The model insists on a non-negative scale, but a measurement may find the prepared state less often than the mixed one (here: prepare level 0, look for level 1). *)
Theorem c156_negative_scale_refuted : mtrace 2 (level 0) = c1 /\ scale 2 (level 1) [meye] (level 0) = - (1 / 2) /\ offset 2 (level 1) [meye] = 1 / 2 /\
  (forall m p, 0 <= p <= 1 -> 0 <= rb_like m p (scale 2 (level 1) [meye] (level 0)) (offset 2 (level 1) [meye]) 1 <= 1) /\ (forall p, rb_valid p (scale 2 (level 1) [meye] (level 0)) (offset 2 (level 1) [meye]) = false).
Proof.
  assert (S1 : scale 2 (level 1) [meye] (level 0) = - (1 / 2)) by (unfold scale, measured, mtrace, mmul, operation, gate, csumL, csum, meye, mplus, mscal; cbn; unfold Sum; cbn; field).
  assert (S2 : offset 2 (level 1) [meye] = 1 / 2) by (unfold offset, measured, mtrace, mmul, operation, gate, csumL, csum, meye, mplus, mscal; cbn; unfold Sum; cbn; field).
  split; [apply C_eq; unfold mtrace, csum; cbn; unfold Sum; cbn; ring|]. rewrite S1, S2. repeat split; intros.
  - unfold rb_like, pr0_like. cbn [Z.eqb]. pose proof (pow_le p m ltac:(lra)). assert (p ^ m <= 1 ^ m) by (apply pow_incr; lra). rewrite pow1 in *. lra.
  - unfold rb_like, pr0_like. cbn [Z.eqb]. pose proof (pow_le p m ltac:(lra)). lra.
  - unfold rb_valid. rewrite (Rleb_false 0 (- (1 / 2))) by lra. rewrite !Bool.andb_false_r || idtac. destruct (Rleb 0 p), (Rleb p 1); reflexivity.
Qed.

(** ** Which lengths identify the parameters *)
(** Three consecutive lengths do, unless the decay is trivial. *)
Theorem c156_identifiable m p A B p' A' B' : A <> 0 -> p <> 0 -> p <> 1 -> (forall k, (k < 3)%nat -> rb_like (m + k) p A B 1 = rb_like (m + k) p' A' B' 1) -> p' = p /\ A' = A /\ B' = B.
Proof.
  intros HA H0 H1 H. pose proof (H 0%nat ltac:(lia)) as E0. pose proof (H 1%nat ltac:(lia)) as E1. pose proof (H 2%nat ltac:(lia)) as E2. unfold rb_like, pr0_like in *. cbn [Z.eqb] in *. rewrite !pow_add in *. cbn [pow] in *. 
  assert (Hp : p ^ m <> 0) by (now apply pow_nonzero). set (u := A * p ^ m) in *. set (u' := A' * p' ^ m) in *. assert (Hu : u <> 0) by (now apply Rmult_integral_contrapositive_currified).
  assert (D1 : u * (1 - p) = u' * (1 - p')) by (unfold u, u' in *; lra). assert (D2 : u * (1 - p) * p = u' * (1 - p') * p') by (unfold u, u' in *; lra).
  assert (Ep : p' = p). { rewrite <- D1 in D2. symmetry. apply Rmult_eq_reg_l with (u * (1 - p)); [assumption|]. apply Rmult_integral_contrapositive_currified; [assumption|lra]. }
  subst p'. split; [reflexivity|]. assert (Eu : u = u') by (apply Rmult_eq_reg_r with (1 - p); lra). assert (EA : A' = A) by (symmetry; apply Rmult_eq_reg_r with (p ^ m); assumption). subst A'. split; [reflexivity|]. unfold u, u' in *. lra.
Qed.
(** Two lengths do not. *)
Theorem c156_two_lengths_refuted : rb_valid (1/2) (1/2) (1/4) = true /\ rb_valid (1/4) (2/3) (1/3) = true /\ (forall m o, m = 1%nat \/ m = 2%nat -> rb_like m (1/2) (1/2) (1/4) o = rb_like m (1/4) (2/3) (1/3) o).
Proof.
  split; [unfold rb_valid; rewrite !Rleb_true by lra; reflexivity|]. split; [unfold rb_valid; rewrite !Rleb_true by lra; reflexivity|]. intros m o Hm. unfold rb_like. f_equal. destruct Hm as [-> | ->]; cbn; lra.
Qed.
(** Nor do any lengths for a perfect gate ([p = 1]): only the sum of A and B is seen. *)
Theorem c156_perfect_gate_refuted m o : rb_like m 1 (1/2) (1/4) o = rb_like m 1 (1/4) (1/2) o.
Proof. unfold rb_like. rewrite pow1. f_equal. lra. Qed.

(** ** Learning *)
Section Learning.
Context {RND : Type} (c : @config Z nat RND) (rs : nat -> RND) (lengths : list nat) (q : nat -> R) (s : @state Z) (dec : forall a b : Z * nat, {a = b} + {a <> b}) (data : nat -> Z * nat) (t m : nat).
Hypothesis HL : forall o x k, In x (ls s) -> lik (md c) o x k = rb_like k (nth 0 x 0) (nth 1 x 0) (nth 2 x 0) o.
(** Outcomes occur with the frequencies that particle [t] predicts, sequence lengths with frequencies [q]; three consecutive lengths occur. *)
Hypothesis HS : settled c (fun _ => [0; 1]%Z) lengths (fun o k => q k * lik (md c) o (at_ s t) k) s dec data.
Hypothesis Hq : forall k, In k lengths -> 0 <= q k.
Hypothesis H3 : forall k, (k < 3)%nat -> In (m + k)%nat lengths /\ 0 < q (m + k)%nat.
Hypothesis Ht : (t < n_particles s)%nat.
Hypothesis Hw : 0 < wt s t.
Hypothesis HA : nth 1 (at_ s t) 0 <> 0.
Hypothesis Hp : nth 0 (at_ s t) 0 <> 0 /\ nth 0 (at_ s t) 0 <> 1.
Definition same_triple (x y : loc) : Prop := nth 0 x 0 = nth 0 y 0 /\ nth 1 x 0 = nth 1 y 0 /\ nth 2 x 0 = nth 2 y 0.
Lemma worse i : (i < n_particles s)%nat -> ~ same_triple (at_ s i) (at_ s t) -> fit c (fun _ => [0; 1]%Z) lengths (fun o k => q k * lik (md c) o (at_ s t) k) s i < fit c (fun _ => [0; 1]%Z) lengths (fun o k => q k * lik (md c) o (at_ s t) k) s t.
Proof.
  intros Hi Hd. destruct HS. pose proof eps_pos as E0. assert (One : forall x k, In x (ls s) -> SumL [0; 1]%Z (fun o => lik (md c) o x k) = 1) by (intros x k Hx; unfold SumL; cbn; rewrite !HL by assumption; unfold rb_like, pr0_like; cbn; ring).
  assert (In_ : forall k, (k < n_particles s)%nat -> In (at_ s k) (ls s)) by (intros k Hk; now apply nth_In).
  pose proof (c153_closest c (fun _ => [0; 1]%Z) lengths q (fun o k => lik (md c) o (at_ s t) k) s i t) as K. cbv beta in K.
  assert (T : forall j, (j < n_particles s)%nat -> forall e o, In e lengths -> In o [0; 1]%Z -> 0 < lik (md c) o (at_ s t) e /\ 0 < lik (md c) o (at_ s j) e).
  { intros j Hj e o He Ho. pose proof (l_positive (at_ s t) e o (In_ t Ht) He Ho). pose proof (l_positive (at_ s j) e o (In_ j Hj) He Ho). lra. }
  pose proof (c153_truth c (fun _ => [0; 1]%Z) lengths q (fun o k => lik (md c) o (at_ s t) k) s i Hi Hq (T i Hi) (fun e _ => Logic.conj (One (at_ s t) e (In_ t Ht)) (One (at_ s i) e (In_ i Hi)))) as (_ & M1 & _).
  pose proof (c153_truth c (fun _ => [0; 1]%Z) lengths q (fun o k => lik (md c) o (at_ s t) k) s t Ht Hq (T t Ht) (fun e _ => Logic.conj (One (at_ s t) e (In_ t Ht)) (One (at_ s t) e (In_ t Ht)))) as (_ & _ & M2). rewrite (M2 (fun _ _ _ _ => eq_refl)) in K.
  assert (0 < miss c (fun _ => [0; 1]%Z) lengths q (fun o k => lik (md c) o (at_ s t) k) s i); [|lra]. apply M1.
  assert (G : exists k, (k < 3)%nat /\ rb_like (m + k) (nth 0 (at_ s t) 0) (nth 1 (at_ s t) 0) (nth 2 (at_ s t) 0) 1 <> rb_like (m + k) (nth 0 (at_ s i) 0) (nth 1 (at_ s i) 0) (nth 2 (at_ s i) 0) 1).
  { set (P := fun k => rb_like (m + k) (nth 0 (at_ s t) 0) (nth 1 (at_ s t) 0) (nth 2 (at_ s t) 0) 1 = rb_like (m + k) (nth 0 (at_ s i) 0) (nth 1 (at_ s i) 0) (nth 2 (at_ s i) 0) 1).
    destruct (Req_EM_T _ _ : {P 0%nat} + {~ P 0%nat}) as [P0|P0]; [|exists 0%nat; split; [lia|exact P0]]. destruct (Req_EM_T _ _ : {P 1%nat} + {~ P 1%nat}) as [P1|P1]; [|exists 1%nat; split; [lia|exact P1]]. destruct (Req_EM_T _ _ : {P 2%nat} + {~ P 2%nat}) as [P2|P2]; [|exists 2%nat; split; [lia|exact P2]].
    elim Hd. destruct (c156_identifiable m (nth 0 (at_ s t) 0) (nth 1 (at_ s t) 0) (nth 2 (at_ s t) 0) (nth 0 (at_ s i) 0) (nth 1 (at_ s i) 0) (nth 2 (at_ s i) 0) HA (proj1 Hp) (proj2 Hp)) as (E1 & E2 & E3); [|repeat split; assumption].
    intros [|[|[|k]]] Hk; try lia; assumption. }
  destruct G as (k & Hk & Hne). destruct (H3 k Hk) as [Hin Hqk]. exists (m + k)%nat, 1%Z. split; [assumption|]. split; [assumption|]. split; [cbn; auto|]. rewrite !HL by (now apply In_). exact Hne.
Qed.
(** Then every other particle loses its weight, and averages over the cloud approach the true values. *)
Theorem c156_others_vanish i : (i < n_particles s)%nat -> ~ same_triple (at_ s i) (at_ s t) -> tends (fun n => wt (run c s (updates rs 0 (map data (seq 0 n)))) i) 0.
Proof. intros Hi Hd. eapply (c153_worse_particles_vanish c rs); [exact HS|exact Hi|exact Ht|exact Hw|now apply worse]. Qed.
Theorem c156_estimates_converge (f : loc -> R) : (forall x y, same_triple x y -> f x = f y) -> tends (fun n => Sum (n_particles s) (fun i => wt (run c s (updates rs 0 (map data (seq 0 n)))) i * f (at_ s i))) (f (at_ s t)).
Proof.
  intros Hf. eapply (c153_averages c rs); [exact HS|exact Ht|exact Hw|]. intros i Hi. assert (Dn : forall a b : R, {a = b} + {a <> b}) by apply Req_EM_T.
  destruct (Dn (nth 0 (at_ s i) 0) (nth 0 (at_ s t) 0)) as [E1|E1]; [|right; right; apply worse; [assumption|]; intros (? & _); contradiction].
  destruct (Dn (nth 1 (at_ s i) 0) (nth 1 (at_ s t) 0)) as [E2|E2]; [|right; right; apply worse; [assumption|]; intros (_ & ? & _); contradiction].
  destruct (Dn (nth 2 (at_ s i) 0) (nth 2 (at_ s t) 0)) as [E3|E3]; [|right; right; apply worse; [assumption|]; intros (_ & _ & ?); contradiction]. left. apply Hf. repeat split; assumption.
Qed.
End Learning.

(** ** Examples *)
(** A qubit: the Hadamard-like gate with entries 3/5 and 4/5, three times; start and look for level 0 *)
Definition rotation : mat := fun i j => rc (match i, j with 0%nat, 0%nat => 3/5 | 0%nat, _ => 4/5 | _, 0%nat => 4/5 | _, _ => -3/5 end).
Lemma rotation_unitary : unitary 2 rotation.
Proof. intros [|[|i]] [|[|j]] Hi Hj; try lia; split; apply C_eq; unfold csum, rotation, delta; cbn; unfold Sum; cbn; lra. Qed.
Example rb_qubit p : measured 2 (level 0) [meye] (benchmark 2 p [rotation; rotation; rotation] (level 0)) = 1 / 2 * p ^ 3 + 1 / 2.
Proof.
  assert (T1 : mtrace 2 (level 0) = c1) by (apply C_eq; unfold mtrace, csum; cbn; unfold Sum; cbn; ring).
  assert (F1 : Forall (unitary 2) [rotation; rotation; rotation]) by (pose proof rotation_unitary; repeat (apply Forall_cons; [assumption|]); apply Forall_nil).
  rewrite (c156_survival 2 p _ _ _ _ ltac:(lia) F1 T1).
  replace (scale 2 (level 0) [meye] (level 0)) with (1 / 2) by (unfold scale, measured, mtrace, mmul, operation, gate, csumL, csum, meye, mplus, mscal; cbn; unfold Sum; cbn; field).
  replace (offset 2 (level 0) [meye]) with (1 / 2) by (unfold offset, measured, mtrace, mmul, operation, gate, csumL, csum, meye, mplus, mscal; cbn; unfold Sum; cbn; field).
  unfold rb_like, pr0_like. cbn [Z.eqb length]. ring.
Qed.
Example rb_three_lengths : (1/2 : R) <> 0 /\ forall k, (k < 3)%nat -> rb_like (0 + k) (9/10) (1/2) (1/4) 1 = rb_like (0 + k) (9/10) (1/2) (1/4) 1.
Proof. split; [lra|reflexivity]. Qed.

(** Data with period [length l] *)
Lemma count_periodic {A} (dec : forall a b : A, {a = b} + {a <> b}) (l : list A) (a d : A) : (0 < length l)%nat ->
  forall n k, (count_occ dec (map (fun j => nth (j mod length l) l d) (seq (k * length l) (n * length l))) a = n * count_occ dec l a)%nat.
Proof.
  intros Hl. induction n as [|n IH]; intros k; [reflexivity|]. cbn [Nat.mul]. rewrite seq_app, map_app, count_occ_app. replace (k * length l + length l)%nat with (S k * length l)%nat by (cbn; lia). rewrite IH. f_equal. f_equal.
  apply nth_ext with (d := d) (d' := d); [now rewrite map_length, seq_length|]. intros j Hj. rewrite map_length, seq_length in Hj.
  rewrite (nth_indep _ d (nth (0 mod length l) l d)) by (rewrite map_length, seq_length; assumption). rewrite (map_nth (fun j => nth (j mod length l) l d)), seq_nth by assumption. f_equal. rewrite Nat.add_comm, Nat.mod_add by lia. now apply Nat.mod_small.
Qed.
Lemma freq_periodic {A} (dec : forall a b : A, {a = b} + {a <> b}) (l : list A) (a d : A) : (0 < length l)%nat ->
  tends (freq dec (fun j => nth (j mod length l) l d) a) (INR (count_occ dec l a) / INR (length l)).
Proof.
  intros Hl h Hh. set (P := length l) in *. set (cl := count_occ dec l a). assert (P0 : 0 < INR P) by (apply lt_0_INR; lia). destruct (archimed (INR P / h)) as [A1 _]. exists (max 1 (Z.to_nat (up (INR P / h)))). intros n Hn. unfold freq.
  assert (n0 : 0 < INR n) by (apply lt_0_INR; lia). assert (Hin : INR P / h < INR n). { apply Rlt_le_trans with (1 := A1). rewrite (INR_IZR_INZ n). apply IZR_le. lia. }
  apply Rmult_lt_compat_r with (r := h) in Hin; [|assumption]. unfold Rdiv in Hin at 1. rewrite Rmult_assoc, Rinv_l, Rmult_1_r in Hin by lra.
  set (dd := fun j => nth (j mod P) l d). set (b := (n / P)%nat). set (r := (n mod P)%nat). assert (Hr : (r < P)%nat) by (apply Nat.mod_upper_bound; lia). assert (En : n = (b * P + r)%nat) by (unfold b, r; rewrite (Nat.div_mod n P) at 1 by lia; lia).
  set (y := count_occ dec (map dd (seq (b * P) r)) a). assert (Ec : count_occ dec (map dd (seq 0 n)) a = (b * cl + y)%nat).
  { rewrite En at 1. rewrite seq_app, map_app, count_occ_app. cbn [plus]. f_equal. exact (count_periodic dec l a d Hl b 0). }
  assert (Hy : (y <= r)%nat). { unfold y. eapply Nat.le_trans; [apply count_occ_bound|]. now rewrite map_length, seq_length. } assert (Hc : (cl <= P)%nat) by apply count_occ_bound.
  rewrite Ec. rewrite plus_INR, mult_INR. assert (En' : INR n = INR b * INR P + INR r) by (rewrite En at 1; rewrite plus_INR, mult_INR; reflexivity).
  apply le_INR in Hy, Hc. apply lt_INR in Hr. pose proof (pos_INR y). pose proof (pos_INR cl). pose proof (pos_INR r).
  replace ((INR b * INR cl + INR y) / INR n - INR cl / INR P) with ((INR y * INR P - INR cl * INR r) * / (INR n * INR P)) by (rewrite En'; field; lra).
  rewrite Rabs_mult, (Rabs_pos_eq (/ _)) by (apply Rlt_le, Rinv_0_lt_compat; nra).
  apply Rmult_lt_reg_r with (INR n * INR P); [nra|]. rewrite Rmult_assoc, Rinv_l, Rmult_1_r by nra. apply Rle_lt_trans with (INR P * INR P); [|nra]. apply Rabs_le. split; nra.
Qed.
Lemma reflect_of (P : Prop) b : Bool.reflect P b -> b = true -> P.
Proof. intros [H|H] E1; [exact H|discriminate]. Qed.
(** Two particles, lengths 0, 1 and 2 equally often, outcomes as the second particle predicts *)
Definition ex_lik (o : Z) (x : loc) (k : nat) : R := if rb_valid (nth 0 x 0) (nth 1 x 0) (nth 2 x 0) then rb_like k (nth 0 x 0) (nth 1 x 0) (nth 2 x 0) o else 1 / 2.
Definition ex_cloud : @state Z := {| ws := [1/2; 1/2]; ls := [[1/2; 1/4; 1/4]; [1/2; 1/2; 1/4]]; drec := []; nrec := []; mness := PInf; rcnt := 0; jr := false; calls := 0 |}.
Definition ex_records : list (Z * nat) := (repeat (1, 0%nat) 6 ++ repeat (0, 0%nat) 2 ++ repeat (1, 1%nat) 4 ++ repeat (0, 1%nat) 4 ++ repeat (1, 2%nat) 3 ++ repeat (0, 2%nat) 5)%Z.
Definition ex_data (k : nat) : Z * nat := nth (k mod length ex_records) ex_records (0%Z, 0%nat).
Definition dec_zn (a b : Z * nat) : {a = b} + {a <> b}.
Proof. decide equality; [apply Nat.eq_dec|apply Z.eq_dec]. Defined.
Lemma ex_valid : forall x, In x (ls ex_cloud) -> rb_valid (nth 0 x 0) (nth 1 x 0) (nth 2 x 0) = true.
Proof. intros x [<- | [<- | []]]; unfold rb_valid; cbn [nth]; rewrite !Rleb_true by lra; reflexivity. Qed.
Example rb_settled : settled (ex_config ex_lik) (fun _ => [0; 1]%Z) [0; 1; 2]%nat (fun o k => 1 / 3 * lik (md (ex_config ex_lik)) o (at_ ex_cloud 1) k) ex_cloud dec_zn ex_data.
Proof.
  assert (Ep : eps <= 1/32). { unfold eps. replace (1/32) with (/ 2 ^ 5) by lra. apply Rinv_le_contravar; [apply pow_lt; lra|]. apply Rle_pow; [lra|lia]. }
  constructor.
  - apply ex_good. intros o x e. unfold ex_lik. destruct (rb_valid _ _ _) eqn:V; [|lra]. unfold rb_valid in V. rewrite !Bool.andb_true_iff in V. 
    repeat match goal with H : _ /\ _ |- _ => destruct H end. repeat match goal with H : Rleb _ _ = true |- _ => apply (reflect_of _ _ (Rleb_spec _ _)) in H end.
    set (p := nth 0 x 0) in *. set (a := nth 1 x 0) in *. set (b := nth 2 x 0) in *. clearbody p a b. unfold rb_like, pr0_like. assert (0 <= p ^ e) by (apply pow_le; lra). assert (p ^ e <= 1) by (rewrite <- (pow1 e); apply pow_incr; lra). destruct (Z.eqb o 0); nra.
  - cbn. lra.
  - reflexivity.
  - split; [reflexivity|split; [repeat constructor; lra|cbn; rewrite !rsum_cons, rsum_nil; lra]].
  - intros x e o Hx He Ho. cbn [md ex_config lik]. unfold ex_lik. rewrite ex_valid by assumption. cbn in He, Ho. destruct Hx as [<- | [<- | []]]; destruct He as [<- | [<- | [<- | []]]]; destruct Ho as [<- | [<- | []]]; unfold rb_like, pr0_like; cbn; lra.
  - cbn. repeat constructor; cbn; intuition congruence.
  - intros k. unfold ex_data. assert (In (nth (k mod length ex_records) ex_records (0%Z, 0%nat)) ex_records) by (apply nth_In, Nat.mod_upper_bound; cbn; lia). cbn in *. intuition.
  - intros e o He Ho. eapply eq_ind; [apply (freq_periodic dec_zn ex_records (o, e) (0%Z, 0%nat)); cbn; lia|].
    cbn [md ex_config lik]. unfold ex_lik. rewrite ex_valid by (cbn; auto). cbn in He, Ho. destruct He as [<- | [<- | [<- | []]]]; destruct Ho as [<- | [<- | []]]; unfold rb_like, pr0_like; cbn; lra.
Qed.
Example rb_learned : tends (fun n => Sum 2 (fun i => wt (run (ex_config ex_lik) ex_cloud (updates (fun _ => tt) 0 (map ex_data (seq 0 n)))) i * nth 1 (at_ ex_cloud i) 0)) (1 / 2).
Proof.
  apply (c156_estimates_converge (ex_config ex_lik) (fun _ => tt) [0; 1; 2]%nat (fun _ => 1 / 3) ex_cloud dec_zn ex_data 1 0) with (f := fun x => nth 1 x 0).
  - intros o x k Hx. cbn [md ex_config lik]. unfold ex_lik. now rewrite ex_valid.
  - exact rb_settled.
  - intros; lra.
  - intros k Hk. split; [|lra]. destruct k as [|[|[|k]]]; cbn; auto; lia.
  - cbn. lia.
  - cbn. lra.
  - cbn. lra.
  - cbn. lra.
  - intros x y (_ & K & _). exact K.
Qed.

Print Assumptions c156_composition.
Print Assumptions c156_sequence.
Print Assumptions c156_interleaved.
Print Assumptions c156_survival.
Print Assumptions c156_interleaved_survival.
Print Assumptions c156_fidelity.
Print Assumptions c156_fidelity_of_sequence.
Print Assumptions c156_negative_scale_refuted.
Print Assumptions c156_identifiable.
Print Assumptions c156_two_lengths_refuted.
Print Assumptions c156_perfect_gate_refuted.
Print Assumptions c156_others_vanish.
Print Assumptions c156_estimates_converge.
