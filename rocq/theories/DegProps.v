(** C162: noise that does not depend on the parameters, coarser readings and discarded shots only destroy information. *)
From Coq Require Import Lia Lra.
From Verif Require Import Base RList Ext Sums SmcModel SmcSpec SmcProofs RiskModel RiskSpec RiskProofs SmcProps DomModel DomProofs DistProofs2 DerModel DerProofs TwoModel TwoProps CrProps CountProps DegSpec DegProofs.

(** The expected posterior loss of a noisy version of an experiment is at least that of the experiment, and the information in it at most. *)
Theorem c162_risk_never_improves {O O' E E' RND RND'} (c : @config O E RND) (c' : @config O' E' RND') Q (s : @state O) (s' : @state O') os os' e e' K :
  Forall (fun x => 0 <= x) Q -> ws s' = ws s -> ls s' = ls s -> Forall (fun x => 0 <= x) (ws s) -> (forall o x, In o os -> In x (ls s) -> 0 <= lik (md c) o x e) ->
  noisy_version c c' s os os' e e' K -> expected_posterior_loss c Q s os e <= expected_posterior_loss c' Q s' os' e'.
Proof. apply loss_degrades. Qed.
Theorem c162_information_never_grows {O O' E E' RND RND'} (c : @config O E RND) (c' : @config O' E' RND') (s : @state O) (s' : @state O') os os' e e' K :
  ws s' = ws s -> ls s' = ls s -> Forall (fun x => 0 <= x) (ws s) -> (forall o x, In o os -> In x (ls s) -> 0 <= lik (md c) o x e) ->
  noisy_version c c' s os os' e e' K -> mutual_information c' s' os' e' <= mutual_information c s os e.
Proof. intros. now apply (information_degrades c c' s s' os os' e e' K). Qed.

(** A noisy version of a complete set of outcomes is complete. *)
Lemma noisy_complete {O O' E E' RND RND'} (c : @config O E RND) (c' : @config O' E' RND') (s : @state O) os os' e e' K x :
  noisy_version c c' s os os' e e' K -> In x (ls s) -> SumL os (fun o => lik (md c) o x e) = 1 -> SumL os' (fun o => lik (md c') o x e') = 1.
Proof.
  intros (_ & K2 & K3) Hx H. rewrite (SumL_ext os' _ (fun o' => SumL os (fun o => K o o' * lik (md c) o x e))) by (intros; now apply K3). rewrite SumL_exch, <- H.
  apply SumL_ext. intros o Ho. rewrite (SumL_ext os' _ (fun o' => lik (md c) o x e * K o o')) by (intros; ring). rewrite SumL_scal, K2 by assumption. ring.
Qed.

(** The numbers the updater computes are in that order whenever both are computed from outcomes of sufficient probability. *)
Theorem c162_computed_risks {O O' E E' RND RND'} (c : @config O E RND) (c' : @config O' E' RND') Q (s : @state O) (s' : @state O') os os' e e' K o_last o_last' :
  Forall (fun x => 0 <= x) Q -> ws s' = ws s -> ls s' = ls s -> length (ws s) = length (ls s) -> prob_vector (ws s) ->
  (forall o x e, 0 <= lik (md c) o x e) -> (forall o x e, 0 <= lik (md c') o x e) ->
  os = removelast os ++ [o_last] -> os' = removelast os' ++ [o_last'] ->
  (forall x, In x (ls s) -> SumL os (fun o => lik (md c) o x e) = 1) ->
  (forall o, In o (removelast os) -> evidence c s o e = 0 \/ eps <= evidence c s o e) -> 0 < evidence c s o_last e ->
  (forall o, In o (removelast os') -> evidence c' s' o e' = 0 \/ eps <= evidence c' s' o e') -> 0 < evidence c' s' o_last' e' ->
  noisy_version c c' s os os' e e' K ->
  exists r r', bayes_risk1 c Q (ws s) (ls s) os e = Fin r /\ bayes_risk1 c' Q (ws s') (ls s') os' e' = Fin r' /\ r <= r'.
Proof.
  intros HQ Hw Hl Len Hp L1 L2 Eo Eo' Hc V1 V2 V1' V2' Ch. exists (expected_posterior_loss c Q s os e), (expected_posterior_loss c' Q s' os' e').
  assert (HI : forall i, (i < n_particles s)%nat -> In (at_ s i) (ls s)) by (intros; now apply nth_In). split; [|split].
  - apply (c13_bayes_risk_is_expected_posterior_loss c Q s os e o_last); auto.
  - apply (c13_bayes_risk_is_expected_posterior_loss c' Q s' os' e' o_last'); auto; [congruence|now rewrite Hw|].
    intros i Hi. assert (Hx : In (at_ s' i) (ls s)) by (rewrite <- Hl; now apply nth_In). apply (noisy_complete c c' s os os' e e' K); auto.
  - apply (loss_degrades c c' Q s s' os os' e e' K); auto. apply Hp.
Qed.
Theorem c162_computed_information {O O' E E' RND RND'} (c : @config O E RND) (c' : @config O' E' RND') (s : @state O) (s' : @state O') os os' e e' K o_last o_last' :
  ws s' = ws s -> ls s' = ls s -> length (ws s) = length (ls s) -> prob_vector (ws s) -> Forall (fun x => 0 < x) (ws s) ->
  (forall o x, In o os -> In x (ls s) -> 0 < lik (md c) o x e) -> (forall o x, In o os' -> In x (ls s) -> 0 < lik (md c') o x e') ->
  os = removelast os ++ [o_last] -> os' = removelast os' ++ [o_last'] ->
  (forall x, In x (ls s) -> SumL os (fun o => lik (md c) o x e) = 1) ->
  (forall o, In o (removelast os) -> eps <= evidence c s o e) -> (forall o, In o (removelast os') -> eps <= evidence c' s' o e') ->
  noisy_version c c' s os os' e e' K ->
  exists r r', eig1 c (ws s) (ls s) os e = Fin r /\ eig1 c' (ws s') (ls s') os' e' = Fin r' /\ r' <= r.
Proof.
  intros Hw Hl Len Hp Pw L1 L2 Eo Eo' Hc V1 V1' Ch. exists (mutual_information c s os e), (mutual_information c' s' os' e').
  assert (HI : forall i, (i < n_particles s)%nat -> In (at_ s i) (ls s)) by (intros; now apply nth_In). split; [|split].
  - apply (c14_information_gain_is_mutual_information c s os e o_last); auto.
  - apply (c14_information_gain_is_mutual_information c' s' os' e' o_last'); auto; [congruence|now rewrite Hw|now rewrite Hw|intros; apply L2; congruence|].
    intros i Hi. assert (Hx : In (at_ s' i) (ls s)) by (rewrite <- Hl; now apply nth_In). apply (noisy_complete c c' s os os' e e' K); auto.
  - apply (information_degrades c c' s s' os os' e e' K); auto; [apply Hp|]. intros; left; auto.
Qed.

(** NoisyCoinModel is a noisy version of CoinModel. *)
Definition misread (alpha beta : R) (o o' : Z) : R := if Z.eqb o 0 then pr0_like alpha o' else pr0_like beta o'.
Theorem c162_noisy_coin {E E' RND RND'} (c : @config Z E RND) (c' : @config Z E' RND') Q (s s' : @state Z) e e' alpha beta :
  0 <= alpha <= 1 -> 0 <= beta <= 1 -> Forall (fun x => 0 <= x) Q -> ws s' = ws s -> ls s' = ls s -> Forall (fun x => 0 <= x) (ws s) ->
  (forall x, In x (ls s) -> coin_valid (nth 0 x 0) = true) ->
  (forall o x, In x (ls s) -> lik (md c) o x e = coin_like (nth 0 x 0) o) -> (forall o x, In x (ls s) -> lik (md c') o x e' = noisy_like alpha beta (nth 0 x 0) o) ->
  expected_posterior_loss c Q s [0%Z; 1%Z] e <= expected_posterior_loss c' Q s' [0%Z; 1%Z] e' /\ mutual_information c' s' [0%Z; 1%Z] e' <= mutual_information c s [0%Z; 1%Z] e.
Proof.
  intros Ha Hb HQ Hw Hl Hnn Hv L1 L2.
  assert (Ch : noisy_version c c' s [0%Z; 1%Z] [0%Z; 1%Z] e e' (misread alpha beta)).
  { split; [|split].
    - intros o o' _ _. unfold misread, pr0_like. destruct (Z.eqb o 0), (Z.eqb o' 0); lra.
    - intros o _. rewrite !SumL_cons, SumL_nil. unfold misread, pr0_like. destruct (Z.eqb o 0); cbn; ring.
    - intros o' x _ Hx. rewrite !SumL_cons, SumL_nil, L2, !L1 by assumption. unfold misread, noisy_like, coin_like, pr0_like. cbn [Z.eqb]. destruct (Z.eqb o' 0); ring. }
  assert (L0 : forall o x, In o [0%Z; 1%Z] -> In x (ls s) -> 0 <= lik (md c) o x e).
  { intros o x _ Hx. rewrite L1 by assumption. specialize (Hv x Hx). unfold coin_valid in Hv. apply Bool.andb_true_iff in Hv. destruct Hv as [V1 V2]. destruct (Rleb_spec 0 (nth 0 x 0)), (Rleb_spec (nth 0 x 0) 1); try discriminate. unfold coin_like, pr0_like. destruct (Z.eqb o 0); lra. }
  split; [now apply (loss_degrades c c' Q s s' _ _ e e' (misread alpha beta))|now apply (information_degrades c c' s s' _ _ e e' (misread alpha beta))].
Qed.

(** The Fisher information of the noisy outcomes is at most that of the others in every direction; [P i o t] is the probability of
    [o] once parameter [i] has moved by [t], [P'] that of the noisy reading, and the scores are those of C39. *)
Theorem c162_fisher n n' (K : nat -> nat -> R) (P P' : nat -> nat -> R -> R) (L L' : nat -> R) (s s' : nat -> nat -> R) d (v : nat -> R) :
  (forall o o', (o < n)%nat -> (o' < n')%nat -> 0 <= K o o') -> (forall o, (o < n)%nat -> Sum n' (K o) = 1) -> (forall o, (o < n)%nat -> 0 <= L o) ->
  (forall o', (o' < n')%nat -> L' o' = Sum n (fun o => K o o' * L o)) ->
  (forall i o' t, (i < d)%nat -> (o' < n')%nat -> P' i o' t = Sum n (fun o => K o o' * P i o t)) ->
  (forall i o, (i < d)%nat -> (o < n)%nat -> derivable_pt_lim (P i o) 0 (L o * s i o)) ->
  (forall i o', (i < d)%nat -> (o' < n')%nat -> derivable_pt_lim (P' i o') 0 (L' o' * s' i o')) ->
  Sum d (fun i => Sum d (fun j => v i * fisher n' L' s' i j * v j)) <= Sum d (fun i => Sum d (fun j => v i * fisher n L s i j * v j)).
Proof.
  intros K1 K2 Ln HL HP D D'.
  assert (Ln' : forall o', (o' < n')%nat -> 0 <= L' o') by (intros o' Ho'; rewrite HL by assumption; apply Sum_nonneg; intros; apply Rmult_le_pos; auto).
  rewrite (proj1 (c40_positive_semidefinite n' L' s' d v Ln')), (proj1 (c40_positive_semidefinite n L s d v Ln)).
  assert (Lin : forall i o', (i < d)%nat -> (o' < n')%nat -> L' o' * s' i o' = Sum n (fun o => K o o' * (L o * s i o))).
  { intros i o' Hi Ho'. apply (uniqueness_limite (P' i o') 0); [now apply D'|]. apply (deriv_ext (fun t => Sum n (fun o => K o o' * P i o t))); [intros t; symmetry; now apply HP|].
    apply (Sum_deriv n 0 (fun o t => K o o' * P i o t) (fun o => K o o' * (L o * s i o))). intros o Ho. apply (derivable_pt_lim_scal (P i o) (K o o')). now apply D. }
  set (b := fun o => L o * Sum d (fun i => v i * s i o)). set (b' := fun o' => L' o' * Sum d (fun i => v i * s' i o')).
  assert (Hb : forall o', (o' < n')%nat -> b' o' = Sum n (fun o => K o o' * b o)).
  { intros o' Ho'. unfold b', b. rewrite <- Sum_scal. rewrite (Sum_ext d _ (fun i => Sum n (fun o => v i * (K o o' * (L o * s i o))))).
    - rewrite Sum_swap. apply Sum_ext. intros o _. rewrite <- Sum_scal, <- Sum_scal. apply Sum_ext. intros; ring.
    - intros i Hi. rewrite Sum_scal, <- Lin by assumption. ring. }
  assert (Q : forall a x, sq a (a * x) = a * x ^ 2) by (intros a x; unfold sq; destruct (Req_EM_T a 0) as [->|]; [ring|field; assumption]).
  rewrite (Sum_ext n' _ (fun o' => sq (L' o') (b' o'))) by (intros; symmetry; apply Q). rewrite (Sum_ext n _ (fun o => sq (L o) (b o))) by (intros; symmetry; apply Q).
  rewrite (Sum_ext n' _ (fun o' => sq (SumL (seq 0 n) (fun o => K o o' * L o)) (SumL (seq 0 n) (fun o => K o o' * b o)))) by (intros o' Ho'; rewrite !SumL_seq, HL, Hb by assumption; reflexivity).
  rewrite <- !SumL_seq. apply (sub_channel sq sqC).
  - split; [lra|reflexivity].
  - intros x y x' y' (A1 & A2) (B1 & B2). split; [lra|]. intros Z. rewrite A2, B2; lra.
  - intros k x y Hk (A1 & A2). split; [now apply Rmult_le_pos|]. intros Z. apply Rmult_integral in Z. destruct Z as [->|Z]; [ring|rewrite (A2 Z); ring].
  - unfold sq. destruct (Req_EM_T 0 0); lra.
  - exact sq_plus.
  - exact sq_k.
  - intros o o' Ho Ho'. apply in_seq in Ho. apply in_seq in Ho'. apply K1; lia.
  - intros o Ho. apply in_seq in Ho. rewrite SumL_seq. apply K2. lia.
  - intros o Ho. apply in_seq in Ho. split; [apply Ln; lia|]. intros Z. unfold b. rewrite Z. ring.
Qed.

(** More shots never hurt: BinomialModel with [m] shots against [n]. *)
Definition forget (n k k' : nat) : R := (if Nat.eqb k k' then (INR (S n) - INR k) / INR (S n) else 0) + (if Nat.eqb k (S k') then INR k / INR (S n) else 0).
Lemma binom_forget n k : (INR (S n) - INR k) * INR (binom (S n) k) = INR (S n) * INR (binom n k).
Proof.
  destruct k as [|k]; [rewrite !binom_0; cbn [INR]; ring|]. rewrite binom_S, plus_INR. pose proof (binom_absorb n k) as B. rewrite binom_S in B. apply (f_equal INR) in B. rewrite !mult_INR, plus_INR in B. nra.
Qed.
Lemma pmf_forget n k p : (k <= n)%nat -> INR (binom n k) * p ^ k * (1 - p) ^ (n - k) = Sum (S (S n)) (fun j => forget n j k * (INR (binom (S n) j) * p ^ j * (1 - p) ^ (S n - j))).
Proof.
  intros Hk. set (b := fun j => INR (binom (S n) j) * p ^ j * (1 - p) ^ (S n - j)).
  rewrite (Sum_ext _ _ (fun j => (if Nat.eqb j k then (INR (S n) - INR j) / INR (S n) * b j else 0) + (if Nat.eqb j (S k) then INR j / INR (S n) * b j else 0))).
  2: { intros j _. unfold forget. fold (b j). destruct (Nat.eqb j k), (Nat.eqb j (S k)); ring. }
  rewrite Sum_plus, !Sum_pick. rewrite !(proj2 (Nat.ltb_lt _ _)) by lia. unfold b. pose proof (lt_0_INR (S n) ltac:(lia)) as Pn.
  pose proof (binom_forget n k) as B1. pose proof (binom_absorb n k) as B2. apply (f_equal INR) in B2. rewrite !mult_INR in B2.
  replace (S n - k)%nat with (S (n - k)) by lia. replace (S n - S k)%nat with (n - k)%nat by lia. cbn [pow].
  replace ((INR (S n) - INR k) / INR (S n) * (INR (binom (S n) k) * p ^ k * ((1 - p) * (1 - p) ^ (n - k)))) with (((INR (S n) - INR k) * INR (binom (S n) k)) / INR (S n) * p ^ k * ((1 - p) * (1 - p) ^ (n - k))) by (field; lra).
  replace (INR (S k) / INR (S n) * (INR (binom (S n) (S k)) * (p * p ^ k) * (1 - p) ^ (n - k))) with ((INR (S k) * INR (binom (S n) (S k))) / INR (S n) * (p * p ^ k) * (1 - p) ^ (n - k)) by (field; lra).
  rewrite B1, B2. field. lra.
Qed.
Lemma forget_total n k : (k <= S n)%nat -> Sum (S n) (forget n k) = 1.
Proof.
  intros Hk. pose proof (lt_0_INR (S n) ltac:(lia)) as Pn. unfold forget.
  rewrite (Sum_ext _ _ (fun j => (if Nat.eqb j k then (INR (S n) - INR k) / INR (S n) else 0) + (if Nat.eqb (S j) k then INR k / INR (S n) else 0))).
  2: { intros j _. now rewrite (Nat.eqb_sym k j), (Nat.eqb_sym k (S j)). }
  rewrite Sum_plus, (Sum_pick (S n) k (fun _ => (INR (S n) - INR k) / INR (S n))). destruct k as [|k].
  - cbn [Nat.eqb]. rewrite (Sum_zero (S n) (fun _ => 0)) by reflexivity. change (0 <? S n)%nat with true. cbv iota. cbn [INR]. field. cbn [INR] in Pn. lra.
  - cbn [Nat.eqb]. rewrite (Sum_pick (S n) k (fun _ => INR (S k) / INR (S n))). rewrite (proj2 (Nat.ltb_lt k (S n))) by lia. destruct (Nat.ltb_spec (S k) (S n)); [field; lra|]. replace k with n by lia. field. lra.
Qed.
Lemma one_more_shot {E RND} (c : @config nat (E * nat) RND) like (s : @state nat) e :
  (forall k n x, In x (ls s) -> (k <= n)%nat -> binomial_like like [k] [x] [(e, n)] = Ok [[[Fin (lik (md c) k x (e, n))]]]) ->
  forall n, noisy_version c c s (seq 0 (S (S n))) (seq 0 (S n)) (e, S n) (e, n) (forget n) /\ (forall o x, In o (seq 0 (S n)) -> In x (ls s) -> 0 <= lik (md c) o x (e, n)).
Proof.
  intros HB n.
  assert (P : forall k n x, In x (ls s) -> (k <= n)%nat -> let p := like 1%Z x e in 0 <= p <= 1 /\ lik (md c) k x (e, n) = INR (binom n k) * p ^ k * (1 - p) ^ (n - k)).
  { intros k m x Hx Hk p. specialize (HB k m x Hx Hk). unfold binomial_like, no_nan, table in HB. cbn [map fst snd] in HB. unfold binomial_pdf, scipy_binom_pmf in HB. fold p in HB.
    destruct (Rleb_spec 0 p), (Rleb_spec p 1); cbn in HB; try discriminate. injection HB as HB. split; [lra|now symmetry]. }
  split; [split; [|split]|].
  - intros k k' Hk Hk'. apply in_seq in Hk. unfold forget. pose proof (lt_0_INR (S n) ltac:(lia)) as Pn. pose proof (pos_INR k). assert (INR k <= INR (S n)) by (apply le_INR; lia).
    assert (0 <= (INR (S n) - INR k) / INR (S n)) by (apply Rmult_le_pos; [lra|left; now apply Rinv_0_lt_compat]). assert (0 <= INR k / INR (S n)) by (apply Rmult_le_pos; [lra|left; now apply Rinv_0_lt_compat]). destruct (Nat.eqb k k'), (Nat.eqb k (S k')); lra.
  - intros k Hk. apply in_seq in Hk. rewrite SumL_seq. apply forget_total. lia.
  - intros k x Hk Hx. apply in_seq in Hk. rewrite (proj2 (P k n x Hx ltac:(lia))), pmf_forget by lia. rewrite SumL_seq. apply Sum_ext. intros j Hj. now rewrite (proj2 (P j (S n) x Hx ltac:(lia))).
  - intros k x Hk Hx. apply in_seq in Hk. destruct (P k n x Hx ltac:(lia)) as [Hp ->]. repeat apply Rmult_le_pos; try apply pos_INR; apply pow_le; lra.
Qed.
Theorem c162_more_shots {E RND} (c : @config nat (E * nat) RND) like Q (s : @state nat) e m n :
  Forall (fun x => 0 <= x) Q -> Forall (fun x => 0 <= x) (ws s) ->
  (forall k n x, In x (ls s) -> (k <= n)%nat -> binomial_like like [k] [x] [(e, n)] = Ok [[[Fin (lik (md c) k x (e, n))]]]) -> (m <= n)%nat ->
  expected_posterior_loss c Q s (seq 0 (S n)) (e, n) <= expected_posterior_loss c Q s (seq 0 (S m)) (e, m) /\
  mutual_information c s (seq 0 (S m)) (e, m) <= mutual_information c s (seq 0 (S n)) (e, n).
Proof.
  intros HQ Hnn HB Hmn. pose proof (one_more_shot c like s e HB) as St. induction Hmn as [|n Hmn [I1 I2]]; [split; apply Rle_refl|].
  destruct (St n) as [Ch _]. destruct (St (S n)) as [_ Nn]. split.
  - eapply Rle_trans; [|exact I1]. now apply (loss_degrades c c Q s s _ _ (e, S n) (e, n) (forget n)).
  - eapply Rle_trans; [exact I2|]. now apply (information_degrades c c s s _ _ (e, S n) (e, n) (forget n)).
Qed.

(** Noise whose strength is itself a parameter may inform: a precession that says nothing about the decay rate does so once the decay acts. *)
Definition decay_particles : @state Z := {| ws := [1/2; 1/2]; ls := [[0; 0]; [0; 1]]; drec := []; nrec := []; mness := PInf; rcnt := 0; jr := false; calls := 0 |}.
Definition ideal : @config Z R unit := ex_config (fun o x t => prec_like t (nth 0 x 0) o).
Definition decaying : @config Z R unit := ex_config (fun o x t => t2_like t (nth 0 x 0) (nth 1 x 0) o).
Definition decay_noise (t : R) (o o' : Z) (x : loc) : R := let v := exp (- t * nth 1 x 0) in (if Z.eqb o o' then v else 0) + (1 - v) / 2.
Lemma two_particles {RND} (c : @config Z R RND) o (a b : R) : 0 <= a -> 0 <= b -> lik (md c) o [0; 0] 1 = a -> lik (md c) o [0; 1] 1 = b ->
  evidence c decay_particles o 1 * variance (n_particles decay_particles) (posterior c decay_particles o 1) (fun i => nth 1 (at_ decay_particles i) 0) = b / 2 - sq ((a + b) / 2) (b / 2).
Proof.
  intros Ha Hb La Lb. rewrite weighted_variance.
  - unfold evidence. change (n_particles decay_particles) with 2%nat. rewrite !Sum_S, !Sum_0. unfold wt, at_. cbn [decay_particles ws ls nth]. rewrite La, Lb. f_equal; [field|]. f_equal; field.
  - intros i Hi. change (n_particles decay_particles) with 2%nat in Hi. destruct i as [|[|i]]; [| |lia]; unfold wt, at_; cbn [decay_particles ws ls nth]; rewrite ?La, ?Lb; lra.
Qed.
Theorem c162_parameter_dependent_noise_refuted : exists K : Z -> Z -> loc -> R,
  (forall o o' x, In x (ls decay_particles) -> 0 <= K o o' x) /\ (forall o x, In o [0%Z; 1%Z] -> SumL [0%Z; 1%Z] (fun o' => K o o' x) = 1) /\
  (forall o' x, In o' [0%Z; 1%Z] -> lik (md decaying) o' x 1 = SumL [0%Z; 1%Z] (fun o => K o o' x * lik (md ideal) o x 1)) /\
  expected_posterior_loss decaying [0; 1] decay_particles [0%Z; 1%Z] 1 < expected_posterior_loss ideal [0; 1] decay_particles [0%Z; 1%Z] 1.
Proof.
  assert (V : 0 < exp (- 1) < 1) by (split; [apply exp_pos|rewrite <- exp_0; apply exp_increasing; lra]).
  exists (decay_noise 1). split; [|split; [|split]].
  - intros o o' x [<-|[<-|[]]]; unfold decay_noise; cbn [nth]; cbv zeta; rewrite ?Rmult_0_r, ?Rmult_1_r, ?exp_0; replace (- (1)) with (- 1) by ring; destruct (Z.eqb o o'); lra.
  - intros o x [<-|[<-|[]]]; rewrite !SumL_cons, SumL_nil; unfold decay_noise; cbn [Z.eqb Pos.eqb]; cbv zeta; field.
  - intros o' x Ho. rewrite !SumL_cons, SumL_nil. unfold decay_noise. cbn [decaying ideal ex_config md lik]. unfold t2_like, prec_like, inv_like, t2_pr0, inv_pr0, pr0_like.
    replace (1 * (nth 0 x 0 - 0) / 2) with (nth 0 x 0 * 1 / 2) by field. destruct Ho as [<-|[<-|[]]]; cbn [Z.eqb Pos.eqb]; cbv zeta; field.
  - rewrite !loss_swap. cbn [length]. rewrite !Sum_S, !Sum_0. cbn [nth]. rewrite !SumL_cons, !SumL_nil. change (fun i : nat => nth (S 0) (at_ decay_particles i) 0) with (fun i : nat => nth 1 (at_ decay_particles i) 0).
    set (q := (1 + exp (- 1)) / 2). assert (Q : 1/2 < q < 1) by (unfold q; lra).
    assert (C0 : cos (0 * 1 / 2) = 1) by (replace (0 * 1 / 2) with 0 by field; apply cos_0). assert (C1 : cos (1 * (0 - 0) / 2) = 1) by (replace (1 * (0 - 0) / 2) with 0 by field; apply cos_0).
    rewrite (two_particles decaying 0%Z 1 q), (two_particles decaying 1%Z 0 (1 - q)), (two_particles ideal 0%Z 1 1), (two_particles ideal 1%Z 0 0); try lra;
      try (cbn [decaying ideal ex_config md lik]; unfold t2_like, prec_like, inv_like, t2_pr0, inv_pr0, pr0_like; cbn [nth Z.eqb]; cbv zeta; rewrite ?C0, ?C1, ?Rmult_0_r, ?exp_0; unfold q; try replace (- (1) * 1) with (- 1) by ring; field).
    unfold sq. destruct (Req_EM_T ((1 + q) / 2) 0); [lra|]. destruct (Req_EM_T ((0 + (1 - q)) / 2) 0); [lra|]. destruct (Req_EM_T ((1 + 1) / 2) 0); [lra|]. destruct (Req_EM_T ((0 + 0) / 2) 0); [|lra].
    replace ((q / 2) ^ 2 / ((1 + q) / 2)) with (q / 2 - q / (2 * (1 + q))) by (field; lra). replace (((1 - q) / 2) ^ 2 / ((0 + (1 - q)) / 2)) with ((1 - q) / 2) by (field; lra).
    replace ((1 / 2) ^ 2 / ((1 + 1) / 2)) with (1 / 4) by field. assert (q / (2 * (1 + q)) < 1 / 4); [|lra]. apply Rmult_lt_reg_r with (2 * (1 + q)); [lra|]. replace (q / (2 * (1 + q)) * (2 * (1 + q))) with q by (field; lra). lra.
Qed.

(** ** Concrete cases *)
(** A coin of bias 1/4 or 3/4, and one read with errors. *)
Definition fair_state : @state Z := {| ws := [1/2; 1/2]; ls := [[1/4]; [3/4]]; drec := []; nrec := []; mness := PInf; rcnt := 0; jr := false; calls := 0 |}.
Definition clean : @config Z unit unit := ex_config (fun o x _ => coin_like (clip 0 1 (nth 0 x 0)) o).
Definition misreading : @config Z unit unit := ex_config (fun o x _ => noisy_like (9/10) (1/5) (clip 0 1 (nth 0 x 0)) o).

Lemma clip_range a : 0 <= clip 0 1 a <= 1.
Proof. unfold clip, Rmin, Rmax. repeat destruct (Rle_dec _ _); lra. Qed.
Lemma clip_in a : 0 <= a <= 1 -> clip 0 1 a = a.
Proof. intros H. unfold clip, Rmin, Rmax. repeat destruct (Rle_dec _ _); lra. Qed.
Lemma misreading_noisy : noisy_version clean misreading fair_state [0%Z; 1%Z] [0%Z; 1%Z] tt tt (misread (9/10) (1/5)).
Proof.
  split; [|split].
  - intros o o' _ _. unfold misread, pr0_like. destruct (Z.eqb o 0), (Z.eqb o' 0); lra.
  - intros o _. rewrite !SumL_cons, SumL_nil. unfold misread, pr0_like. destruct (Z.eqb o 0); cbn; ring.
  - intros o' x _ _. rewrite !SumL_cons, SumL_nil. cbn [clean misreading ex_config md lik]. unfold misread, noisy_like, coin_like, pr0_like. cbn [Z.eqb]. destruct (Z.eqb o' 0); ring.
Qed.
Lemma eps_quarter : eps <= 1/4.
Proof. unfold eps. replace (1/4) with (/ 2 ^ 2) by lra. apply Rinv_le_contravar; [apply pow_lt; lra|]. apply Rle_pow; [lra|lia]. Qed.
Example c162_misreading :
  (exists r r', bayes_risk1 clean [1] [1/2; 1/2] [[1/4]; [3/4]] [0%Z; 1%Z] tt = Fin r /\ bayes_risk1 misreading [1] [1/2; 1/2] [[1/4]; [3/4]] [0%Z; 1%Z] tt = Fin r' /\ r <= r') /\
  (exists r r', eig1 clean [1/2; 1/2] [[1/4]; [3/4]] [0%Z; 1%Z] tt = Fin r /\ eig1 misreading [1/2; 1/2] [[1/4]; [3/4]] [0%Z; 1%Z] tt = Fin r' /\ r' <= r).
Proof.
  pose proof eps_quarter as Ep.
  assert (Pw : prob_vector [1/2; 1/2]) by (split; [repeat constructor; lra|rewrite !rsum_cons, rsum_nil; lra]).
  assert (Ev : forall o, In o [0%Z; 1%Z] -> evidence clean fair_state o tt = 1/2).
  { intros o Ho. unfold evidence. change (n_particles fair_state) with 2%nat. rewrite !Sum_S, Sum_0. unfold wt, at_. cbn [fair_state ws ls nth clean ex_config md lik]. rewrite !clip_in by lra. unfold coin_like, pr0_like. destruct Ho as [<-|[<-|[]]]; cbn [Z.eqb]; lra. }
  assert (Ev' : forall o, In o [0%Z; 1%Z] -> 9/20 <= evidence misreading fair_state o tt).
  { intros o Ho. unfold evidence. change (n_particles fair_state) with 2%nat. rewrite !Sum_S, Sum_0. unfold wt, at_. cbn [fair_state ws ls nth misreading ex_config md lik]. rewrite !clip_in by lra. unfold noisy_like, pr0_like. destruct Ho as [<-|[<-|[]]]; cbn [Z.eqb]; lra. }
  split.
  - apply (c162_computed_risks clean misreading [1] fair_state fair_state [0%Z; 1%Z] [0%Z; 1%Z] tt tt (misread (9/10) (1/5)) 1%Z 1%Z); try reflexivity; try assumption; try apply misreading_noisy.
    + repeat constructor; lra.
    + intros o x e. cbn. pose proof (clip_range (nth 0 x 0)). unfold coin_like, pr0_like. destruct (Z.eqb o 0); lra.
    + intros o x e. cbn. pose proof (clip_range (nth 0 x 0)). unfold noisy_like, pr0_like. destruct (Z.eqb o 0); lra.
    + intros x _. rewrite !SumL_cons, SumL_nil. cbn. unfold coin_like, pr0_like. cbn. ring.
    + intros o [<-|[]]. right. rewrite Ev by (cbn; auto). lra.
    + rewrite Ev by (cbn; auto). lra.
    + intros o [<-|[]]. right. specialize (Ev' 0%Z ltac:(cbn; auto)). lra.
    + specialize (Ev' 1%Z ltac:(cbn; auto)). lra.
  - apply (c162_computed_information clean misreading fair_state fair_state [0%Z; 1%Z] [0%Z; 1%Z] tt tt (misread (9/10) (1/5)) 1%Z 1%Z); try reflexivity; try assumption; try apply misreading_noisy.
    + repeat constructor; lra.
    + intros o x _ [<-|[<-|[]]]; cbn [clean ex_config md lik nth]; rewrite clip_in by lra; unfold coin_like, pr0_like; destruct (Z.eqb o 0); lra.
    + intros o x _ [<-|[<-|[]]]; cbn [misreading ex_config md lik nth]; rewrite clip_in by lra; unfold noisy_like, pr0_like; destruct (Z.eqb o 0); lra.
    + intros x _. rewrite !SumL_cons, SumL_nil. cbn. unfold coin_like, pr0_like. cbn. ring.
    + intros o [<-|[]]. rewrite Ev by (cbn; auto). lra.
    + intros o [<-|[]]. specialize (Ev' 0%Z ltac:(cbn; auto)). lra.
Qed.
(** The Fisher information of the misread coin at bias 1/2, against that of the coin, which is 4 (C40). *)
Example c162_misread_fisher :
  fisher 2 (fun o => noisy_like (9/10) (1/5) (1/2) (Z.of_nat o)) (fun _ o => match o with O => 14/11 | _ => - (14/9) end) 0 0 <=
  fisher 2 (fun o => coin_like (1/2) (Z.of_nat o)) (fun _ o => match o with O => 2 | _ => -2 end) 0 0.
Proof.
  set (s' := fun _ o : nat => match o with O => 14/11 | _ => - (14/9) end). set (s := fun _ o : nat => match o with O => 2 | _ => -2 end).
  pose proof (c162_fisher 2 2 (fun o o' => misread (9/10) (1/5) (Z.of_nat o) (Z.of_nat o')) (fun _ o t => coin_like (1/2 + t) (Z.of_nat o)) (fun _ o t => noisy_like (9/10) (1/5) (1/2 + t) (Z.of_nat o))
    (fun o => coin_like (1/2) (Z.of_nat o)) (fun o => noisy_like (9/10) (1/5) (1/2) (Z.of_nat o)) s s' 1 (fun _ => 1)) as H. rewrite !Sum_S, !Sum_0 in H.
  enough (1 * fisher 2 (fun o => noisy_like (9/10) (1/5) (1/2) (Z.of_nat o)) s' 0 0 * 1 + 0 + 0 <= 1 * fisher 2 (fun o => coin_like (1/2) (Z.of_nat o)) s 0 0 * 1 + 0 + 0) by lra. 
  assert (Lin : forall f a b, (forall t, f t = a + b * t) -> derivable_pt_lim f 0 b).
  { intros f a b Hf. apply (deriv_ext (fun t => a + b * t)); [intros; now rewrite Hf|]. intros ep Hep. exists (mkposreal 1 Rlt_0_1). intros h Hh _. replace ((a + b * (0 + h) - (a + b * 0)) / h - b) with 0 by (field; assumption). now rewrite Rabs_R0. }
  apply H; clear H.
  - intros o o' Ho Ho'. unfold misread, pr0_like. destruct (Z.eqb _ 0), (Z.eqb _ 0); lra.
  - intros o Ho. rewrite !Sum_S, Sum_0. unfold misread, pr0_like. destruct (Z.eqb (Z.of_nat o) 0); cbn; ring.
  - intros o Ho. unfold coin_like, pr0_like. destruct (Z.eqb _ 0); lra.
  - intros o' _. rewrite !Sum_S, Sum_0. unfold misread, noisy_like, coin_like, pr0_like. cbn [Z.of_nat Z.eqb]. destruct (Z.eqb (Z.of_nat o') 0); ring.
  - intros _ o' t _ _. rewrite !Sum_S, Sum_0. unfold misread, noisy_like, coin_like, pr0_like. cbn [Z.of_nat Z.eqb]. destruct (Z.eqb (Z.of_nat o') 0); ring.
  - intros i o _ Ho. destruct o as [|[|o]]; [| |lia]; apply Lin with (a := 1/2); intros t; unfold coin_like, pr0_like, s; cbn; field.
  - intros i o _ Ho. destruct o as [|[|o]]; [| |lia]; [apply Lin with (a := 11/20)|apply Lin with (a := 9/20)]; intros t; unfold noisy_like, pr0_like, s'; cbn; field.
Qed.
(** One shot against three, on the coin of C103. *)
Example c162_one_or_three : expected_posterior_loss (ex_config ex_count) [1] ex_state [0; 1; 2; 3]%nat (tt, 3%nat) <= expected_posterior_loss (ex_config ex_count) [1] ex_state [0; 1]%nat (tt, 1%nat).
Proof.
  apply (c162_more_shots (ex_config ex_count) ex_shot [1] ex_state tt 1 3); try lia; try (repeat constructor; lra).
  intros k n x _ _. unfold binomial_like, no_nan, table, binomial_pdf, scipy_binom_pmf. cbn [map fst snd ex_config md lik]. unfold ex_shot. cbn [Z.eqb Pos.eqb]. pose proof (bias_range x). rewrite !Rleb_true by lra. reflexivity.
Qed.
Print Assumptions c162_risk_never_improves.
Print Assumptions c162_information_never_grows.
Print Assumptions c162_computed_risks.
Print Assumptions c162_computed_information.
Print Assumptions c162_noisy_coin.
Print Assumptions c162_fisher.
Print Assumptions c162_more_shots.
Print Assumptions c162_parameter_dependent_noise_refuted.
