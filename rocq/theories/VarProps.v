(** C111: the recorded normalizations are an honest score.  The updater's total log-likelihood is at least that of any of its
    particles up to the logarithm of the particle's prior weight, and it is the largest value of "average log-likelihood minus
    relative entropy from the prior", attained by the posterior weights alone. *)
From Verif Require Import Base RList Ext Sums SmcModel SmcSpec SmcProofs CountProofs CountProps LearnSpec LearnProofs.
From Coq Require Import List.

Lemma Sum_ge_term' n f i : (forall j, (j < n)%nat -> 0 <= f j) -> (i < n)%nat -> f i <= Sum n f.
Proof.
  revert f i; induction n as [|n IH]; intros f i Hf Hi; [lia|]. rewrite Sum_S. destruct i as [|i].
  - assert (0 <= Sum n (fun j => f (S j))) by (apply Sum_nonneg; intros; apply Hf; lia). lra.
  - specialize (IH (fun j => f (S j)) i (fun j Hj => Hf (S j) ltac:(lia)) ltac:(lia)). pose proof (Hf 0%nat ltac:(lia)). cbn beta in IH. lra.
Qed.

Section Var.
Context {O E RND : Type}.
Implicit Types (c : @config O E RND) (s : @state O).

(** Candidate weights [q] for the particles of [s], given the data: a probability distribution on particles that had prior weight
    and could have produced the data. *)
Definition candidate c (rs : nat -> RND) s data (q : nat -> R) : Prop :=
  (forall i, (i < n_particles s)%nat -> 0 <= q i) /\ Sum (n_particles s) q = 1 /\
  (forall i, (i < n_particles s)%nat -> 0 < q i -> 0 < wt s i /\ 0 < path_lik c rs 0 data (ls s) i).
(** Average log-likelihood of the data minus the relative entropy of [q] from the prior weights. *)
Definition score_of c (rs : nat -> RND) s data (q : nat -> R) : R :=
  Sum (n_particles s) (fun i => q i * ln (path_lik c rs 0 data (ls s) i)) - Sum (n_particles s) (fun i => q i * (ln (q i) - ln (wt s i))).

Lemma total_is_prediction c rs s data : good_config c -> zthresh c < 1 -> full_inv s -> nrec s = [] -> regular c rs 0 data s ->
  log_total_likelihood (run c s (updates rs 0 data)) = Fin (ln (predictive c rs s data)) /\ 0 < predictive c rs s data.
Proof.
  intros G Ht Hinv H0 Hr. destruct (run_regular c rs G Ht data 0%nat s Hinv Hr) as (_ & _ & Ns & H3 & H4 & _).
  destruct (predictive_recorded c rs s data G Ht Hinv Hr) as (Ns' & P1 & P2 & P3 & _).
  rewrite H0 in *. cbn [app] in *. rewrite H3 in P1. subst Ns'. rewrite <- P2.
  split; [|exact P3]. rewrite log_total_exp by (rewrite H3; exact H4). now rewrite H3.
Qed.

Lemma term0 q p : 0 <= q -> 0 <= p -> (0 < q -> 0 < p) -> q - p <= q * (ln q - ln p) /\ (q <> p -> q - p < q * (ln q - ln p)).
Proof.
  intros Hq Hp H. destruct (Req_dec q 0) as [->|Hn].
  - rewrite Rmult_0_l. split; [lra|]. intros. lra.
  - assert (Q : 0 < q) by lra. specialize (H Q). split; [now apply term_gibbs|]. now apply term_gibbs_strict.
Qed.

Lemma score_gap c rs s data q : good_config c -> zthresh c < 1 -> full_inv s -> regular c rs 0 data s -> candidate c rs s data q -> 0 < predictive c rs s data ->
  let p := wt (run c s (updates rs 0 data)) in
  score_of c rs s data q = ln (predictive c rs s data) - Sum (n_particles s) (fun i => q i * (ln (q i) - ln (p i))).
Proof.
  intros G Ht Hinv Hr (Q1 & Q2 & Q3) HP p. destruct (predictive_recorded c rs s data G Ht Hinv Hr) as (_ & _ & _ & _ & HB).
  unfold score_of. rewrite <- (Rmult_1_r (ln _)), <- Q2, <- Sum_scal, <- !Sum_minus. apply Sum_ext. intros i Hi.
  destruct (Req_dec (q i) 0) as [->|Hn]; [ring|]. assert (Hq : 0 < q i) by (specialize (Q1 i Hi); lra). destruct (Q3 i Hi Hq) as [Hw HLi].
  specialize (HB i Hi). fold p in HB.
  assert (Hp : 0 < p i). { apply Rmult_lt_reg_l with (predictive c rs s data); [exact HP|]. rewrite Rmult_0_r, HB. now apply Rmult_lt_0_compat. }
  assert (L : ln (predictive c rs s data) + ln (p i) = ln (wt s i) + ln (path_lik c rs 0 data (ls s) i)) by (rewrite <- !ln_mult by assumption; now f_equal).
  replace (ln (predictive c rs s data)) with (ln (wt s i) + ln (path_lik c rs 0 data (ls s) i) - ln (p i)) by lra. ring.
Qed.

Lemma post_candidate c rs s data : good_config c -> zthresh c < 1 -> full_inv s -> regular c rs 0 data s -> 0 < predictive c rs s data ->
  let p := wt (run c s (updates rs 0 data)) in candidate c rs s data p /\
  (forall i, (i < n_particles s)%nat -> 0 < wt s i -> 0 < path_lik c rs 0 data (ls s) i -> 0 < p i).
Proof.
  intros G Ht Hinv Hr HP p. destruct (run_regular c rs G Ht data 0%nat s Hinv Hr) as (H1 & H2 & _).
  destruct (predictive_recorded c rs s data G Ht Hinv Hr) as (_ & _ & _ & _ & HB). split; [split; [|split]|].
  - intros i _. apply (wt_range _ i H1).
  - unfold p. rewrite <- H2. now apply full_inv_Sum.
  - intros i Hi Hp. specialize (HB i Hi). fold p in HB. assert (X : 0 < wt s i * path_lik c rs 0 data (ls s) i) by (rewrite <- HB; now apply Rmult_lt_0_compat).
    pose proof (wt_range s i Hinv) as [W _]. pose proof (path_nonneg c rs data G 0%nat (ls s) i) as Pn.
    split; [destruct W as [W|W]; [exact W|rewrite <- W in X; lra]|destruct Pn as [Pn|Pn]; [exact Pn|rewrite <- Pn in X; lra]].
  - intros i Hi Hw HLi. specialize (HB i Hi). fold p in HB. apply Rmult_lt_reg_l with (predictive c rs s data); [exact HP|]. rewrite Rmult_0_r, HB. now apply Rmult_lt_0_compat.
Qed.

(** No particle explains the data better than the updater, up to the logarithm of its prior weight. *)
Theorem c111_best_particle c rs s data t :
  good_config c -> zthresh c < 1 -> full_inv s -> nrec s = [] -> regular c rs 0 data s ->
  (t < n_particles s)%nat -> 0 < wt s t -> 0 < path_lik c rs 0 data (ls s) t ->
  exists T, log_total_likelihood (run c s (updates rs 0 data)) = Fin T /\ ln (path_lik c rs 0 data (ls s) t) - ln (/ wt s t) <= T.
Proof.
  intros G Ht Hinv H0 Hr Hlt Hw HL. destruct (total_is_prediction c rs s data G Ht Hinv H0 Hr) as [HT HP]. eexists. split; [exact HT|].
  rewrite ln_Rinv by assumption. replace (ln _ - - ln (wt s t)) with (ln (wt s t) + ln (path_lik c rs 0 data (ls s) t)) by ring. rewrite <- ln_mult by assumption.
  assert (X : wt s t * path_lik c rs 0 data (ls s) t <= predictive c rs s data).
  { unfold predictive. apply (Sum_ge_term' (n_particles s) (fun i => wt s i * path_lik c rs 0 data (ls s) i) t); [|exact Hlt].
    intros i _. apply Rmult_le_pos; [apply (wt_range s i Hinv)|now apply path_nonneg]. }
  destruct X as [X|X]; [left; apply ln_increasing; [now apply Rmult_lt_0_compat|exact X]|right; now f_equal].
Qed.
(** No candidate weighting scores higher than the recorded total, *)
Theorem c111_total_is_the_best_score c rs s data q :
  good_config c -> zthresh c < 1 -> full_inv s -> nrec s = [] -> regular c rs 0 data s -> candidate c rs s data q ->
  exists T, log_total_likelihood (run c s (updates rs 0 data)) = Fin T /\ score_of c rs s data q <= T.
Proof.
  intros G Ht Hinv H0 Hr HQ. destruct (total_is_prediction c rs s data G Ht Hinv H0 Hr) as [HT HP]. eexists. split; [exact HT|].
  rewrite (score_gap c rs s data q G Ht Hinv Hr HQ HP). destruct (post_candidate c rs s data G Ht Hinv Hr HP) as [(P1 & P2 & _) P3].
  destruct HQ as (Q1 & Q2 & Q3). set (p := wt (run c s (updates rs 0 data))) in *.
  assert (Z : 0 <= Sum (n_particles s) (fun i => q i * (ln (q i) - ln (p i)))); [|lra].
  replace 0 with (Sum (n_particles s) (fun i => q i - p i)) by (rewrite Sum_minus; change (fun i => p i) with p; change (fun i => q i) with q; lra).
  apply Sum_le. intros i Hi. apply term0; [auto|auto|]. intros Hq. destruct (Q3 i Hi Hq). auto.
Qed.
(** the posterior weights score exactly the recorded total, *)
Theorem c111_posterior_attains_it c rs s data :
  good_config c -> zthresh c < 1 -> full_inv s -> nrec s = [] -> regular c rs 0 data s ->
  candidate c rs s data (wt (run c s (updates rs 0 data))) /\
  log_total_likelihood (run c s (updates rs 0 data)) = Fin (score_of c rs s data (wt (run c s (updates rs 0 data)))).
Proof.
  intros G Ht Hinv H0 Hr. destruct (total_is_prediction c rs s data G Ht Hinv H0 Hr) as [HT HP]. destruct (post_candidate c rs s data G Ht Hinv Hr HP) as [C _].
  split; [exact C|]. rewrite HT, (score_gap c rs s data _ G Ht Hinv Hr C HP). f_equal. rewrite Sum_zero; [ring|]. intros; ring.
Qed.
(** and no other weights do. *)
Theorem c111_only_the_posterior_attains_it c rs s data q :
  good_config c -> zthresh c < 1 -> full_inv s -> nrec s = [] -> regular c rs 0 data s -> candidate c rs s data q ->
  log_total_likelihood (run c s (updates rs 0 data)) = Fin (score_of c rs s data q) ->
  forall i, (i < n_particles s)%nat -> q i = wt (run c s (updates rs 0 data)) i.
Proof.
  intros G Ht Hinv H0 Hr HQ HE i Hi. destruct (total_is_prediction c rs s data G Ht Hinv H0 Hr) as [HT HP]. rewrite HT in HE. injection HE as HE.
  rewrite (score_gap c rs s data q G Ht Hinv Hr HQ HP) in HE. destruct (post_candidate c rs s data G Ht Hinv Hr HP) as [(P1 & P2 & _) P3].
  destruct HQ as (Q1 & Q2 & Q3). set (p := wt (run c s (updates rs 0 data))) in *.
  set (f := fun i => q i * (ln (q i) - ln (p i)) - (q i - p i)).
  assert (T : forall k, (k < n_particles s)%nat -> q k - p k <= q k * (ln (q k) - ln (p k)) /\ (q k <> p k -> q k - p k < q k * (ln (q k) - ln (p k)))).
  { intros k Hk. apply term0; [auto|auto|]. intros Hq. destruct (Q3 k Hk Hq). auto. }
  assert (Z : Sum (n_particles s) f = 0) by (unfold f; rewrite !Sum_minus; change (fun i => p i) with p; change (fun i => q i) with q; lra).
  assert (Zi : f i = 0) by (apply (Sum_zero_each (n_particles s) f); [intros k Hk; unfold f; destruct (T k Hk); lra|exact Z|exact Hi]).
  destruct (Req_dec (q i) (p i)) as [Y|Y]; [exact Y|]. destruct (T i Hi) as [_ S']. specialize (S' Y). unfold f in Zi. lra.
Qed.
End Var.

(** The coin of CountProps: after any tosses the updater's score is within ln 2 of that of the better of its two candidate biases. *)
Example c111_example tosses :
  exists T, log_total_likelihood (run (ex_config ex_shot) ex_state (updates (fun _ => tt) 0 tosses)) = Fin T /\
    forall t, (t < 2)%nat -> ln (path_lik (ex_config ex_shot) (fun _ => tt) 0 tosses [[0]; [1]] t) - ln 2 <= T.
Proof.
  assert (B1 : forall o x e, 1/4 <= ex_shot o x e) by (intros o x e; unfold ex_shot; pose proof (bias_range x); destruct (Z.eqb o 1); lra).
  assert (Ep : eps <= 1/32). { unfold eps. replace (1/32) with (/ 2 ^ 5) by lra. apply Rinv_le_contravar; [apply pow_lt; lra|]. apply Rle_pow; [lra|lia]. }
  assert (G1 : good_config (ex_config ex_shot)) by (apply ex_good; intros; specialize (B1 o x e); lra).
  assert (F : full_inv (@ex_state Z)) by (split; [reflexivity|split; [repeat constructor; lra|cbn; rewrite !rsum_cons, rsum_nil; lra]]).
  assert (Rg : regular (ex_config ex_shot) (fun _ => tt) 0 tosses ex_state).
  { apply regular_bounded; [assumption|cbn; lra| |assumption]. intros o e x _. cbn. specialize (B1 o x e). lra. }
  assert (Pp : forall tosses idx l t, 0 < path_lik (ex_config ex_shot) (fun _ => tt) idx tosses l t).
  { clear. induction tosses as [|[o e] tosses IH]; intros idx l t; cbn [path_lik]; [lra|]. apply Rmult_lt_0_compat; [|apply IH].
    cbn. unfold ex_shot. pose proof (bias_range (nth t l [])). destruct (Z.eqb o 1); lra. }
  destruct (total_is_prediction (ex_config ex_shot) (fun _ => tt) ex_state tosses G1 ltac:(cbn; lra) F eq_refl Rg) as [HT _]. eexists. split; [exact HT|].
  intros t Hlt. destruct (c111_best_particle (ex_config ex_shot) (fun _ => tt) ex_state tosses t G1 ltac:(cbn; lra) F eq_refl Rg Hlt) as (T & HT' & HB).
  - destruct t as [|[|t]]; [cbn; lra|cbn; lra|lia].
  - apply Pp.
  - rewrite HT in HT'. injection HT' as HT'. rewrite HT'. assert (W : wt (@ex_state Z) t = /2) by (destruct t as [|[|t]]; [cbn; lra|cbn; lra|lia]).
    rewrite W, Rinv_inv in HB. exact HB.
Qed.
Print Assumptions c111_best_particle.
Print Assumptions c111_total_is_the_best_score.
Print Assumptions c111_posterior_attains_it.
Print Assumptions c111_only_the_posterior_attains_it.
