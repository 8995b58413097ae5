(** C151: the Bayesian information bounds the mean squared error (van Trees) *)
From Coq Require Import Lra Lia.
From Coquelicot Require Import Coquelicot.
From Verif Require Import Base RList Ext Sums TwoModel TwoProofs TwoProps SmcModel SmcSpec SmcProofs MiscModel MiscSpec MiscProps LinAlg LinProofs CrSpec CrProps VtSpec.
From Coq Require Import List.
Open Scope R_scope.

Section Trees.
Context {E : Type}.
Variable nout : E -> nat.
Variables (L : E -> nat -> R -> R) (score : R -> E -> nat -> nat -> R).
Variables (a b : R).
Notation good := (smooth_model nout L score a b).
Notation expected := (expected nout L).

Lemma moved_expected x p : forall T t, CrSpec.expected nout (moved L x) p T t = expected p T (x + t).
Proof. induction p as [|e k IH]; intros T t; cbn; [reflexivity|]. apply Sum_ext. intros o _. now rewrite IH. Qed.
Lemma moved_honest x p : a <= x <= b -> always nout good p -> always nout (honest nout (moved L x) 1 (fun _ => 1) (score x)) p.
Proof.
  intros Hx. induction p as [|e k IH]; intros A; [exact I|]. destruct A as [(A1 & A2) A3]. split; [|intros o Ho; now apply IH, A3]. split; [|split].
  - intros o Ho. unfold moved. rewrite Rplus_0_r. left. now apply A2.
  - intros t. apply A1.
  - intros o Ho. unfold moved at 2. rewrite Rplus_0_r. rewrite Sum_S, Sum_0, Rplus_0_r, Rmult_1_l. apply is_derive_Reals. destruct (A2 o x Ho Hx) as (_ & D & _). unfold moved.
    evar_last; [apply (is_derive_comp (L e o) (fun t => x + t)); [rewrite Rplus_0_r; exact D|auto_derive; [exact I|reflexivity]]|]. unfold scal. cbn. unfold mult. cbn. ring.
Qed.
(** Outcomes that the plan can see *)
Fixpoint follows (p : plan E) (h : list nat) : Prop := match p with Stop => h = [] | Ask e k => match h with [] => False | o :: h => (o < nout e)%nat /\ follows (k o) h end end.
Lemma Sum_continuous n x : forall f : nat -> R -> R, (forall o, (o < n)%nat -> continuous (f o) x) -> continuous (fun y => Sum n (fun o => f o y)) x.
Proof.
  induction n as [|n IH]; intros f H; [apply (continuous_ext (fun _ => 0)); [reflexivity|apply continuous_const]|].
  apply (continuous_ext (fun y => plus (f 0%nat y) (Sum n (fun o => f (S o) y)))); [intros y; symmetry; exact (Sum_S n (fun o => f o y))|]. apply (continuous_plus (f 0%nat)); [apply H; lia|]. apply (IH (fun o => f (S o))). intros o Ho. apply H. lia.
Qed.
Lemma expected_continuous x p : a <= x <= b -> always nout good p -> forall F : R -> list nat -> R, (forall h, follows p h -> continuous (fun y => F y h) x) -> continuous (fun y => expected p (F y) y) x.
Proof.
  intros Hx. induction p as [|e k IH]; intros A F H; cbn [CrSpec.expected]; [apply H; reflexivity|]. destruct A as [(_ & A2) A3]. apply (Sum_continuous (nout e) x (fun o y => L e o y * expected (k o) (fun h => F y (o :: h)) y)). intros o Ho.
  apply (continuous_mult (L e o) (fun y => expected (k o) (fun h => F y (o :: h)) y)); [apply (ex_derive_continuous (L e o)); eexists; apply (A2 o x Ho Hx)|]. apply (IH o (A3 o Ho) (fun y h => F y (o :: h))). intros h Hh. apply H. split; assumption.
Qed.
Notation pscore x := (path_score 1 (fun _ => 1) (score x)).
Lemma path_score_continuous x p : a <= x <= b -> always nout good p -> forall h, follows p h -> continuous (fun y => pscore y p h) x.
Proof.
  intros Hx. induction p as [|e k IH]; intros A h Hh; [apply (continuous_ext (fun _ => 0)); [reflexivity|apply continuous_const]|]. destruct A as [(_ & A2) A3]. destruct h as [|o h]; [destruct Hh|]. destruct Hh as [Ho Hh].
  apply (continuous_ext (fun y => plus (score y e 0%nat o) (pscore y (k o) h))); [intros y; cbn [path_score]; unfold sdir; rewrite Sum_S, Sum_0; unfold plus; cbn; ring|]. apply (continuous_plus (fun y => score y e 0%nat o)); [now apply A2|now apply IH; [apply A3|]].
Qed.

Variables (f f' g : R -> R).
Hypothesis prior : smooth_density a b f f' g.
Variables (p : plan E) (T : list nat -> R).
Hypothesis HA : always nout good p.
Let dE x := expected p (fun h => T h * pscore x p h) x.
Let ESS x := expected p (fun h => pscore x p h ^ 2) x.
Lemma E_derive x : a <= x <= b -> is_derive (expected p T) x (dE x).
Proof.
  intros Hx. pose proof (expected_deriv nout (moved L x) 1 (fun _ => 1) (score x) p (moved_honest x p Hx HA) T) as D. rewrite moved_expected, Rplus_0_r in D.
  apply is_derive_Reals in D. assert (D' : is_derive (fun y => CrSpec.expected nout (moved L x) p T (y - x)) x (dE x)).
  { evar_last; [apply (is_derive_comp (CrSpec.expected nout (moved L x) p T) (fun y => y - x)); [rewrite Rminus_diag_eq by reflexivity; exact D|auto_derive; [exact I|reflexivity]]|]. unfold scal. cbn. unfold mult. cbn. unfold dE. ring. }
  eapply is_derive_ext; [|exact D']. intros t. cbv beta. rewrite moved_expected. f_equal. ring.
Qed.
Lemma zero_score x : a <= x <= b -> expected p (pscore x p) x = 0.
Proof. intros Hx. pose proof (score_zero nout (moved L x) 1 (fun _ => 1) (score x) p (moved_honest x p Hx HA)) as Z0. now rewrite moved_expected, Rplus_0_r in Z0. Qed.
Lemma info_score x : a <= x <= b -> information_at nout L score p x = ESS x.
Proof. intros Hx. unfold information_at. rewrite <- (score_sq nout (moved L x) 1 (fun _ => 1) (score x) p (moved_honest x p Hx HA)). now rewrite moved_expected, Rplus_0_r. Qed.
Lemma const_x x c : a <= x <= b -> expected p (fun _ => c) x = c.
Proof. intros Hx. pose proof (expected_const nout (moved L x) 1 (fun _ => 1) (score x) p (moved_honest x p Hx HA) c 0) as Z0. now rewrite moved_expected, Rplus_0_r in Z0. Qed.
Lemma nonneg_x x F : a <= x <= b -> (forall h, 0 <= F h) -> 0 <= expected p F x.
Proof. intros Hx HF. pose proof (expected_nonneg nout (moved L x) 1 (fun _ => 1) (score x) p (moved_honest x p Hx HA) F HF) as Z0. now rewrite moved_expected, Rplus_0_r in Z0. Qed.

(** Any density, not necessarily vanishing at the ends of the interval *)
Theorem c151_interval : (RInt f a b + (f b * (expected p T b - b) - f a * (expected p T a - a))) ^ 2 <= RInt (fun x => f x * squared_error nout L p T x) a b * (RInt (fun x => f x * g x ^ 2) a b + RInt (fun x => f x * information_at nout L score p x) a b).
Proof.
  destruct prior as (Hab & Hf & Hd & Hg & Hi).
  assert (Cf : forall x, a <= x <= b -> continuous f x) by (intros x Hx; apply (ex_derive_continuous f); eexists; apply (Hd x Hx)).
  assert (CE : forall x, a <= x <= b -> continuous (expected p T) x) by (intros x Hx; apply (ex_derive_continuous (expected p T)); eexists; apply (E_derive x Hx)).
  set (A := fun x => f x * squared_error nout L p T x). set (C1 := fun x => f x * g x ^ 2). set (C2 := fun x => f x * information_at nout L score p x).
  set (G := fun x => f x * (expected p T x - x)). set (dG := fun x => f' x * (expected p T x - x) + f x * (dE x - 1)).
  assert (DG : forall x, a <= x <= b -> is_derive G x (dG x)).
  { intros x Hx. unfold G, dG. apply (is_derive_mult f (fun x => expected p T x - x)); [apply (Hd x Hx)| |intros; apply Rmult_comm]. apply (is_derive_minus (expected p T) (fun x => x)); [now apply E_derive|apply is_derive_Reals, derivable_pt_lim_id]. }
  assert (CdG : forall x, a <= x <= b -> continuous dG x).
  { intros x Hx. unfold dG. apply (continuous_plus (fun x => f' x * (expected p T x - x)) (fun x => f x * (dE x - 1))).
    - apply (continuous_mult f' (fun x => expected p T x - x)); [apply (Hd x Hx)|]. apply (continuous_minus (expected p T) (fun x => x)); [now apply CE|apply continuous_id].
    - apply (continuous_mult f (fun x => dE x - 1)); [now apply Cf|]. apply (continuous_minus dE (fun _ => 1)); [|apply continuous_const]. apply (expected_continuous x p Hx HA (fun x h => T h * pscore x p h)). intros h Hh. apply (continuous_mult (fun _ => T h) (fun y => pscore y p h)); [apply continuous_const|now apply path_score_continuous]. }
  assert (IG : is_RInt dG a b (G b - G a)).
  { assert (X : is_RInt dG a b (minus (G b) (G a))) by (apply (is_RInt_derive (V := R_CompleteNormedModule)); intros x Hx; rewrite Rmin_left, Rmax_right in Hx by lra; [now apply DG|now apply CdG]).
    exact X. }
  assert (If : is_RInt f a b (RInt f a b)). { apply (RInt_correct (V := R_CompleteNormedModule)), (ex_RInt_continuous (V := R_CompleteNormedModule)). intros x Hx. rewrite Rmin_left, Rmax_right in Hx by lra. now apply Cf. }
  assert (IA : is_RInt A a b (RInt A a b)).
  { apply (RInt_correct (V := R_CompleteNormedModule)), (ex_RInt_continuous (V := R_CompleteNormedModule)). intros x Hx. rewrite Rmin_left, Rmax_right in Hx by lra. unfold A, squared_error. apply (continuous_mult f); [now apply Cf|]. apply (expected_continuous x p Hx HA (fun x h => (T h - x) ^ 2)). intros h _. apply (ex_derive_continuous (fun y => (T h - y) ^ 2)). auto_derive. exact I. }
  assert (IC1 : is_RInt C1 a b (RInt C1 a b)) by now apply (RInt_correct (V := R_CompleteNormedModule)).
  assert (IC2 : is_RInt C2 a b (RInt C2 a b)).
  { apply (RInt_correct (V := R_CompleteNormedModule)). apply (ex_RInt_ext (fun x => f x * ESS x)); [intros x Hx; rewrite Rmin_left, Rmax_right in Hx by lra; unfold C2; rewrite info_score by lra; reflexivity|]. apply (ex_RInt_continuous (V := R_CompleteNormedModule)). intros x Hx. rewrite Rmin_left, Rmax_right in Hx by lra.
    apply (continuous_mult f); [now apply Cf|]. apply (expected_continuous x p Hx HA (fun x h => pscore x p h ^ 2)). intros h Hh. apply (continuous_comp (fun y => pscore y p h) (fun z => z ^ 2)); [now apply path_score_continuous|]. apply (ex_derive_continuous (fun z => z ^ 2)). auto_derive. exact I. }
  set (VA := RInt A a b) in *. set (V1 := RInt C1 a b) in *. set (V2 := RInt C2 a b) in *.
  assert (P : forall h1, is_RInt h1 a b (RInt h1 a b) -> (forall x, a < x < b -> 0 <= h1 x) -> 0 <= RInt h1 a b) by (intros h1 HI HP; apply RInt_ge_0; [lra|eexists; exact HI|exact HP]).
  assert (PA : 0 <= VA). { apply P; [exact IA|]. intros x Hx. apply Rmult_le_pos; [apply Hf; lra|]. apply nonneg_x; [lra|]. intros; apply pow2_ge_0. }
  assert (P1 : 0 <= V1). { apply P; [exact IC1|]. intros x Hx. apply Rmult_le_pos; [apply Hf; lra|apply pow2_ge_0]. }
  assert (P2 : 0 <= V2). { apply P; [exact IC2|]. intros x Hx. apply Rmult_le_pos; [apply Hf; lra|]. rewrite info_score by lra. apply nonneg_x; [lra|]. intros; apply pow2_ge_0. }
  change (f b * (expected p T b - b)) with (G b). change (f a * (expected p T a - a)) with (G a). apply quadratic; [exact PA|lra|]. intros l.
  set (Q := fun x => A x + (2 * l * (f x + dG x) + l ^ 2 * (C1 x + C2 x))).
  assert (IQ : is_RInt Q a b (VA + (2 * l * (RInt f a b + (G b - G a)) + l ^ 2 * (V1 + V2)))).
  { apply (is_RInt_plus A); [exact IA|]. apply (is_RInt_plus (fun x => 2 * l * (f x + dG x)) (fun x => l ^ 2 * (C1 x + C2 x))).
    - apply (is_RInt_scal (fun x => f x + dG x)). apply (is_RInt_plus f dG); assumption.
    - apply (is_RInt_scal (fun x => C1 x + C2 x)). apply (is_RInt_plus C1 C2); assumption. }
  replace (VA + 2 * (RInt f a b + (G b - G a)) * l + (V1 + V2) * l ^ 2) with (VA + (2 * l * (RInt f a b + (G b - G a)) + l ^ 2 * (V1 + V2))) by ring. rewrite <- (is_RInt_unique _ _ _ _ IQ). apply RInt_ge_0; [lra|eexists; exact IQ|].
  intros x Hx. assert (Hx' : a <= x <= b) by lra. replace (Q x) with (f x * expected p (fun h => (T h - x + l * (pscore x p h + g x)) ^ 2) x); [apply Rmult_le_pos; [apply Hf; lra|apply nonneg_x; [lra|intros; apply pow2_ge_0]]|].
  rewrite (expected_ext nout L p (fun h => (T h - x + l * (pscore x p h + g x)) ^ 2) (fun h => (T h - x) ^ 2 + (2 * l * (T h * pscore x p h) + ((l ^ 2 * (2 * g x) - 2 * l * x) * pscore x p h + (2 * l * g x * T h + (l ^ 2 * pscore x p h ^ 2 + (l ^ 2 * g x ^ 2 - 2 * l * g x * x))))))) by (intros; ring).
  rewrite !expected_plus, !expected_scal, zero_score, const_x by assumption. unfold Q, A, dG, C1, C2, squared_error. rewrite info_score, Hg by assumption. fold (dE x). fold (ESS x). ring.
Qed.
(** A fixed list of experiments: the information is the integral of what fisher_information reports. *)
Lemma script_info es x : a <= x <= b -> always nout good (script es) -> information_at nout L score (script es) x = rsum (map (fun e => fisher (nout e) (fun o => L e o x) (score x e) 0 0) es).
Proof.
  intros Hx A. unfold information_at. rewrite c150_script by now apply moved_honest. apply rsum_map_ext. intros e _. unfold dir_info. rewrite !Sum_S, !Sum_0. unfold fisher. rewrite Rplus_0_r, Rmult_1_l, Rmult_1_r, Rplus_0_r. apply rsum_map_ext. intros o _. unfold moved. now rewrite Rplus_0_r.
Qed.
Lemma fisher_integrable e : a < b -> (forall x, a <= x <= b -> continuous f x) -> good e -> ex_RInt (fun x => f x * fisher (nout e) (fun o => L e o x) (score x e) 0 0) a b.
Proof.
  intros Hab Cf (_ & H). apply (ex_RInt_continuous (V := R_CompleteNormedModule)). intros x Hx. rewrite Rmin_left, Rmax_right in Hx by lra. apply (continuous_mult f); [now apply Cf|].
  apply (continuous_ext (fun x => Sum (nout e) (fun o => L e o x * score x e 0%nat o * score x e 0%nat o))); [intros y; unfold fisher; now rewrite Sum_rsum|]. apply (Sum_continuous (nout e) x (fun o x => L e o x * score x e 0%nat o * score x e 0%nat o)).
  intros o Ho. destruct (H o x Ho Hx) as (_ & D & C). apply (continuous_mult (fun x => L e o x * score x e 0%nat o)); [|exact C]. apply (continuous_mult (L e o)); [apply (ex_derive_continuous (L e o)); eexists; exact D|exact C].
Qed.
End Trees.

Theorem c151_bound {E} nout (L : E -> nat -> R -> R) score a b f f' g p T : smooth_prior a b f f' g -> always nout (smooth_model nout L score a b) p ->
  1 <= RInt (fun x => f x * squared_error nout L p T x) a b * (RInt (fun x => f x * g x ^ 2) a b + RInt (fun x => f x * information_at nout L score p x) a b).
Proof.
  intros (H & Ha & Hb & H1) A. assert (X := c151_interval nout L score a b f f' g H p T A). rewrite Ha, Hb, H1 in X. replace ((1 + (0 * (expected nout L p T b - b) - 0 * (expected nout L p T a - a))) ^ 2) with 1 in X by ring. exact X.
Qed.
Theorem c151_script {E} nout (L : E -> nat -> R -> R) score a b f f' g es T : smooth_prior a b f f' g -> Forall (smooth_model nout L score a b) es ->
  1 <= RInt (fun x => f x * squared_error nout L (script es) T x) a b *
       (RInt (fun x => f x * g x ^ 2) a b + rsum (map (fun e => RInt (fun x => f x * fisher (nout e) (fun o => L e o x) (score x e) 0 0) a b) es)).
Proof.
  intros H F. assert (A : always nout (smooth_model nout L score a b) (script es)) by (clear -F; induction F as [|e es He F IH]; [exact I|split; [exact He|intros _ _; exact IH]]). assert (X := c151_bound nout L score a b f f' g (script es) T H A). destruct H as ((Hab & _ & Hd & _) & _).
  assert (Cf : forall x, a <= x <= b -> continuous f x) by (intros x Hx; apply (ex_derive_continuous f); eexists; apply (Hd x Hx)).
  replace (rsum (map (fun e => RInt (fun x => f x * fisher (nout e) (fun o => L e o x) (score x e) 0 0) a b) es)) with (RInt (fun x => f x * information_at nout L score (script es) x) a b); [exact X|]. clear X.
  transitivity (RInt (fun x => rsum (map (fun e => f x * fisher (nout e) (fun o => L e o x) (score x e) 0 0) es)) a b).
  - apply RInt_ext. intros x Hx. rewrite Rmin_left, Rmax_right in Hx by lra. rewrite (script_info nout L score a b) by (try assumption; lra). now rewrite <- rsum_map_scal.
  - apply is_RInt_unique. clear A. induction F as [|e es He F IH]; cbn [map].
    + apply (is_RInt_ext (fun _ => 0)); [reflexivity|]. assert (X : is_RInt (fun _ : R => 0) a b (scal (b - a) 0)) by apply (is_RInt_const (V := R_NormedModule)). replace (scal (b - a) 0) with 0 in X by (unfold scal; cbn; unfold mult; cbn; ring). exact X.
    + apply (is_RInt_ext (fun x => plus (f x * fisher (nout e) (fun o => L e o x) (score x e) 0 0) (rsum (map (fun e => f x * fisher (nout e) (fun o => L e o x) (score x e) 0 0) es)))); [reflexivity|].
      apply (is_RInt_plus (V := R_NormedModule)); [|exact IH]. apply (RInt_correct (V := R_CompleteNormedModule)). now apply (fisher_integrable nout L score).
Qed.

(** The number kept by SMCUpdaterBCRB (smc.py:1090-1241) for one parameter: if the averages over its samples of the prior are off by at most
    the given amounts, the error of every estimator of the outcomes is at least the inverse of what it reports, up to their sum. *)
Theorem c151_code {O E RND} nout (L : E -> nat -> R -> R) score a b f f' g (c : @config O E RND) (s : @state O) h next adaptive bc xs d0 d T :
  smooth_prior a b f f' g -> Forall (smooth_model nout L score a b) (map op_e xs) ->
  let info := fun (m : loc) e => fisher (nout e) (fun o => L e o (nth 0 m 0)) (score (nth 0 m 0) e) in
  bcrb_init true (fun m _ => g (nth 0 m 0)) s h next None adaptive = Ok bc ->
  Rabs (rsum (map (fun m => g (nth 0 m 0) ^ 2) (ls s)) / INR (length (ls s)) - RInt (fun x => f x * g x ^ 2) a b) <= d0 ->
  (forall st x, In (st, x) (combine (before c info bc xs) xs) ->
    Rabs (bim_uniform info (prior c (op_rp x) (length (ls st))) (op_e x) 0 0 - RInt (fun y => f y * fisher (nout (op_e x)) (fun o => L (op_e x) o y) (score y (op_e x)) 0 0) a b) <= d) ->
  1 <= RInt (fun x => f x * squared_error nout L (script (map op_e xs)) T x) a b * (current_bim (bcrb_run c info bc xs) 0 0 + (d0 + INR (length xs) * d)).
Proof.
  intros HP HF info Hi H0 Hd. pose proof (c69_construction true (fun m (_ : nat) => g (nth 0 m 0)) s h next None adaptive) as C. rewrite Hi in C. destruct C as (_ & Hs & _ & C & _); [discriminate|].
  assert (X := c151_script nout L score a b f f' g (map op_e xs) T HP HF). rewrite (c69_additive c info bc xs 0 0 Hs). rewrite C.
  set (MSE := RInt (fun x => f x * squared_error nout L (script (map op_e xs)) T x) a b) in *.
  assert (M0 : 0 <= MSE).
  { assert (A : always nout (smooth_model nout L score a b) (script (map op_e xs))) by (clear -HF; induction HF as [|e es He F IH]; [exact I|split; [exact He|intros _ _; exact IH]]). destruct HP as ((Hab & Hf & Hdf & _) & _). apply RInt_ge_0; [lra| |].
    - apply (ex_RInt_continuous (V := R_CompleteNormedModule)). intros x Hx. rewrite Rmin_left, Rmax_right in Hx by lra. unfold squared_error. apply (continuous_mult f); [apply (ex_derive_continuous f); eexists; apply (Hdf x Hx)|]. apply (expected_continuous nout L score a b x _ Hx A (fun x h => (T h - x) ^ 2)). intros h0 _. apply (ex_derive_continuous (fun y => (T h0 - y) ^ 2)). auto_derive. exact I.
    - intros x Hx. apply Rmult_le_pos; [apply Hf; lra|]. apply (nonneg_x nout L score a b); [exact A|lra|]. intros; apply pow2_ge_0. }
  eapply Rle_trans; [exact X|]. apply Rmult_le_compat_l; [exact M0|].
  assert (B0 : RInt (fun x => f x * g x ^ 2) a b <= rsum (map (fun m => g (nth 0 m 0) * g (nth 0 m 0)) (ls s)) / INR (length (ls s)) + d0).
  { rewrite (rsum_map_ext (fun m => g (nth 0 m 0) * g (nth 0 m 0)) (fun m => g (nth 0 m 0) ^ 2)) by (intros; ring). unfold Rabs in H0. destruct (Rcase_abs _) in H0; lra. }
  match goal with |- _ <= _ + ?z + _ => set (S1 := z) end.
  assert (B1 : rsum (map (fun e => RInt (fun x => f x * fisher (nout e) (fun o => L e o x) (score x e) 0 0) a b) (map op_e xs)) <= S1 + INR (length xs) * d); [|lra].
  unfold S1. clear -Hd. revert bc Hd. induction xs as [|x xs IH]; intros bc Hd; [change (0 <= 0 + 0 * d); lra|].
  cbn [map before map2]. rewrite !rsum_cons. cbn [length]. rewrite S_INR. assert (Y := Hd (b_smc bc) x (or_introl eq_refl)). unfold bim_uniform in Y.
  specialize (IH _ (fun st x' Hx' => Hd st x' (or_intror Hx'))). cbv zeta. unfold Rabs in Y. destruct (Rcase_abs _) in Y; lra.
Qed.

(** ** CoinModel *)
Definition coin_at (_ : unit) (o : nat) (x : R) : R := coin_like x (Z.of_nat o).
Definition coin_score_at (x : R) (_ : unit) (_ o : nat) : R := number (coin_score x (Z.of_nat o)).
Lemma coin_score_value x o : 0 < x < 1 -> (o < 2)%nat -> coin_score_at x tt 0 o = match o with O => / x | _ => - / (1 - x) end.
Proof. intros H Ho. unfold coin_score_at, coin_score, xdiv. rewrite !Reqb_false by lra. destruct o as [|[|o]]; [| |lia]; cbn; field; lra. Qed.
Lemma near x : 0 < x < 1 -> locally x (fun y => 0 < y < 1).
Proof.
  intros H. assert (P : 0 < Rmin x (1 - x)) by (apply Rmin_glb_lt; lra). exists (mkposreal _ P). intros y Hy. unfold ball in Hy. cbn in Hy. unfold AbsRing_ball, abs, minus, plus, opp in Hy. cbn in Hy. assert (M1 := Rmin_l x (1 - x)). assert (M2 := Rmin_r x (1 - x)). unfold Rabs in Hy. destruct (Rcase_abs _) in Hy; lra.
Qed.
Lemma coin_smooth a b : 0 < a -> b < 1 -> smooth_model (fun _ => 2%nat) coin_at coin_score_at a b tt.
Proof.
  intros Ha Hb. split; [intros x; rewrite !Sum_S, Sum_0; unfold coin_at, coin_like, pr0_like; cbn; ring|]. intros o x Ho Hx. assert (Hx' : 0 < x < 1) by lra. split; [|split].
  - destruct o as [|[|o]]; [| |lia]; unfold coin_at, coin_like, pr0_like; cbn; lra.
  - rewrite coin_score_value by (assumption || lia). destruct o as [|[|o]]; [| |lia]; unfold coin_at, coin_like, pr0_like; cbn; auto_derive; try exact I; field; lra.
  - apply (continuous_ext_loc (T := R_UniformSpace) (U := R_UniformSpace) (fun x => coin_score_at x tt 0 o) (fun y => match o with O => / y | _ => - / (1 - y) end)).
    + apply (filter_imp (fun y => 0 < y < 1)); [|now apply near]. intros y Hy. symmetry. now apply coin_score_value.
    + destruct o as [|o]; [apply (ex_derive_continuous (fun y => / y))|apply (ex_derive_continuous (fun y => - / (1 - y)))]; auto_derive; lra.
Qed.
(** Flipping a coin N times: no estimate from the counts beats the prior information plus N times the average of 1/(p(1-p)). *)
Theorem c151_coin a b f f' g N T : 0 < a -> b < 1 -> smooth_prior a b f f' g ->
  1 <= RInt (fun x => f x * squared_error (fun _ => 2%nat) coin_at (script (repeat tt N)) T x) a b * (RInt (fun x => f x * g x ^ 2) a b + INR N * RInt (fun x => f x / (x * (1 - x))) a b).
Proof.
  intros Ha Hb HP. assert (F : Forall (smooth_model (fun _ => 2%nat) coin_at coin_score_at a b) (repeat tt N)) by (apply Forall_forall; intros [] _; now apply coin_smooth).
  assert (X := c151_script _ _ _ a b f f' g (repeat tt N) T HP F). destruct HP as ((Hab & _) & _).
  assert (EI : RInt (fun x => f x * fisher 2 (fun o => coin_at tt o x) (coin_score_at x tt) 0 0) a b = RInt (fun x => f x / (x * (1 - x))) a b).
  { apply RInt_ext. intros x Hx. rewrite Rmin_left, Rmax_right in Hx by lra. unfold fisher. cbn [seq map]. rewrite !rsum_cons, rsum_nil, !coin_score_value by (lra || lia). unfold coin_at, coin_like, pr0_like. cbn. field. lra. }
  assert (ES : rsum (map (fun e => RInt (fun x => f x * fisher 2 (fun o => coin_at e o x) (coin_score_at x e) 0 0) a b) (repeat tt N)) = INR N * RInt (fun x => f x / (x * (1 - x))) a b).
  { clear -EI. induction N as [|N IH]; [change (0 = 0 * RInt (fun x => f x / (x * (1 - x))) a b); ring|]. cbn [repeat]. match goal with |- context [map ?F (tt :: repeat tt N)] => change (F tt + rsum (map F (repeat tt N)) = INR (S N) * RInt (fun x => f x / (x * (1 - x))) a b) end. rewrite IH, EI, S_INR. ring. }
  rewrite <- ES. exact X.
Qed.

(** ** Non-vacuity: the density 960 (x - 1/4)^2 (3/4 - x)^2 between 1/4 and 3/4; its information is 160. *)
Definition bump (x : R) : R := 960 * (x - 1/4) ^ 2 * (3/4 - x) ^ 2.
Definition bump' (x : R) : R := 1920 * (x - 1/4) * (3/4 - x) * (1 - 2 * x).
Definition bump_grad (x : R) : R := 2 / (x - 1/4) - 2 / (3/4 - x).
Lemma bump_info : is_RInt (fun x => bump x * bump_grad x ^ 2) (1/4) (3/4) 160.
Proof.
  apply (is_RInt_ext (fun x => 3840 * (1 - 2 * x) ^ 2)).
  - intros x Hx. rewrite Rmin_left, Rmax_right in Hx by lra. unfold bump, bump_grad. match goal with |- @eq _ ?u ?v => change (@eq R u v) end. field. lra.
  - assert (X : is_RInt (fun x => 3840 * (1 - 2 * x) ^ 2) (1/4) (3/4) (minus (-640 * (1 - 2 * (3/4)) ^ 3) (-640 * (1 - 2 * (1/4)) ^ 3))).
    { apply (is_RInt_derive (V := R_CompleteNormedModule) (fun x => -640 * (1 - 2 * x) ^ 3) (fun x => 3840 * (1 - 2 * x) ^ 2)); intros x _; [auto_derive; [exact I|ring]|apply (ex_derive_continuous (fun x => 3840 * (1 - 2 * x) ^ 2)); auto_derive; exact I]. }
    replace (minus (-640 * (1 - 2 * (3/4)) ^ 3) (-640 * (1 - 2 * (1/4)) ^ 3)) with 160 in X by (unfold minus, plus, opp; cbn; lra). exact X.
Qed.
Lemma bump_prior : smooth_prior (1/4) (3/4) bump bump' bump_grad.
Proof.
  split; [|split; [unfold bump; ring|split; [unfold bump; ring|]]].
  - split; [lra|]. split; [intros x Hx; unfold bump; apply Rmult_le_pos; [apply Rmult_le_pos; [lra|]|]; apply pow2_ge_0|]. split; [|split].
    + intros x Hx. split; [unfold bump, bump'; auto_derive; [exact I|field]|apply (ex_derive_continuous bump'); unfold bump'; auto_derive; exact I].
    + intros x Hx. unfold bump, bump', bump_grad. field. lra.
    + eexists. apply bump_info.
  - apply is_RInt_unique. set (F := fun x : R => 960 * ((x - 1/2) / 256 - (x - 1/2) ^ 3 / 24 + (x - 1/2) ^ 5 / 5)). assert (X : is_RInt bump (1/4) (3/4) (minus (F (3/4)) (F (1/4)))).
    { apply (is_RInt_derive (V := R_CompleteNormedModule) F bump); intros x _; [unfold F, bump; auto_derive; [exact I|field]|apply (ex_derive_continuous bump); unfold bump; auto_derive; exact I]. }
    replace (minus (F (3/4)) (F (1/4))) with 1 in X by (unfold F, minus, plus, opp; cbn; lra). exact X.
Qed.
Example ex_c151 N T : 1 <= RInt (fun x => bump x * squared_error (fun _ => 2%nat) coin_at (script (repeat tt N)) T x) (1/4) (3/4) * (160 + INR N * RInt (fun x => bump x / (x * (1 - x))) (1/4) (3/4)).
Proof. assert (X := c151_coin (1/4) (3/4) bump bump' bump_grad N T ltac:(lra) ltac:(lra) bump_prior). rewrite (is_RInt_unique _ _ _ _ bump_info) in X. exact X. Qed.
(** The BCRB updater on any two flips, with the errors of its samples as they are *)
Example ex_c151_code (c : @config bool unit unit) (s : @state bool) h next x1 x2 T : let info := fun (m : loc) (e : unit) => fisher 2 (fun o => coin_at e o (nth 0 m 0)) (coin_score_at (nth 0 m 0) e) in
  exists bc d0 d, bcrb_init true (fun m _ => bump_grad (nth 0 m 0)) s h next None true = Ok bc /\
  1 <= RInt (fun x => bump x * squared_error (fun _ => 2%nat) coin_at (script [tt; tt]) T x) (1/4) (3/4) * (current_bim (bcrb_run c info bc [x1; x2]) 0 0 + (d0 + INR 2 * d)).
Proof.
  intros info. destruct (bcrb_init true (fun m _ => bump_grad (nth 0 m 0)) s h next None true) as [bc|] eqn:Hi; [|discriminate].
  set (err := fun (st : @state bool) (x : @bop bool unit unit) => Rabs (bim_uniform info (prior c (op_rp x) (length (ls st))) (op_e x) 0 0 - RInt (fun y => bump y * fisher 2 (fun o => coin_at (op_e x) o y) (coin_score_at y (op_e x)) 0 0) (1/4) (3/4))).
  set (st2 := b_smc (fst (bcrb_update c info (op_rp x1) (op_r x1) bc (op_o x1) (op_e x1) (op_check x1)))).
  exists bc, (Rabs (rsum (map (fun m => bump_grad (nth 0 m 0) ^ 2) (ls s)) / INR (length (ls s)) - RInt (fun x => bump x * bump_grad x ^ 2) (1/4) (3/4))), (err (b_smc bc) x1 + err st2 x2). split; [reflexivity|].
  assert (P : forall st x, 0 <= err st x) by (intros; apply Rabs_pos). assert (P1 := P (b_smc bc) x1). assert (P2 := P st2 x2).
  replace (script [tt; tt]) with (script (map op_e [x1; x2])) by (cbn [map]; now destruct (op_e x1), (op_e x2)).
  apply (c151_code (fun _ => 2%nat) coin_at coin_score_at (1/4) (3/4) bump bump' bump_grad c s h next true bc [x1; x2]); [exact bump_prior| |exact Hi|lra|].
  - apply Forall_forall. intros [] _. apply coin_smooth; lra.
  - intros st x [E|[E|[]]]; injection E as <- <-; [change (err (b_smc bc) x1 <= err (b_smc bc) x1 + err st2 x2)|change (err st2 x2 <= err (b_smc bc) x1 + err st2 x2)]; lra.
Qed.
Print Assumptions c151_interval.
Print Assumptions c151_bound.
Print Assumptions c151_script.
Print Assumptions c151_code.
Print Assumptions c151_coin.
