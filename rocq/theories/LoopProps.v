(** C165: data simulated from truths drawn from an updater are what the updater predicts, and given such data its posterior is the distribution of the truth. *)
From Coq Require Import List ZArith Lia Lra Psatz.
From Verif Require Import Base RList Ext Sums SmcModel SmcSpec SmcProofs PartModel PartSpec PartProofs SimModel SimSpec SimProofs LearnSpec LearnProofs RateSpec ReSpec ReProofs3 DerProofs ConvSpec ConvProofs2 HandModel HandProofs HandProps HandProps2 LoopModel.
From Verif Require CalSpec CalProofs.
Import ListNotations.

(** Probability of a record of outcomes for the truth [x] *)
Fixpoint record_pr {E} (m : @fmodel loc E) (d : list (Z * E)) (x : loc) : R := match d with [] => 1 | (o, e) :: d' => fm_like m o x e * record_pr m d' x end.
(** The model has the outcomes 0 to n - 1 in every experiment, with probabilities for every truth in [V]. *)
Record simulable {E} (m : @fmodel loc E) (n : Z) (V : loc -> Prop) : Prop := {
  si_constant : fm_constant m = true; si_values : fm_values m = default_values n;
  si_law : forall x e, V x -> outcome_distribution n (fun o => fm_like m o x e)
}.

Lemma SumL_add {T} (l : list T) f g : SumL l (fun a => f a + g a) = SumL l f + SumL l g.
Proof. induction l as [|a l IH]; cbn in *; [ring|]. unfold SumL in *. cbn. rewrite IH. ring. Qed.
Lemma SumL_swap {T U} (l : list T) (m : list U) (h : T -> U -> R) : SumL l (fun a => SumL m (fun b => h a b)) = SumL m (fun b => SumL l (fun a => h a b)).
Proof.
  induction l as [|a l IH].
  - induction m as [|b m IHm]; [reflexivity|]. unfold SumL in *. cbn in *. rewrite <- IHm. ring.
  - change (SumL m (fun b => h a b) + SumL l (fun a => SumL m (fun b => h a b)) = SumL m (fun b => h a b + SumL l (fun a => h a b))). rewrite IH. symmetry. apply SumL_add.
Qed.
Section Loop.
Context {E : Type}.
Variables (m : @fmodel loc E) (n : Z) (V : loc -> Prop) (Eu : (R -> R) -> R) (pol : list Z -> E).
Hypothesis HM : simulable m n V.
Hypothesis HU : uniform_law Eu.
Notation dom := (fun _ : E => default_values n).
Lemma SumL_default (h : Z -> R) : SumL (default_values n) h = Sum (Z.to_nat n) (fun j => h (Z.of_nat j)).
Proof. now rewrite default_values_eq, SumL_map, SumL_seq. Qed.
Lemma observed_slot x e v d : V x -> (0 <= d < n)%Z -> 0 <= v < 1 -> mass_below (fun o => fm_like m o x e) d <= v < mass_below (fun o => fm_like m o x e) d + fm_like m d x e -> observed m x e v = d.
Proof.
  intros Hx Hd Hv Hs. destruct (simulate_ok m n [x] [e] 1 (fun _ _ _ => v) (si_constant _ _ _ HM) (si_values _ _ _ HM)) as (out & E1 & E2 & E3); [intros y e' [<-|[]] [<-|[]]; now apply (si_law _ _ _ HM)|auto|].
  destruct (proj2 E2 (conj eq_refl (conj eq_refl eq_refl))) as [z ->]. unfold observed. rewrite E1. destruct (E3 0%nat 0%nat 0%nat x e (le_n 1) eq_refl eq_refl) as (d0 & F1 & F2 & F3). cbn in F1. injection F1 as ->. now apply F3.
Qed.
Lemma one_outcome x e h : V x -> Eu (fun v => h (observed m x e v)) = SumL (default_values n) (fun o => fm_like m o x e * h o).
Proof.
  intros Hx. set (w := map (fun o => fm_like m o x e) (default_values n)). destruct (si_law _ _ _ HM x e Hx) as [P1 P2].
  assert (Lw : length w = Z.to_nat n) by (unfold w; now rewrite map_length, default_values_length).
  assert (Nw : forall j, (j < Z.to_nat n)%nat -> nth j w 0 = fm_like m (Z.of_nat j) x e).
  { intros j Hj. unfold w. rewrite (nth_indep _ 0 (fm_like m 0%Z x e)) by (now rewrite map_length, default_values_length). rewrite (map_nth (fun o => fm_like m o x e)). f_equal. rewrite default_values_eq. change 0%Z with (Z.of_nat 0). rewrite (map_nth Z.of_nat), seq_nth by exact Hj. reflexivity. }
  assert (Pw : prob_vector w).
  { split.
    - apply Forall_forall. intros y Hy. apply in_map_iff in Hy as (o & <- & Ho). apply P1. rewrite default_values_eq in Ho. apply in_map_iff in Ho as (j & <- & Hj). apply in_seq in Hj. lia.
    - rewrite rsum_index, Lw. unfold mass_below in P2. rewrite <- P2. apply Sum_ext. exact Nw. }
  rewrite (eu_step Eu HU w (fun j => h (Z.of_nat j)) _ Pw).
  - rewrite Lw, SumL_default. apply Sum_ext. intros j Hj. now rewrite Nw.
  - intros j u Hj Hs. rewrite Lw in Hj. f_equal. destruct (cum_range w Pw j ltac:(lia)) as [C1 C2].
    assert (Q : Sum j (fun i => nth i w 0) = mass_below (fun o => fm_like m o x e) (Z.of_nat j)) by (unfold mass_below; rewrite Nat2Z.id; apply Sum_ext; intros i Hi; apply Nw; lia).
    unfold in_slot in Hs. apply observed_slot; auto; [lia|lra|]. rewrite <- Q, <- Nw by exact Hj. exact Hs.
Qed.
Lemma live_law x k : V x -> forall hist F, live Eu m pol x k hist F = SumL (records dom pol k hist) (fun d => record_pr m d x * F d).
Proof.
  intros Hx. induction k as [|k IH]; intros hist F; cbn [live records]; [cbn; ring|]. cbv zeta.
  rewrite (one_outcome x (pol hist) (fun o => live Eu m pol x k (hist ++ [o]) (fun d => F ((o, pol hist) :: d))) Hx). rewrite SumL_flat_map. apply SumL_ext. intros o Ho. rewrite IH, SumL_map, <- SumL_scal. apply SumL_ext. intros d Hd. cbn [record_pr]. ring.
Qed.
(** The law of truths and data *)
Theorem c165_law {O} (s : @state O) k F : full_inv s -> Forall V (ls s) ->
  closed_loop Eu m pol k s F = SumL (records dom pol k []) (fun d => average s (fun x => record_pr m d x * F x d)).
Proof.
  intros HI HV. pose proof (Hw s HI) as Pw. pose proof (Hlw s HI) as Lw. unfold closed_loop.
  transitivity (independent (ls s) (ws s) 1 (fun l => match l with [x] => live Eu m pol x k [] (F x) | _ => 0 end)).
  - rewrite <- (c164_law (ws s) (ls s) Eu 1 _ Pw Lw HU). cbn [uniforms]. apply (eu_ext Eu HU). intros u _. destruct (pd_sample (ws s) (ls s) [u]) as [[|x [|y r]]|]; reflexivity.
  - cbn [independent]. unfold average, cloud_average. rewrite (Sum_ext _ _ (fun i => SumL (records dom pol k []) (fun d => nth i (ws s) 0 * (record_pr m d (nth i (ls s) []) * F (nth i (ls s) []) d)))).
    + rewrite <- SumL_seq. rewrite SumL_swap. apply SumL_ext. intros d Hd. now rewrite SumL_seq.
    + intros i Hi. rewrite live_law by (rewrite Forall_forall in HV; now apply HV, nth_In). now rewrite <- SumL_scal.
Qed.

(** ** What an updater learns from such data *)
Section Learn.
Context {RND : Type}.
Variables (c : @config Z E RND) (rs : nat -> RND) (s : @state Z) (k : nat).
Hypothesis G : good_config c.
Hypothesis Ht : zthresh c < 1.
Hypothesis Hst : forall r l e, timestep (md c) r l e = l.
Hypothesis Hlik : forall o x e, V x -> lik (md c) o x e = fm_like m o x e.
Hypothesis HI : full_inv s.
Hypothesis HV : Forall V (ls s).
Notation after d := (run c s (updates rs 0 d)).
Notation loop F := (closed_loop Eu m pol k s F).
Hypothesis Hreg : forall d, In d (records dom pol k []) -> predictive c rs s d = 0 \/ regular c rs 0 d s.
Notation stay := (fun (_ : RND) (_ : E) (x : loc) => x).
Let moves r l e : timestep (md c) r l e = map (stay r e) l. Proof. rewrite Hst. now rewrite map_id. Qed.
Lemma record_same d : forall idx x, V x -> record_lik c stay rs idx d x = record_pr m d x.
Proof. induction d as [|[o e] d IH]; intros idx x Hx; cbn; [reflexivity|]. now rewrite IH, Hlik. Qed.
Lemma final_same (d : list (Z * E)) : forall idx x, final stay rs idx d x = x.
Proof. induction d as [|[o e] d IH]; intros idx x; cbn; [reflexivity|apply IH]. Qed.
Lemma at_V i : (i < n_particles s)%nat -> V (at_ s i).
Proof. intros Hi. rewrite Forall_forall in HV. now apply HV, nth_In. Qed.
Lemma pr_record d : predictive c rs s d = average s (record_pr m d).
Proof. apply Sum_ext. intros i Hi. rewrite (path_record c stay rs moves) by exact Hi. f_equal. apply record_same. now apply at_V. Qed.
Lemma terms_zero d : (forall x, V x -> 0 <= record_pr m d x) -> average s (record_pr m d) = 0 -> forall g, average s (fun x => record_pr m d x * g x) = 0.
Proof.
  intros Hp H0 g. assert (Z : forall i, (i < length (ls s))%nat -> nth i (ws s) 0 * record_pr m d (nth i (ls s) []) = 0).
  { intros i Hi. assert (T : forall j, (j < length (ls s))%nat -> 0 <= nth j (ws s) 0 * record_pr m d (nth j (ls s) [])) by (intros j Hj; apply Rmult_le_pos; [apply (w_nonneg _ (Hw s HI))|apply Hp, at_V, Hj]). exact (Sum_zero_each (length (ls s)) (fun j => nth j (ws s) 0 * record_pr m d (nth j (ls s) [])) i T H0 Hi). }
  apply Sum_zero. intros i Hi. rewrite <- Rmult_assoc, Z by exact Hi. ring.
Qed.
Lemma record_nonneg d : forall x, V x -> 0 <= record_pr m d x.
Proof. intros x Hx. rewrite <- (record_same d 0%nat x Hx). clear -G. generalize 0%nat as idx. revert x. induction d as [|[o e] d IH]; intros x idx; cbn; [lra|]. apply Rmult_le_pos; [apply (lik_nonneg c G)|apply IH]. Qed.
(** every record: the part of the truth not explained by the posterior averages out *)
Lemma posterior_split d g : In d (records dom pol k []) -> average s (fun x => record_pr m d x * g x) = predictive c rs s d * average (after d) g.
Proof.
  intros Hd. destruct (Hreg d Hd) as [Z|Rg].
  - rewrite Z, Rmult_0_l. apply terms_zero; [apply record_nonneg|now rewrite <- pr_record].
  - destruct (posterior_average c stay rs G Ht moves d s g HI Rg) as [Pp Q]. cbv zeta in Pp, Q.
    assert (X : Sum (n_particles s) (fun i => wt s i * record_lik c stay rs 0 d (at_ s i)) = predictive c rs s d) by (rewrite pr_record; apply Sum_ext; intros i Hi; f_equal; apply record_same; now apply at_V).
    rewrite X in Pp, Q. rewrite Q. unfold Rdiv. rewrite Rmult_comm, Rmult_assoc, Rinv_l, Rmult_1_r by lra. apply Sum_ext. intros i Hi. rewrite final_same, record_same by (now apply at_V). reflexivity.
Qed.
Lemma average_scal g a : average s (fun x => g x * a) = average s g * a.
Proof. unfold average, cloud_average. rewrite Rmult_comm, <- Sum_scal. apply Sum_ext. intros; ring. Qed.
Lemma records_total x : V x -> SumL (records dom pol k []) (fun d => record_pr m d x) = 1.
Proof.
  intros Hx. generalize (@nil Z) as hist. clear -HM Hx. induction k as [|k' IH]; intros hist; [cbn; ring|]. cbn [records]. rewrite SumL_flat_map. destruct (si_law _ _ _ HM x (pol hist) Hx) as [_ P2]. rewrite (SumL_ext _ _ (fun o => fm_like m o x (pol hist))); [rewrite SumL_default; exact P2|].
  intros o Ho. rewrite SumL_map. cbn [record_pr]. rewrite SumL_scal, IH. ring.
Qed.
(** Simulated records occur as the updater predicts them. *)
Theorem c165_records F : loop (fun _ d => F d) = SumL (records dom pol k []) (fun d => predictive c rs s d * F d).
Proof. rewrite c165_law by assumption. apply SumL_ext. intros d _. now rewrite average_scal, pr_record. Qed.
(** Given the data, the truth is distributed as the posterior cloud: whatever depends on truth and data may be averaged over the posterior first. *)
Theorem c165_conditional (h : loc -> list (Z * E) -> R) : loop h = loop (fun _ d => average (after d) (fun x => h x d)).
Proof. rewrite c165_records, c165_law by assumption. apply SumL_ext. intros d Hd. now apply posterior_split. Qed.
Lemma loop_ext (f g : list (Z * E) -> R) : (forall d, In d (records dom pol k []) -> regular c rs 0 d s -> f d = g d) -> loop (fun _ d => f d) = loop (fun _ d => g d).
Proof. intros H. rewrite !c165_records. apply SumL_ext. intros d Hd. destruct (Hreg d Hd) as [Z|Rg]; [rewrite Z; ring|]. now rewrite (H d Hd Rg). Qed.
(** The loss a performance test reports for the posterior mean is on average the posterior variance, weighted with [Q]. *)
Theorem c165_loss p Q : let mean d := particle_mean p (ws (after d)) (ls (after d)) in
  loop (fun x d => CalSpec.squared_error p Q (mean d) x) = loop (fun _ d => Sum p (fun j => Q j * particle_cov (ws (after d)) (ls (after d)) j j)).
Proof.
  intros mean. rewrite c165_conditional. apply loop_ext. intros d Hd Rg. unfold mean. clear mean. destruct (run_regular c rs G Ht d 0%nat s HI Rg) as (I1 & _). generalize dependent (after d). intros s' I1. unfold average, cloud_average, CalSpec.squared_error.
  rewrite (Sum_ext _ _ (fun t => Sum p (fun j => Q j * (wt s' t * (nth j (particle_mean p (ws s') (ls s')) 0 - nth j (at_ s' t) 0) ^ 2)))) by (intros; rewrite <- Sum_scal; apply Sum_ext; intros; unfold wt, at_; ring).
  rewrite Sum_swap. apply Sum_ext. intros j Hj. rewrite Sum_scal. f_equal. change (length (ls s')) with (n_particles s'). rewrite CalProofs.split_error by (now apply full_inv_Sum). destruct I1 as [HL _]. rewrite cov_mom, (mean_mom p) by assumption. unfold mom, wt, at_, n_particles. ring.
Qed.
(** A region that always holds a share of at least [a] and at most [b] of the posterior contains the truth with a probability between [a] and [b]. *)
Theorem c165_region (region : list (Z * E) -> loc -> bool) a b :
  (forall d, In d (records dom pol k []) -> regular c rs 0 d s -> a <= average (after d) (fun x => if region d x then 1 else 0) <= b) ->
  a <= loop (fun x d => if region d x then 1 else 0) <= b.
Proof.
  intros H. rewrite c165_conditional, c165_records. assert (T : SumL (records dom pol k []) (predictive c rs s) = 1).
  { transitivity (loop (fun _ _ => 1)); [rewrite c165_records; apply SumL_ext; intros; ring|]. rewrite c165_law by assumption. unfold average, cloud_average.
    rewrite (SumL_ext _ _ (fun d => SumL (seq 0 (length (ls s))) (fun i => nth i (ws s) 0 * record_pr m d (nth i (ls s) [])))) by (intros; rewrite SumL_seq; apply Sum_ext; intros; ring).
    rewrite SumL_swap, SumL_seq, (Sum_ext _ _ (fun i => nth i (ws s) 0)); [now apply full_inv_Sum|]. intros i Hi. rewrite SumL_scal, records_total by (now apply at_V). ring. }
  assert (Pn : forall d, 0 <= predictive c rs s d) by (intros d; rewrite pr_record; apply Sum_nonneg; intros i Hi; apply Rmult_le_pos; [apply (w_nonneg _ (Hw s HI))|apply record_nonneg, at_V, Hi]).
  split.
  - replace a with (SumL (records dom pol k []) (fun d => a * predictive c rs s d)) by (rewrite SumL_scal, T; ring). apply SumL_le. intros d Hd. destruct (Hreg d Hd) as [Z|Rg]; [rewrite Z; lra|]. rewrite (Rmult_comm a). apply Rmult_le_compat_l; [apply Pn|now apply H].
  - replace b with (SumL (records dom pol k []) (fun d => b * predictive c rs s d)) by (rewrite SumL_scal, T; ring). apply SumL_le. intros d Hd. destruct (Hreg d Hd) as [Z|Rg]; [rewrite Z; lra|]. rewrite (Rmult_comm b). apply Rmult_le_compat_l; [apply Pn|now apply H].
Qed.
(** On average the posterior stays where it was. *)
Theorem c165_unbiased g : loop (fun _ d => average (after d) g) = average s g.
Proof.
  transitivity (loop (fun x _ => g x)); [symmetry; exact (c165_conditional (fun x _ => g x))|]. rewrite c165_law by assumption. unfold average, cloud_average.
  rewrite (SumL_ext _ _ (fun d => SumL (seq 0 (length (ls s))) (fun i => nth i (ws s) 0 * g (nth i (ls s) []) * record_pr m d (nth i (ls s) [])))) by (intros; rewrite SumL_seq; apply Sum_ext; intros; ring).
  rewrite SumL_swap, SumL_seq. apply Sum_ext. intros i Hi. rewrite SumL_scal, records_total by (now apply at_V). ring.
Qed.
(** No function of the data is closer to the truth in mean square than the posterior average; the difference is its mean squared distance from it. *)
Theorem c165_best g (T : list (Z * E) -> R) : loop (fun x d => (g x - T d) ^ 2) = loop (fun x d => (g x - average (after d) g) ^ 2) + loop (fun _ d => (average (after d) g - T d) ^ 2).
Proof.
  rewrite c165_records, !c165_law, <- SumL_add by assumption. apply SumL_ext. intros d Hd. pose proof (posterior_split d g Hd) as Q. set (a := average (after d) g) in *. set (t := T d). rewrite pr_record in *.
  transitivity (average s (fun x => record_pr m d x * (g x - a) ^ 2) + (2 * (a - t)) * (average s (fun x => record_pr m d x * g x) - a * average s (record_pr m d)) + average s (record_pr m d) * (a - t) ^ 2); [|rewrite Q; ring].
  unfold average, cloud_average. rewrite Rmult_minus_distr_l, <- !Sum_scal, <- Sum_minus, (Rmult_comm _ ((a - t) ^ 2)), <- !Sum_scal, <- !Sum_plus. apply Sum_ext. intros i Hi. ring.
Qed.
End Learn.
End Loop.

(** ** A concrete case *)
(** A coin of bias 1/4 or 3/4, equally likely, tossed any number of times. *)
Definition coin_sim : @fmodel loc unit := {| fm_constant := true; fm_values := default_values 2; fm_n_outcomes := fun _ => 2%Z; fm_like := fun o x _ => if Z.eqb o 1 then biased x else 1 - biased x |}.
Example c165_coin_simulable : simulable coin_sim 2 (fun _ => True).
Proof.
  constructor; try reflexivity. intros x e _. pose proof (biased_range x). split; [intros d _; cbn; destruct (Z.eqb d 1); lra|]. unfold mass_below. change (Z.to_nat 2) with 2%nat. rewrite !Sum_S, Sum_0. cbn. ring.
Qed.
Lemma chain_inv : full_inv first_of_chain.
Proof. split; [reflexivity|]. split; [repeat constructor; cbn; lra|unfold rsum; cbn; lra]. Qed.
Lemma chain_all : Forall (fun _ => True) (ls first_of_chain). Proof. apply Forall_forall. auto. Qed.
Lemma chain_regular rs d : predictive coin_chain rs first_of_chain d = 0 \/ regular coin_chain rs 0 d first_of_chain.
Proof. right. apply (always_regular coin_chain (fun _ => True) rs first_of_chain d c164_chain_plain chain_inv chain_all). Qed.
(** The mean stays at 1/2 on average, and whatever is guessed from the tosses is further from the truth in mean square than the posterior mean. *)
Example c165_coin rs k (T : list (Z * unit) -> R) : let mean d := average (run coin_chain first_of_chain (updates rs 0 d)) (fun x => nth 0 x 0) in let loop := closed_loop riemann coin_sim (fun _ => tt) k first_of_chain in
  loop (fun _ d => mean d) = 1/2 /\ loop (fun x d => (nth 0 x 0 - T d) ^ 2) = loop (fun x d => (nth 0 x 0 - mean d) ^ 2) + loop (fun _ d => (mean d - T d) ^ 2).
Proof.
  cbv zeta. pose proof c164_chain_plain as [P1 P2 _ P4 _]. split.
  - rewrite (c165_unbiased coin_sim 2 (fun _ => True) riemann (fun _ => tt) c165_coin_simulable riemann_uniform coin_chain rs first_of_chain k P1 P2 P4 (fun _ _ _ _ => eq_refl) chain_inv chain_all (fun d _ => chain_regular rs d)).
    unfold average, cloud_average. cbn [first_of_chain ws ls length]. rewrite !Sum_S, !Sum_0. cbn [nth]. lra.
  - apply (c165_best coin_sim 2 (fun _ => True) riemann (fun _ => tt) c165_coin_simulable riemann_uniform coin_chain rs first_of_chain k P1 P2 P4 (fun _ _ _ _ => eq_refl) chain_inv chain_all (fun d _ => chain_regular rs d)).
Qed.
(** The reported squared error is on average the posterior variance. *)
Example c165_coin_loss rs k : let st d := run coin_chain first_of_chain (updates rs 0 d) in let loop := closed_loop riemann coin_sim (fun _ => tt) k first_of_chain in
  loop (fun x d => CalSpec.squared_error 1 (fun _ => 1) (particle_mean 1 (ws (st d)) (ls (st d))) x) = loop (fun _ d => Sum 1 (fun j => 1 * particle_cov (ws (st d)) (ls (st d)) j j)).
Proof.
  cbv zeta. pose proof c164_chain_plain as [P1 P2 _ P4 _]. apply (c165_loss coin_sim 2 (fun _ => True) riemann (fun _ => tt) c165_coin_simulable riemann_uniform coin_chain rs first_of_chain k P1 P2 P4 (fun _ _ _ _ => eq_refl) chain_inv chain_all (fun d _ => chain_regular rs d)).
Qed.
(** After one toss: the chance that it is a head and the truth is 3/4 is 3/8; the posterior mean 5/8 after a head is the average truth given a head. *)
Example c165_coin_toss : closed_loop riemann coin_sim (fun _ => tt) 1 first_of_chain (fun x d => match d with [(1%Z, _)] => if Rltb (1/2) (nth 0 x 0) then 1 else 0 | _ => 0 end) = 3/8 /\
  closed_loop riemann coin_sim (fun _ => tt) 1 first_of_chain (fun x d => match d with [(1%Z, _)] => nth 0 x 0 | _ => 0 end) = 5/8 * (1/2).
Proof.
  assert (B1 : biased [1/4] = 1/4) by (unfold biased; cbn; rewrite Rmin_right, Rmax_left by lra; reflexivity). assert (B3 : biased [3/4] = 3/4) by (unfold biased; cbn; rewrite Rmin_right, Rmax_right by lra; reflexivity).
  split; rewrite (c165_law coin_sim 2 (fun _ => True) riemann (fun _ => tt) c165_coin_simulable riemann_uniform first_of_chain 1 _ chain_inv chain_all); cbn [records flat_map map app];
    change (default_values 2) with [0; 1]%Z; cbn [flat_map map app]; unfold SumL, average, cloud_average; cbn [fold_right first_of_chain ws ls length]; rewrite !Sum_S, !Sum_0; cbn [nth record_pr coin_sim fm_like Z.eqb Pos.eqb]; rewrite B1, B3; [|lra].
  rewrite (Rltb_false (1/2) (1/4)), (Rltb_true (1/2) (3/4)) by lra. lra.
Qed.
(** After one toss, naming the bias towards the side seen holds 3/4 of the posterior, and is right with probability 3/4. *)
Definition named (d : list (Z * unit)) (x : loc) : bool := match d with [(1%Z, _)] => Rltb (1/2) (nth 0 x 0) | _ => Rltb (nth 0 x 0) (1/2) end.
Example c165_coin_region (rs : nat -> nat -> R) : closed_loop riemann coin_sim (fun _ => tt) 1 first_of_chain (fun x d => if named d x then 1 else 0) = 3/4.
Proof.
  pose proof c164_chain_plain as [P1 P2 _ P4 _]. assert (B1 : biased [1/4] = 1/4) by (unfold biased; cbn; rewrite Rmin_right, Rmax_left by lra; reflexivity). assert (B3 : biased [3/4] = 3/4) by (unfold biased; cbn; rewrite Rmin_right, Rmax_right by lra; reflexivity).
  apply Rle_antisym; apply (c165_region coin_sim 2 (fun _ => True) riemann (fun _ => tt) c165_coin_simulable riemann_uniform coin_chain rs first_of_chain 1 P1 P2 P4 (fun _ _ _ _ => eq_refl) chain_inv chain_all (fun d _ => chain_regular rs d) named (3/4) (3/4));
    intros d Hd _; pose proof (posterior_split coin_sim 2 (fun _ => True) (fun _ => tt) coin_chain rs first_of_chain 1 P1 P2 P4 (fun _ _ _ _ => eq_refl) chain_inv chain_all (fun d _ => chain_regular rs d) d (fun x => if named d x then 1 else 0) Hd) as Q;
    rewrite (pr_record coin_sim (fun _ => True) coin_chain rs first_of_chain P4 (fun _ _ _ _ => eq_refl) chain_all) in Q; set (a := average (run _ _ _) _) in *; clearbody a; unfold average, cloud_average in Q; cbn [first_of_chain ws ls length] in Q; rewrite !Sum_S, !Sum_0 in Q;
    cbn [records flat_map map app] in Hd; change (default_values 2) with [0; 1]%Z in Hd; cbn in Hd; destruct Hd as [<-|[<-|[]]]; cbn [nth record_pr coin_sim fm_like Z.eqb Pos.eqb named] in Q; rewrite B1, B3 in Q;
    rewrite ?(Rltb_false (1/2) (1/4)), ?(Rltb_true (1/2) (3/4)), ?(Rltb_true (1/4) (1/2)), ?(Rltb_false (3/4) (1/2)) in Q by lra; lra.
Qed.
Print Assumptions c165_law.
Print Assumptions c165_records.
Print Assumptions c165_conditional.
Print Assumptions c165_loss.
Print Assumptions c165_region.
Print Assumptions c165_unbiased.
Print Assumptions c165_best.
