(** Theorems for properties C32 (binomial), C33 (multinomial), C34 (poisoned), C35 (likelihood powers), C36 (random walks),
    C37 (Gaussian hyperparameters) and C47 (hedged binomial estimates). *)
From Verif Require Import Base RList Ext Sums DomModel DomProofs StackModel SmcModel SmcSpec DerModel DerSpec DerProofs DerProofs2.

(** C32 *)
(** The likelihoods of 0 and 1 of every listed model and experiment are probabilities. *)
Definition two_outcome {M E} (like : Z -> M -> E -> R) (ms : list M) (es : list (E * nat)) : Prop :=
  forall m e, In m ms -> In e es -> 0 <= like 0%Z m (fst e) /\ 0 <= like 1%Z m (fst e) /\ like 0%Z m (fst e) + like 1%Z m (fst e) = 1.
Theorem c32_count_likelihood {M E} (like : Z -> M -> E -> R) os ms es : two_outcome like ms es ->
  exists L, binomial_like like os ms es = Ok L /\
    forall a b c o m e, nth_error os a = Some o -> nth_error ms b = Some m -> nth_error es c = Some e ->
      entry L a b c = Some (Fin (ones_mass (snd e) (fun i => like (Z.of_nat i) m (fst e)) o)).
Proof.
  intros H. eexists. split.
  - unfold binomial_like. apply no_nan_table. intros o m e _ Hm He. destruct (H m e Hm He) as (A & B & C). unfold binomial_pdf, scipy_binom_pmf. now rewrite !Rleb_true by lra.
  - intros a b c o m e Ho Hm He. erewrite entry_table by eassumption. f_equal. apply nth_error_In in Hm, He. destruct (H m e Hm He) as (A & B & C).
    unfold binomial_pdf, scipy_binom_pmf. rewrite !Rleb_true by lra. cbn [andb]. f_equal. rewrite (ones_mass_pmf (snd e) o (fun i => like (Z.of_nat i) m (fst e))); [reflexivity|]. exact C.
Qed.
(** The record masses are a probability distribution over 0..n; nothing beyond n can occur. *)
Theorem c32_distribution n p : 0 <= p 0%nat -> 0 <= p 1%nat -> p 0%nat + p 1%nat = 1 ->
  SumL (seq 0 (S n)) (ones_mass n p) = 1 /\ (forall k, 0 <= ones_mass n p k) /\ (forall k, (n < k)%nat -> ones_mass n p k = 0).
Proof.
  intros H0 H1 H. split; [rewrite ones_mass_sum, H; apply pow1|]. split; intros k; rewrite ones_mass_pmf by assumption.
  - apply Rmult_le_pos; [apply Rmult_le_pos; [apply pos_INR|now apply pow_le]|]. apply pow_le. lra.
  - intros Hk. rewrite binom_gt by assumption. cbn [INR]. ring.
Qed.
Theorem c32_single_shot {M E} (like : Z -> M -> E -> R) m e : 0 <= like 0%Z m e -> 0 <= like 1%Z m e -> like 0%Z m e + like 1%Z m e = 1 ->
  binomial_like like [0; 1]%nat [m] [(e, 1%nat)] = Ok [[[Fin (like 0%Z m e)]]; [[Fin (like 1%Z m e)]]].
Proof.
  intros A B C. unfold binomial_like. rewrite no_nan_table.
  - unfold table. cbn [map fst snd]. unfold binomial_pdf, scipy_binom_pmf. rewrite !Rleb_true by lra. cbn [andb binom Nat.add Nat.sub pow INR]. repeat f_equal; lra.
  - intros o m' e' _ [<-|[]] [<-|[]]. unfold binomial_pdf, scipy_binom_pmf. cbn [fst snd]. now rewrite !Rleb_true by lra.
Qed.
(** Construction: over a stand-alone model the check is exact. *)
Theorem c32_construction {E} (n_meas : E -> nat) (b : base E) :
  new_binomial n_meas (MBase b) = if b_constant b && Nat.eqb (b_n_outcomes b None) 2 then Ok (MDerived Binomial (MBase b)) else Err ValueError.
Proof. unfold new_binomial, two_outcome_check. cbn. destruct (b_constant b); [|reflexivity]. cbn. now destruct (Nat.eqb _ 2). Qed.
(** Over a derived model whose outcome count varies the error is a TypeError: a powered binomial model claims a constant count. *)
Theorem c32_wrong_exception_refuted {E} (n_meas : E -> nat) (b : base E) :
  new_binomial n_meas (MDerived MLE (MDerived Binomial (MBase b))) = Err TypeError.
Proof. reflexivity. Qed.
Example c32_example : ones_mass 3 (fun i => match i with O => 1/4 | _ => 3/4 end) 2 = 27/64.
Proof. unfold ones_mass. cbn. lra. Qed.

(** C33 *)
(** The underlying outcomes [values] have non-negative likelihoods that sum to one. *)
Definition many_outcome {V M E} (values : list V) (like : V -> M -> E -> R) (ms : list M) (es : list (E * nat)) : Prop :=
  forall m e, In m ms -> In e es -> prob_vector (map (fun v => like v m (fst e)) values).
Lemma last_split {A} (l : list A) d : l <> [] -> l = removelast l ++ [last l d].
Proof. apply app_removelast_last. Qed.
Lemma many_pdf {V} (values : list V) (f : V -> R) (o : list nat) : prob_vector (map f values) -> length o = length values ->
  multinomial_pdf o (map f (removelast values)) = Fin (count_mass (length values) (nat_sum o) (fun i => nth i (map f values) 0) o).
Proof.
  intros [Hn Hs] Hl. destruct values as [|v0 vs]; [cbn in Hs; rewrite rsum_nil in Hs; lra|]. set (values := v0 :: vs) in *.
  pose proof (last_split values v0 ltac:(discriminate)) as S. set (l := removelast values) in *. set (z := last values v0) in *.
  assert (Hl' : length values = Datatypes.S (length l)) by (rewrite S, app_length; cbn; lia).
  assert (E : map f values = map f l ++ [f z]) by (rewrite S, map_app; reflexivity). rewrite E in *. apply Forall_app in Hn. destruct Hn as [Hn1 Hn2].
  inversion Hn2; subst. rewrite rsum_app, rsum_cons, rsum_nil in Hs. rewrite multinomial_pdf_value.
  - f_equal. rewrite count_mass_value by (try assumption; reflexivity). f_equal. replace (1 - rsum (map f l)) with (f z) by lra. reflexivity.
  - assumption.
  - lra.
  - rewrite map_length. congruence.
Qed.
Theorem c33_count_likelihood {V M E} (values : list V) (like : V -> M -> E -> R) os ms es : many_outcome values like ms es ->
  Forall (fun o => length o = length values) os ->
  exists L, multinomial_like values like os ms es = Ok L /\
    forall a b c o m e, nth_error os a = Some o -> nth_error ms b = Some m -> nth_error es c = Some e ->
      entry L a b c = Some (Fin (count_mass (length values) (nat_sum o) (fun i => nth i (map (fun v => like v m (fst e)) values) 0) o)).
Proof.
  intros H Ho. rewrite Forall_forall in Ho. eexists. split.
  - unfold multinomial_like. apply no_nan_table. intros o m e Hio Hm He. cbv beta. rewrite (many_pdf values (fun v => like v m (fst e)) o); [reflexivity|auto|auto].
  - intros a b c o m e Hao Hbm Hce. erewrite entry_table by eassumption. f_equal. apply nth_error_In in Hao, Hbm, Hce. apply many_pdf; auto.
Qed.
(** Summed over the points listed by the outcome domain (MultinomialDomain.values) the likelihoods give one. *)
Theorem c33_sums_to_one {V} (values : list V) (f : V -> R) n junk vals : prob_vector (map f values) ->
  md_values junk {| m_n := n; m_k := length values |} = Ok vals ->
  xsum (map (fun v => multinomial_pdf (map Z.to_nat v) (map f (removelast values))) vals) = Fin 1.
Proof.
  intros Hp E. set (d := {| m_n := n; m_k := length values |}) in *. assert (Hk : (0 < m_k d)%nat) by (cbn; apply prob_vector_nonempty in Hp; now rewrite map_length in Hp).
  rewrite md_values_ok in E by assumption. injection E as <-.
  assert (Hin : forall v, In v (md_rows d) <-> length v = m_k d /\ Forall (fun z => (0 <= z)%Z) v /\ zsum v = Z.of_nat (m_n d)) by (intros v; now apply md_rows_In).
  assert (Hz : forall v, Forall (fun z => (0 <= z)%Z) v -> map Z.of_nat (map Z.to_nat v) = v /\ Z.of_nat (nat_sum (map Z.to_nat v)) = zsum v).
  { induction 1 as [|z v H1 H2 [A B]]; [split; reflexivity|]. cbn. split; [rewrite A, Z2Nat.id by lia; reflexivity|]. unfold nat_sum, zsum in *. lia. }
  rewrite (map_ext_in _ (fun v => Fin (count_mass (length values) n (fun i => nth i (map f values) 0) (map Z.to_nat v)))).
  - rewrite <- (map_map (fun v => count_mass (length values) n (fun i => nth i (map f values) 0) (map Z.to_nat v)) Fin), xsum_Fin. f_equal.
    rewrite <- (map_map (map Z.to_nat) (count_mass (length values) n (fun i => nth i (map f values) 0))), <- SumL_rsum. rewrite count_mass_sum.
    + destruct Hp as [_ Hs]. rewrite rsum_index, map_length in Hs. rewrite Hs. apply pow1.
    + apply (NoDup_map_inv (map Z.of_nat)). rewrite map_map. erewrite map_ext_in, map_id; [apply md_rows_NoDup|]. intros v Hv. apply Hin in Hv. now apply Hz.
    + intros v Hv Hs. apply in_map_iff. exists (map Z.of_nat v). split.
      * rewrite map_map. erewrite map_ext; [apply map_id|]. intros x. apply Nat2Z.id.
      * apply Hin. split; [rewrite map_length; exact Hv|]. split; [apply Forall_forall; intros z Hzz; apply in_map_iff in Hzz; destruct Hzz as (x & <- & _); lia|].
        cbn. rewrite <- Hs. clear. induction v as [|x v IH]; [reflexivity|]. cbn. unfold nat_sum, zsum in *. lia.
  - intros v Hv. apply Hin in Hv. destruct Hv as (A & B & C). destruct (Hz v B) as [_ D].
    rewrite (many_pdf values f) by (try assumption; rewrite map_length; exact A). repeat f_equal. cbn in C. lia.
Qed.
(** Dropping an outcome of probability zero that was never seen changes nothing. *)
Theorem c33_zero_probability_outcome n p1 p2 q1 q2 : length q1 = length p1 -> length q2 = length p2 -> n = q1 ++ 0%nat :: q2 ->
  p1 ++ p2 <> [] -> multinomial_pdf n (p1 ++ 0 :: p2) = multinomial_pdf (q1 ++ q2) (p1 ++ p2).
Proof.
  intros H1 H2 -> Hp.
  assert (N0 : nat_sum (q1 ++ 0%nat :: q2) = nat_sum (q1 ++ q2)) by (clear; unfold nat_sum; rewrite !fold_right_app; reflexivity).
  assert (S0 : rsum (map gammaln1 (q1 ++ 0%nat :: q2)) = rsum (map gammaln1 (q1 ++ q2))).
  { rewrite !map_app, !rsum_app. cbn [map]. rewrite rsum_cons. unfold gammaln1 at 2. cbn [fact INR]. rewrite ln_1. ring. }
  unfold multinomial_pdf. rewrite !app_length. cbn [length]. rewrite H1, H2.
  replace (Nat.eqb (length p1 + Datatypes.S (length p2)) (length p1 + Datatypes.S (length p2) - 1)) with false by (symmetry; apply Nat.eqb_neq; lia).
  destruct (Nat.eqb_spec (length p1 + length p2) (length p1 + length p2 - 1)) as [Z|Z].
  - (* no other outcome at all *)
    destruct p1, p2; try (cbn in Z; lia). now destruct Hp.
  - rewrite N0, S0.
    assert (L : xsum (map2 nlogp (q1 ++ 0%nat :: q2) (p1 ++ 0 :: p2)) = xsum (map2 nlogp (q1 ++ q2) (p1 ++ p2))).
    { clear - H1. revert p1 H1; induction q1 as [|x q1 IH]; intros [|y p1] H1; try discriminate; cbn [app map2].
      - rewrite xsum_cons. unfold nlogp at 1. rewrite Reqb_true by reflexivity. destruct (xsum (map2 nlogp q2 p2)); cbn; try reflexivity. f_equal. ring.
      - rewrite !xsum_cons. rewrite IH by (cbn in H1; lia). reflexivity. }
    assert (Mk : existsb (fun x => x) (map2 (fun k q => negb (Nat.eqb k 0) && Reqb q 0) (q1 ++ 0%nat :: q2) (p1 ++ 0 :: p2)) =
                 existsb (fun x => x) (map2 (fun k q => negb (Nat.eqb k 0) && Reqb q 0) (q1 ++ q2) (p1 ++ p2))).
    { clear - H1. revert p1 H1; induction q1 as [|x q1 IH]; intros [|y p1] H1; try discriminate; cbn [app map2 existsb]; [reflexivity|]. rewrite IH by (cbn in H1; lia). reflexivity. }
    cbv zeta. rewrite L, Mk. reflexivity.
Qed.
Example c33_example : count_mass 3 3 (fun i => nth i [1/2; 1/2; 0] 0) [2; 1; 0]%nat = 3/8 /\ prob_vector (map (fun x : R => x) [1/2; 1/2; 0]).
Proof. split; [unfold count_mass; cbn; lra|]. split; [repeat constructor; lra|cbn [map]; rewrite !rsum_cons, rsum_nil; lra]. Qed.

(** C34 *)
(** The perturbation added before truncation. *)
Theorem c34_range_and_error p L z s r : 0 <= L <= 1 -> poison_scale p L = Ok (Fin s) -> poisoned_entry p L z = Ok r ->
  exists y, r = Fin y /\ 0 <= y <= 1 /\ Rabs (y - L) <= Rabs (z * s).
Proof.
  intros HL Es. unfold poisoned_entry. rewrite Es. cbn [bind xmul xadd xclip]. intros [= <-]. eexists. split; [reflexivity|].
  split; [apply clip_bounds; lra|]. unfold clip. unfold Rmin, Rmax. destruct (Rle_dec 0 (L + z * s)); destruct (Rle_dec 1 _); unfold Rabs; repeat destruct (Rcase_abs _); lra.
Qed.
(** In both modes the scale is a finite number (so the theorem applies), given a sensible number of samples. *)
Theorem c34_scale_finite p L : 0 <= L <= 1 -> (exists t, p = ALE t) \/ (exists n h, p = MLEmode (Some n) h /\ 0 < n + 2 * h + 1) ->
  exists s, poison_scale p L = Ok (Fin s).
Proof.
  intros HL [[t ->]|(n & h & -> & Hn)]; [exists t; reflexivity|]. cbn. unfold binom_est_error. cbn [xdiv]. rewrite Reqb_false by lra. cbn [xsqrt].
  rewrite Rltb_false; [eauto|]. apply Rmult_le_pos; [nra|]. left. now apply Rinv_0_lt_compat.
Qed.
(** The argument check never fires: with both arguments tol wins, with neither the first likelihood call fails. *)
Theorem c34_argument_check_refuted : (forall t n h, new_poisoned (Some t) (Some n) h = Ok (ALE t)) /\
  (forall h, exists p, new_poisoned None None h = Ok p /\ forall L z, poisoned_entry p L z = Err TypeError).
Proof. split; [reflexivity|]. intros h. eexists. split; [reflexivity|]. reflexivity. Qed.
Theorem c34_exactly_one_argument h : (forall t, new_poisoned (Some t) None h = Ok (ALE t)) /\
  (forall n, new_poisoned None (Some n) h = Ok (MLEmode (Some n) (match h with Some x => x | None => 0 end))).
Proof. split; reflexivity. Qed.
Example c34_example : poisoned_entry (ALE (1/10)) (95/100) 1 = Ok (Fin 1) /\ poisoned_entry (ALE (1/10)) (1/2) (-2) = Ok (Fin (3/10)).
Proof.
  split; cbn; do 2 f_equal; unfold clip, Rmin, Rmax.
  - destruct (Rle_dec 0 _); [|lra]. destruct (Rle_dec 1 _); lra.
  - destruct (Rle_dec 0 _); [|lra]. destruct (Rle_dec 1 _); lra.
Qed.

(** C35 *)
Theorem c35_order_and_zeros g L L' : 0 < g -> 0 <= L -> 0 <= L' ->
  exists r r', mle_entry g L = Fin r /\ mle_entry g L' = Fin r' /\ 0 <= r /\ (r = 0 <-> L = 0) /\ (L < L' <-> r < r') /\ (0 < L -> r = Rpower L g).
Proof.
  intros Hg HL HL'. destruct (mle_entry_pos g L Hg HL) as (r & E & A & B). destruct (mle_entry_pos g L' Hg HL') as (r' & E' & A' & B').
  exists r, r'. repeat split; try assumption; try (apply B); try (apply (mle_entry_mono g L L' r r'); assumption).
  intros H. unfold mle_entry in E. rewrite Reqb_false in E by lra. now injection E as <-.
Qed.
Theorem c35_power_one L : 0 <= L -> mle_entry 1 L = Fin L.
Proof. exact (mle_entry_one L). Qed.
Theorem c35_integer_power L p : 0 <= L -> (0 < p)%nat -> mle_entry (INR p) L = Fin (L ^ p).
Proof. exact (mle_entry_nat L p). Qed.
(** In the updater: p updates with the same datum equal one update with the model wrapped with power p. *)
Theorem c35_repeated_updates {O E RND} (c : @config O E RND) rs s o e p : (0 < p)%nat -> good_config c -> zthresh c < 1 -> full_inv s ->
  (forall r l e, timestep (md c) r l e = l) -> regular c rs 0 (repeat (o, e) p) s -> eps <= evidence (powered (INR p) c) s o e ->
  ws (run c s (updates rs 0 (repeat (o, e) p))) = ws (fst (update (powered (INR p) c) (rs 0%nat) s o e false)).
Proof. exact (powered_update c rs s o e p). Qed.
Example c35_example : mle_entry 2 (1/2) = Fin (1/4) /\ mle_entry 2 0 = Fin 0.
Proof.
  assert (E2 : forall L, 0 <= L -> mle_entry 2 L = Fin (L ^ 2)) by (intros L HL; rewrite <- mle_entry_nat by (assumption || lia); f_equal; cbn; ring).
  rewrite !E2 by lra. split; f_equal; lra.
Qed.

(** C36 *)
Ltac rows := change (Pos.to_nat 2) with 2%nat; change (Pos.to_nat 3) with 3%nat; cbn; f_equal; repeat (apply (f_equal2 (@cons R)); [ring|]); reflexivity.
Theorem c36_random_walk_adds_sample d sample mps n_e m i e : (m < length mps)%nat -> (i < d)%nat -> (e < n_e)%nat -> Forall (fun r => length r = d) mps ->
  entry (rw_timestep d sample mps n_e) m i e =
  Some (nth i (nth m mps []) 0 + nth i (nth (m * n_e + e) (sample (length mps * n_e)%nat) []) 0).
Proof. exact (rw_timestep_entry d sample mps n_e m i e). Qed.
Theorem c36_dimension_mismatch {E} (u : StackModel.model E) n_rvs : new_random_walk u n_rvs = if Nat.eqb (n_modelparams u) n_rvs then Ok (MDerived RandomWalk u) else Err TypeError.
Proof. reflexivity. Qed.
(** Every construction: the parameters are the underlying ones followed by one slot per appended name. *)
Theorem c36_slots_match_names chol names sel fixed diagonal tr g : new_grw chol names sel fixed diagonal tr = Ok g ->
  g_n_modelparams g = (length names + length (g_names g))%nat /\ g_srw_idxs g = seq (length names) (length (g_names g)) /\
  (fixed <> None -> g_names g = []) /\
  (fixed = None -> length (g_names g) = if diagonal then g_n_rw g else (g_n_rw g * (g_n_rw g + 1) / 2)%nat).
Proof.
  intros H. apply new_grw_ok in H. destruct H as (l & l' & R & Hn & R' & Hm & G1 & G2 & G3 & G4 & G5 & G6). unfold g_n_modelparams. rewrite G1.
  split; [reflexivity|]. split; [assumption|]. destruct (g_cov g).
  - destruct G6 as (-> & -> & ->). split; [congruence|]. intros _. now rewrite map_length.
  - destruct G6 as (-> & -> & ->). split; [congruence|]. intros _. rewrite tri_names_length, map_length. now rewrite G3.
  - destruct G6 as (v & -> & -> & -> & _). split; [reflexivity|congruence].
  - destruct G6 as (v & -> & -> & -> & _). split; [reflexivity|congruence].
Qed.
(** Dense case: the k-th appended name belongs to the k-th entry (row by row) of the Cholesky factor. *)
Theorem c36_cholesky_names chol names sel tr g l : new_grw chol names sel None false tr = Ok g -> resolve (length names) (sel_of (length names) sel) = Ok l ->
  g_names g = map (fun ij => let a := nth (fst ij) (map (fun i => nth i names 0%nat) l) 0%nat in let b := nth (snd ij) (map (fun i => nth i names 0%nat) l) 0%nat in
                             if Nat.eqb a b then Sigma a else Sigma2 b a) (tril_indices (length l)).
Proof.
  intros H R. apply new_grw_ok in H. destruct H as (l0 & l' & R0 & _ & _ & _ & _ & _ & _ & _ & _ & G6). rewrite R in R0. injection R0 as <-.
  destruct (g_cov g); try (destruct G6 as (? & ? & _); congruence); try (destruct G6 as (? & ? & ? & _); congruence).
  destruct G6 as (_ & _ & ->). rewrite tri_names_index, map_length. reflexivity.
Qed.
Lemma filter_all_true {A} (f : A -> bool) l : (forall a, In a l -> f a = true) -> filter f l = l.
Proof. induction l as [|a l IH]; intros H; [reflexivity|]. cbn. rewrite (H a) by (now left). f_equal. apply IH. intros; apply H; now right. Qed.
Lemma filter_all_false {A} (f : A -> bool) l : (forall a, In a l -> f a = false) -> filter f l = [].
Proof. induction l as [|a l IH]; intros H; [reflexivity|]. cbn. rewrite (H a) by (now left). apply IH. intros; apply H; now right. Qed.
(** Slices select as Python's do: a negative bound counts from the end, bounds past the ends are allowed. *)
Theorem c36_slices n lo hi : let bound b default := match b with None => default | Some z => if Z.ltb z 0 then (z + Z.of_nat n)%Z else z end in
  resolve n (SelSlice lo hi) = Ok (filter (fun i => Z.leb (bound lo 0%Z) (Z.of_nat i) && Z.ltb (Z.of_nat i) (bound hi (Z.of_nat n))) (seq 0 n)).
Proof.
  intros bound. cbn [resolve]. f_equal. set (a := match lo with Some z => slice_bound n z | None => 0%nat end). set (b := match hi with Some z => slice_bound n z | None => n end).
  assert (Ha : forall i, (i < n)%nat -> Z.leb (bound lo 0%Z) (Z.of_nat i) = Nat.leb a i).
  { intros i Hi. apply eq_true_iff_eq. rewrite Z.leb_le, Nat.leb_le. unfold a, bound, slice_bound. destruct lo as [z|]; [|lia]. destruct (Z.ltb_spec z 0); lia. }
  assert (Hb : forall i, (i < n)%nat -> Z.ltb (Z.of_nat i) (bound hi (Z.of_nat n)) = Nat.ltb i b).
  { intros i Hi. apply eq_true_iff_eq. rewrite Z.ltb_lt, Nat.ltb_lt. unfold b, bound, slice_bound. destruct hi as [z|]; [|lia]. destruct (Z.ltb_spec z 0); lia. }
  assert (Bn : (a <= n)%nat /\ (b <= n)%nat).
  { unfold a, b, slice_bound. split; [destruct lo as [z|]|destruct hi as [z|]]; try lia; destruct (Z.ltb_spec z 0); lia. }
  rewrite (filter_ext_in _ (fun i => Nat.leb a i && Nat.ltb i b)) by (intros i Hi; apply in_seq in Hi; now rewrite Ha, Hb by lia).
  clearbody a b. clear Ha Hb bound lo hi. destruct Bn as [An Bn].
  replace n with (a + ((b - a) + (n - a - (b - a))))%nat at 1 by lia. rewrite seq_app, seq_app, !filter_app. cbn [plus].
  rewrite (filter_all_false _ (seq 0 a)), (filter_all_true _ (seq a (b - a))), (filter_all_false _ (seq (a + (b - a)) _)), app_nil_r; [reflexivity| | |]; intros i Hi; apply in_seq in Hi.
  - destruct (Nat.ltb_spec i b); [lia|apply andb_false_r].
  - rewrite (proj2 (Nat.leb_le a i)), (proj2 (Nat.ltb_lt i b)) by lia. reflexivity.
  - destruct (Nat.leb_spec a i); [lia|reflexivity].
Qed.
Example c36_slices_example : resolve 5 (SelSlice (Some (-2)%Z) None) = Ok [3; 4]%nat /\ resolve 5 (SelSlice (Some 1%Z) (Some (-1)%Z)) = Ok [1; 2; 3]%nat /\ resolve 5 (SelSlice None (Some 9%Z)) = Ok [0; 1; 2; 3; 4]%nat.
Proof. repeat split. Qed.
(** A model of a walk that learns its standard deviations is valid when the underlying model is and none of them is negative; with any other
    walk the underlying model alone decides. *)
Theorem c36_validity chol names sel fixed diagonal tr g valid base s : new_grw chol names sel fixed diagonal tr = Ok g -> length base = length names -> length s = length (g_names g) ->
  grw_valid g valid (base ++ s) = true <-> valid base = true /\ (fixed = None -> diagonal = true -> Forall (fun sigma => 0 <= sigma) s).
Proof.
  intros H Hb Hs. pose proof (c36_slots_match_names _ _ _ _ _ _ _ H) as (_ & Hi & _ & _).
  assert (G : g_n g = length names /\ match g_cov g with LearnDiag => fixed = None /\ diagonal = true | _ => fixed = None -> diagonal = false end).
  { unfold new_grw in H. destruct (resolve _ _) as [[|i0 l]|] eqn:Er in H; try discriminate. cbn [bind] in H. destruct fixed as [v|].
    - destruct diagonal; destruct v as [w|m|q]; cbn in H; try discriminate.
      + destruct (Nat.eqb _ _) in H; [|discriminate]. cbn in H. destruct (resolve _ _) as [[|]|] in H; cbn in H; try discriminate. match type of H with (if ?c then _ else _) = _ => destruct c end; [discriminate|]. injection H as <-. cbn. split; [reflexivity|discriminate].
      + destruct (_ && _) in H; [|discriminate]. destruct (chol m) in H; cbn in H; [|discriminate]. destruct (resolve _ _) as [[|]|] in H; cbn in H; try discriminate. match type of H with (if ?c then _ else _) = _ => destruct c end; [discriminate|]. injection H as <-. cbn. split; [reflexivity|discriminate].
    - destruct diagonal; cbn [bind] in H; destruct (resolve _ _) as [[|]|] in H; cbn in H; try discriminate; (match type of H with (if ?c then _ else _) = _ => destruct c end); try discriminate; injection H as <-; cbn; auto. }
  destruct G as [Gn Gc]. unfold grw_valid. rewrite Gn, <- Hb, firstn_app, firstn_all, Nat.sub_diag, firstn_O, app_nil_r.
  assert (F : forallb (fun i => Rleb 0 (nth i (base ++ s) 0)) (g_srw_idxs g) = true <-> Forall (fun sigma => 0 <= sigma) s).
  { rewrite Hi, <- Hs, <- Hb, forallb_forall, Forall_forall. split.
    - intros Q sigma Hin. destruct (In_nth s sigma 0 Hin) as (k & Hk & <-). specialize (Q (length base + k)%nat). rewrite in_seq in Q. specialize (Q ltac:(lia)). rewrite app_nth2_plus in Q. now destruct (Rleb_spec 0 (nth k s 0)).
    - intros Q i Hin. apply in_seq in Hin. rewrite app_nth2 by lia. apply Rleb_true. apply Q. apply nth_In. lia. }
  destruct (g_cov g) as [| |sc|ch].
  - rewrite andb_true_iff, F. destruct Gc. tauto.
  - split; [intros Q; split; [exact Q|]; intros E1 E2; specialize (Gc E1); congruence|tauto].
  - split; [intros Q; split; [exact Q|]; intros E1 E2; specialize (Gc E1); congruence|tauto].
  - split; [intros Q; split; [exact Q|]; intros E1 E2; specialize (Gc E1); congruence|tauto].
Qed.
Example c36_validity_example : exists g, new_grw (fun m => Ok m) [10; 11]%nat SelAll None true None = Ok g /\ length (g_names g) = 2%nat /\
  grw_valid g (fun _ => true) [5; 6; 1; -1] = false /\ grw_valid g (fun _ => true) [5; 6; 1; 2] = true.
Proof.
  eexists. split; [reflexivity|]. split; [reflexivity|]. split.
  - apply not_true_is_false. intros H. apply (proj1 (c36_validity (fun m => Ok m) [10; 11]%nat SelAll None true None _ _ [5; 6] [1; -1] eq_refl eq_refl eq_refl)) in H.
    destruct H as [_ H]. specialize (H eq_refl eq_refl). apply Forall_inv_tail, Forall_inv in H. lra.
  - apply (proj2 (c36_validity (fun m => Ok m) [10; 11]%nat SelAll None true None _ _ [5; 6] [1; 2] eq_refl eq_refl eq_refl)). split; [reflexivity|]. intros _ _. constructor; [lra|]. constructor; [lra|constructor].
Qed.
(** Likelihoods only see the underlying parameters. *)
Theorem c36_likelihood_ignores_walk_parameters {O E} chol names sel fixed diagonal tr g (like : O -> list R -> E -> R) o e base s s' :
  new_grw chol names sel fixed diagonal tr = Ok g -> length base = length names ->
  grw_like g like o (base ++ s) e = like o base e /\ grw_like g like o (base ++ s) e = grw_like g like o (base ++ s') e.
Proof.
  intros H Hb. apply new_grw_ok in H. destruct H as (l & l' & _ & _ & _ & _ & G1 & _). unfold grw_like. rewrite G1, <- Hb. rewrite !firstn_app, Nat.sub_diag, !firstn_O, !app_nil_r, firstn_all. split; reflexivity.
Qed.
(** The timestep changes exactly the declared parameters, each by its own step (no transformation; indices not counted from the end). *)
Theorem c36_only_walking_parameters_move chol names sel fixed diagonal g l x z mult : new_grw chol names sel fixed diagonal None = Ok g -> sel_plain sel ->
  resolve (length names) (sel_of (length names) sel) = Ok l -> (forall m c, chol m = Ok c -> length c = length m) ->
  length x = g_n_modelparams g -> length z = length l ->
  exists y, grw_timestep g x z mult = Ok y /\ unchanged_outside l x y /\
    (NoDup l -> forall k, (k < length l)%nat -> nth (nth k l 0%nat) y 0 = nth (nth k l 0%nat) x 0 + nth k (grw_step g x z mult) 0).
Proof.
  intros H Hs R Hc Hx Hz. pose proof (c36_slots_match_names _ _ _ _ _ _ _ H) as (N1 & N2 & N3 & N4). apply new_grw_ok in H.
  destruct H as (l0 & l' & R0 & Hn & R' & Hm & G1 & G2 & G3 & G4 & G5 & G6). rewrite R in R0. injection R0 as <-.
  assert (E : l' = l). { apply (resolve_grow (length names) (length (g_names g)) (sel_of (length names) sel)); try assumption; [now apply sel_of_plain|]. now rewrite <- N1. }
  subst l'. unfold grw_timestep. rewrite G2, R', G5. cbn [bind].
  assert (Ls : length (grw_step g x z mult) = length l).
  { rewrite <- G3. apply grw_step_length. rewrite G3. destruct (g_cov g).
    - destruct G6 as (_ & _ & Gn). rewrite G4, seq_length, Gn, map_length. auto.
    - exact I.
    - destruct G6 as (v & _ & _ & _ & -> & Hv). rewrite map_length. split; congruence.
    - destruct G6 as (m & _ & _ & _ & Hch & Hv). rewrite (Hc m _ Hch). assumption. }
  rewrite add_at_ok by congruence. eexists. split; [reflexivity|]. split.
  - apply (add_at_unchanged l x (grw_step g x z mult)). apply add_at_ok. congruence.
  - intros Hnd k Hk. rewrite SmcProofs2.set_row_same; [|assumption| | |assumption].
    + rewrite (nth_map2 _ _ _ _ 0 0 0) by (rewrite ?map_length; congruence || lia). f_equal.
      rewrite (nth_indep _ 0 (nth 0%nat x 0)) by (now rewrite map_length). now rewrite (map_nth (fun i => nth i x 0)).
    + rewrite map2_length by (now rewrite map_length). now rewrite map_length.
    + intros j Hj. rewrite Hx. pose proof (resolve_lt _ _ _ R' j Hj). lia.
Qed.
(** Indices counted from the end can slip through the constructor and then mean another parameter: asked to walk parameters
    3 and -4 (that is 3 and 0) of four, it walks 3 and 2. *)
Theorem c36_negative_index_refuted : exists g, new_grw (fun m => Ok m) [10; 11; 12; 13]%nat (SelIdx [3; -4]%Z) None true None = Ok g /\
  resolve 4 (SelIdx [3; -4]%Z) = Ok [3; 0]%nat /\ g_names g = [Sigma 13; Sigma 10] /\
  grw_timestep g [0; 0; 0; 0; 1; 1] [5; 7] 1 = Ok [0; 0; 7; 5; 1; 1].
Proof.
  eexists. split; [reflexivity|]. split; [reflexivity|]. split; [reflexivity|]. cbn. rows.
Qed.
(** With a transformation that mixes parameters, parameters not declared to walk move as well, although the two functions are inverse. *)
Theorem c36_transformation_refuted :
  let f := fun r => match r with [a; b] => [a; b - a] | _ => r end in let f' := fun r => match r with [a; b] => [a; a + b] | _ => r end in
  exists g, new_grw (fun m => Ok m) [10; 11]%nat (SelIdx [0]%Z) (Some (CDiag [1])) true (Some (f, f')) = Ok g /\
    (forall a b, f' (f [a; b]) = [a; b]) /\ resolve 2 (SelIdx [0]%Z) = Ok [0]%nat /\ grw_timestep g [0; 0] [3] 1 = Ok [3; 3].
Proof.
  eexists. split; [reflexivity|]. split; [intros; cbn; do 2 f_equal; ring|]. split; [reflexivity|]. cbn. rewrite sqrt_1. rows.
Qed.
Lemma nth_skipn' n : forall (r : list R) i, nth i (skipn n r) 0 = nth (n + i) r 0.
Proof. induction n as [|n IH]; intros [|v r] i; cbn; try reflexivity; [now destruct i|]. apply IH. Qed.
(** A transformation that acts on each parameter separately and is undone by its inverse moves only the declared ones. *)
Theorem c36_separable_transformation chol names sel fixed diagonal g l x z mult (h h' : nat -> R -> R) :
  let on k (r : list R) := map (fun i => k i (nth i r 0)) (seq 0 (length names)) in
  new_grw chol names sel fixed diagonal (Some (on h, on h')) = Ok g -> (forall i v, h' i (h i v) = v) -> sel_plain sel ->
  resolve (length names) (sel_of (length names) sel) = Ok l -> (forall m c, chol m = Ok c -> length c = length m) ->
  length x = g_n_modelparams g -> length z = length l ->
  exists y, grw_timestep g x z mult = Ok y /\ unchanged_outside l x y.
Proof.
  intros on H Hh Hs R Hc Hx Hz. pose proof (c36_slots_match_names _ _ _ _ _ _ _ H) as (N1 & N2 & N3 & N4). apply new_grw_ok in H.
  destruct H as (l0 & l' & R0 & Hn & R' & Hm & G1 & G2 & G3 & G4 & G5 & G6). rewrite R in R0. injection R0 as <-.
  assert (E : l' = l). { apply (resolve_grow (length names) (length (g_names g)) (sel_of (length names) sel)); try assumption; [now apply sel_of_plain|]. now rewrite <- N1. }
  subst l'. unfold grw_timestep. rewrite G2, R', G5. cbn [bind].
  assert (Ls : length (grw_step g x z mult) = length l).
  { rewrite <- G3. apply grw_step_length. rewrite G3. destruct (g_cov g).
    - destruct G6 as (_ & _ & Gn). rewrite G4, seq_length, Gn, map_length. auto.
    - exact I.
    - destruct G6 as (v & _ & _ & _ & -> & Hv). rewrite map_length. split; congruence.
    - destruct G6 as (m & _ & _ & _ & Hch & Hv). rewrite (Hc m _ Hch). assumption. }
  assert (OL : forall k r, length (on k r) = length names) by (intros; unfold on; now rewrite map_length, seq_length).
  assert (ON : forall k r j, (j < length names)%nat -> nth j (on k r) 0 = k j (nth j r 0)).
  { intros k r j Hj. unfold on. rewrite (nth_indep _ 0 (k 0%nat (nth 0 r 0))) by (rewrite map_length, seq_length; lia). rewrite (map_nth (fun i => k i (nth i r 0))), seq_nth by lia. reflexivity. }
  rewrite G1. set (t := on_underlying (length names) (on h) x).
  assert (Lt : length t = length x) by (unfold t, on_underlying; rewrite app_length, OL, skipn_length; lia).
  destruct (add_at l t (grw_step g x z mult)) as [y|] eqn:A; [|rewrite add_at_ok in A by congruence; discriminate]. cbn [bind].
  apply add_at_unchanged in A. destruct A as [A1 A2]. eexists. split; [reflexivity|]. split.
  - unfold on_underlying. rewrite app_length, OL, skipn_length. lia.
  - intros j Hj. unfold on_underlying. destruct (Nat.lt_ge_cases j (length names)) as [L|L].
    + rewrite app_nth1 by (now rewrite OL). rewrite ON by assumption. rewrite nth_firstn' by assumption. rewrite A2 by assumption.
      unfold t, on_underlying. rewrite app_nth1 by (now rewrite OL). rewrite ON by assumption. rewrite nth_firstn' by assumption. apply Hh.
    + rewrite app_nth2 by (rewrite OL; assumption). rewrite OL.
      rewrite nth_skipn'. replace (length names + (j - length names))%nat with j by lia. rewrite A2 by assumption. unfold t, on_underlying.
      rewrite app_nth2 by (rewrite OL; assumption). rewrite OL, nth_skipn'. f_equal. lia.
Qed.
(** The constructor accepts every choice of existing parameters, with learned variances or with a fixed covariance of the right shape. *)
Theorem c36_accepts chol names sel fixed diagonal tr l : l <> [] -> (sel = SelAll /\ l = seq 0 (length names)) \/ (sel = SelIdx (map Z.of_nat l) /\ Forall (fun i => (i < length names)%nat) l) ->
  match fixed, diagonal with
  | None, _ => True
  | Some (CDiag v), true => length v = length l
  | Some (CDense m), false => length m = length l /\ Forall (fun r => length r = length l) m /\ exists c, chol m = Ok c
  | _, _ => False
  end -> exists g, new_grw chol names sel fixed diagonal tr = Ok g /\ g_n_rw g = length l.
Proof.
  intros Hn Hs Hf.
  assert (Rs : forall k, resolve (length names + k) (sel_of (length names) sel) = Ok l).
  { intros k. destruct Hs as [[-> ->]|[-> Hl]]; cbn [sel_of resolve].
    - unfold slice_bound. destruct (Z.ltb_spec (Z.of_nat (length names)) 0); [lia|]. rewrite Z.min_l by lia. now rewrite Nat2Z.id, Nat.sub_0_r.
    - clear Hn Hf. induction Hl as [|i l Hi Hl IH]; [reflexivity|]. cbn [map mapM]. unfold wrap_index at 1. destruct (Z.leb_spec 0 (Z.of_nat i)); [|lia]. destruct (Z.ltb_spec (Z.of_nat i) (Z.of_nat (length names + k))); [|lia].
      cbn [andb bind]. rewrite IH. cbn [bind]. now rewrite Nat2Z.id. }
  unfold new_grw. pose proof (Rs 0%nat) as R0. rewrite Nat.add_0_r in R0. rewrite R0. cbn [bind]. destruct l as [|i l]; [now destruct Hn|]. set (ll := i :: l) in *.
  assert (F : forall p : list srw_name * list nat * cov, exists g, (let '(srw, idxs, c) := p in bind (resolve (length names + length srw) (sel_of (length names) sel)) (fun touched => match touched with [] => Err ValueError
      | _ => if Nat.ltb (list_max ll) (list_max touched) then Err IndexError
             else Ok {| g_n := length names; g_sel := sel_of (length names) sel; g_n_rw := length ll; g_names := srw; g_srw_idxs := idxs; g_cov := c; g_transform := tr |} end)) = Ok g /\ g_n_rw g = length ll).
  { intros [[srw idxs] c]. rewrite Rs. cbn [bind]. unfold ll at 1. rewrite Nat.ltb_irrefl. eexists. split; reflexivity. }
  destruct fixed as [v|]; [|destruct diagonal; cbn [bind]; exact (F (_, _, _))]. destruct v as [v|m|]; destruct diagonal; try contradiction.
  - rewrite Hf, Nat.eqb_refl. cbn [bind]. exact (F (_, _, _)).
  - destruct Hf as (H1 & H2 & c & H3). rewrite H1, Nat.eqb_refl. replace (forallb (fun r => Nat.eqb (length r) (length ll)) m) with true.
    + cbn [andb]. rewrite H3. cbn [bind]. exact (F (_, _, _)).
    + symmetry. apply forallb_forall. rewrite Forall_forall in H2. intros r Hr. apply Nat.eqb_eq. now apply H2.
Qed.
(** A wrongly sized diagonal covariance is rejected, but with an AttributeError from formatting the message. *)
Theorem c36_size_mismatch_exception : new_grw (fun m => Ok m) [10; 11]%nat SelAll (Some (CDiag [1])) true None = Err AttributeError /\
  new_grw (fun m => Ok m) [10; 11]%nat SelAll (Some (CDense [[1]])) true None = Err ValueError /\ new_grw (fun m => Ok m) [10; 11]%nat (SelIdx []) None true None = Err IndexError.
Proof. repeat split; reflexivity. Qed.
Example c36_example : exists g, new_grw (fun m => Ok m) [10; 11; 12]%nat (SelIdx [0; 2]%Z) None false None = Ok g /\ g_names g = [Sigma 10; Sigma2 10 12; Sigma 12] /\
  grw_timestep g [1; 2; 3; 1; 2; 3] [5; 7] 1 = Ok [6; 2; 34; 1; 2; 3].
Proof. eexists. split; [reflexivity|]. split; [reflexivity|]. cbn. unfold rdot. cbn. rewrite !rsum_cons, !rsum_nil. rows. Qed.

(** C37 *)
Lemma density_scale m v x : 0 < v -> normal_density m v x = norm_pdf ((x - m) / sqrt v) / sqrt v.
Proof.
  intros Hv. unfold normal_density, norm_pdf. pose proof (sqrt_lt_R0 v Hv). pose proof PI_RGT_0. assert (0 < sqrt (2 * PI)) by (apply sqrt_lt_R0; lra).
  rewrite sqrt_mult by lra. replace (- ((x - m) / sqrt v) ^ 2 / 2) with (- (x - m) ^ 2 / (2 * v)).
  - field. split; apply Rgt_not_eq; assumption.
  - replace (((x - m) / sqrt v) ^ 2) with ((x - m) ^ 2 / (sqrt v * sqrt v)) by (field; lra). rewrite sqrt_sqrt by lra. field. lra.
Qed.
(** What is returned: each component of the mixture density, but missing the factor 1/sigma. *)
Theorem c37_components_partial {E} n (like : Z -> list R -> E -> R) o x e : 0 < nth (n + 2) x 0 -> 0 < nth (n + 3) x 0 ->
  hyper_entry n like o x e = Ok (like 0%Z (firstn n x) e * (sqrt (nth (n + 2) x 0) * normal_density (nth n x 0) (nth (n + 2) x 0) o) +
                                like 1%Z (firstn n x) e * (sqrt (nth (n + 3) x 0) * normal_density (nth (n + 1) x 0) (nth (n + 3) x 0) o)).
Proof.
  intros H0 H1. unfold hyper_entry. cbv zeta. rewrite !Nat.add_0_r. replace (n + 2 + 1)%nat with (n + 3)%nat by lia. rewrite !Rltb_true by assumption. cbn [andb]. f_equal.
  cbn [map]. rewrite !rsum_cons, rsum_nil, !Nat.add_0_r, Rplus_0_r. replace (n + 2 + 1)%nat with (n + 3)%nat by lia. cbn [Z.of_nat Pos.of_succ_nat].
  rewrite !density_scale by assumption. pose proof (sqrt_lt_R0 _ H0). pose proof (sqrt_lt_R0 _ H1). f_equal; f_equal; field; lra.
Qed.
(** With unit variances it is the mixture density. *)
Theorem c37_unit_variance {E} n (like : Z -> list R -> E -> R) o x e : nth (n + 2) x 0 = 1 -> nth (n + 3) x 0 = 1 ->
  hyper_entry n like o x e = Ok (like 0%Z (firstn n x) e * normal_density (nth n x 0) (nth (n + 2) x 0) o + like 1%Z (firstn n x) e * normal_density (nth (n + 1) x 0) (nth (n + 3) x 0) o).
Proof. intros H0 H1. rewrite c37_components_partial by lra. rewrite H0, H1, sqrt_1. f_equal. ring. Qed.
(** In general it is not: a certain underlying outcome, mean 0 and variance 4, observed at 0; the density is half of what is returned.
    The missing factor does not cancel in Bayes' rule: hypotheses of variance 1 and 4 get equal likelihood at the mean, the true ratio is 2. *)
Theorem c37_density_refuted : let like := fun (o : Z) (_ : list R) (_ : unit) => if (o =? 0)%Z then 1 else 0 in
  hyper_entry 0 like 0 [0; 0; 4; 4] tt = Ok (2 * (1 * normal_density 0 4 0 + 0 * normal_density 0 4 0)) /\ 0 < normal_density 0 4 0 /\
  hyper_entry 0 like 0 [0; 0; 4; 4] tt = hyper_entry 0 like 0 [0; 0; 1; 1] tt /\ normal_density 0 1 0 = 2 * normal_density 0 4 0.
Proof.
  cbv zeta. assert (S4 : sqrt 4 = 2) by (replace 4 with (2 * 2) by ring; apply sqrt_square; lra).
  assert (N : normal_density 0 1 0 = 2 * normal_density 0 4 0).
  { rewrite !density_scale by lra. rewrite S4, sqrt_1. unfold Rdiv. rewrite !Rminus_0_r, !Rmult_0_l. field. }
  assert (P : 0 < normal_density 0 4 0).
  { unfold normal_density. apply Rmult_lt_0_compat; [|apply exp_pos]. apply Rinv_0_lt_compat, sqrt_lt_R0. pose proof PI_RGT_0. lra. }
  assert (A : hyper_entry 0 (fun (o : Z) (_ : list R) (_ : unit) => if (o =? 0)%Z then 1 else 0) 0 [0; 0; 4; 4] tt = Ok (2 * normal_density 0 4 0)).
  { rewrite c37_components_partial by (cbn; lra). cbn [nth Nat.add Z.eqb firstn]. rewrite S4. f_equal. ring. }
  split; [rewrite A; f_equal; ring|]. split; [assumption|]. split; [|assumption]. rewrite A. rewrite c37_unit_variance by reflexivity. cbn [nth Nat.add Z.eqb firstn]. f_equal. rewrite N. ring.
Qed.
(** Non-positive variances are refused. *)
Theorem c37_variance_check {E} n (like : Z -> list R -> E -> R) o x e : nth (n + 2) x 0 <= 0 \/ nth (n + 3) x 0 <= 0 -> hyper_entry n like o x e = Err AssertionError.
Proof.
  intros H. unfold hyper_entry. cbv zeta. rewrite !Nat.add_0_r. replace (n + 2 + 1)%nat with (n + 3)%nat by lia. destruct H as [H|H]; rewrite (Rltb_false 0 _ H); [reflexivity|]. now rewrite andb_false_r.
Qed.

(** C47 *)
Theorem c47_estimate_range n N h : 0 <= n <= N -> 0 <= h -> 0 < N + 2 * h ->
  exists p, binom_est_p n N h = Fin p /\ 0 <= p <= 1 /\ (0 < h -> 0 < p < 1).
Proof.
  intros Hn Hh Hd. unfold binom_est_p. cbn [xdiv]. rewrite Reqb_false by lra. eexists. split; [reflexivity|].
  assert (A : forall a, 0 <= a -> 0 <= a / (N + 2 * h)) by (intros a Ha; apply Rmult_le_pos; [assumption|left; now apply Rinv_0_lt_compat]).
  assert (B : 1 - (n + h) / (N + 2 * h) = (N - n + h) / (N + 2 * h)) by (field; lra).
  split; [split; [apply A; lra|]; pose proof (A (N - n + h) ltac:(lra)); lra|].
  intros H. assert (C : forall a, 0 < a -> 0 < a / (N + 2 * h)) by (intros a Ha; apply Rmult_lt_0_compat; [assumption|now apply Rinv_0_lt_compat]).
  split; [apply C; lra|]. pose proof (C (N - n + h) ltac:(lra)). lra.
Qed.
Theorem c47_increasing n n' N h p p' : 0 < N + 2 * h -> binom_est_p n N h = Fin p -> binom_est_p n' N h = Fin p' -> (n < n' <-> p < p').
Proof.
  intros Hd. unfold binom_est_p. cbn [xdiv]. rewrite Reqb_false by lra. intros [= <-] [= <-]. pose proof (Rinv_0_lt_compat _ Hd) as Hi. split; intros H.
  - apply Rmult_lt_compat_r; lra.
  - apply (Rmult_lt_reg_r (/ (N + 2 * h))) in H; lra.
Qed.
Theorem c47_error_bound p N h : 0 <= p <= 1 -> 0 < N + 2 * h ->
  exists s, binom_est_error p N h = Fin s /\ 0 <= s <= / (2 * sqrt (N + 2 * h)).
Proof.
  intros Hp Hd. unfold binom_est_error. cbn [xdiv]. rewrite Reqb_false by lra. cbn [xsqrt].
  assert (Hi : 0 < / (N + 2 * h + 1)) by (apply Rinv_0_lt_compat; lra). assert (Hq : 0 <= p * (1 - p) <= 1/4) by (split; [apply Rmult_le_pos; lra|pose proof (pow2_ge_0 (p - 1/2)); lra]).
  assert (H0 : 0 <= p * (1 - p) / (N + 2 * h + 1)) by (apply Rmult_le_pos; lra). rewrite Rltb_false by assumption. eexists. split; [reflexivity|]. split; [apply sqrt_pos|].
  replace (/ (2 * sqrt (N + 2 * h))) with (sqrt (1/4 * / (N + 2 * h))).
  - apply sqrt_le_1; [assumption| |].
    + apply Rmult_le_pos; [lra|]. left. now apply Rinv_0_lt_compat.
    + unfold Rdiv. apply Rmult_le_compat; try lra. apply Rinv_le_contravar; lra.
  - rewrite sqrt_mult by (try lra; left; now apply Rinv_0_lt_compat). 
    replace (1/4) with (1/2 * (1/2)) by field. rewrite sqrt_square by lra. pose proof (sqrt_lt_R0 _ Hd). rewrite sqrt_inv. field. lra.
Qed.
(** Hence the error falls below every tolerance once there are enough samples. *)
Theorem c47_error_vanishes tol : 0 < tol -> exists N0, forall N h p, N0 <= N -> 0 <= h -> 0 <= p <= 1 -> exists s, binom_est_error p N h = Fin s /\ s < tol.
Proof.
  intros Ht. exists (/ (tol * tol) + 1). intros N h p HN Hh Hp. assert (Htt : 0 < / (tol * tol)) by (apply Rinv_0_lt_compat; nra).
  destruct (c47_error_bound p N h Hp ltac:(lra)) as (s & E & Hs). exists s. split; [assumption|]. eapply Rle_lt_trans; [apply Hs|].
  assert (A : / tol < 2 * sqrt (N + 2 * h)).
  { assert (/ tol <= sqrt (N + 2 * h)). { rewrite <- (sqrt_square (/ tol)) by (left; now apply Rinv_0_lt_compat). apply sqrt_le_1; [nra|lra|]. replace (/ tol * / tol) with (/ (tol * tol)) by (field; lra). lra. }
    pose proof (Rinv_0_lt_compat tol Ht). lra. }
  rewrite <- (Rinv_involutive tol) at 1 by lra. apply Rinv_lt_contravar; [|assumption]. apply Rmult_lt_0_compat; [now apply Rinv_0_lt_compat|]. pose proof (Rinv_0_lt_compat tol Ht). lra.
Qed.
(** Without data and without hedging the estimate is 0/0. *)
Theorem c47_no_data_refuted : binom_est_p 0 0 0 = NaN.
Proof. unfold binom_est_p. cbn [xdiv]. rewrite Reqb_true by ring. unfold inf_times. rewrite !Rltb_false by lra. reflexivity. Qed.
Example c47_example : binom_est_p 3 10 (1/2) = Fin (7/22).
Proof. unfold binom_est_p. cbn [xdiv]. rewrite Reqb_false by lra. f_equal. field. Qed.

Print Assumptions c32_count_likelihood.
Print Assumptions c32_distribution.
Print Assumptions c32_single_shot.
Print Assumptions c32_construction.
Print Assumptions c32_wrong_exception_refuted.
Print Assumptions c33_count_likelihood.
Print Assumptions c33_sums_to_one.
Print Assumptions c33_zero_probability_outcome.
Print Assumptions c34_range_and_error.
Print Assumptions c34_scale_finite.
Print Assumptions c34_argument_check_refuted.
Print Assumptions c34_exactly_one_argument.
Print Assumptions c35_order_and_zeros.
Print Assumptions c35_power_one.
Print Assumptions c35_integer_power.
Print Assumptions c35_repeated_updates.
Print Assumptions c36_random_walk_adds_sample.
Print Assumptions c36_dimension_mismatch.
Print Assumptions c36_slots_match_names.
Print Assumptions c36_cholesky_names.
Print Assumptions c36_slices.
Print Assumptions c36_validity.
Print Assumptions c36_likelihood_ignores_walk_parameters.
Print Assumptions c36_only_walking_parameters_move.
Print Assumptions c36_negative_index_refuted.
Print Assumptions c36_transformation_refuted.
Print Assumptions c36_separable_transformation.
Print Assumptions c36_size_mismatch_exception.
Print Assumptions c37_components_partial.
Print Assumptions c37_unit_variance.
Print Assumptions c37_density_refuted.
Print Assumptions c37_variance_check.
Print Assumptions c47_estimate_range.
Print Assumptions c47_increasing.
Print Assumptions c47_error_bound.
Print Assumptions c47_error_vanishes.
Print Assumptions c47_no_data_refuted.
Print Assumptions c36_accepts.
