(** C126: likelihood arrays of the binomial, multinomial and Gaussian hyperparameterised models.
    C127: an update uses the first outcome and the first experiment, though its zero-weight test sums over all of them. *)
From Verif Require Import Base Ext RList Sums DomModel TwoModel DerModel DerSpec DerProofs SmcModel SmcProofs Nd NdModel NdModel2 NdSpec NdProofs NdProofs2 NdProofs3.

Lemma G_prod n : forall c p, G p (map c (seq 0 n)) = Prod n (fun j => p j ^ c j / INR (fact (c j))).
Proof.
  induction n as [|n IH]; intros c p; [reflexivity|].
  rewrite Prod_S. cbn [seq map G]. rewrite <- seq_shift, map_map. f_equal. apply (IH (fun j => c (S j)) (fun j => p (S j))).
Qed.

Section C126.
Context {E : Type}.
Variables (like_arr : nd Z -> nd R -> list E -> res (nd R)) (like : Z -> list R -> E -> R) (d : nat) (good : Z -> Prop) (ok : E -> Prop) (dE : E).
Hypothesis Hlike : implements d good ok dE like_arr like.

(** Binomial: the table of binomial probabilities when every probability of outcome 1 lies in [0, 1]; otherwise the assertion stops it. *)
Theorem c126_binomial os xs es n_o n_m : shp os = [n_o] -> shp xs = [n_m; d] -> (0 < n_o)%nat -> (0 < n_m)%nat -> good 1%Z -> Forall (fun e => ok (fst e)) es ->
  (forall i k, (i < n_m)%nat -> (k < length es)%nat -> 0 <= like 1%Z (row d xs i) (fst (nth k es (dE, 0%nat))) <= 1) ->
  is3 (binomial_likelihood like_arr os xs es) n_o n_m (length es) (fun o i k =>
    let p := like 1%Z (row d xs i) (fst (nth k es (dE, 0%nat))) in let N := snd (nth k es (dE, 0%nat)) in let n := get os [o] in
    Fin (INR (binom N n) * p ^ n * (1 - p) ^ (N - n))).
Proof.
  intros Ho Hx Hpo Hpm Hg Hok Hp. destruct (binomial_raw like_arr d good ok dE like Hlike os xs es n_o n_m Ho Hx Hpo Hpm Hg Hok) as (a & E1 & E2 & E3).
  rewrite E1. apply nan_check; [exact E2| |reflexivity]. intros o i k H1 H2 H3. rewrite E3 by assumption. unfold binomial_pdf, scipy_binom_pmf.
  destruct (Hp i k H2 H3) as (P0 & P1). now rewrite !Rleb_true by assumption.
Qed.
Theorem c126_binomial_invalid os xs es n_o n_m i k : shp os = [n_o] -> shp xs = [n_m; d] -> (0 < n_o)%nat -> good 1%Z -> Forall (fun e => ok (fst e)) es ->
  (i < n_m)%nat -> (k < length es)%nat -> ~ 0 <= like 1%Z (row d xs i) (fst (nth k es (dE, 0%nat))) <= 1 ->
  binomial_likelihood like_arr os xs es = Err AssertionError.
Proof.
  intros Ho Hx Hpo Hg Hok Hi Hk Hp. destruct (binomial_raw like_arr d good ok dE like Hlike os xs es n_o n_m Ho Hx Hpo ltac:(lia) Hg Hok) as (a & E1 & E2 & E3).
  rewrite E1. apply (nan_caught a n_o n_m (length es) 0 i k); [assumption..|]. rewrite E3 by assumption. unfold binomial_pdf, scipy_binom_pmf.
  destruct (Rleb_spec 0 (like 1%Z (row d xs i) (fst (nth k es (dE, 0%nat))))); [|reflexivity].
  destruct (Rleb_spec (like 1%Z (row d xs i) (fst (nth k es (dE, 0%nat)))) 1); [exfalso; lra|reflexivity].
Qed.

(** Multinomial: the last probability is what the others leave. *)
Theorem c126_multinomial values os xs es n_o n_m : (2 <= length values)%nat -> shp os = [n_o; length values] -> shp xs = [n_m; d] -> (0 < n_o)%nat -> (0 < n_m)%nat ->
  Forall good (removelast values) -> Forall (fun e => ok (fst e)) es ->
  (forall i k, (i < n_m)%nat -> (k < length es)%nat ->
     Forall (fun v => 0 <= like v (row d xs i) (fst (nth k es (dE, 0%nat)))) (removelast values) /\
     rsum (map (fun v => like v (row d xs i) (fst (nth k es (dE, 0%nat)))) (removelast values)) <= 1) ->
  is3 (multinomial_likelihood like_arr values os xs es) n_o n_m (length es) (fun o i k =>
    let ps := map (fun v => like v (row d xs i) (fst (nth k es (dE, 0%nat)))) (removelast values) in let p j := nth j (ps ++ [1 - rsum ps]) 0 in
    Fin (INR (fact (nat_sum (row (length values) os o))) * Prod (length values) (fun j => p j ^ get os [o; j] / INR (fact (get os [o; j]))))).
Proof.
  intros Hv Ho Hx Hpo Hpm Hg Hok Hp.
  destruct (multinomial_raw like_arr d good ok dE like Hlike values (length values) os xs es n_o n_m Hv Ho Hx Hpo Hpm Hg Hok) as (a & E1 & E2 & E3).
  rewrite E1. apply nan_check; [exact E2| |reflexivity]. intros o i k H1 H2 H3. rewrite E3 by assumption. destruct (Hp i k H2 H3) as (P0 & P1).
  assert (Hl : length (removelast values) = (length values - 1)%nat).
  { destruct values as [|v vs] using rev_ind; [cbn in Hv; lia|]. rewrite removelast_last, app_length. cbn. lia. }
  rewrite multinomial_pdf_value; [|now apply Forall_map|lra|unfold row; rewrite !map_length, seq_length; lia].
  cbv zeta. f_equal. f_equal. apply (G_prod (length values) (fun j => get os [o; j])).
Qed.

(** Hyperparameterised: a two-component mixture of normal densities; columns d, d+1 hold the means and d+2, d+3 the variances. *)
Lemma row_prefix (xs : nd R) m i : firstn d (row (d + m) xs i) = row d xs i.
Proof. unfold row. rewrite seq_app, map_app, firstn_app, map_length, seq_length, Nat.sub_diag, firstn_O, app_nil_r. apply firstn_all2. now rewrite map_length, seq_length. Qed.
Lemma nth_row (xs : nd R) m i j : (j < m)%nat -> nth j (row m xs i) 0 = get xs [i; j].
Proof. intros Hj. unfold row. now rewrite nth_seq_map. Qed.
Theorem c126_hyperparameterized os xs es n_o n_m : shp os = [n_o] -> shp xs = [n_m; d + 4]%nat -> (0 < n_o)%nat -> (0 < n_m)%nat -> good 0%Z -> good 1%Z -> Forall ok es ->
  (forall i, (i < n_m)%nat -> 0 < get xs [i; d + 2]%nat /\ 0 < get xs [i; d + 3]%nat) ->
  is3 (hyper_likelihood like_arr d os xs es) n_o n_m (length es) (fun o i k =>
    like 0%Z (row d xs i) (nth k es dE) * norm_pdf ((get os [o] - get xs [i; d]%nat) / sqrt (get xs [i; d + 2]%nat)) +
    like 1%Z (row d xs i) (nth k es dE) * norm_pdf ((get os [o] - get xs [i; d + 1]%nat) / sqrt (get xs [i; d + 3]%nat))).
Proof.
  intros Ho Hx Hpo Hpm Hg0 Hg1 Hok Hs. destruct (hyper_arr like_arr d good ok dE like Hlike os xs es n_o n_m Ho Hx Hpo Hpm Hg0 Hg1 Hok Hs) as (a & E1 & E2 & E3).
  exists a. split; [exact E1|]. split; [exact E2|]. intros o i k H1 H2 H3. specialize (E3 o i k H1 H2 H3). unfold hyper_entry in E3.
  rewrite !nth_row, row_prefix in E3 by lia. destruct (Hs i H2) as (S0 & S1). replace (d + 2 + 0)%nat with (d + 2)%nat in E3 by lia. replace (d + 2 + 1)%nat with (d + 3)%nat in E3 by lia.
  rewrite !Rltb_true in E3 by assumption. cbn [andb map] in E3. injection E3 as <-. rewrite !nth_row by lia. unfold rsum. cbn [fold_right Z.of_nat Pos.of_succ_nat].
  replace (d + 2 + 0)%nat with (d + 2)%nat by lia. replace (d + 2 + 1)%nat with (d + 3)%nat by lia. rewrite Nat.add_0_r. ring.
Qed.
Theorem c126_hyperparameterized_invalid os xs es n_m i u : shp xs = [n_m; d + 4]%nat -> (i < n_m)%nat -> (u < 2)%nat -> get xs [i; d + 2 + u]%nat <= 0 ->
  hyper_likelihood like_arr d os xs es = Err AssertionError.
Proof.
  intros Hx Hi Hu Hv. unfold hyper_likelihood. cbv zeta. destruct (forallb _ _) eqn:Ef; [exfalso|reflexivity]. rewrite forallb_forall in Ef.
  specialize (Ef (get xs [i; d + 2 + u]%nat)). rewrite Rltb_false in Ef by assumption. discriminate Ef. apply in_entries. exists [u; 0; i; 0]%nat.
  destruct xs as [sh g]. cbn [shp] in Hx. subst sh. split; [|reflexivity]. cbn -[Nat.sub Nat.add]. replace (d + 4 - (d + 2))%nat with 2%nat by lia. repeat (apply Forall2_cons; [assumption || lia|]); apply Forall2_nil.
Qed.
End C126.

(** C127 *)
Lemma Sum_grid n m f : Sum (n * m) f = Sum n (fun q => Sum m (fun r => f (q * m + r)%nat)).
Proof.
  revert f. induction n as [|n IH]; intros f; [reflexivity|]. cbn [Nat.mul]. rewrite Sum_S.
  assert (Hs : forall a b g, Sum (a + b) g = Sum a g + Sum b (fun i => g (a + i)%nat)).
  { intros a b. induction a as [|a IHa]; intros g; [rewrite Sum_0, Rplus_0_l; reflexivity|]. cbn [Nat.add]. rewrite !Sum_S, IHa. cbn [Nat.add]. ring. }
  rewrite Hs, IH. f_equal. apply Sum_ext. intros q _. apply Sum_ext. intros r _. f_equal. lia.
Qed.
Section C127.
Context {O E : Type}.
Variable like_arr : nd O -> nd R -> list E -> res (nd R).
(** the normalised hypothetical weight of particle [i] for outcome [o] and experiment [k], from prior weights [w] and likelihoods [f] *)
Definition scale_at (w : list R) (f : nat -> nat -> nat -> R) o k : R := Sum (length w) (fun i => nth i w 0 * f o i k).
Definition weight_at (w : list R) (f : nat -> nat -> nat -> R) o k i : R := nth i w 0 * f o i k / (if Rltb (Rabs (scale_at w f o k)) eps then 1 else scale_at w f o k).

Lemma weight_nonneg w f o k i : Forall (fun x => 0 <= x) w -> (forall i, (i < length w)%nat -> 0 <= f o i k) -> (i < length w)%nat -> 0 <= weight_at w f o k i.
Proof.
  intros Hw Hf Hi. rewrite Forall_forall in Hw. assert (Hs : 0 <= scale_at w f o k).
  { apply Sum_nonneg. intros j Hj. apply Rmult_le_pos; [apply Hw, nth_In|apply Hf]; assumption. }
  unfold weight_at. pose proof eps_pos. apply Rmult_le_pos; [apply Rmult_le_pos; [apply Hw, nth_In|apply Hf]; assumption|].
  left. apply Rinv_0_lt_compat. destruct (Rltb_spec (Rabs (scale_at w f o k)) eps) as [|Hge]; [lra|]. rewrite Rabs_pos_eq in Hge by assumption. lra.
Qed.

(** Whatever the numbers of outcomes and experiments, the new weights are those of the first outcome and the first experiment; whether there
    are any is decided by the sum over all outcomes and experiments. *)
Theorem c127_first_outcome_first_experiment z w locs outcomes es n_o n_e f : (0 < n_o)%nat -> (0 < n_e)%nat ->
  is3 (like_arr outcomes locs es) n_o (length w) n_e f -> Forall (fun x => 0 <= x) w ->
  (forall o i k, (o < n_o)%nat -> (i < length w)%nat -> (k < n_e)%nat -> 0 <= f o i k) ->
  let total := Sum n_o (fun o => Sum n_e (fun k => Sum (length w) (weight_at w f o k))) in
  (total <= z -> update_arrays like_arr z (vec 0 w) locs outcomes es = Ok None) /\
  (z < total -> exists a, update_arrays like_arr z (vec 0 w) locs outcomes es = Ok (Some (a, scale_at w f 0 0)) /\ is1 (Ok a) (length w) (weight_at w f 0 0)).
Proof.
  intros Hno Hne HL Hw Hf total.
  assert (Hsc : forall o k, rsum (map (fun i => nth i w 0 * f o i k) (seq 0 (length w))) = scale_at w f o k) by (intros o k; unfold scale_at; now rewrite Sum_rsum).
  pose proof (update_arr like_arr z w locs outcomes es n_o n_e f Hno Hne HL) as HU. cbv zeta in HU.
  assert (Hwt : forall o k i, nth i w 0 * f o i k / fix_norm (rsum (map (fun j => nth j w 0 * f o j k) (seq 0 (length w)))) = weight_at w f o k i) by (intros o k i; now rewrite Hsc).
  destruct HU as (U1 & U2).
  { intros o k i Ho Hk Hi. rewrite Hwt. apply weight_nonneg; [assumption| |assumption]. intros j Hj. now apply Hf. }
  match type of U1 with ?t <= z -> _ => assert (Htot : t = total) end.
  { rewrite <- Sum_rsum, Sum_grid. apply Sum_ext. intros o Ho. rewrite Sum_grid. apply Sum_ext. intros k Hk. apply Sum_ext. intros i Hi. rewrite Hwt.
    assert (Hlt : (k * length w + i < n_e * length w)%nat) by nia.
    rewrite Nat.div_add_l by lia. rewrite (Nat.add_comm (o * _)), Nat.mod_add by lia. rewrite (Nat.div_small (k * length w + i)), (Nat.mod_small (k * length w + i)) by assumption.
    rewrite Nat.div_add_l by lia. rewrite (Nat.add_comm (k * _)), Nat.mod_add by lia. rewrite Nat.div_small, Nat.mod_small by assumption. now rewrite !Nat.add_0_r. }
  rewrite Htot in U1, U2. split; [exact U1|]. intros Hz. destruct (U2 Hz) as (a & E1 & (a' & Ea & E2 & E3)). exists a. split; [now rewrite E1, Hsc|].
  exists a'. split; [exact Ea|]. split; [exact E2|]. intros i Hi. rewrite E3 by assumption. apply Hwt.
Qed.

(** One outcome and one experiment: the update of SmcModel. *)
Theorem c127_single_update {RND} (c : @config O E RND) dO (s : @state O) o e d : length (ws s) = length (ls s) ->
  is3 (like_arr (vec dO [o]) (mat2 0 d (ls s)) [e]) 1 (length (ws s)) 1 (fun _ i _ => lik (md c) o (nth i (ls s) []) e) ->
  Forall (fun x => 0 <= x) (ws s) -> (forall x, 0 <= lik (md c) o x e) ->
  let w := norm_row c (ws s) (ls s) o e in
  (rsum w <= SmcModel.zthresh c -> update_arrays like_arr (SmcModel.zthresh c) (vec 0 (ws s)) (mat2 0 d (ls s)) (vec dO [o]) [e] = Ok None) /\
  (SmcModel.zthresh c < rsum w -> exists a, update_arrays like_arr (SmcModel.zthresh c) (vec 0 (ws s)) (mat2 0 d (ls s)) (vec dO [o]) [e] = Ok (Some (a, norm_scale c (ws s) (ls s) o e)) /\
     is1 (Ok a) (length w) (fun i => nth i w 0)).
Proof.
  intros Hl HL Hw Hf w. set (f := fun _ i _ => lik (md c) o (nth i (ls s) []) e) in HL.
  assert (Hs : scale_at (ws s) f 0 0 = norm_scale c (ws s) (ls s) o e) by (rewrite norm_scale_index by assumption; unfold scale_at; now rewrite Sum_rsum).
  assert (Hn : w = map (weight_at (ws s) f 0 0) (seq 0 (length (ws s)))).
  { unfold w. rewrite norm_row_index by assumption. apply map_ext. intros i. unfold weight_at. now rewrite Hs. }
  destruct (c127_first_outcome_first_experiment (SmcModel.zthresh c) (ws s) (mat2 0 d (ls s)) (vec dO [o]) [e] 1 1 f) as (U1 & U2);
    [lia|lia|exact HL|assumption|intros; apply Hf|].
  rewrite !Sum_S, !Sum_0, !Rplus_0_r in U1, U2. rewrite Sum_rsum, <- Hn in U1, U2. split; [exact U1|]. intros Hz. destruct (U2 Hz) as (a & E1 & E2).
  exists a. rewrite Hs in E1. split; [exact E1|]. rewrite Hn at 1. rewrite map_length, seq_length. destruct E2 as (a' & Ea & E2 & E3). exists a'. split; [exact Ea|]. split; [exact E2|].
  intros i Hi. rewrite E3 by assumption. rewrite Hn, nth_seq_map by assumption. reflexivity.
Qed.

(** The protection against an impossible datum can therefore be lost: when the first outcome is impossible under the first experiment but some
    other pair is possible, the update goes through and every particle gets weight zero. *)
Theorem c127_zero_weight_test_refuted z w locs outcomes es n_o n_e f o' k' : (o' < n_o)%nat -> (k' < n_e)%nat ->
  is3 (like_arr outcomes locs es) n_o (length w) n_e f -> Forall (fun x => 0 <= x) w ->
  (forall o i k, (o < n_o)%nat -> (i < length w)%nat -> (k < n_e)%nat -> 0 <= f o i k) ->
  (forall i, (i < length w)%nat -> f 0%nat i 0%nat = 0) -> eps <= Sum (length w) (fun i => nth i w 0 * f o' i k') -> z < 1 ->
  exists a, update_arrays like_arr z (vec 0 w) locs outcomes es = Ok (Some (a, 0)) /\ is1 (Ok a) (length w) (fun _ => 0).
Proof.
  intros Ho Hk HL Hw Hf H0 Hpos Hz.
  assert (S0 : scale_at w f 0 0 = 0).
  { unfold scale_at. rewrite (Sum_ext _ _ (fun _ => 0 * 0)) by (intros i Hi; rewrite H0 by assumption; ring). rewrite Sum_scal. ring. }
  assert (One : Sum (length w) (weight_at w f o' k') = 1).
  { pose proof eps_pos. unfold weight_at. fold (scale_at w f o' k') in Hpos. rewrite Rltb_false by (rewrite Rabs_pos_eq; lra).
    rewrite (Sum_ext _ _ (fun i => / scale_at w f o' k' * (nth i w 0 * f o' i k'))) by (intros; unfold Rdiv; ring). rewrite Sum_scal. fold (scale_at w f o' k'). field. lra. }
  assert (Hge : forall n (g : nat -> R) j, (j < n)%nat -> (forall i, (i < n)%nat -> 0 <= g i) -> g j <= Sum n g).
  { induction n as [|n IH]; intros g j Hj Hg; [lia|]. rewrite Sum_S. destruct j as [|j].
    - assert (0 <= Sum n (fun i => g (S i))) by (apply Sum_nonneg; intros; apply Hg; lia). lra.
    - specialize (IH (fun i => g (S i)) j ltac:(lia) ltac:(intros; apply Hg; lia)). specialize (Hg 0%nat ltac:(lia)). cbn in IH. lra. }
  destruct (c127_first_outcome_first_experiment z w locs outcomes es n_o n_e f ltac:(lia) ltac:(lia) HL Hw Hf) as (_ & U2).
  destruct U2 as (a & E1 & (a' & Ea & E2 & E3)).
  - assert (Hnn : forall o k, (o < n_o)%nat -> (k < n_e)%nat -> 0 <= Sum (length w) (weight_at w f o k)).
    { intros o k H1 H2. apply Sum_nonneg. intros i Hi. apply weight_nonneg; [assumption| |assumption]. intros j Hj. now apply Hf. }
    apply Rlt_le_trans with 1; [assumption|]. rewrite <- One.
    eapply Rle_trans; [apply (Hge n_e (fun k => Sum (length w) (weight_at w f o' k)) k' Hk); intros; now apply Hnn|].
    apply (Hge n_o (fun o => Sum n_e (fun k => Sum (length w) (weight_at w f o k))) o' Ho). intros o Hlt. apply Sum_nonneg. intros. now apply Hnn.
  - exists a. rewrite S0 in E1. split; [exact E1|]. exists a'. split; [exact Ea|]. split; [exact E2|]. intros i Hi. rewrite E3 by assumption. unfold weight_at. rewrite H0 by assumption. unfold Rdiv. ring.
Qed.
End C127.

(** ** The hypotheses are met *)
(** Ten coin flips counted, at two particles: 3 heads has the binomial probability. *)
Example c126_binomial_example : is3 (binomial_likelihood (@coin_likelihood unit) (vec 0%nat [3; 4]%nat) (mat2 0 1 [[/2]; [/4]]) [(tt, 10%nat)]) 2 2 1
  (fun o i _ => Fin (INR (binom 10 (3 + o)) * (1 - nth i [/2; /4] 0) ^ (3 + o) * (1 - (1 - nth i [/2; /4] 0)) ^ (10 - (3 + o)))).
Proof.
  pose proof (c126_binomial (@coin_likelihood unit) (fun o x _ => coin_like (nth 0 x 0) o) 1 anything anything tt) as H.
  destruct (H ltac:(intros os xs es n_o n_m Ho Hx Hpo Hpm _ _; eapply is3_ext; [|exact (coin_array os xs es n_o n_m Ho Hpo Hx)]; intros ? ? ? ? ? ?; reflexivity)
    (vec 0%nat [3; 4]%nat) (mat2 0 1 [[/2]; [/4]]) [(tt, 10%nat)] 2%nat 2%nat eq_refl eq_refl ltac:(lia) ltac:(lia) I ltac:(now repeat constructor)) as (a & E1 & E2 & E3).
  - intros [|[|i]] [|k] Hi Hk; cbn in Hk; try lia; cbn; unfold coin_like, pr0_like; cbn; lra.
  - exists a. split; [exact E1|]. split; [exact E2|]. intros [|[|o]] [|[|i]] [|k] Ho Hi Hk; try lia; rewrite E3 by (cbn; lia); reflexivity.
Qed.
(** Two experiments of the inversion model, each impossible under one frequency: the second one hides that the first excludes every particle. *)
Example c127_example : exists a,
  update_arrays inv_likelihood (/ 2 ^ 10) (vec 0 [/2; /2]) (mat2 0 1 [[1]; [1]]) (vec 0%Z [0%Z]) [(PI, 0); (2 * PI, 0)] = Ok (Some (a, 0)) /\ is1 (Ok a) 2 (fun _ => 0).
Proof.
  apply (c127_zero_weight_test_refuted inv_likelihood (/ 2 ^ 10) [/2; /2] (mat2 0 1 [[1]; [1]]) (vec 0%Z [0%Z]) [(PI, 0); (2 * PI, 0)] 1 2
    (fun o i k => inv_like (fst (nth k [(PI, 0); (2 * PI, 0)] (0, 0))) (snd (nth k [(PI, 0); (2 * PI, 0)] (0, 0))) 1 0%Z) 0 1); try lia.
  - eapply is3_ext; [|exact (inv_array (vec 0%Z [0%Z]) (mat2 0 1 [[1]; [1]]) [(PI, 0); (2 * PI, 0)] 1 [] 2 eq_refl eq_refl ltac:(lia) eq_refl)].
    intros [|o] [|[|i]] k H1 H2 H3; cbn in H1, H2; try lia; reflexivity.
  - repeat constructor; lra.
  - intros o i k _ _ _. unfold inv_like, pr0_like, inv_pr0. cbn [Z.eqb]. apply pow2_ge_0.
  - intros i _. cbn [nth fst snd]. unfold inv_like, pr0_like, inv_pr0. cbn [Z.eqb]. replace (PI * (1 - 0) / 2) with (PI / 2) by field. rewrite cos_PI2. ring.
  - cbn [length]. rewrite !Sum_S, Sum_0. cbn [nth fst snd]. unfold inv_like, pr0_like, inv_pr0. cbn [Z.eqb]. replace (2 * PI * (1 - 0) / 2) with PI by field. rewrite cos_PI.
    assert (eps <= 1). { unfold eps. rewrite <- Rinv_1. apply Rinv_le_contravar; [lra|]. apply pow_R1_Rle. lra. } lra.
  - rewrite <- Rinv_1. apply Rinv_lt_contravar; [apply Rmult_lt_0_compat; [lra|apply pow_lt; lra]|]. cbn. lra.
Qed.

Print Assumptions c126_binomial.
Print Assumptions c126_binomial_invalid.
Print Assumptions c126_multinomial.
Print Assumptions c126_hyperparameterized.
Print Assumptions c126_hyperparameterized_invalid.
Print Assumptions c127_first_outcome_first_experiment.
Print Assumptions c127_single_update.
Print Assumptions c127_zero_weight_test_refuted.
