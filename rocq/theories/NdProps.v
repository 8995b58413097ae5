(** C124: the likelihood, score, Fisher information and time step arrays of the built-in models have the documented layout.
    C125: the vectorised computations of the updater give, entry by entry, what SmcModel and RiskModel say. *)
From Verif Require Import Base Ext RList Sums DomModel TwoModel DerModel SmcModel RiskModel Nd NdModel NdModel2 NdSpec NdProofs NdProofs2.

Ltac by_row := let o := fresh in let i := fresh in let k := fresh in intros o i k ? ? ?; unfold row; cbn [seq map nth]; reflexivity.

(** C124, likelihoods *)
Theorem c124_simple_inversion : implements 1 anything anything (0, 0) inv_likelihood (fun o x e => inv_like (fst e) (snd e) (nth 0 x 0) o).
Proof. intros os xs es n_o n_m Ho Hx Hpo Hpm _ _. eapply is3_ext; [|exact (inv_array os xs es n_o [] n_m Ho eq_refl Hpo Hx)]. by_row. Qed.
Theorem c124_simple_precession : implements 1 anything anything 0 prec_likelihood (fun o x t => prec_like t (nth 0 x 0) o).
Proof. intros os xs es n_o n_m Ho Hx Hpo Hpm _ _. eapply is3_ext; [|exact (prec_array os xs es n_o [] n_m Ho eq_refl Hpo Hx)]. by_row. Qed.
Theorem c124_unknown_t2 : implements 2 anything anything 0 t2_likelihood (fun o x t => t2_like t (nth 0 x 0) (nth 1 x 0) o).
Proof. intros os xs es n_o n_m Ho Hx Hpo Hpm _ _. eapply is3_ext; [|exact (t2_array os xs es n_o n_m Ho Hpo Hx)]. by_row. Qed.
Theorem c124_coin {E} (dE : E) : implements 1 anything anything dE coin_likelihood (fun o x _ => coin_like (nth 0 x 0) o).
Proof. intros os xs es n_o n_m Ho Hx Hpo Hpm _ _. eapply is3_ext; [|exact (coin_array os xs es n_o n_m Ho Hpo Hx)]. by_row. Qed.
Theorem c124_noisy_coin : implements 1 anything anything (0, 0) noisy_likelihood (fun o x e => noisy_like (fst e) (snd e) (nth 0 x 0) o).
Proof. intros os xs es n_o n_m Ho Hx Hpo Hpm _ _. eapply is3_ext; [|exact (noisy_array os xs es n_o n_m Ho Hpo Hx)]. by_row. Qed.
Theorem c124_die {E} d (dE : E) : implements d (fun o => 0 <= o < Z.of_nat d)%Z anything dE die_likelihood (fun o x _ => die_like x (Z.to_nat o)).
Proof. intros os xs es n_o n_m Ho Hx Hpo Hpm Hg _. exact (die_array d os xs es n_o n_m Ho Hpm Hx Hg). Qed.
Theorem c124_randomized_benchmarking : implements 3 anything anything 0%nat rb_likelihood (fun o x m => rb_like m (nth 0 x 0) (nth 1 x 0) (nth 2 x 0) o).
Proof. intros os xs es n_o n_m Ho Hx Hpo Hpm _ _. eapply is3_ext; [|exact (rb_array os xs es n_o n_m Ho Hpo Hx)]. by_row. Qed.
Theorem c124_interleaved_benchmarking : implements 4 anything anything (0%nat, false) rb_il_likelihood
  (fun o x e => rb_il_like (fst e) (snd e) (nth 0 x 0) (nth 1 x 0) (nth 2 x 0) (nth 3 x 0) o).
Proof. intros os xs es n_o n_m Ho Hx Hpo Hpm _ _. eapply is3_ext; [|exact (rb_il_array os xs es n_o n_m Ho Hpo Hx)]. by_row. Qed.
Theorem c124_tomography d : implements d anything (fun e => length e = d) [] (tomo_likelihood d) (fun o x e => tomo_like e x o).
Proof. intros os xs es n_o n_m Ho Hx Hpo Hpm _ He. exact (tomo_array d os xs es n_o n_m Ho Hpo Hx He). Qed.

(** The inversion, precession and coin models also take one-dimensional parameter arrays, one number per particle. *)
Definition implements_flat {E} (dE : E) (like_arr : nd Z -> nd R -> list E -> res (nd R)) (like : Z -> R -> E -> R) : Prop :=
  forall os xs es n_o n_m, shp os = [n_o] -> shp xs = [n_m] -> (0 < n_o)%nat ->
  is3 (like_arr os xs es) n_o n_m (length es) (fun o i k => like (get os [o]) (get xs [i]) (nth k es dE)).
Theorem c124_flat_parameters {E} (dE : E) :
  implements_flat (0, 0) inv_likelihood (fun o x e => inv_like (fst e) (snd e) x o) /\
  implements_flat 0 prec_likelihood (fun o x t => prec_like t x o) /\
  implements_flat dE coin_likelihood (fun o x _ => coin_like x o).
Proof.
  assert (Hc : forall os xs es n, shp xs = [n] -> inv_likelihood os xs es = inv_likelihood os (newaxis 1 xs) es) by (intros os [sh g] es n Hx; cbn [shp] in Hx; now subst sh).
  split; [|split]; intros os xs es n_o n Ho Hx Hp.
  - rewrite (Hc _ _ _ n Hx). destruct xs as [sh g]. cbn [shp] in Hx. subst sh. exact (inv_array os (newaxis 1 (Nd [n] g)) es n_o [] n Ho eq_refl Hp eq_refl).
  - unfold prec_likelihood. rewrite (Hc _ _ _ n Hx). destruct xs as [sh g]. cbn [shp] in Hx. subst sh. exact (prec_array os (newaxis 1 (Nd [n] g)) es n_o [] n Ho eq_refl Hp eq_refl).
  - destruct xs as [sh g]. cbn [shp] in Hx. subst sh. unfold coin_likelihood.
    eapply is3_ext; [|eapply pr0_array; eauto; nds; reflexivity].
    intros o i k H1 H2 H3. unfold coin_like. f_equal. nds. rewrite (Nat.mod_small i n) by assumption. reflexivity.
Qed.

(** Scores, with the likelihood they return on request: one axis more, for the parameters, in front. *)
Definition implements_score {E} (d p : nat) (dE : E) (score_arr : nd Z -> nd R -> list E -> res (nd ext * nd R))
    (score : Z -> list R -> E -> list ext) (like : Z -> list R -> E -> R) : Prop :=
  forall os xs es n_o n_m, shp os = [n_o] -> shp xs = [n_m; d] -> (0 < n_o)%nat ->
  exists q L, score_arr os xs es = Ok (q, L) /\
    is4 (Ok q) p n_o n_m (length es) (fun c o i k => nth c (score (get os [o]) (row d xs i) (nth k es dE)) NaN) /\
    is3 (Ok L) n_o n_m (length es) (fun o i k => like (get os [o]) (row d xs i) (nth k es dE)).
Ltac by_score q L := exists q, L; split; [assumption|]; split;
  [match goal with H : is4 _ _ _ _ _ _ |- _ => destruct H as (q' & Eq & Eq2 & Eq3); exists q'; split; [exact Eq|]; split; [exact Eq2|]; intros c o i k H0 H1 H2 H3; rewrite Eq3 by assumption;
     destruct c; [|try lia]; reflexivity end
  |eapply is3_ext; [|eassumption]; by_row].
Theorem c124_score_simple_inversion : implements_score 1 1 (0, 0) inv_score_array
  (fun o x e => [inv_score (fst e) (snd e) (nth 0 x 0) o]) (fun o x e => inv_like (fst e) (snd e) (nth 0 x 0) o).
Proof. intros os xs es n_o n_m Ho Hx Hp. destruct (inv_score_arr os xs es n_o n_m Ho Hp Hx) as (q & L & E1 & Hq & HL). by_score q L. Qed.
Theorem c124_score_simple_precession : implements_score 1 1 0 prec_score_array
  (fun o x t => [prec_score t (nth 0 x 0) o]) (fun o x t => prec_like t (nth 0 x 0) o).
Proof. intros os xs es n_o n_m Ho Hx Hp. destruct (prec_score_arr os xs es n_o n_m Ho Hp Hx) as (q & L & E1 & Hq & HL). by_score q L. Qed.
Theorem c124_score_coin {E} (dE : E) : implements_score 1 1 dE coin_score_array (fun o x _ => [coin_score (nth 0 x 0) o]) (fun o x _ => coin_like (nth 0 x 0) o).
Proof. intros os xs es n_o n_m Ho Hx Hp. destruct (coin_score_arr os xs es n_o n_m Ho Hp Hx) as (q & L & E1 & Hq & HL). by_score q L. Qed.
Theorem c124_score_randomized_benchmarking wrap : implements_score 3 3 0%nat (rb_score_array wrap)
  (fun o x m => rb_score wrap m (nth 0 x 0) (nth 1 x 0) (nth 2 x 0) o) (fun o x m => rb_like m (nth 0 x 0) (nth 1 x 0) (nth 2 x 0) o).
Proof. intros os xs es n_o n_m Ho Hx Hp. destruct (rb_score_arr wrap os xs es n_o n_m Ho Hp Hx) as (q & L & E1 & Hq & HL). by_score q L. Qed.
Theorem c124_score_interleaved_benchmarking wrap : implements_score 4 4 (0%nat, false) (rb_il_score_array wrap)
  (fun o x e => rb_il_score wrap (fst e) (snd e) (nth 0 x 0) (nth 1 x 0) (nth 2 x 0) (nth 3 x 0) o)
  (fun o x e => rb_il_like (fst e) (snd e) (nth 0 x 0) (nth 1 x 0) (nth 2 x 0) (nth 3 x 0) o).
Proof. intros os xs es n_o n_m Ho Hx Hp. destruct (rb_il_score_arr wrap os xs es n_o n_m Ho Hp Hx) as (q & L & E1 & Hq & HL). by_score q L. Qed.

(** Fisher information of any model whose score array has the documented layout *)
Theorem c124_fisher_information {E} d p (dE : E) score_arr score like n_outcomes xs es n_m :
  implements_score d p dE score_arr score like -> shp xs = [n_m; d] -> (0 < n_outcomes)%nat ->
  is4 (fisher_information n_outcomes (fun os => score_arr os xs es)) p p n_m (length es) (fun i j m e =>
    xsum (map (fun o => xmul (xmul (Fin (like (Z.of_nat o) (row d xs m) (nth e es dE))) (nth i (score (Z.of_nat o) (row d xs m) (nth e es dE)) NaN))
                             (nth j (score (Z.of_nat o) (row d xs m) (nth e es dE)) NaN)) (seq 0 n_outcomes))).
Proof.
  intros H Hx Hp. destruct (H (vec 0%Z (map Z.of_nat (seq 0 n_outcomes))) xs es n_outcomes n_m) as (q & L & E1 & Hq & HL);
    [cbn; now rewrite map_length, seq_length|assumption|assumption|].
  destruct (fisher_arr n_outcomes (fun os => score_arr os xs es) p n_m (length es) _ _ q L E1 Hq HL) as (a & Ea & Sa & Ga).
  exists a. split; [exact Ea|]. split; [exact Sa|]. intros i j m e H0 H1 H2 H3. rewrite Ga by assumption. apply xsum_seq_ext. intros o Ho.
  cbn [get vec hd]. rewrite nth_seq_map by assumption. reflexivity.
Qed.
(** The default time step leaves every particle where it is, for every experiment. *)
Theorem c124_default_timestep {E} xs (es : list E) n d : shp xs = [n; d] -> is3 (default_timestep xs es) n d (length es) (fun i j _ => get xs [i; j]).
Proof. exact (timestep_arr xs es n d). Qed.

(** Shapes that do not fit are refused... *)
Theorem c124_no_outcomes pr0 os u : shp os = 0%nat :: u -> pr0_to_likelihood_array os pr0 = Err ValueError.
Proof. intros Ho. unfold pr0_to_likelihood_array. replace (ndim os =? 0)%nat with false by (unfold ndim; now rewrite Ho). unfold dim. rewrite Ho. reflexivity. Qed.
Theorem c124_wrong_width os xs n d : shp xs = [n; d] ->
  (d <> 2%nat -> forall es, t2_likelihood os xs es = Err ValueError) /\
  (d <> 3%nat -> forall es, rb_likelihood os xs es = Err ValueError) /\
  (d <> 4%nat -> forall es, rb_il_likelihood os xs es = Err ValueError) /\
  (forall d', d <> d' -> forall es, tomo_likelihood d' os xs es = Err ValueError) /\
  (forall es, d <> 1%nat -> d <> length es -> inv_likelihood os xs es = Err ValueError).
Proof.
  intros Hx. destruct xs as [sh g]. cbn [shp] in Hx. subst sh. repeat split.
  - intros Hd es. unfold t2_likelihood, unpack. cbn [newaxis T shp rev app firstn skipn]. now rewrite (proj2 (Nat.eqb_neq d 2)).
  - intros Hd es. unfold rb_likelihood, unpack. cbn [newaxis T shp rev app firstn skipn]. now rewrite (proj2 (Nat.eqb_neq d 3)).
  - intros Hd es. unfold rb_il_likelihood, unpack. cbn [newaxis T shp rev app firstn skipn]. now rewrite (proj2 (Nat.eqb_neq d 4)).
  - intros d' Hd es. unfold tomo_likelihood, einsum_ei_mi. cbn [mat2 shp]. rewrite (proj2 (Nat.eqb_neq d' d)) by congruence. reflexivity.
  - intros es Hd Hd'. unfold inv_likelihood. nds. unfold bdim. rewrite (proj2 (Nat.eqb_neq d (length es))), (proj2 (Nat.eqb_neq d 1)) by assumption.
    destruct (Nat.eqb_spec (length es) 1) as [E1|E1]; [|reflexivity]. rewrite E1. nds. unfold bdim.
    destruct d as [|[|d]]; [|congruence|]; cbn; rewrite !Nat.eqb_refl; cbn; unfold list_eqb; rewrite ?Nat.eqb_refl; try reflexivity; (destruct (list_eq_dec _ _ _) as [C|C]; [discriminate C|reflexivity]).
Qed.
(** ... except that SimpleInversionModel takes a parameter array with one column per experiment and pairs column k with experiment k. *)
Theorem c124_width_check_refuted os xs es n_o n : shp os = [n_o] -> (0 < n_o)%nat -> shp xs = [n; length es] ->
  is3 (inv_likelihood os xs es) n_o n (length es) (fun o i k => inv_like (fst (nth k es (0, 0))) (snd (nth k es (0, 0))) (get xs [i; k]) (get os [o])).
Proof.
  intros Ho Hp Hm. unfold inv_likelihood. destruct xs as [sh g]. cbn [shp] in Hm. subst sh. nds.
  eapply is3_ext; [|eapply (pr0_array os _ n_o []); eauto; reflexivity].
  intros o i k H1 H2 H3. unfold inv_like, inv_pr0. f_equal. nds. pins.
  rewrite !(nth_map_in _ es k 0 (0, 0)) by assumption. reflexivity.
Qed.

(** C125 *)
Section C125.
Context {O E RND : Type}.
Variable c : @config O E RND.
Variables (dO : O) (dE : E) (d : nat) (good : O -> Prop) (ok : E -> Prop).
Variable like_arr : nd O -> nd R -> list E -> res (nd R).
Hypothesis Hlike : implements d good ok dE like_arr (lik (md c)).

Lemma row_mat2 xs i : (i < length xs)%nat -> Forall (fun x => length x = d) xs -> row d (mat2 0 d xs) i = nth i xs [].
Proof.
  intros Hi Hd. unfold row. cbn [get mat2 nth hd]. rewrite Forall_forall in Hd. rewrite <- (Hd (nth i xs [])) by now apply nth_In. apply map_nth_seq.
Qed.
Lemma lists_like os l es : os <> [] -> l <> [] -> Forall good os -> Forall (fun x => length x = d) l -> Forall ok es ->
  is3 (like_arr (vec dO os) (mat2 0 d l) es) (length os) (length l) (length es) (fun o i k => lik (md c) (nth o os dO) (nth i l []) (nth k es dE)).
Proof.
  intros Ho Hl Hg Hd Hok. eapply is3_ext; [|apply (Hlike (vec dO os) (mat2 0 d l) es (length os) (length l)); [reflexivity|reflexivity| | | |assumption]].
  - intros o i k H1 H2 H3. cbn [get vec hd]. now rewrite row_mat2.
  - destruct os; [now destruct Ho|cbn; lia].
  - destruct l; [now destruct Hl|cbn; lia].
  - intros o H1. cbn [get vec hd]. rewrite Forall_forall in Hg. apply Hg. now apply nth_In.
Qed.

Theorem c125_hypothetical_update (s : @state O) os es : os <> [] -> ls s <> [] -> Forall good os -> Forall (fun x => length x = d) (ls s) -> Forall ok es ->
  length (ws s) = length (ls s) ->
  exists W L N h, hyp_arrays like_arr (vec 0 (ws s)) (mat2 0 d (ls s)) (vec dO os) es = Ok (W, L, N) /\
    snd (hypothetical_update c s os es) = Ok h /\
    is3 (Ok W) (length os) (length es) (length (ls s)) (fun o k i => nth i (nth k (nth o (h_weights h) []) []) 0) /\
    is3 (Ok L) (length os) (length es) (length (ls s)) (fun o k i => nth i (nth k (nth o (h_lik h) []) []) 0) /\
    is3 (Ok N) (length os) (length es) 1 (fun o k _ => nth k (nth o (h_norm h) []) 0).
Proof.
  intros Ho Hl Hg Hd Hok Hw. pose proof (lists_like os (ls s) es Ho Hl Hg Hd Hok) as HL. rewrite <- Hw in HL.
  destruct (hyp_arr like_arr _ _ _ _ _ _ _ HL) as (W & L & N & E0 & (W' & EW & EW2 & EW3) & (L' & EL & EL2 & EL3) & (N' & EN & EN2 & EN3)).
  injection EW as <-. injection EL as <-. injection EN as <-. rewrite <- Hw.
  unfold hypothetical_update. rewrite Hw, Nat.eqb_refl. cbn [negb snd]. exists W, L, N. eexists. split; [exact E0|]. split; [reflexivity|]. cbn [h_weights h_lik h_norm].
  rewrite <- Hw. split; [|split].
  - exists W. split; [reflexivity|]. split; [exact EW2|]. intros o k i H1 H2 H3. rewrite EW3 by assumption.
    rewrite (nth_map_in _ os o [] dO), (nth_map_in _ es k [] dE) by assumption. rewrite norm_row_index by assumption. rewrite nth_seq_map by assumption. now rewrite norm_scale_index by assumption.
  - exists L. split; [reflexivity|]. split; [exact EL2|]. intros o k i H1 H2 H3. rewrite EL3 by assumption.
    rewrite (nth_map_in _ os o [] dO), (nth_map_in _ es k [] dE) by assumption. unfold L_row. rewrite (nth_map_in _ (ls s) i 0 []) by lia. reflexivity.
  - exists N. split; [reflexivity|]. split; [exact EN2|]. intros o k z H1 H2 H3. rewrite EN3 by assumption.
    rewrite (nth_map_in _ os o [] dO), (nth_map_in _ es k 0 dE) by assumption. now rewrite norm_scale_index by assumption.
Qed.

Theorem c125_bayes_risk Q (s : @state O) os es : removelast os <> [] -> ls s <> [] -> Forall good (removelast os) -> Forall (fun x => length x = d) (ls s) -> Forall ok es ->
  length (ws s) = length (ls s) -> length Q = d ->
  is1 (bayes_risk_array like_arr dO (vec 0 Q) (vec 0 (ws s)) (mat2 0 d (ls s)) os es) (length es) (fun k => bayes_risk1 c Q (ws s) (ls s) os (nth k es dE)).
Proof. intros Ho Hl Hg Hd Hok Hw HQ. apply bayes_risk_lists; [assumption|assumption|]. rewrite Hw. now apply lists_like. Qed.
Theorem c125_expected_information_gain (s : @state O) os es : removelast os <> [] -> ls s <> [] -> Forall good (removelast os) -> Forall (fun x => length x = d) (ls s) -> Forall ok es ->
  length (ws s) = length (ls s) ->
  is1 (information_gain_array like_arr dO (vec 0 (ws s)) (mat2 0 d (ls s)) os es) (length es) (fun k => eig1 c (ws s) (ls s) os (nth k es dE)).
Proof. intros Ho Hl Hg Hd Hok Hw. apply information_gain_lists; [assumption|]. rewrite Hw. now apply lists_like. Qed.
End C125.

(** ** The hypotheses are met: two outcomes, two particles and two experiments of each kind *)
Example c124_example :
  is3 (rb_il_likelihood (vec 0%Z [0; 1]%Z) (mat2 0 4 [[/2; /2; /2; /4]; [1; /2; /2; /4]]) [(1%nat, true); (1%nat, false); (2%nat, false)]) 2 2 3
      (fun o i k => nth k (nth i (nth o [[[/2; 5/8; 23/32]; [/2; /2; 5/8]]; [[/2; 3/8; 9/32]; [/2; /2; 3/8]]] []) []) 0).
Proof.
  eapply is3_ext; [|apply c124_interleaved_benchmarking with (n_o := 2%nat) (n_m := 2%nat); [reflexivity|reflexivity|lia|lia|now intros|now repeat constructor]].
  intros [|[|o]] [|[|i]] [|[|[|k]]] H1 H2 H3; try lia; cbn; unfold rb_il_like, rb_like, pr0_like; cbn; lra.
Qed.
(** The three-parameter model at two particles and two experiments: the array of its Bayes risks is what RiskModel computes one by one. *)
Example c125_example {RND} (c : @config Z nat RND) : md c = {| lik := fun o x m => rb_like m (nth 0 x 0) (nth 1 x 0) (nth 2 x 0) o; timestep := fun _ l _ => l; canon := fun l => l |} ->
  let s := {| ws := [/2; /2]; ls := [[/2; /2; /4]; [1; /2; /2]]; drec := @nil Z; nrec := []; mness := PInf; rcnt := 0; jr := false; calls := 0 |} in
  is1 (bayes_risk_array rb_likelihood 0%Z (vec 0 [1; 1; 1]) (vec 0 (ws s)) (mat2 0 3 (ls s)) [0; 1]%Z [1; 5]%nat) 2
    (fun k => bayes_risk1 c [1; 1; 1] (ws s) (ls s) [0; 1]%Z (nth k [1; 5]%nat 0%nat)).
Proof.
  intros Hmd s. apply (c125_bayes_risk c 0%Z 0%nat 3 anything anything rb_likelihood); try discriminate; try reflexivity; try (now repeat constructor).
  rewrite Hmd. exact c124_randomized_benchmarking.
Qed.

Print Assumptions c124_flat_parameters.
Print Assumptions c124_simple_inversion.
Print Assumptions c124_simple_precession.
Print Assumptions c124_unknown_t2.
Print Assumptions c124_coin.
Print Assumptions c124_noisy_coin.
Print Assumptions c124_die.
Print Assumptions c124_randomized_benchmarking.
Print Assumptions c124_interleaved_benchmarking.
Print Assumptions c124_tomography.
Print Assumptions c124_score_simple_inversion.
Print Assumptions c124_score_simple_precession.
Print Assumptions c124_score_coin.
Print Assumptions c124_score_randomized_benchmarking.
Print Assumptions c124_score_interleaved_benchmarking.
Print Assumptions c124_fisher_information.
Print Assumptions c124_default_timestep.
Print Assumptions c124_no_outcomes.
Print Assumptions c124_wrong_width.
Print Assumptions c124_width_check_refuted.
Print Assumptions c125_hypothetical_update.
Print Assumptions c125_bayes_risk.
Print Assumptions c125_expected_information_gain.
