(** Theorems for properties C26 (simulated outcomes), C27 (counters) and C42 (model chains). *)
From Verif Require Import Base RList Sums DomModel SimModel SimSpec SimProofs StackModel StackSpec StackProofs.

(** C26.  With the default domain 0..n-1, each reported outcome is [d] exactly when its uniform draw lies in the
    interval of length Pr(d) starting at the total probability of the smaller outcomes; it is always in the domain,
    and a scalar is returned exactly for one repetition, one model and one experiment. *)
Theorem c26_inverse_cdf {M E} (m : @fmodel M E) n mps eps repeat rand :
  fm_constant m = true -> fm_values m = default_values n ->
  (forall x e, In x mps -> In e eps -> outcome_distribution n (fun d => fm_like m d x e)) ->
  (forall r i j, 0 <= rand r i j < 1) ->
  exists out, simulate_experiment m mps eps repeat rand = Ok out /\
    ((exists z, out = Scalar z) <-> repeat = 1%nat /\ length mps = 1%nat /\ length eps = 1%nat) /\
    forall r i j x e, (r < repeat)%nat -> nth_error mps i = Some x -> nth_error eps j = Some e ->
      exists d, outcome_at out r i j = Some d /\ (0 <= d < n)%Z /\
        forall d', (0 <= d' < n)%Z ->
          (d = d' <-> mass_below (fun o => fm_like m o x e) d' <= rand r i j < mass_below (fun o => fm_like m o x e) d' + fm_like m d' x e).
Proof. exact (simulate_ok m n mps eps repeat rand). Qed.

Theorem c26_impossible_outcomes_never_occur {M E} (m : @fmodel M E) n mps eps repeat rand out r i j x e d :
  fm_constant m = true -> fm_values m = default_values n ->
  (forall x e, In x mps -> In e eps -> outcome_distribution n (fun d => fm_like m d x e)) ->
  (forall r i j, 0 <= rand r i j < 1) ->
  simulate_experiment m mps eps repeat rand = Ok out ->
  (r < repeat)%nat -> nth_error mps i = Some x -> nth_error eps j = Some e -> outcome_at out r i j = Some d ->
  0 < fm_like m d x e.
Proof.
  intros H1 H2 H3 H4 H5 H6 H7 H8 H9. destruct (simulate_ok m n mps eps repeat rand H1 H2 H3 H4) as (out' & E1 & _ & H).
  rewrite E1 in H5. injection H5 as <-. destruct (H r i j x e H6 H7 H8) as (d0 & E0 & R0 & C0). rewrite E0 in H9. injection H9 as <-.
  pose proof (proj1 (C0 d0 R0) eq_refl). lra.
Qed.

(** Probabilities that add up to less than the draw (rounding): the code reports outcome 0 whatever its probability. *)
Theorem c26_missing_mass_reports_zero n pr u : (0 < n)%Z -> (forall d, (0 <= d < n)%Z -> 0 <= pr d) -> mass_below pr n <= u ->
  pick (default_values n) (map pr (default_values n)) u = Ok 0%Z.
Proof. exact (pick_deficit n pr u). Qed.

(** A model with the outcome domain {1, 2}, each with probability one half: the outcomes are indexed twice, so the first
    half of the draws reports 2 and the second half raises. *)
Theorem c26_other_domain_refuted : let m := {| fm_constant := true; fm_values := id_values {| i_min := ZFin 1; i_max := ZFin 2 |};
    fm_n_outcomes := fun _ : unit => 2%Z; fm_like := fun (_ : Z) (_ : unit) (_ : unit) => 1/2 |} in
  fm_values m = [1; 2]%Z /\
  (forall u, 0 <= u < 1/2 -> simulate_experiment m [tt] [tt] 1 (fun _ _ _ => u) = Ok (Scalar 2)) /\
  (forall u, 1/2 <= u < 1 -> simulate_experiment m [tt] [tt] 1 (fun _ _ _ => u) = Err IndexError).
Proof.
  cbv zeta. split; [reflexivity|]. change (id_values _) with [1; 2]%Z. split; intros u Hu; unfold simulate_experiment; cbn -[cumsum Rltb]; unfold cumsum; cbn -[Rltb].
  - rewrite Rltb_true by lra. reflexivity.
  - rewrite Rltb_false by lra. rewrite Rltb_true by lra. reflexivity.
Qed.
(** With a number of outcomes that depends on the experiment simulation never works. *)
Theorem c26_varying_outcomes_refuted {M E} (m : @fmodel M E) mps e eps repeat rand : fm_constant m = false ->
  simulate_experiment m mps (e :: eps) repeat rand = Err AttributeError.
Proof. intros H. unfold simulate_experiment. now rewrite H. Qed.

Definition ex_die : @fmodel unit unit := {| fm_constant := true; fm_values := default_values 3; fm_n_outcomes := fun _ => 3%Z;
  fm_like := fun d _ _ => if (d =? 0)%Z then 1/4 else if (d =? 1)%Z then 0 else 3/4 |}.
Example c26_hypotheses : outcome_distribution 3 (fun d => fm_like ex_die d tt tt) /\
  simulate_experiment ex_die [tt] [tt] 1 (fun _ _ _ => 1/4) = Ok (Scalar 2).
Proof.
  split.
  - split; [intros d Hd; cbn; destruct (d =? 0)%Z; [lra|destruct (d =? 1)%Z; lra]|]. unfold mass_below. change (Z.to_nat 3) with 3%nat. rewrite !Sum_S, Sum_0. cbn. lra.
  - unfold simulate_experiment, ex_die. change (default_values 3) with [0; 1; 2]%Z. cbn -[cumsum Rltb]. unfold cumsum. cbn -[Rltb]. rewrite Rltb_false by lra.
    rewrite Rltb_false by lra. rewrite Rltb_true by lra. reflexivity.
Qed.

(** C27.  For every layer of every stack, after any sequence of calls to the outermost model. *)
Theorem c27_call_count {E} (m : model E) cs i l s : nth_error (layers m) i = Some l -> nth_error (run_calls m cs) i = Some s ->
  (forall u, l <> MDerived MLE u) -> (forall b, l = MBase b -> b_counts b = true) ->
  calls s = requested_calls (log s).
Proof.
  intros H1 H2 H3 H4. pose proof (run_good m cs) as G.
  assert (K : good l s). { clear H3 H4. revert i H1 H2. induction G as [|x y lx ly Gxy G IH]; intros [|i] H1 H2; try discriminate; [injection H1 as <-; now injection H2 as <-|eauto]. }
  destruct K as [K _]. rewrite K. destruct l as [b|w u]; cbn [counts_calls]; [now rewrite (H4 b)|]. destruct w; try reflexivity. now destruct (H3 u).
Qed.
Theorem c27_sim_count {E} (m : model E) cs i l s : nth_error (layers m) i = Some l -> nth_error (run_calls m cs) i = Some s ->
  (forall u, l <> MDerived Binomial u) -> (forall u, l <> MDerived GaussHyper u) -> (forall k u, l <> MDerived (Multinomial k) u) ->
  sims s = requested_sims (log s).
Proof.
  intros H1 H2 H3 H4 H5. pose proof (run_good m cs) as G.
  assert (K : good l s). { clear H3 H4 H5. revert i H1 H2. induction G as [|x y lx ly Gxy G IH]; intros [|i] H1 H2; try discriminate; [injection H1 as <-; now injection H2 as <-|eauto]. }
  destruct K as [_ K]. rewrite K. destruct l as [b|w u]; [reflexivity|]. destruct w; try reflexivity; exfalso; [now apply (H3 u)|now apply (H4 u)|now apply (H5 n_sides u)].
Qed.
(** The calls received by the outermost model are those made by the user. *)
Theorem c27_outermost {E} w (u : model E) cs : exists s r, run_calls (MDerived w u) cs = s :: r /\ log s = cs.
Proof. exact (outer_log w u cs). Qed.

(** MLEModel.likelihood does not count. *)
Theorem c27_mle_calls_refuted {E} (u : model E) cs : exists s r, run_calls (MDerived MLE u) cs = s :: r /\ calls s = 0%nat.
Proof.
  pose proof (run_good (MDerived MLE u) cs) as G. inversion G as [|? s ? r [K _] _]; subst. exists s, r. split; [reflexivity|exact K].
Qed.
(** BinomialModel.simulate_experiment does not count. *)
Theorem c27_binomial_sims_refuted {E} (u : model E) cs : exists s r, run_calls (MDerived Binomial u) cs = s :: r /\ sims s = 0%nat.
Proof.
  pose proof (run_good (MDerived Binomial u) cs) as G. inversion G as [|? s ? r [_ K] _]; subst. exists s, r. split; [reflexivity|exact K].
Qed.
(** The hyperparameterized and multinomial models count as if repeat were one. *)
Theorem c27_repeat_ignored_refuted {E} (w : wrapper) (u : model E) cs : w = GaussHyper \/ (exists k, w = Multinomial k) ->
  exists s r, run_calls (MDerived w u) cs = s :: r /\ sims s = requested_sims_once cs.
Proof.
  intros Hw. destruct (outer_log w u cs) as (s & r & E1 & L). exists s, r. split; [exact E1|].
  pose proof (run_good (MDerived w u) cs) as G. rewrite E1 in G. inversion G as [|? ? ? ? [_ K] _]; subst. rewrite K.
  destruct Hw as [->|(k & ->)]; reflexivity.
Qed.
(** Models whose likelihood does not call the superclass never count. *)
Theorem c27_uncounted_base_refuted {E} (b : base E) cs : b_counts b = false -> exists s, run_calls (MBase b) cs = [s] /\ calls s = 0%nat.
Proof.
  intros H. pose proof (run_good (MBase b) cs) as G. inversion G as [|? s ? r [K _] Hr]; subst. inversion Hr; subst. exists s. split; [reflexivity|].
  cbn [counts_calls] in K. now rewrite H in K.
Qed.

Definition ex_coin : base nat := {| b_tag := 0; b_n_modelparams := 1; b_names := [0%nat]; b_constant := true; b_n_outcomes := fun _ => 2%nat;
  b_valid := fun x => match x with [p] => Rleb 0 p && Rleb p 1 | _ => false end; b_counts := true |}.
Example c27_hypotheses : map (fun s => (calls s, sims s)) (run_calls (MDerived Poisoned (MDerived MLE (MBase ex_coin))) [CLike 2 3 1; CSim 3 1 5])
  = [(6, 15); (0, 15); (12, 15)]%nat.
Proof. reflexivity. Qed.
Example c27_repeat_ignored : map sims (run_calls (MDerived GaussHyper (MBase ex_coin)) [CSim 3 1 5]) = [3; 15]%nat /\ requested_sims [CSim 3 1 5] = 15%nat.
Proof. split; reflexivity. Qed.

(** C42.  [build b ws] wraps [b] in the listed wrappers, first one innermost. *)
Definition build {E} (b : base E) (ws : list wrapper) : model E := fold_left (fun m w => MDerived w m) ws (MBase b).
Lemma build_snoc {E} (b : base E) ws w : build b (ws ++ [w]) = MDerived w (build b ws).
Proof. unfold build. now rewrite fold_left_app. Qed.

Theorem c42_chain {E} (b : base E) ws :
  model_chain (build b ws) = map (fun k => build b (firstn k ws)) (seq 0 (length ws)) /\ base_model (build b ws) = MBase b /\
  underlying_model (build b ws) = match rev ws with [] => None | _ => Some (build b (firstn (length ws - 1) ws)) end.
Proof.
  induction ws as [|w ws IH] using rev_ind; [repeat split|]. destruct IH as (IH1 & IH2 & _). rewrite build_snoc. cbn [model_chain base_model underlying_model].
  split; [|split; [exact IH2|]].
  - rewrite IH1, app_length. cbn [length]. rewrite Nat.add_1_r, seq_S, map_app. f_equal.
    + apply map_ext_in. intros k Hk. apply in_seq in Hk. rewrite firstn_app. replace (k - length ws)%nat with 0%nat by lia. cbn [firstn]. now rewrite app_nil_r.
    + cbn [map plus]. rewrite firstn_app, firstn_all, Nat.sub_diag. cbn [firstn]. now rewrite app_nil_r.
  - rewrite rev_app_distr. cbn [rev app]. rewrite app_length. cbn [length]. replace (length ws + 1 - 1)%nat with (length ws) by lia.
    rewrite firstn_app, firstn_all, Nat.sub_diag. cbn [firstn]. now rewrite app_nil_r.
Qed.

(** Everything not overridden is that of the innermost model, through any number of layers. *)
Theorem c42_passed_through {E} (nm : E -> nat) (b : base E) ws :
  (forall w, In w ws -> w = Poisoned \/ w = MLE \/ w = RandomWalk \/ exists t, w = Parallel t) ->
  (forall e, n_outcomes nm (build b ws) e = Ok (b_n_outcomes b e)) /\ (forall x, are_models_valid (build b ws) x = b_valid b x) /\
  n_modelparams (build b ws) = b_n_modelparams b /\ modelparam_names (build b ws) = b_names b.
Proof.
  induction ws as [|w ws IH] using rev_ind; intros H; [repeat split|]. destruct IH as (I1 & I2 & I3 & I4); [intros w' Hw'; apply H, in_or_app; now left|].
  rewrite build_snoc. destruct (H w) as [->|[->|[->|(t & ->)]]]; try (apply in_or_app; right; now left); cbn [n_outcomes are_models_valid n_modelparams modelparam_names]; auto.
Qed.
(** The overrides: counts of n_meas shots, hyperparameters, walk parameters. *)
Theorem c42_parameter_count {E} (b : base E) ws : length (b_names b) = b_n_modelparams b ->
  n_modelparams (build b ws) = length (modelparam_names (build b ws)) /\
  n_modelparams (build b ws) = (b_n_modelparams b + fold_right (fun w a => match w with GaussHyper => 4 + a | GaussRW srw _ => length srw + a | _ => a end) 0 ws)%nat.
Proof.
  intros H. assert (G : n_modelparams (build b ws) = length (modelparam_names (build b ws))).
  { induction ws as [|w ws IH] using rev_ind; [now symmetry|]. rewrite build_snoc. destruct w; cbn [n_modelparams modelparam_names]; auto. }
  split; [exact G|]. clear G. induction ws as [|w ws IH] using rev_ind; [cbn; lia|].
  assert (G : n_modelparams (build b ws) = length (modelparam_names (build b ws))).
  { clear IH w. induction ws as [|w ws IH] using rev_ind; [now symmetry|]. rewrite build_snoc. destruct w; cbn [n_modelparams modelparam_names]; auto. }
  rewrite build_snoc. rewrite fold_right_app. cbn [fold_right].
  assert (F : forall l a, fold_right (fun w a => match w with GaussHyper => 4 + a | GaussRW srw _ => length srw + a | _ => a end)%nat a l
    = (fold_right (fun w a => match w with GaussHyper => 4 + a | GaussRW srw _ => length srw + a | _ => a end) 0 l + a)%nat).
  { clear. induction l as [|w l IH]; intros a; [reflexivity|]. cbn [fold_right]. destruct w; rewrite IH; lia. }
  rewrite F. destruct w; cbn [n_modelparams modelparam_names]; rewrite ?app_length, <- ?G, ?IH; cbn [length]; lia.
Qed.

(** A wrapped binomial model claims a constant number of outcomes although the wrapped model does not. *)
Theorem c42_constant_outcomes_refuted : exists (u : model nat), new_binomial (fun e => e) (MBase ex_coin) = Ok u /\
  is_n_outcomes_constant u = false /\
  forall w, In w [Poisoned; MLE; RandomWalk; Parallel 0] -> is_n_outcomes_constant (MDerived w u) = true /\
    n_outcomes (fun e => e) (MDerived w u) (Some 1%nat) <> n_outcomes (fun e => e) (MDerived w u) (Some 2%nat).
Proof.
  exists (MDerived Binomial (MBase ex_coin)). repeat split; try reflexivity; destruct H as [<-|[<-|[<-|[<-|[]]]]]; try reflexivity; cbn; discriminate.
Qed.
(** What does hold: the claim is right for every stack without a binomial or multinomial layer on an honest base model, and
    never made by those two wrappers or the Gaussian random walk. *)
Theorem c42_constant_outcomes_honest {E} (nm : E -> nat) (b : base E) ws :
  (b_constant b = true -> forall e e', b_n_outcomes b e = b_n_outcomes b e') -> b_constant b = true ->
  (forall w, In w ws -> w <> Binomial /\ forall k, w <> Multinomial k) ->
  is_n_outcomes_constant (build b ws) = true -> forall e e', n_outcomes nm (build b ws) e = n_outcomes nm (build b ws) e'.
Proof.
  intros H1 H2 H3 _ e e'. assert (G : forall e, n_outcomes nm (build b ws) e = Ok (b_n_outcomes b e)).
  { clear e e'. intros e. induction ws as [|w ws IH] using rev_ind; [reflexivity|]. rewrite build_snoc.
    destruct (H3 w) as [A B]; [apply in_or_app; right; now left|]. assert (I := IH (fun w' Hw' => H3 w' (in_or_app _ _ _ (or_introl Hw')))).
    destruct w; cbn [n_outcomes]; try exact I; [now destruct A|now destruct (B n_sides)]. }
  rewrite !G. f_equal. now apply H1.
Qed.
Example c42_hypotheses : model_chain (build ex_coin [Binomial; Poisoned; GaussRW [] true])
  = [MBase ex_coin; MDerived Binomial (MBase ex_coin); MDerived Poisoned (MDerived Binomial (MBase ex_coin))].
Proof. reflexivity. Qed.

Print Assumptions c26_inverse_cdf.
Print Assumptions c26_impossible_outcomes_never_occur.
Print Assumptions c26_missing_mass_reports_zero.
Print Assumptions c26_other_domain_refuted.
Print Assumptions c26_varying_outcomes_refuted.
Print Assumptions c27_call_count.
Print Assumptions c27_sim_count.
Print Assumptions c27_outermost.
Print Assumptions c27_mle_calls_refuted.
Print Assumptions c27_binomial_sims_refuted.
Print Assumptions c27_repeat_ignored_refuted.
Print Assumptions c27_uncounted_base_refuted.
Print Assumptions c42_chain.
Print Assumptions c42_passed_through.
Print Assumptions c42_parameter_count.
Print Assumptions c42_constant_outcomes_refuted.
Print Assumptions c42_constant_outcomes_honest.
