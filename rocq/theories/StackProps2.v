(** Theorems for property C88: layout and validity of parameters of wrapped models, and which wrappers accept which models. *)
From Verif Require Import Base RList StackModel StackProps.

Lemma Rltb_true_iff a b : Rltb a b = true <-> a < b.
Proof. destruct (Rltb_spec a b); split; intros; try assumption; try reflexivity; try discriminate; lra. Qed.
Lemma Rleb_true_iff a b : Rleb a b = true <-> a <= b.
Proof. destruct (Rleb_spec a b); split; intros; try assumption; try reflexivity; try discriminate; lra. Qed.
Definition extra_names (w : wrapper) : nat := match w with GaussHyper => 4 | GaussRW srw _ => length srw | _ => 0 end.
(** Each layer keeps the names of the layer below, in the same positions, and appends its own. *)
Theorem c88_names_extend {E} (w : wrapper) (u : model E) :
  firstn (length (modelparam_names u)) (modelparam_names (MDerived w u)) = modelparam_names u /\
  length (modelparam_names (MDerived w u)) = (length (modelparam_names u) + extra_names w)%nat.
Proof.
  assert (F : forall l m : list nat, firstn (length l) (l ++ m) = l) by (intros l m; rewrite firstn_app, firstn_all, Nat.sub_diag; cbn [firstn]; apply app_nil_r).
  destruct w; cbn [modelparam_names extra_names]; rewrite ?app_length, ?F, ?firstn_all; cbn [length]; split; try reflexivity; lia.
Qed.
Theorem c88_base_names_first {E} (b : base E) ws : firstn (length (b_names b)) (modelparam_names (build b ws)) = b_names b.
Proof.
  induction ws as [|w ws IH] using rev_ind; [apply firstn_all|]. rewrite build_snoc. destruct (c88_names_extend w (build b ws)) as [A _].
  assert (L : (length (b_names b) <= length (modelparam_names (build b ws)))%nat).
  { rewrite <- IH at 1. rewrite firstn_length. lia. }
  transitivity (firstn (length (b_names b)) (modelparam_names (build b ws))); [|exact IH]. rewrite <- A. rewrite firstn_firstn. now rewrite Nat.min_l.
Qed.

Lemma build_size {E} (b : base E) ws : length (b_names b) = b_n_modelparams b -> (b_n_modelparams b <= n_modelparams (build b ws))%nat.
Proof. intros H. destruct (c42_parameter_count b ws H) as [_ ->]. lia. Qed.
(** A parameter vector valid for a stack starts with one valid for its base model. *)
Theorem c88_base_part_valid {E} (b : base E) ws x : length (b_names b) = b_n_modelparams b -> length x = n_modelparams (build b ws) ->
  are_models_valid (build b ws) x = true -> b_valid b (firstn (b_n_modelparams b) x) = true.
Proof.
  intros Hb. revert x. induction ws as [|w ws IH] using rev_ind; intros x Hl Hv.
  - cbn in Hl, Hv. rewrite <- Hl, firstn_all. exact Hv.
  - rewrite build_snoc in *. pose proof (build_size b ws Hb) as Hle.
    assert (Hn : n_modelparams (build b ws) = length (modelparam_names (build b ws))) by (destruct (c42_parameter_count b ws Hb); assumption).
    assert (G : are_models_valid (build b ws) (firstn (n_modelparams (build b ws)) x) = true -> b_valid b (firstn (b_n_modelparams b) x) = true).
    { intros H. specialize (IH (firstn (n_modelparams (build b ws)) x)). rewrite firstn_firstn, Nat.min_l in IH by assumption. apply IH; [|exact H].
      rewrite firstn_length. apply Nat.min_l. rewrite Hl. destruct w; cbn [n_modelparams modelparam_names]; rewrite ?app_length; lia. }
    assert (G' : length x = n_modelparams (build b ws) -> are_models_valid (build b ws) x = true -> b_valid b (firstn (b_n_modelparams b) x) = true) by (intros; now apply IH).
    destruct w; cbn [are_models_valid n_modelparams modelparam_names] in Hl, Hv; try (now apply G').
    + apply andb_prop in Hv. now apply G.
    + destruct srw as [|s srw]; [now apply G|]. destruct diag; [apply andb_prop in Hv|]; now apply G.
Qed.
(** Exact conditions added by the two wrappers with parameters of their own. *)
Theorem c88_hyper_valid {E} (u : model E) x : length x = (n_modelparams u + 4)%nat ->
  are_models_valid (MDerived GaussHyper u) x = true <->
  are_models_valid u (firstn (n_modelparams u) x) = true /\ 0 < nth (n_modelparams u + 2) x 0 /\ 0 < nth (n_modelparams u + 3) x 0.
Proof.
  intros Hl. cbn [are_models_valid]. set (n := n_modelparams u) in *. rewrite andb_true_iff.
  assert (Hs : exists a c, firstn 2 (skipn (n + 2) x) = [a; c] /\ nth (n + 2) x 0 = a /\ nth (n + 3) x 0 = c).
  { assert (L : length (skipn (n + 2) x) = 2%nat) by (rewrite skipn_length; lia). pose proof (firstn_skipn (n + 2) x) as Ex.
    assert (L' : length (firstn (n + 2) x) = (n + 2)%nat) by (rewrite firstn_length; lia).
    destruct (skipn (n + 2) x) as [|a [|c [|? ?]]] eqn:Sk; try discriminate. exists a, c. split; [reflexivity|].
    rewrite <- Ex at 1 2. rewrite !app_nth2 by lia. rewrite L'. split; [now rewrite Nat.sub_diag|]. replace (n + 3 - (n + 2))%nat with 1%nat by lia. reflexivity. }
  destruct Hs as (a & c & -> & -> & ->). cbn [forallb]. rewrite !andb_true_iff, !Rltb_true_iff. intuition.
Qed.
Theorem c88_walk_valid {E} (u : model E) srw x : length x = (n_modelparams u + length srw)%nat ->
  (are_models_valid (MDerived (GaussRW srw true) u) x = true <->
   are_models_valid u (firstn (n_modelparams u) x) = true /\ forall i, (i < length srw)%nat -> 0 <= nth (n_modelparams u + i) x 0) /\
  are_models_valid (MDerived (GaussRW srw false) u) x = are_models_valid u (firstn (n_modelparams u) x).
Proof.
  intros Hl. set (n := n_modelparams u) in *. cbn [are_models_valid]. fold n. split; [|destruct srw; reflexivity].
  assert (G : forallb (fun s => Rleb 0 s) (firstn (length srw) (skipn n x)) = true <-> forall i, (i < length srw)%nat -> 0 <= nth (n + i) x 0).
  { assert (L : length (skipn n x) = length srw) by (rewrite skipn_length; lia). rewrite <- L, firstn_all, forallb_forall.
    assert (Hnth : forall i, nth i (skipn n x) 0 = nth (n + i) x 0).
    { intro i. pose proof (firstn_skipn n x) as Ex. rewrite <- Ex at 2. rewrite app_nth2; rewrite firstn_length, Nat.min_l by lia; [|lia]. f_equal. lia. }
    split.
    - intros H i Hi. rewrite <- Hnth. apply Rleb_true_iff, H, nth_In, Hi.
    - intros H s Hs. apply (In_nth _ _ 0) in Hs. destruct Hs as (i & Hi & <-). apply Rleb_true_iff. rewrite Hnth. now apply H. }
  destruct srw as [|s srw]; [|rewrite andb_true_iff, G; tauto]. split; [intros H; split; [exact H|cbn; lia]|tauto].
Qed.
(** Models whose number of outcomes varies are refused by the binomial and hyperparameterised wrappers; others are taken exactly if they have two outcomes. *)
Theorem c88_two_outcome_wrappers {E} (nm : E -> nat) (u : model E) (w : wrapper) : w = Binomial \/ w = GaussHyper ->
  two_outcome_check nm w u = Ok (MDerived w u) <-> is_n_outcomes_constant u = true /\ n_outcomes nm u None = Ok 2%nat.
Proof.
  intros _. unfold two_outcome_check. destruct (is_n_outcomes_constant u); [|split; [discriminate|intros [? _]; discriminate]].
  destruct (n_outcomes nm u None) as [n|e]; [|split; [discriminate|intros [_ ?]; discriminate]].
  destruct (Nat.eqb_spec n 2) as [->|Hn]; [tauto|]. split; [discriminate|intros [_ H]; injection H; contradiction].
Qed.
Theorem c88_varying_models_refused {E} (nm : E -> nat) (u : model E) (w : wrapper) : w = Binomial \/ (exists k, w = Multinomial k) \/ (exists s d, w = GaussRW s d) ->
  new_binomial nm (MDerived w u) = Err ValueError /\ new_gauss_hyper nm (MDerived w u) = Err ValueError /\ forall d, new_differentiable_binomial nm d (MDerived w u) <> Ok (MDerived Binomial (MDerived w u)).
Proof.
  intros [->|[[k ->]|(s & d & ->)]]; repeat split; try reflexivity; intros []; discriminate.
Qed.
(** n_outcomes of a multinomial model never returns: the module name it uses is not bound. *)
Theorem c88_multinomial_outcomes_refuted {E} (nm : E -> nat) k (u : model E) e : n_outcomes nm (MDerived (Multinomial k) u) (Some e) = Err NameError.
Proof. reflexivity. Qed.
(** A differentiable binomial model needs a differentiable model that a binomial model can be made of; *)
Theorem c88_differentiable {E} (nm : E -> nat) d (u m : model E) :
  new_differentiable_binomial nm d u = Ok m <-> d = true /\ m = MDerived Binomial u /\ is_n_outcomes_constant u = true /\ n_outcomes nm u None = Ok 2%nat.
Proof.
  unfold new_differentiable_binomial. destruct d; [|split; [discriminate|intros [? _]; discriminate]]. rewrite <- (c88_two_outcome_wrappers nm u Binomial) by now left.
  unfold new_binomial. split; [|intros (_ & -> & H); exact H]. intros H. split; [reflexivity|]. assert (M : m = MDerived Binomial u); [|subst m; split; [reflexivity|exact H]].
  unfold two_outcome_check in H. destruct (is_n_outcomes_constant u); [|discriminate]. destruct (n_outcomes nm u None) as [n|]; [|discriminate]. destruct (Nat.eqb n 2); [|discriminate]. now injection H.
Qed.
(** and a random walk needs a step distribution over all model parameters. *)
Theorem c88_random_walk {E} (u m : model E) n_rvs : new_random_walk u n_rvs = Ok m <-> m = MDerived RandomWalk u /\ n_rvs = n_modelparams m.
Proof.
  unfold new_random_walk. destruct (Nat.eqb_spec (n_modelparams u) n_rvs) as [<-|N]; split; intros H.
  - injection H as <-. split; reflexivity.
  - destruct H as [-> _]. reflexivity.
  - discriminate.
  - destruct H as [-> H]. cbn [n_modelparams] in H. congruence.
Qed.
Example c88_walk_example : new_random_walk (MBase ex_coin) 1 = Ok (MDerived RandomWalk (MBase ex_coin)) /\ new_random_walk (MBase ex_coin) 2 = Err TypeError.
Proof. split; reflexivity. Qed.
(** ** What reaches the wrapped model *)
Lemma run_below {E} (w : wrapper) (u : model E) (pass : call -> list call) :
  (forall c s r, exists s', do_call (MDerived w u) (s :: r) c = s' :: fold_left (do_call u) (pass c) r) ->
  forall cs, exists s, run_calls (MDerived w u) cs = s :: run_calls u (flat_map pass cs).
Proof.
  intros H cs. unfold run_calls. change (start_counters (MDerived w u)) with (fresh :: start_counters u). generalize fresh (start_counters u). induction cs as [|c cs IH]; intros s r; [now exists s|].
  cbn [fold_left flat_map]. rewrite fold_left_app. destruct (H c s r) as [s' ->]. apply IH.
Qed.
Lemma flat_map_one {A B} (f : A -> B) l : flat_map (fun a => [f a]) l = map f l.
Proof. induction l as [|a l IH]; cbn; [reflexivity|]. now rewrite IH. Qed.
(** Poisoned models, maximum likelihood models and random walks pass every call on as it is; *)
Theorem c27_forwarded {E} (w : wrapper) (u : model E) cs : w = Poisoned \/ w = MLE \/ w = RandomWalk \/ (exists s d, w = GaussRW s d) ->
  exists s, run_calls (MDerived w u) cs = s :: run_calls u cs.
Proof.
  intros W. destruct (run_below w u (fun c => [c])) with (cs := cs) as [s Hs].
  - intros [o m e|m e r0] s r; destruct W as [->|[->|[->|(a & b & ->)]]]; eexists; reflexivity.
  - exists s. rewrite Hs. now rewrite (flat_map_one (fun c => c)), map_id.
Qed.
(** a binomial model makes one likelihood call of a single outcome for every call it gets, be it a likelihood or a simulation; *)
Theorem c27_binomial_below {E} (u : model E) cs : exists s,
  run_calls (MDerived Binomial u) cs = s :: run_calls u (map (fun c => match c with CLike _ m e => CLike 1 m e | CSim m e _ => CLike 1 m e end) cs).
Proof.
  destruct (run_below Binomial u (fun c => [match c with CLike _ m e => CLike 1 m e | CSim m e _ => CLike 1 m e end])) with (cs := cs) as [s Hs].
  - intros [o m e|m e r0] s r; eexists; reflexivity.
  - exists s. rewrite Hs. now rewrite flat_map_one.
Qed.
(** a parallel model evaluates locally exactly the calls with at most [t] models, and leaves the others to the engines' copies. *)
Theorem c27_parallel_below {E} t (u : model E) cs : exists s,
  run_calls (MDerived (Parallel t) u) cs = s :: run_calls u (filter (fun c => Nat.leb match c with CLike _ m _ => m | CSim m _ _ => m end t) cs).
Proof.
  destruct (run_below (Parallel t) u (fun c => if Nat.leb match c with CLike _ m _ => m | CSim m _ _ => m end t then [c] else [])) with (cs := cs) as [s Hs].
  - intros [o m e|m e r0] s r; unfold do_call; cbn [like sim head tail_do]; destruct (Nat.leb m t); eexists; reflexivity.
  - exists s. rewrite Hs. f_equal. f_equal. clear Hs. induction cs as [|c cs IH]; cbn [flat_map filter]; [reflexivity|]. rewrite IH. destruct (Nat.leb _ t); reflexivity.
Qed.
Example c27_below_example : map calls (run_calls (MDerived (Parallel 10) (MBase ex_coin)) [CLike 2 5 1; CLike 2 100 1]) = [210; 10]%nat.
Proof. reflexivity. Qed.
Example c88_hypotheses : let m := MDerived (GaussRW [20%nat] true) (MDerived GaussHyper (MBase ex_coin)) in
  n_modelparams m = 6%nat /\ modelparam_names m = [0; 1; 2; 3; 4; 20]%nat /\ are_models_valid m [1 / 2; 0; 1; 1; 2; 0] = true /\ are_models_valid m [1 / 2; 0; 1; 1; 0; 0] = false.
Proof.
  cbv zeta. split; [reflexivity|]. split; [reflexivity|].
  assert (H1 : Rleb 0 (1 / 2) = true) by (apply Rleb_true; lra). assert (H2 : Rleb (1 / 2) 1 = true) by (apply Rleb_true; lra).
  assert (H3 : Rltb 0 1 = true) by (apply Rltb_true; lra). assert (H4 : Rltb 0 2 = true) by (apply Rltb_true; lra). assert (H5 : Rleb 0 0 = true) by (apply Rleb_true; lra).
  assert (H6 : Rltb 0 0 = false) by (apply Rltb_false; lra).
  cbn [are_models_valid n_modelparams modelparam_names ex_coin b_names b_n_modelparams b_valid app length firstn skipn Nat.add forallb]. rewrite H1, H2, H3, H4, H5, H6. split; reflexivity.
Qed.

Print Assumptions c88_names_extend.
Print Assumptions c88_base_names_first.
Print Assumptions c88_base_part_valid.
Print Assumptions c88_hyper_valid.
Print Assumptions c88_walk_valid.
Print Assumptions c88_two_outcome_wrappers.
Print Assumptions c88_varying_models_refused.
Print Assumptions c88_multinomial_outcomes_refuted.
Print Assumptions c88_differentiable.
Print Assumptions c88_random_walk.
Print Assumptions c27_forwarded.
Print Assumptions c27_binomial_below.
Print Assumptions c27_parallel_below.
