(** Proofs about stacks of derived models. *)
From Verif Require Import Base StackModel StackSpec.

Lemma requested_calls_app a b : requested_calls (a ++ b) = (requested_calls a + requested_calls b)%nat.
Proof. unfold requested_calls. induction a as [|c a IH]; [reflexivity|]. cbn. destruct c; cbn; lia. Qed.
Lemma requested_sims_app a b : requested_sims (a ++ b) = (requested_sims a + requested_sims b)%nat.
Proof. unfold requested_sims. induction a as [|c a IH]; [reflexivity|]. cbn. destruct c; cbn; lia. Qed.
Lemma requested_sims_once_app a b : requested_sims_once (a ++ b) = (requested_sims_once a + requested_sims_once b)%nat.
Proof. unfold requested_sims_once. induction a as [|c a IH]; [reflexivity|]. cbn. destruct c; cbn; lia. Qed.

Section P.
  Context {E : Type}.
  Definition counts_calls (m : model E) : bool :=
    match m with MBase b => b_counts b | MDerived MLE _ => false | MDerived _ _ => true end.
  Definition sim_mode (m : model E) : option bool :=  (* Some true: exact, Some false: without repetitions, None: never *)
    match m with MDerived Binomial _ => None | MDerived GaussHyper _ | MDerived (Multinomial _) _ => Some false | _ => Some true end.
  Definition good (m : model E) (s : lstate) : Prop :=
    calls s = (if counts_calls m then requested_calls (log s) else 0)%nat /\
    sims s = match sim_mode m with Some true => requested_sims (log s) | Some false => requested_sims_once (log s) | None => 0%nat end.

  Ltac fin := unfold good, counts_calls, sim_mode, enter, count_like, count_sim in *; cbn [calls sims log] in *;
    rewrite ?requested_calls_app, ?requested_sims_app, ?requested_sims_once_app; cbn; rewrite ?Nat.add_0_r, ?Nat.mul_1_r; split; try lia.

  Lemma like_good m : forall n_o n_m n_e ss, Forall2 good (layers m) ss -> Forall2 good (layers m) (like m n_o n_m n_e ss).
  Proof.
    induction m as [b|w u IH]; intros n_o n_m n_e ss H.
    - inversion H as [|? s ? r [G1 G2] Hr]; subst. inversion Hr; subst. cbn [like head].
      cbn [counts_calls sim_mode] in G1, G2. destruct (b_counts b) eqn:Eb; cbn [head layers]; (constructor; [|constructor]); fin; rewrite ?Eb in *; lia.
    - inversion H as [|? s ? r [G1 G2] Hr]; subst.
      assert (W : exists s' k, like (MDerived w u) n_o n_m n_e (s :: r) = s' :: k /\ good (MDerived w u) s' /\ Forall2 good (layers u) k).
      { cbn [like head]. destruct w; cbn [head tail_do]; try (destruct (Nat.leb n_m serial_threshold)); do 2 eexists; (split; [reflexivity|]); split; auto; fin. }
      destruct W as (s' & k & -> & G & K). cbn [layers]. now constructor.
  Qed.
  Lemma sim_good m : forall n_m n_e rep ss, Forall2 good (layers m) ss -> Forall2 good (layers m) (sim m n_m n_e rep ss).
  Proof.
    induction m as [b|w u IH]; intros n_m n_e rep ss H.
    - cbn [sim]. apply like_good. inversion H as [|? s ? r [G1 G2] Hr]; subst. inversion Hr; subst. cbn [head].
      cbn [layers]. constructor; [|constructor]. fin.
    - inversion H as [|? s ? r [G1 G2] Hr]; subst.
      assert (W : exists s' k, sim (MDerived w u) n_m n_e rep (s :: r) = s' :: k /\ good (MDerived w u) s' /\ Forall2 good (layers u) k).
      { cbn [sim head]. destruct w; cbn [head tail_do]; try (destruct (Nat.leb n_m serial_threshold)); do 2 eexists; (split; [reflexivity|]); split; auto using like_good; fin. }
      destruct W as (s' & k & -> & G & K). cbn [layers]. now constructor.
  Qed.
  Lemma run_good m cs : Forall2 good (layers m) (run_calls m cs).
  Proof.
    unfold run_calls. assert (G : forall ss, Forall2 good (layers m) ss -> Forall2 good (layers m) (fold_left (do_call m) cs ss)).
    { induction cs as [|c cs IH]; intros ss H; [exact H|]. cbn [fold_left]. apply IH. destruct c; cbn [do_call]; auto using like_good, sim_good. }
    apply G. clear G. unfold start_counters. generalize (layers m). intros l. induction l as [|x l IH]; cbn [length repeat]; constructor; [|exact IH].
    split; cbn; [now destruct (counts_calls x)|]. now destruct (sim_mode x) as [[|]|].
  Qed.
  (** The outermost model's log is the list of calls made to it (a stand-alone model also logs the likelihood calls
      made by its own simulate_experiment). *)
  Lemma outer_log w (u : model E) cs : exists s r, run_calls (MDerived w u) cs = s :: r /\ log s = cs.
  Proof.
    unfold run_calls, start_counters. cbn [layers length repeat].
    assert (G : forall cs s r, exists s' r', fold_left (do_call (MDerived w u)) cs (s :: r) = s' :: r' /\ log s' = log s ++ cs).
    { clear cs. induction cs as [|c cs IH]; intros s r; [exists s, r; now rewrite app_nil_r|].
      cbn [fold_left]. assert (S1 : exists s1 r1, do_call (MDerived w u) (s :: r) c = s1 :: r1 /\ log s1 = log s ++ [c]).
      { destruct c; destruct w; cbn [do_call like sim head tail_do]; try (destruct (Nat.leb n_m serial_threshold)); do 2 eexists; (split; [reflexivity|]); reflexivity. }
      destruct S1 as (s1 & r1 & -> & L1). destruct (IH s1 r1) as (s' & r' & -> & L'). exists s', r'. split; [reflexivity|].
      rewrite L', L1, <- app_assoc. reflexivity. }
    destruct (G cs fresh (repeat fresh (length (layers u)))) as (s' & r' & -> & L). now exists s', r'.
  Qed.

  (** Chains *)
  Lemma chain_layers (m : model E) : model_chain m ++ [m] = rev (layers m).
  Proof. induction m as [b|w u IH]; [reflexivity|]. cbn [model_chain layers rev]. now rewrite IH. Qed.
  Lemma base_first (m : model E) : hd_error (model_chain m ++ [m]) = Some (base_model m).
  Proof.
    induction m as [b|w u IH]; [reflexivity|]. cbn [model_chain base_model]. rewrite <- IH, IH.
    destruct (model_chain u ++ [u]) as [|x l] eqn:Ex; [discriminate|]. cbn. cbn in IH. exact IH.
  Qed.
  Lemma base_standalone (m : model E) : exists b, base_model m = MBase b.
  Proof. induction m as [b|w u IH]; [now exists b|exact IH]. Qed.
End P.
