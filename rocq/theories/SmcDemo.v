(** A small concrete updater used to show that the hypotheses of the SMC theorems are met by
    a non-trivial case: three outcomes (the third impossible), one parameter, two particles. *)
From Verif Require Import Base RList Ext SmcModel SmcSpec SmcProofs SmcProofs2 SmcProofs3 RiskModel RiskSpec RiskProofs.

Definition demo_lik (o : nat) (x : loc) (e : unit) : R :=
  match o with
  | 0%nat => if Reqb (nth 0 x 0) 0 then 1/4 else 3/4
  | 1%nat => if Reqb (nth 0 x 0) 0 then 3/4 else 1/4
  | _ => 0
  end.

Definition demo_model : @model nat unit unit :=
  {| lik := demo_lik; timestep := fun _ l _ => l; canon := fun l => l |}.

Definition demo (p : policy) : @config nat unit unit :=
  {| md := demo_model;
     prior := fun _ n => map (fun i => [INR i]) (seq 0 n);
     rsmp := fun _ w l => match l with [] => Err ResamplerError | _ => Ok (uniform_weights (length l), l) end;
     rthresh := 1/2; zpolicy := p; zthresh := 10 * eps; canonize := true |}.

Definition demo_state : @state nat :=
  {| ws := [1/2; 1/2]; ls := [[0]; [1]]; drec := []; nrec := []; mness := Fin 2; rcnt := 0; jr := false; calls := 0 |}.

Lemma demo_good p : good_config (demo p).
Proof.
  constructor; cbn.
  - intros o x e. unfold demo_lik. destruct o as [|[|o]]; try destruct (Reqb _ _); lra.
  - intros _ n. now rewrite map_length, seq_length.
  - reflexivity.
  - reflexivity.
  - intros _ w l w' l' H. destruct l as [|x l]; [discriminate|]. injection H as <- <-.
    split; [apply uniform_prob; simpl; lia|]. split; [now rewrite uniform_weights_length|]. intros _. apply uniform_prob. simpl. lia.
Qed.

Lemma demo_init p : init (demo p) tt 2 false = Ok demo_state.
Proof. unfold init, demo_state, uniform_weights; cbn. do 2 f_equal. f_equal; [lra|f_equal; lra]. Qed.

Lemma demo_inv : full_inv demo_state.
Proof. split; [reflexivity|]. split; [repeat constructor; lra|]. unfold rsum; cbn; lra. Qed.

Lemma demo_evidence0 p : evidence (demo p) demo_state 0%nat tt = 1/2.
Proof.
  unfold evidence, Sum, wt, at_, demo_state; cbn. rewrite Reqb_true by reflexivity. rewrite Reqb_false by lra. lra.
Qed.
Lemma demo_evidence2 p : evidence (demo p) demo_state 2%nat tt = 0.
Proof. unfold evidence, Sum, wt, at_, demo_state; cbn. lra. Qed.
Lemma eps_small_half : eps < / 1000.
Proof.
  unfold eps. apply Rinv_lt_contravar.
  - apply Rmult_lt_0_compat; [lra|apply pow_lt; lra].
  - apply Rlt_le_trans with (2 ^ 10); [lra|]. apply Rle_pow; [lra|lia].
Qed.

Lemma demo_at o p : lik (md (demo p)) o = demo_lik o. Proof. reflexivity. Qed.

Lemma demo_norm p : lik_normalised (demo p) demo_state [0;1]%nat tt.
Proof.
  intros i Hi. cbn in Hi. unfold SumL. cbn. unfold demo_lik. destruct (Reqb _ _); lra.
Qed.

(** Witnesses for the refuted claims of SmcProps.v. *)
Lemma c02_permissive_policies_refuted_lem :
  forall p, p = PIgnore \/ p = PWarn \/ p = PReset ->
  exists (c : @config nat unit unit) s0 xs,
    zpolicy c = p /\ good_config c /\ eps <= zthresh c /\ init c tt 2 false = Ok s0 /\ Forall op_ok xs /\
    ~ prob_vector (ws (run c s0 xs)).
Proof.
  intros p Hp. exists (demo p), demo_state, [OUpdate tt 2%nat tt false].
  split; [reflexivity|]. split; [apply demo_good|]. split; [cbn; pose proof eps_pos; lra|]. split; [apply demo_init|].
  split; [repeat constructor|]. intros [_ H].
  assert (Hz : rsum (ws (run (demo p) demo_state [OUpdate tt 2%nat tt false])) = 0); [|lra].
  assert (Ht : new_total (demo p) demo_state 2%nat tt = 0).
  { unfold new_total. rewrite demo_evidence2. destruct (Rlt_dec 0 eps) as [_|Hn]; [reflexivity|]. pose proof eps_pos; lra. }
  rewrite <- Ht. unfold run. cbn [fold_left step].
  destruct Hp as [-> |[-> | ->]].
  - destruct (c08_ignore_warn (demo PIgnore) tt demo_state 2%nat tt false PIgnore eq_refl (or_introl eq_refl) eq_refl) as (s1 & -> & _ & _ & Hs).
    apply Hs; [apply demo_good|apply demo_inv].
  - destruct (c08_ignore_warn (demo PWarn) tt demo_state 2%nat tt false PWarn eq_refl (or_intror eq_refl) eq_refl) as (s1 & -> & _ & _ & Hs).
    apply Hs; [apply demo_good|apply demo_inv].
  - apply c08_reset_actual; [apply demo_good|reflexivity|apply demo_inv|reflexivity|].
    rewrite Ht. cbn. pose proof eps_pos; lra.
Qed.

Lemma c02_small_threshold_refuted_lem :
  exists (c : @config nat unit unit) s0 xs,
    zpolicy c = PError /\ good_config c /\ 0 <= zthresh c < eps /\ init c tt 2 false = Ok s0 /\ Forall op_ok xs /\
    ~ prob_vector (ws (run c s0 xs)).
Proof.
  set (m := {| lik := fun (_ : nat) (_ : loc) (_ : unit) => eps / 2; timestep := fun (_ : unit) l (_ : unit) => l; canon := fun l : list loc => l |}).
  set (c := {| md := m; prior := prior (demo PError); rsmp := rsmp (demo PError); rthresh := 1/2; zpolicy := PError;
               zthresh := 0; canonize := true |}).
  assert (G : good_config c).
  { constructor; cbn.
    - intros. pose proof eps_pos. lra.
    - apply (prior_len _ (demo_good PError)).
    - reflexivity.
    - reflexivity.
    - apply (rsmp_ok _ (demo_good PError)). }
  exists c, demo_state, [OUpdate tt 0%nat tt false]. pose proof eps_pos as He.
  split; [reflexivity|]. split; [exact G|]. split; [cbn; lra|].
  split; [unfold init, demo_state, uniform_weights; cbn; do 2 f_equal; f_equal; [lra|f_equal; lra]|].
  split; [repeat constructor|]. intros [_ H].
  assert (Hev : evidence c demo_state 0%nat tt = eps / 2) by (unfold evidence, Sum, wt, demo_state; cbn; lra).
  assert (Ht : new_total c demo_state 0%nat tt = eps / 2).
  { unfold new_total. rewrite Hev. destruct (Rlt_dec (eps / 2) eps); lra. }
  assert (Hs : rsum (ws (run c demo_state [OUpdate tt 0%nat tt false])) = eps / 2); [|pose proof eps_small; lra].
  rewrite <- Ht. unfold run. cbn [fold_left step]. rewrite update_unfold. cbn [ws ls demo_state length Nat.eqb]. cbv zeta.
  rewrite new_weights_total by (try reflexivity; try apply demo_inv; apply (lik_nonneg c G)).
  rewrite Rleb_false by (rewrite Ht; cbn; lra). rewrite install_nocheck. cbn [fst ws].
  apply new_weights_total; [reflexivity|apply demo_inv|apply (lik_nonneg c G)].
Qed.

Lemma c08_reset_policy_refuted_lem :
  exists (c : @config nat unit unit) s o,
    zpolicy c = PReset /\ good_config c /\ full_inv s /\ new_total c s o tt <= zthresh c /\
    ws (fst (update c tt s o tt false)) <> uniform_weights (n_particles s).
Proof.
  exists (demo PReset), demo_state, 2%nat. pose proof eps_pos as He.
  assert (Ht : new_total (demo PReset) demo_state 2%nat tt = 0).
  { unfold new_total. rewrite demo_evidence2. destruct (Rlt_dec 0 eps) as [_|Hn]; [reflexivity|lra]. }
  split; [reflexivity|]. split; [apply demo_good|]. split; [apply demo_inv|]. split; [rewrite Ht; cbn; lra|].
  intros Heq. apply (f_equal rsum) in Heq. rewrite uniform_weights_sum in Heq by (cbn; lia).
  destruct (c08_reset_actual (demo PReset) tt demo_state 2%nat tt (demo_good _) eq_refl (proj1 (proj2 demo_inv)) eq_refl) as (_ & _ & Hs & _).
  - rewrite Ht; cbn; lra.
  - rewrite Hs, Ht in Heq. lra.
Qed.

Lemma c10_flag_after_reset_refuted_lem :
  exists (c : @config nat unit unit) s,
    jr (run c s [OResample tt; OReset tt None None true]) = true.
Proof. exists (demo PError), demo_state. reflexivity. Qed.
