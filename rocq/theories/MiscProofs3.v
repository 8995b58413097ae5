(** Proofs for the Bayesian Cramer-Rao updater and performance runs. *)
From Verif Require Import Base Ext RList Sums SmcModel PartSpec MiscModel MiscSpec.

Section Bcrb.
Context {O E RND : Type}.
Variable c : @config O E RND.
Variable fisher : loc -> E -> nat -> nat -> R.
Notation upd := (bcrb_update c fisher).
Notation brun := (bcrb_run c fisher).

Lemma put_same h a v : put h a v a = v. Proof. unfold put. now rewrite Nat.eqb_refl. Qed.
Lemma put_other h a v b : b <> a -> put h a v b = h b. Proof. intros H. unfold put. now rewrite (proj2 (Nat.eqb_neq b a) H). Qed.

Lemma iadd_float h a m : flt (h a) = true -> iadd h a m = Ok (put h a {| flt := true; ent := fun i j => ent (h a) i j + m i j |}).
Proof. intros H. unfold iadd. now rewrite H. Qed.

Lemma update_sane rp r b o e ck : sane b ->
  let b' := fst (upd rp r b o e ck) in
  sane b' /\ b_cur b' = b_cur b /\ b_adapt b' = b_adapt b /\ b_next b' = b_next b /\
  b_smc b' = fst (update c r (b_smc b) o e ck) /\ snd (upd rp r b o e ck) = snd (update c r (b_smc b) o e ck) /\
  (forall i j, ent (b_heap b' (b_cur b)) i j = ent (b_heap b (b_cur b)) i j + bim_uniform fisher (prior c rp (n_particles (b_smc b))) e i j) /\
  (forall a, b_adapt b = Some a -> forall i j, ent (b_heap b' a) i j = ent (b_heap b a) i j + bim_weighted fisher (ws (b_smc b)) (ls (b_smc b)) e i j) /\
  (forall a, a <> b_cur b -> b_adapt b <> Some a -> b_heap b' a = b_heap b a).
Proof.
  intros [Hc Ha]. unfold bcrb_update. rewrite (iadd_float _ (b_cur b)) by assumption. cbv zeta. destruct (b_adapt b) as [a|] eqn:Ea.
  - destruct Ha as [Hne Hf]. rewrite iadd_float by (rewrite put_other; assumption). rewrite (put_other _ _ _ a) by assumption. destruct (update c r (b_smc b) o e ck) as [s' x]. cbn [fst snd b_cur b_adapt b_next b_smc b_heap].
    split; [|refine (conj eq_refl (conj eq_refl (conj eq_refl (conj eq_refl (conj eq_refl (conj _ (conj _ _)))))))].
    + split; cbn [b_heap b_cur b_adapt]; [rewrite put_other by congruence; rewrite put_same; reflexivity|]. split; [assumption|]. now rewrite put_same.
    + intros i j. rewrite put_other by congruence. now rewrite put_same.
    + intros a' [= <-] i j. now rewrite put_same.
    + intros a' H1 H2. rewrite !put_other by congruence. reflexivity.
  - destruct (update c r (b_smc b) o e ck) as [s' x]. cbn [fst snd b_cur b_adapt b_next b_smc b_heap].
    split; [|refine (conj eq_refl (conj eq_refl (conj eq_refl (conj eq_refl (conj eq_refl (conj _ (conj _ _)))))))].
    + split; cbn [b_heap b_cur b_adapt]; [now rewrite put_same|trivial].
    + intros i j. now rewrite put_same.
    + intros a' [=].
    + intros a' H1 H2. rewrite put_other by congruence. reflexivity.
Qed.

Lemma run_spec xs : forall b, sane b ->
  let b' := brun b xs in
  sane b' /\ b_cur b' = b_cur b /\ b_adapt b' = b_adapt b /\
  (forall i j, ent (b_heap b' (b_cur b)) i j = ent (b_heap b (b_cur b)) i j +
     rsum (map2 (fun s x => bim_uniform fisher (prior c (op_rp x) (n_particles s)) (op_e x) i j) (before c fisher b xs) xs)) /\
  (forall a, b_adapt b = Some a -> forall i j, ent (b_heap b' a) i j = ent (b_heap b a) i j +
     rsum (map2 (fun s x => bim_weighted fisher (ws s) (ls s) (op_e x) i j) (before c fisher b xs) xs)) /\
  (forall a, a <> b_cur b -> b_adapt b <> Some a -> b_heap b' a = b_heap b a).
Proof.
  induction xs as [|x xs IH]; intros b Hb; cbn [before map2].
  - cbv zeta. cbn [bcrb_run fold_left]. split; [exact Hb|]. split; [reflexivity|]. split; [reflexivity|]. split; [|split]; intros; rewrite ?rsum_nil; try ring; reflexivity.
  - destruct (update_sane (op_rp x) (op_r x) b (op_o x) (op_e x) (op_check x) Hb) as (S1 & C1 & A1 & _ & _ & _ & E1 & W1 & F1).
    change (brun b (x :: xs)) with (brun (fst (upd (op_rp x) (op_r x) b (op_o x) (op_e x) (op_check x))) xs).
    set (b1 := fst (upd (op_rp x) (op_r x) b (op_o x) (op_e x) (op_check x))) in *. destruct (IH b1 S1) as (S2 & C2 & A2 & E2 & W2 & F2).
    cbv zeta. split; [exact S2|]. split; [congruence|]. split; [congruence|]. split; [|split].
    + intros i j. rewrite <- C1. rewrite E2, C1, E1, rsum_cons. ring.
    + intros a Ha i j. rewrite W2 by congruence. rewrite (W1 a Ha), rsum_cons. ring.
    + intros a N1 N2. rewrite F2 by congruence. now apply F1.
Qed.
End Bcrb.

(** ** Performance runs *)
Section Perf.
Context {O E U H : Type}.
Variable v : @perf_env O E U H.
Definition scons {A} (a : A) (f : nat -> A) (k : nat) : A := match k with 0%nat => a | S k => f k end.
Lemma perf_loop_explains n : forall k0 tm u h rows, perf_loop v n k0 tm u h = Ok rows -> 
  n = 0%nat /\ rows = [] \/ exists T Us Hs es ds, explains v n tm u h rows T Us Hs es ds k0.
Proof.
  induction n as [|n IH]; intros k0 tm u h rows Hr; [left; split; [reflexivity|cbn in Hr; congruence]|right].
  cbn [perf_loop] in Hr. destruct (p_heur v k0 h u) as [[e h']|] eqn:E1; [cbn [bind] in Hr|discriminate].
  destruct (p_sim v k0 tm e) as [d|] eqn:E2; [cbn [bind] in Hr|discriminate]. destruct (p_upd v k0 u d e) as [u'|] eqn:E3; [cbn [bind] in Hr|discriminate].
  destruct (p_drift v k0 tm e) as [tm'|] eqn:E4; [cbn [bind] in Hr|discriminate]. destruct (p_mean v u') as [est|] eqn:E5; [cbn [bind] in Hr|discriminate].
  cbn [shorten_right] in Hr. unfold shorten_right in Hr. destruct (perf_loop v n (S k0) tm' u' h') as [rest|] eqn:E6; [cbn [bind] in Hr|discriminate].
  assert (Er : rows = {| r_loss := rdot (map (fun x => x ^ 2) (map2 Rminus (lastn (Nat.min (length est) (length tm')) est) (lastn (Nat.min (length est) (length tm')) tm'))) (lastn (p_nmin v) (p_Q v));
     r_count := p_count v u'; r_outcome := d; r_true := tm; r_est := est; r_exp := e |} :: rest) by congruence. clear Hr.
  assert (First : forall T Us Hs es ds, T 0%nat = tm -> Us 0%nat = u -> Hs 0%nat = h -> es 0%nat = e -> ds 0%nat = d -> T 1%nat = tm' -> Us 1%nat = u' -> Hs 1%nat = h' ->
    p_heur v (k0 + 0) (Hs 0%nat) (Us 0%nat) = Ok (es 0%nat, Hs 1%nat) /\ p_sim v (k0 + 0) (T 0%nat) (es 0%nat) = Ok (ds 0%nat) /\
    p_upd v (k0 + 0) (Us 0%nat) (ds 0%nat) (es 0%nat) = Ok (Us 1%nat) /\ p_drift v (k0 + 0) (T 0%nat) (es 0%nat) = Ok (T 1%nat) /\
    exists r, nth_error rows 0 = Some r /\ r_true r = T 0%nat /\ p_mean v (Us 1%nat) = Ok (r_est r) /\
      r_count r = p_count v (Us 1%nat) /\ r_outcome r = ds 0%nat /\ r_exp r = es 0%nat /\
      r_loss r = (let m := Nat.min (length (r_est r)) (length (T 1%nat)) in
                  rdot (map (fun x => x ^ 2) (map2 Rminus (lastn m (r_est r)) (lastn m (T 1%nat)))) (lastn (p_nmin v) (p_Q v)))).
  { intros T Us Hs es ds -> -> -> -> -> -> -> ->. rewrite Nat.add_0_r, E1, E2, E3, E4. repeat split. rewrite Er. eexists. split; [reflexivity|]. cbn. repeat split; assumption. }
  destruct (IH _ _ _ _ _ E6) as [[-> ->]|(T & Us & Hs & es & ds & T0 & U0 & H0 & Hl & Hk)].
  - exists (scons tm (fun _ => tm')), (scons u (fun _ => u')), (scons h (fun _ => h')), (fun _ => e), (fun _ => d).
    split; [reflexivity|]. split; [reflexivity|]. split; [reflexivity|]. split; [now rewrite Er|]. intros k Hlt. replace k with 0%nat by lia.
    exact (First (scons tm (fun _ => tm')) (scons u (fun _ => u')) (scons h (fun _ => h')) (fun _ => e) (fun _ => d) eq_refl eq_refl eq_refl eq_refl eq_refl eq_refl eq_refl eq_refl).
  - exists (scons tm T), (scons u Us), (scons h Hs), (scons e es), (scons d ds).
    split; [reflexivity|]. split; [reflexivity|]. split; [reflexivity|]. split; [rewrite Er; cbn; now rewrite Hl|]. intros [|k] Hlt; [exact (First (scons tm T) (scons u Us) (scons h Hs) (scons e es) (scons d ds) eq_refl eq_refl eq_refl eq_refl eq_refl T0 U0 H0)|].
    destruct (Hk k ltac:(lia)) as (K1 & K2 & K3 & K4 & r & Kr). cbn [scons] in *. replace (k0 + S k)%nat with (S k0 + k)%nat by lia.
    split; [assumption|]. split; [assumption|]. split; [assumption|]. split; [assumption|]. exists r. rewrite Er. cbn [nth_error]. exact Kr.
Qed.
End Perf.
