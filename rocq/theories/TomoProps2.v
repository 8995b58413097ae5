(** C64 for arbitrary distributions of the draws: the fiducial state and the damping strength need not be finitely supported. *)
From Coquelicot Require Import Coquelicot.
From Verif Require Import Base RList Ext Sums Cplx TwoModel TomoModel TomoSpec TomoProofs TomoProofs2 TomoProofs3 MomSpec TomoProps.
Local Open Scope R_scope.

(** The quantile function of Beta(1, beta): np.random.beta(1, beta) is distributed as [beta1_quantile beta u] for u uniform on [0, 1]
    ([c64_beta_law] below: it exceeds x with probability (1 - x)^beta). *)
Definition pow0 (u a : R) : R := if Rle_dec u 0 then 0 else Rpower u a.
Definition beta1_quantile (beta u : R) : R := 1 - pow0 u (/ beta).

Lemma pow0_pos u a : 0 < u -> pow0 u a = Rpower u a.
Proof. intros H. unfold pow0. destruct (Rle_dec u 0); [lra|reflexivity]. Qed.
Lemma pow0_0 u a : u <= 0 -> pow0 u a = 0.
Proof. intros H. unfold pow0. destruct (Rle_dec u 0); [reflexivity|lra]. Qed.
Lemma pow0_nonneg u a : 0 <= pow0 u a.
Proof. unfold pow0. destruct (Rle_dec u 0); [lra|]. left. apply exp_pos. Qed.
Lemma Rpower_le_1 u a : 0 < u <= 1 -> 0 <= a -> Rpower u a <= 1.
Proof. intros H Ha. rewrite <- (Rpower_O u) by lra. unfold Rpower. destruct (Rle_lt_or_eq_dec _ _ (proj2 H)) as [Hu| ->]; [|rewrite ln_1; apply Req_le; f_equal; ring].
  assert (ln u < 0) by (rewrite <- ln_1; apply ln_increasing; lra). destruct (Rle_lt_or_eq_dec _ _ Ha) as [Hp| <-]; [left; apply exp_increasing; nra|lra]. Qed.

Theorem c64_beta_law beta u x : 0 < beta -> 0 <= u <= 1 -> 0 <= x <= 1 ->
  0 <= beta1_quantile beta u <= 1 /\ (beta1_quantile beta u <= x <-> pow0 (1 - x) beta <= u).
Proof.
  intros Hb Hu Hx. unfold beta1_quantile. assert (Hib : 0 < / beta) by now apply Rinv_0_lt_compat. split.
  - assert (H := pow0_nonneg u (/ beta)). split; [|lra]. destruct (Rle_lt_dec u 0) as [H0|H0]; [rewrite (pow0_0 u) by lra; lra|]. rewrite pow0_pos by assumption.
    assert (H1 := Rpower_le_1 u (/ beta)). lra.
  - destruct (Rle_lt_dec u 0) as [H0|H0], (Rle_lt_dec (1 - x) 0) as [H1|H1].
    + rewrite (pow0_0 u), (pow0_0 (1 - x)) by assumption. lra.
    + rewrite (pow0_0 u), (pow0_pos (1 - x)) by assumption. assert (H := exp_pos (beta * ln (1 - x))). fold (Rpower (1 - x) beta) in H. lra.
    + rewrite (pow0_0 (1 - x)) by assumption. assert (H := pow0_nonneg u (/ beta)). lra.
    + rewrite !pow0_pos by assumption. split; intros H.
      * assert (E : Rpower (Rpower u (/ beta)) beta = u) by (rewrite Rpower_mult, Rinv_l, Rpower_1 by lra; reflexivity).
        assert (Rpower (1 - x) beta <= Rpower (Rpower u (/ beta)) beta); [|lra]. apply Rle_Rpower_l; lra.
      * assert (E : Rpower (Rpower (1 - x) beta) (/ beta) = 1 - x) by (rewrite Rpower_mult, Rinv_r, Rpower_1 by lra; reflexivity).
        assert (Rpower (Rpower (1 - x) beta) (/ beta) <= Rpower u (/ beta)); [|lra]. apply Rle_Rpower_l; [lra|]. split; [apply exp_pos|assumption].
Qed.

(** The antiderivative of u^a on [0, 1] *)
Lemma pow0_derive a u : 0 < a -> 0 <= u -> is_derive (fun v => pow0 v (a + 1) / (a + 1)) u (pow0 u a).
Proof.
  intros Ha Hu. destruct (Rle_lt_or_eq_dec _ _ Hu) as [Hp| <-].
  - apply is_derive_ext_loc with (fun v => exp ((a + 1) * ln v) / (a + 1)).
    + exists (mkposreal u Hp). intros v Hv. unfold ball, AbsRing_ball, minus, abs, plus, opp in Hv; cbn in Hv. unfold AbsRing_ball, minus, abs, plus, opp in Hv; cbn in Hv. apply Rabs_def2 in Hv. rewrite pow0_pos by lra. reflexivity.
    + rewrite pow0_pos by assumption. auto_derive; [assumption|]. unfold Rpower. replace ((a + 1) * ln u) with (a * ln u + ln u) by ring. rewrite exp_plus, exp_ln by assumption. field. lra.
  - rewrite (pow0_0 0) by lra. apply is_derive_Reals. intros e He.
    assert (Hd : 0 < Rpower e (/ a)) by apply exp_pos. exists (mkposreal _ Hd). intros h Hh Hl. cbn in Hl. rewrite Rplus_0_l, (pow0_0 0) by lra.
    destruct (Rle_lt_dec h 0) as [H0|H0].
    + rewrite pow0_0 by assumption. replace ((0 / (a + 1) - 0 / (a + 1)) / h - 0) with 0 by (field; lra). rewrite Rabs_R0. assumption.
    + rewrite pow0_pos by assumption. rewrite Rpower_plus, Rpower_1 by assumption. replace ((Rpower h a * h / (a + 1) - 0 / (a + 1)) / h - 0) with (Rpower h a / (a + 1)) by (field; lra).
      rewrite (Rabs_right h) in Hl by lra.
      assert (Hq : Rpower h a < e). { replace e with (Rpower (Rpower e (/ a)) a) by (rewrite Rpower_mult, Rinv_l, Rpower_1 by lra; reflexivity). unfold Rpower at 1 2. apply exp_increasing. apply Rmult_lt_compat_l; [assumption|]. now apply ln_increasing. }
      assert (Hq0 := exp_pos (a * ln h)). fold (Rpower h a) in Hq0. rewrite Rabs_right by (left; apply Rdiv_lt_0_compat; lra). apply Rle_lt_trans with (Rpower h a); [|assumption].
      apply Rmult_le_reg_r with (a + 1); [lra|]. unfold Rdiv. rewrite Rmult_assoc, Rinv_l, Rmult_1_r by lra. nra.
Qed.
Lemma pow0_cont a u : 0 < a -> 0 <= u -> continuous (fun v => pow0 v a) u.
Proof.
  intros Ha Hu. destruct (Rle_lt_or_eq_dec _ _ Hu) as [Hp| <-].
  - apply (continuous_ext_loc _ (fun v => exp (a * ln v))).
    + exists (mkposreal u Hp). intros v Hv. unfold ball in Hv; cbn in Hv. unfold AbsRing_ball, minus, abs, plus, opp in Hv; cbn in Hv. apply Rabs_def2 in Hv. rewrite pow0_pos by lra. reflexivity.
    + apply (ex_derive_continuous (fun v => exp (a * ln v))). auto_derive. assumption.
  - intros P [e HP]. assert (Hd : 0 < Rpower e (/ a)) by apply exp_pos. exists (mkposreal _ Hd). intros v Hv. apply HP. unfold ball in *; cbn in *. unfold AbsRing_ball, minus, abs, plus, opp in *; cbn in *. rewrite (pow0_0 0) by lra. rewrite Ropp_0, Rplus_0_r in *.
    destruct (Rle_lt_dec v 0) as [H0|H0]; [rewrite pow0_0 by assumption; rewrite Rabs_R0; apply cond_pos|].
    rewrite pow0_pos by assumption. rewrite Rabs_right in Hv by lra. assert (Hq0 := exp_pos (a * ln v)). fold (Rpower v a) in Hq0. rewrite Rabs_right by lra.
    replace (pos e) with (Rpower (Rpower e (/ a)) a) by (rewrite Rpower_mult, Rinv_l, Rpower_1 by (lra || apply cond_pos); reflexivity). unfold Rpower at 1 2. apply exp_increasing. apply Rmult_lt_compat_l; [assumption|]. now apply ln_increasing.
Qed.
Theorem c64_beta_mean beta : 0 < beta -> is_RInt (beta1_quantile beta) 0 1 (1 / (1 + beta)).
Proof.
  intros Hb. assert (Hib : 0 < / beta) by now apply Rinv_0_lt_compat.
  assert (H : is_RInt (fun u => pow0 u (/ beta)) 0 1 (minus (pow0 1 (/ beta + 1) / (/ beta + 1)) (pow0 0 (/ beta + 1) / (/ beta + 1)))).
  { apply (is_RInt_derive (fun v => pow0 v (/ beta + 1) / (/ beta + 1))); intros u Hu; rewrite Rmin_left, Rmax_right in Hu by lra; [apply pow0_derive|apply pow0_cont]; lra. }
  assert (H1 : is_RInt (fun _ => 1) 0 1 (scal (1 - 0) 1)) by apply (is_RInt_const 0 1 1).
  assert (H2 := is_RInt_minus _ _ 0 1 _ _ H1 H). replace (1 / (1 + beta)) with (minus (scal (1 - 0) 1) (minus (pow0 1 (/ beta + 1) / (/ beta + 1)) (pow0 0 (/ beta + 1) / (/ beta + 1)))).
  - apply (is_RInt_ext _ _ 0 1 _ (fun u _ => eq_refl) H2).
  - rewrite pow0_pos, (pow0_0 0) by lra. unfold minus, scal, plus, opp, mult; cbn. unfold scal, mult; cbn. unfold mult; cbn. unfold Rpower. rewrite ln_1, Rmult_0_r, exp_0. field. split; lra.
Qed.

(** The sampled matrix for a fiducial state [F] and a damping draw [e]. *)
Definition damped d beta mean (F : mat) (e : R) : mat := fun i j => cadd (cmul (rc (1 - e)) (F i j)) (cmul (rc e) (star_mat d beta mean i j)).
Lemma damped_sample d eigs mean beta star F e : (2 <= d)%nat -> eigs <> [] -> 0 < lmin eigs < 1 / INR d -> gadfli_init d eigs mean = Ok (Fin beta, star) ->
  beta = INR d * lmin eigs / (1 - INR d * lmin eigs) /\ 0 < beta
  /\ exists s, gadfli_sample (Fin beta) star F e = Ok s /\ forall i j, s i j = (Fin (re (damped d beta mean F e i j)), Fin (im (damped d beta mean F e i j))).
Proof.
  intros Hd He Hl E. destruct (gadfli_init_Ok d eigs mean Hd He Hl) as (E' & Hb & H1). cbv zeta in *. rewrite E' in E.
  assert (Eb : INR d * lmin eigs / (1 - INR d * lmin eigs) = beta) by congruence. assert (Es : gadfli_star d (Fin (INR d * lmin eigs / (1 - INR d * lmin eigs))) mean = star) by congruence. clear E.
  split; [now rewrite Eb|]. rewrite Eb in *. subst star. split; [exact Hb|]. unfold gadfli_sample. cbn [xleb]. destruct (Rleb_spec beta 0); [lra|]. eexists. split; [reflexivity|]. intros i j. cbv beta. rewrite gadfli_star_Fin by assumption. unfold damped. cbn [fst snd xmul xadd]. f_equal; f_equal; set (zs := star_mat d beta mean i j); cbn; ring.
Qed.

(** Whatever the distribution of the fiducial state ([Ef], over draws [w]) and of the damping strength ([Ee], over draws [v]), as long as
    they are independent and have the means I/d and 1/(1 + beta): every draw yields a matrix of numbers, and its expectation is the requested mean. *)
Theorem c64_mean_of_any_law {W V} (Ef : (W -> R) -> R) (Ee : (V -> R) -> R) (F : W -> mat) (e : V -> R) d eigs mean beta star :
  expectation Ef -> expectation Ee -> (2 <= d)%nat -> eigs <> [] -> 0 < lmin eigs < 1 / INR d -> gadfli_init d eigs mean = Ok (Fin beta, star) ->
  (forall i j, (i < d)%nat -> (j < d)%nat -> Ef (fun w => re (F w i j)) = (if Nat.eqb i j then 1 / INR d else 0) /\ Ef (fun w => im (F w i j)) = 0) ->
  Ee e = 1 / (1 + beta) ->
  exists smp : W -> V -> mat,
    (forall w v, exists s, gadfli_sample (Fin beta) star (F w) (e v) = Ok s /\ forall i j, s i j = (Fin (re (smp w v i j)), Fin (im (smp w v i j))))
    /\ forall i j, (i < d)%nat -> (j < d)%nat -> Ee (fun v => Ef (fun w => re (smp w v i j))) = re (mean i j) /\ Ee (fun v => Ef (fun w => im (smp w v i j))) = im (mean i j).
Proof.
  intros [F1 Fa Fs Fx] [E1 Ea Es Ex] Hd He Hl E HF Hm. exists (fun w v => damped d beta mean (F w) (e v)).
  split; [intros w v; apply (damped_sample d eigs mean beta star (F w) (e v) Hd He Hl E)|].
  destruct (damped_sample d eigs mean beta star (fun _ _ => c0) 0 Hd He Hl E) as (_ & Hb & _).
  assert (Hdp : 2 <= INR d) by (apply (le_INR 2); assumption).
  assert (Hlin : forall (f : W -> R) c s, Ef f = c -> Ee (fun v => Ef (fun w => (1 - e v) * f w + e v * s)) = (1 - 1 / (1 + beta)) * c + 1 / (1 + beta) * s).
  { intros f c s Hc. assert (Hin : forall v, Ef (fun w => (1 - e v) * f w + e v * s) = c * 1 + (s - c) * e v).
    { intros v. rewrite Fa, Fs, Hc. rewrite (Fx (fun _ => e v * s) (fun _ => e v * s * 1)) by (intros; ring). rewrite Fs, F1. ring. }
    rewrite (Ex _ _ Hin), Ea, Es, E1, Es, Hm. ring. }
  intros i j Hi Hj. destruct (HF i j Hi Hj) as [Hr Hc]. unfold damped. split.
  - rewrite (Ex _ (fun v => Ef (fun w => (1 - e v) * re (F w i j) + e v * re (star_mat d beta mean i j)))) by (intros v; apply Fx; intros w; cbn; ring).
    rewrite (Hlin _ _ _ Hr). unfold star_mat, delta. set (z := mean i j). destruct (Nat.eqb i j); cbn; field; lra.
  - rewrite (Ex _ (fun v => Ef (fun w => (1 - e v) * im (F w i j) + e v * im (star_mat d beta mean i j)))) by (intros v; apply Fx; intros w; cbn; ring).
    rewrite (Hlin _ _ _ Hc). unfold star_mat, delta. set (z := mean i j). destruct (Nat.eqb i j); cbn; field; lra.
Qed.
(** In particular with the law the code draws from: the integral over a uniform variate of the samples damped by the Beta(1, beta) quantile. *)
Theorem c64_mean_beta_draws {W} (Ef : (W -> R) -> R) (F : W -> mat) d eigs mean beta star :
  expectation Ef -> (2 <= d)%nat -> eigs <> [] -> 0 < lmin eigs < 1 / INR d -> gadfli_init d eigs mean = Ok (Fin beta, star) ->
  (forall i j, (i < d)%nat -> (j < d)%nat -> Ef (fun w => re (F w i j)) = (if Nat.eqb i j then 1 / INR d else 0) /\ Ef (fun w => im (F w i j)) = 0) ->
  exists smp : W -> R -> mat,
    (forall w u, exists s, gadfli_sample (Fin beta) star (F w) (beta1_quantile beta u) = Ok s /\ forall i j, s i j = (Fin (re (smp w u i j)), Fin (im (smp w u i j))))
    /\ forall i j, (i < d)%nat -> (j < d)%nat -> is_RInt (fun u => Ef (fun w => re (smp w u i j))) 0 1 (re (mean i j)) /\ is_RInt (fun u => Ef (fun w => im (smp w u i j))) 0 1 (im (mean i j)).
Proof.
  intros [F1 Fa Fs Fx] Hd He Hl E HF. exists (fun w u => damped d beta mean (F w) (beta1_quantile beta u)).
  split; [intros w u; apply (damped_sample d eigs mean beta star (F w) _ Hd He Hl E)|].
  destruct (damped_sample d eigs mean beta star (fun _ _ => c0) 0 Hd He Hl E) as (_ & Hb & _).
  assert (Hdp : 2 <= INR d) by (apply (le_INR 2); assumption).
  assert (Hlin : forall (f : W -> R) c s m, Ef f = c -> (1 - 1 / (1 + beta)) * c + 1 / (1 + beta) * s = m -> is_RInt (fun u => Ef (fun w => (1 - beta1_quantile beta u) * f w + beta1_quantile beta u * s)) 0 1 m).
  { intros f c s m Hc Hm. assert (H1 : is_RInt (fun _ => c) 0 1 (scal (1 - 0) c)) by apply (is_RInt_const 0 1 c).
    assert (H2 := is_RInt_scal _ 0 1 (s - c) _ (c64_beta_mean beta Hb)). assert (H3 := is_RInt_plus _ _ 0 1 _ _ H1 H2).
    match type of H3 with is_RInt _ _ _ ?l => replace m with l end.
    - revert H3. apply is_RInt_ext. intros u _. rewrite Fa, Fs, Hc. rewrite (Fx (fun _ => beta1_quantile beta u * s) (fun _ => beta1_quantile beta u * s * 1)) by (intros; ring). rewrite Fs, F1. unfold plus, scal, mult; cbn. unfold mult; cbn. ring.
    - rewrite <- Hm. unfold plus, scal, mult; cbn. unfold scal, mult; cbn. unfold mult; cbn. field. lra. }
  intros i j Hi Hj. destruct (HF i j Hi Hj) as [Hr Hc]. unfold damped. split.
  - apply (is_RInt_ext (fun u => Ef (fun w => (1 - beta1_quantile beta u) * re (F w i j) + beta1_quantile beta u * re (star_mat d beta mean i j)))); [intros u _; apply Fx; intros w; cbn; ring|].
    eapply Hlin; [exact Hr|]. unfold star_mat, delta. set (z := mean i j). destruct (Nat.eqb i j); cbn; field; lra.
  - apply (is_RInt_ext (fun u => Ef (fun w => (1 - beta1_quantile beta u) * im (F w i j) + beta1_quantile beta u * im (star_mat d beta mean i j)))); [intros u _; apply Fx; intros w; cbn; ring|].
    eapply Hlin; [exact Hc|]. unfold star_mat, delta. set (z := mean i j). destruct (Nat.eqb i j); cbn; field; lra.
Qed.
(** The prior is supported on states: every sample is a density operator. *)
Theorem c64_samples_are_states d eigs mean beta star F e : (2 <= d)%nat -> eigs <> [] -> density d mean -> min_eigenvalue d mean (lmin eigs) -> 0 < lmin eigs < 1 / INR d ->
  gadfli_init d eigs mean = Ok (Fin beta, star) -> density d F -> 0 <= e <= 1 ->
  exists s rho, gadfli_sample (Fin beta) star F e = Ok s /\ density d rho /\ forall i j, s i j = (Fin (re (rho i j)), Fin (im (rho i j))).
Proof.
  intros Hd He Hden Hmin Hl E HF Hee. destruct (c64_extreme_point d eigs mean Hd He Hden Hmin Hl) as (b' & st' & S0 & E' & Hb' & HS & Hst & _). rewrite E in E'.
  assert (b' = beta) by congruence. assert (st' = star) by congruence. subst b' st'. clear E'.
  destruct (damped_sample d eigs mean beta star F e Hd He Hl E) as (_ & Hb & s & Hs & Hsx). exists s, (fun i j => cadd (cmul (rc (1 - e)) (F i j)) (cmul (rc e) (S0 i j))). split; [exact Hs|]. split.
  - destruct HF as [[Fh Fq] Ft], HS as [[Sh Sq] St]. split; [split|].
    + intros i j Hi Hj. rewrite (Fh i j), (Sh i j) by assumption. rewrite conj_add, !conj_mul, !conj_rc. reflexivity.
    + intros u. rewrite quad_add, !quad_scal. specialize (Fq u); specialize (Sq u). set (a := quad d F u) in *; set (b := quad d S0 u) in *; clearbody a b. cbn. nra.
    + unfold mtrace in *. rewrite csum_add, !csum_scal. rewrite Ft, St. apply C_eq; cbn; ring.
  - unfold gadfli_sample in Hs. cbn [xleb] in Hs. destruct (Rleb_spec beta 0); [lra|]. intros i j. assert (Hx := f_equal (fun r => match r with Ok s => s i j | Err _ => (NaN, NaN) end) Hs). cbn beta iota in Hx.
    rewrite <- Hx, Hst. cbn. f_equal; f_equal; ring.
Qed.

(** A concrete case: mean diag(3/4, 1/4) (beta = 1), a fair choice between the two basis states as fiducial, uniform damping. *)
Example c64_any_law_nonvacuous : let mean := fun i j => cmul (rc (if Nat.eqb i 0 then 3 / 4 else 1 / 4)) (delta i j) in
  let F := fun (w : bool) i j => if Nat.eqb i j then (if Bool.eqb w (Nat.eqb i 0) then c1 else c0) else c0 in
  expectation (mean_of [true; false]) /\ (exists star, gadfli_init 2 [1 / 4; 3 / 4] mean = Ok (Fin 1, star))
  /\ (forall i j, (i < 2)%nat -> (j < 2)%nat -> mean_of [true; false] (fun w => re (F w i j)) = (if Nat.eqb i j then 1 / INR 2 else 0) /\ mean_of [true; false] (fun w => im (F w i j)) = 0)
  /\ forall w, density 2 (F w).
Proof.
  cbv zeta. assert (El : lmin [1 / 4; 3 / 4] = 1 / 4) by (cbn; apply Rmin_left; lra). split; [|split; [|split]].
  - unfold mean_of. split; cbn [map length]; intros; rewrite !rsum_cons, !rsum_nil; cbn; try (field; lra). rewrite !H. reflexivity.
  - destruct (gadfli_init_Ok 2 [1 / 4; 3 / 4] (fun i j => cmul (rc (if Nat.eqb i 0 then 3 / 4 else 1 / 4)) (delta i j))) as (E & _); [lia|discriminate|rewrite El; cbn; lra|]. cbv zeta in E. rewrite E, El.
    replace (INR 2 * (1 / 4) / (1 - INR 2 * (1 / 4))) with 1 by (cbn; field). eexists. reflexivity.
  - intros i j Hi Hj. unfold mean_of. cbn [map length]. rewrite !rsum_cons, !rsum_nil. destruct i as [|[|i]], j as [|[|j]]; try lia; cbn; split; field.
  - intros w. split; [split|].
    + intros i j Hi Hj. destruct w, i as [|[|i]], j as [|[|j]]; try lia; apply C_eq; cbn; ring.
    + intros v. unfold quad. rewrite !csum_S, !csum_0. destruct w; cbn; nra.
    + unfold mtrace. rewrite !csum_S, !csum_0. destruct w; apply C_eq; cbn; ring.
Qed.
Print Assumptions c64_beta_law.
Print Assumptions c64_beta_mean.
Print Assumptions c64_mean_of_any_law.
Print Assumptions c64_mean_beta_draws.
Print Assumptions c64_samples_are_states.
