(** C106 and C107: the models of tomography/legacy.py. *)
From Verif Require Import Base RList Sums Cplx TwoModel TomoModel StateModel TomoProofs3 LegModel LearnSpec LearnProofs LegProofs.
From Coq Require Import List.

(** ** C106: HTCircuitModel *)
(** Share of the 2^m inputs on which a function is even. *)
Definition even_share (m : nat) (F : list Z) : R := INR (length (filter Z.even F)) / 2 ^ m.
(** The likelihood mixes the shares of the first and of the last 2^m entries of [f]. *)
Theorem c106_likelihood m f os mps :
  ht_likelihood finite_to_likelihood m f os mps =
  Ok (map (fun o => map (fun lam => let p := lam * even_share m (firstn (2 ^ m) f) + (1 - lam) * even_share m (skipn (length f - 2 ^ m) f) in
                                   [if Z.eqb o 0 then p else 1 - p]) mps) os).
Proof.
  unfold ht_likelihood, finite_to_likelihood, to_likelihood_of. cbn [has_attr]. change (has_attr _ _) with true. cbn iota. f_equal. apply map_ext. intros o. rewrite map_map. apply map_ext. intros lam.
  cbn zeta. cbn [map]. unfold pr0_like, ht_pr0, even_share. rewrite !count_even_filter, <- !INR_IZR_INZ. unfold F0, F1. unfold Rdiv. now rewrite !Rmult_assoc.
Qed.
Theorem c106_likelihood_is_a_probability m f lam : 0 <= lam <= 1 -> 0 <= ht_pr0 m f lam <= 1.
Proof.
  intros Hl. unfold ht_pr0. rewrite !count_even_filter, <- !INR_IZR_INZ.
  assert (P : forall F, (length F <= 2 ^ m)%nat -> 0 <= INR (length (filter Z.even F)) / 2 ^ m <= 1).
  { intros F HF. assert (p0 : 0 < 2 ^ m) by (apply pow_lt; lra). split; [apply Rmult_le_pos; [apply pos_INR|apply Rlt_le, Rinv_0_lt_compat; assumption]|].
    apply Rmult_le_reg_r with (2 ^ m); [assumption|]. unfold Rdiv. rewrite Rmult_assoc, Rinv_l, Rmult_1_r, Rmult_1_l by lra. rewrite <- INR_pow2. apply le_INR. pose proof (filter_le Z.even F). lia. }
  pose proof (P (F0 m f) ltac:(unfold F0; rewrite firstn_length; lia)) as P0. pose proof (P (F1 m f) ltac:(unfold F1; rewrite skipn_length; lia)) as P1.
  unfold Rdiv in *. rewrite !Rmult_assoc. set (a := INR (length (filter Z.even (F0 m f))) * / 2 ^ m) in *. set (b := INR (length (filter Z.even (F1 m f))) * / 2 ^ m) in *. clearbody a b. nra.
Qed.
(** Every simulated entry is computed from its own uniform variate and its own integer: the entries chosen for the first state take the
    integers of the first draw in order, the others those of the second draw. *)
Theorem c106_simulated_entries m f us xs0 xs1 zs : ht_fill m f us xs0 xs1 = Ok zs ->
  length zs = length us /\ forall k, (k < length us)%nat ->
    let sel p := Rltb ((1 - snd p) / 2) (fst p) in let p := nth k us (0, 0) in
    let rank b := length (filter (fun q => Bool.eqb (sel q) b) (firstn k us)) in
    exists x, nth_error (if sel p then xs0 else xs1) (rank (sel p)) = Some x /\
      exists z, nth_error (if sel p then firstn (2 ^ m) f else skipn (length f - 2 ^ m) f) x = Some z /\ nth k zs 0%Z = (z mod 2)%Z.
Proof.
  intros H. destruct (ht_fill_spec m f us xs0 xs1 zs H) as [H1 H2]. split; [exact H1|]. intros k Hk. specialize (H2 k Hk). cbn beta zeta in *.
  assert (Es : forall q : R * R, Rltb ((1 - snd q) / 2) (fst q) = ht_select (fst q) (snd q)) by (intros q; unfold ht_select; f_equal; field).
  rewrite Es. destruct H2 as (x & X1 & X2). exists x. split.
  - rewrite <- X1. f_equal. assert (Er : forall l : list (R * R), length (filter (fun q => Bool.eqb (Rltb ((1 - snd q) / 2) (fst q)) true) l) = length (filter (fun b => b) (map (fun p => ht_select (fst p) (snd p)) l)) /\
      length (filter (fun q => Bool.eqb (Rltb ((1 - snd q) / 2) (fst q)) false) l) = length (filter negb (map (fun p => ht_select (fst p) (snd p)) l))).
    { induction l as [|q l [IH1 IH2]]; [now split|]. cbn [filter map]. rewrite Es. destruct (ht_select (fst q) (snd q)); cbn; split; congruence. }
    destruct (Er (firstn k us)) as [E1 E2]. destruct (ht_select (fst (nth k us (0, 0))) (snd (nth k us (0, 0)))); assumption.
  - unfold pick, F0, F1 in X2. destruct (ht_select (fst (nth k us (0, 0))) (snd (nth k us (0, 0)))).
    + destruct (nth_error (firstn (2 ^ m) f) x) as [z|]; [|discriminate]. injection X2 as X2. now exists z.
    + destruct (nth_error (skipn (length f - 2 ^ m) f) x) as [z|]; [|discriminate]. injection X2 as X2. now exists z.
Qed.
(** The share of draws (u of K equally spaced values, x of 2^m) that give outcome zero for one entry. *)
Definition zero_share (m : nat) (f : list Z) (lam : R) (K : nat) : R :=
  SumL (seq 0 K) (fun k => SumL (seq 0 (2 ^ m)) (fun x =>
    match ht_fill m f [(INR k / INR K, lam)] [x] [x] with Ok [0%Z] => 1 | _ => 0 end)) / (INR K * 2 ^ m).
(** Its limit: the first state is chosen with probability (1 + lam)/2, not lam. *)
Theorem c106_simulated_law m f lam : (2 ^ m <= length f)%nat -> 0 <= lam <= 1 ->
  tends (fun K => zero_share m f lam (S K)) ((1 + lam) / 2 * even_share m (firstn (2 ^ m) f) + (1 - lam) / 2 * even_share m (skipn (length f - 2 ^ m) f)).
Proof.
  intros Hf Hl. destruct (F_len m f Hf) as [L0 L1]. set (t := 1/2 * (1 - lam)).
  set (a := even_share m (firstn (2 ^ m) f)). set (b := even_share m (skipn (length f - 2 ^ m) f)).
  assert (Inner : forall F, length F = (2 ^ m)%nat -> SumL (seq 0 (2 ^ m)) (fun x => match pick F x with Ok 0%Z => 1 | _ => 0 end) = 2 ^ m * even_share m F).
  { intros F HF. unfold even_share. rewrite <- (count_positions F (2 ^ m) HF). replace (2 ^ m * (SumL (seq 0 (2 ^ m)) (fun x => if Z.even (nth x F 0%Z) then 1 else 0) / 2 ^ m)) with (SumL (seq 0 (2 ^ m)) (fun x => if Z.even (nth x F 0%Z) then 1 else 0)) by (field; apply pow_nonzero; lra).
    apply SumL_ext. intros x Hx. apply in_seq in Hx. unfold pick. rewrite (nth_error_nth' F 0%Z) by lia. rewrite <- even_mod. destruct (nth x F 0 mod 2)%Z; reflexivity. }
  apply (tends_ext (fun K => b + (a - b) * (SumL (seq 0 (S K)) (fun k => if Rltb t (INR k / INR (S K)) then 1 else 0) / INR (S K)))).
  - intros K. unfold zero_share. set (n := S K). assert (n0 : 0 < INR n) by (apply lt_0_INR; unfold n; lia). assert (p0 : 0 < 2 ^ m) by (apply pow_lt; lra).
    rewrite (SumL_ext _ (fun k => SumL (seq 0 (2 ^ m)) _) (fun k => (2 ^ m * a) * (if Rltb t (INR k / INR n) then 1 else 0) + (2 ^ m * b) * (if Rltb t (INR k / INR n) then 0 else 1))).
    + assert (Spl : forall l, SumL l (fun k => (2 ^ m * a) * (if Rltb t (INR k / INR n) then 1 else 0) + (2 ^ m * b) * (if Rltb t (INR k / INR n) then 0 else 1)) = 2 ^ m * a * SumL l (fun k => if Rltb t (INR k / INR n) then 1 else 0) + 2 ^ m * b * SumL l (fun k => if Rltb t (INR k / INR n) then 0 else 1)).
      { intros l. rewrite <- !SumL_scal, !SumL_rsum, <- rsum_map_plus. reflexivity. }
      rewrite Spl, grid_below. set (g := SumL _ _). field. split; lra.
    + intros k _. cbn [ht_fill]. unfold ht_select. fold t. unfold a, b. destruct (Rltb t (INR k / INR n)).
      * rewrite <- (Inner (firstn (2 ^ m) f) L0). unfold F0. rewrite Rmult_0_r, Rplus_0_r, Rmult_1_r. apply SumL_ext. intros x _. destruct (pick (firstn (2 ^ m) f) x) as [[| |]|]; reflexivity.
      * rewrite <- (Inner (skipn (length f - 2 ^ m) f) L1). unfold F1. rewrite Rmult_0_r, Rplus_0_l, Rmult_1_r. apply SumL_ext. intros x _. destruct (pick (skipn (length f - 2 ^ m) f) x) as [[| |]|]; reflexivity.
  - replace ((1 + lam) / 2 * a + (1 - lam) / 2 * b) with (b + (a - b) * (1 - t)) by (unfold t; field). apply (tends_plus (fun _ => b)); [apply tends_const|]. apply tends_scal. apply grid_share; unfold t; lra.
Qed.
(** Simulation and likelihood agree exactly if lam = 1 or the two halves are equally often even. *)
Theorem c106_agreement m f lam : (2 ^ m <= length f)%nat -> 0 <= lam <= 1 ->
  (tends (fun K => zero_share m f lam (S K)) (ht_pr0 m f lam) <-> lam = 1 \/ length (filter Z.even (F0 m f)) = length (filter Z.even (F1 m f))).
Proof.
  intros Hf Hl. pose proof (c106_simulated_law m f lam Hf Hl) as T. fold (F0 m f) (F1 m f) in T.
  assert (p0 : 0 < 2 ^ m) by (apply pow_lt; lra).
  assert (V : ht_pr0 m f lam = lam * even_share m (F0 m f) + (1 - lam) * even_share m (F1 m f)) by (unfold ht_pr0, even_share; rewrite !count_even_filter, <- !INR_IZR_INZ; field; lra).
  set (a := even_share m (F0 m f)) in *. set (b := even_share m (F1 m f)) in *.
  assert (Ab : a = b <-> length (filter Z.even (F0 m f)) = length (filter Z.even (F1 m f))).
  { unfold a, b, even_share. split; [|intros ->; reflexivity]. intros H. apply INR_eq. apply (f_equal (fun z => z * 2 ^ m)) in H. unfold Rdiv in H. rewrite !Rmult_assoc, Rinv_l, !Rmult_1_r in H by lra. exact H. }
  split.
  - intros T2. assert (U : ht_pr0 m f lam = (1 + lam) / 2 * a + (1 - lam) / 2 * b).
    { destruct (Req_EM_T (ht_pr0 m f lam) ((1 + lam) / 2 * a + (1 - lam) / 2 * b)) as [Z|Z]; [exact Z|exfalso]. set (x := ht_pr0 m f lam) in *. set (y := (1 + lam) / 2 * a + (1 - lam) / 2 * b) in *.
      assert (h0 : 0 < Rabs (x - y) / 2) by (apply Rdiv_lt_0_compat; [apply Rabs_pos_lt; lra|lra]).
      destruct (T _ h0) as [N1 H1]. destruct (T2 _ h0) as [N2 H2]. specialize (H1 (max N1 N2) ltac:(lia)). specialize (H2 (max N1 N2) ltac:(lia)).
      set (z := zero_share m f lam (S (max N1 N2))) in *. pose proof (Rabs_triang (x - z) (z - y)) as Tr. replace (x - z + (z - y)) with (x - y) in Tr by ring. rewrite (Rabs_minus_sym x z) in Tr. lra. }
    rewrite V in U. destruct (Req_EM_T lam 1) as [->|Hn]; [now left|right]. apply Ab. apply Rmult_eq_reg_l with (1 - lam); lra.
  - intros H. replace (ht_pr0 m f lam) with ((1 + lam) / 2 * a + (1 - lam) / 2 * b); [exact T|]. rewrite V. destruct H as [->|H]; [field|]. apply Ab in H. rewrite H. field.
Qed.
Theorem c106_simulation_refuted : exists m f lam, (2 ^ m <= length f)%nat /\ 0 <= lam <= 1 /\ ~ tends (fun K => zero_share m f lam (S K)) (ht_pr0 m f lam).
Proof.
  exists 0%nat, [0; 1]%Z, 0. split; [cbn; lia|]. split; [lra|]. intros T. apply c106_agreement in T; [|cbn; lia|lra]. destruct T as [T|T]; [lra|]. cbn in T. discriminate.
Qed.

(** ** C107: Pauli models *)
(** State with Bloch vector r, and the effect of a measurement along n with visibility v. *)
Definition bloch (r : nat -> R) : mat := fun i j => match i, j with
  | O, O => rc ((1 + r 2%nat) / 2) | O, S O => mkC (r 0%nat / 2) (- r 1%nat / 2) | S O, O => mkC (r 0%nat / 2) (r 1%nat / 2) | S O, S O => rc ((1 - r 2%nat) / 2) | _, _ => c0 end.
(** With one experiment, the likelihood of QubitStatePauliModel is the Born rule. *)
Theorem c107_born_rule mps n v os : (forall r, In r mps -> length r = 3%nat) -> length n = 3%nat ->
  qubit_likelihood finite_to_likelihood os mps [(n, v)] =
  Ok (map (fun o => map (fun r => let p := re (mtrace 2 (mmul 2 (bloch (fun i => nth i r 0)) (bloch (fun i => v * nth i n 0)))) in [if Z.eqb o 0 then p else 1 - p]) mps) os).
Proof.
  intros Hr Hn. unfold qubit_likelihood, qubit_pr0. cbn [map fst snd].
  assert (B1 : forall A (l : list A), bc l [n] = Ok (map (fun x => (x, n)) l)) by (intros A [|x [|y l]]; reflexivity). rewrite B1. cbn [bind].
  assert (B2 : forall l : list R, bc [v] l = Ok (map (fun y => (v, y)) l)) by (intros [|x [|y l]]; reflexivity). rewrite B2. cbn [bind].
  unfold finite_to_likelihood, to_likelihood_of. change (has_attr _ _) with true. cbn iota. f_equal. apply map_ext. intros o. rewrite !map_map. apply map_ext_in. intros r Hin. specialize (Hr r Hin).
  destruct r as [|r0 [|r1 [|r2 [|? ?]]]]; try discriminate. destruct n as [|n0 [|n1 [|n2 [|? ?]]]]; try discriminate.
  cbn [fst snd map]. unfold pr0_like, mtrace, mmul, csum, Sum. cbn. rewrite !rdot_cons, rdot_nil_l. destruct (o =? 0)%Z; f_equal; field.
Qed.
(** These are probabilities for Bloch vectors in the unit ball, unit axes and visibilities in the unit interval. *)
Theorem c107_probability r0 r1 r2 n0 n1 n2 v : r0 ^ 2 + r1 ^ 2 + r2 ^ 2 <= 1 -> n0 ^ 2 + n1 ^ 2 + n2 ^ 2 <= 1 -> 0 <= v <= 1 ->
  exists p, qubit_pr0 [[r0; r1; r2]] [([n0; n1; n2], v)] = Ok [[p]] /\ 0 <= p <= 1.
Proof.
  intros Hr Hn Hv. eexists. split; [reflexivity|]. cbn [fst snd]. rewrite !rdot_cons, rdot_nil_l.
  assert (C1 : Rabs (r0 * n0 + (r1 * n1 + (r2 * n2 + 0))) <= 1).
  { apply Rsqr_incr_0_var; [|lra]. rewrite <- Rsqr_abs. unfold Rsqr.
    assert (S0 : (r0 * n0 + (r1 * n1 + (r2 * n2 + 0))) * (r0 * n0 + (r1 * n1 + (r2 * n2 + 0))) <= (r0^2 + r1^2 + r2^2) * (n0^2 + n1^2 + n2^2)).
    { pose proof (Rle_0_sqr (r0 * n1 - r1 * n0)). pose proof (Rle_0_sqr (r0 * n2 - r2 * n0)). pose proof (Rle_0_sqr (r1 * n2 - r2 * n1)). unfold Rsqr in *. nra. }
    apply Rle_trans with (1 := S0). assert (0 <= n0^2 + n1^2 + n2^2) by nra. assert (0 <= r0^2 + r1^2 + r2^2) by nra. nra. }
  assert (C2 := Rle_abs (r0 * n0 + (r1 * n1 + (r2 * n2 + 0)))). assert (C3 := Rle_abs (- (r0 * n0 + (r1 * n1 + (r2 * n2 + 0))))). rewrite Rabs_Ropp in C3. set (x := r0 * n0 + (r1 * n1 + (r2 * n2 + 0))) in *. clearbody x. nra.
Qed.
(** With several experiments the documented shape is not returned: as many experiments as models gives one column, pairing the i-th model
    with the i-th experiment, and other numbers raise ValueError. *)
Theorem c107_several_experiments_refuted mps es : (2 <= length mps)%nat -> (2 <= length es)%nat ->
  (length mps = length es -> qubit_pr0 mps es = Ok (map (fun p => [snd (snd p) * ((1/2) * (1 + rdot (fst p) (fst (snd p)))) + (1 - snd (snd p)) * (1/2)]) (combine mps es))) /\
  (length mps <> length es -> qubit_pr0 mps es = Err ValueError).
Proof.
  intros H1 H2. unfold qubit_pr0.
  assert (B : forall A B (l : list A) (m : list B), (2 <= length l)%nat -> (2 <= length m)%nat -> bc l m = if Nat.eqb (length l) (length m) then Ok (combine l m) else Err ValueError).
  { intros A B l m Hl Hm. destruct l as [|x [|x' l]]; cbn in Hl; try lia. destruct m as [|y [|y' m]]; cbn in Hm; try lia. reflexivity. }
  rewrite B by (try rewrite map_length; assumption). rewrite map_length. destruct (Nat.eqb_spec (length mps) (length es)) as [He|He]; cbn [bind]; split; intros Hx; try contradiction; [|reflexivity].
  rewrite B by (rewrite !map_length, ?combine_length, ?map_length; lia). rewrite !map_length, combine_length, map_length, He, Nat.min_id, Nat.eqb_refl. cbn [bind]. f_equal. clear.
  revert es. induction mps as [|r mps IH]; intros [|[n v] es]; cbn [map combine]; try reflexivity. cbn [fst snd]. f_equal. apply IH.
Qed.
(** RebitStatePauliModel ignores the visibility its experiments carry: a measurement of visibility zero should give 1/2. *)
Theorem c107_rebit mps n v : rebit_pr0 mps [(n, v)] = Ok (map (fun r => [clip 0 1 ((1 + rdot r n) / 2)]) mps).
Proof.
  unfold rebit_pr0. cbn [map fst]. assert (B1 : forall A (l : list A), bc l [n] = Ok (map (fun x => (x, n)) l)) by (intros A [|x [|y l]]; reflexivity). rewrite B1. cbn [bind]. f_equal. rewrite map_map. apply map_ext. intros r. cbn [fst snd].
  f_equal. f_equal. field.
Qed.
Theorem c107_rebit_visibility_refuted : exists r n, rebit_pr0 [r] [(n, 0)] = Ok [[1]] /\ qubit_pr0 [r] [(n, 0)] = Ok [[1/2]].
Proof.
  exists [1; 0], [1; 0]. split.
  - rewrite c107_rebit. cbn [map]. rewrite !rdot_cons, rdot_nil_l. unfold clip. rewrite Rmax_right, Rmin_left by lra. repeat f_equal; lra.
  - unfold qubit_pr0. cbn. do 3 f_equal. field.
Qed.
(** MultiQubitStatePauliModel has the documented shape: every model with every experiment. *)
Theorem c107_multi mps es : (forall row e, In row mps -> In e es -> (0 <= fst e < Z.of_nat (length row))%Z) ->
  multi_pr0 mps es = Ok (map (fun row => map (fun e => snd e * clip 0 1 ((1 + nth (Z.to_nat (fst e)) row 0) / 2) + (1 - snd e) / 2) es) mps) /\
  (forall row e, In row mps -> In e es -> 0 <= snd e <= 1 -> 0 <= snd e * clip 0 1 ((1 + nth (Z.to_nat (fst e)) row 0) / 2) + (1 - snd e) / 2 <= 1).
Proof.
  intros H. split.
  - unfold multi_pr0. induction mps as [|row mps IH]; [reflexivity|]. cbn [map_res map]. rewrite (IH (fun r e Hr => H r e (or_intror Hr))).
    assert (Row : map_res (fun e => bind (py_index row (fst e)) (fun x => Ok (snd e * clip 0 1 (1 / 2 * (1 + x)) + (1 - snd e) * (1 / 2)))) es =
      Ok (map (fun e => snd e * clip 0 1 ((1 + nth (Z.to_nat (fst e)) row 0) / 2) + (1 - snd e) / 2) es)).
    { assert (H' : forall e, In e es -> (0 <= fst e < Z.of_nat (length row))%Z) by (intros e He; apply H; [now left|exact He]). clear IH H.
      induction es as [|e es IHe]; [reflexivity|]. cbn [map_res map]. rewrite (IHe (fun e0 H0 => H' e0 (or_intror H0))). specialize (H' e (or_introl eq_refl)).
      unfold py_index. replace ((- Z.of_nat (length row) <=? fst e) && (fst e <? Z.of_nat (length row)))%Z with true by (symmetry; apply andb_true_intro; split; [apply Z.leb_le|apply Z.ltb_lt]; lia).
      replace (fst e <? 0)%Z with false by (symmetry; apply Z.ltb_ge; lia). cbn [bind]. do 2 f_equal. unfold Rdiv. f_equal; [|ring]. f_equal. f_equal. field. }
    rewrite Row. reflexivity.
  - intros row e _ _ He. assert (P : 0 <= clip 0 1 ((1 + nth (Z.to_nat (fst e)) row 0) / 2) <= 1).
    { unfold clip. split; [apply Rmin_glb; [lra|apply Rmax_l]|apply Rmin_l]. }
    set (x := clip 0 1 _) in *. clearbody x. nra.
Qed.
(** None of the four classes can be used: they leave abstract methods of Model open, and [likelihood] calls a static method that Model does
    not have (it belongs to FiniteOutcomeModel). *)
Theorem c107_unusable_refuted :
  instantiate mro_Qubit = Err TypeError /\ instantiate mro_Rebit = Err TypeError /\ instantiate mro_MultiQubit = Err TypeError /\ instantiate mro_HTCircuit = Err TypeError /\
  (forall os mps es p, qubit_pr0 mps es = Ok p -> qubit_likelihood model_to_likelihood os mps es = Err AttributeError) /\
  (forall os mps es p, rebit_pr0 mps es = Ok p -> rebit_likelihood model_to_likelihood os mps es = Err AttributeError) /\
  (forall os mps es p, multi_pr0 mps es = Ok p -> multi_likelihood model_to_likelihood os mps es = Err AttributeError) /\
  (forall m f os mps, ht_likelihood model_to_likelihood m f os mps = Err AttributeError).
Proof.
  repeat split; try (intros os mps es p H; unfold qubit_likelihood, rebit_likelihood, multi_likelihood; rewrite H; reflexivity).
Qed.

Example c106_example : ht_pr0 1 [0; 1; 2; 4]%Z (1/2) = 3/4.
Proof. unfold ht_pr0, F0, F1. cbn. lra. Qed.
Example c106_fill_example : ht_fill 1 [0; 1; 2; 4]%Z [(3/4, 1/2); (1/8, 1/2)] [1%nat] [0%nat] = Ok [1; 0]%Z.
Proof. cbn [ht_fill]. unfold ht_select. cbn [fst snd]. rewrite Rltb_true by lra. rewrite Rltb_false by lra. reflexivity. Qed.
Example c107_example : multi_pr0 [[1; 0; -1]] [(0%Z, 1); (2%Z, 1/2)] = Ok [[1; 1/4]].
Proof.
  destruct (c107_multi [[1; 0; -1]] [(0%Z, 1); (2%Z, 1/2)]) as [H _]; [intros row e [<-|[]] [<-|[<-|[]]]; cbn; lia|]. rewrite H. cbn [map fst snd]. change (nth (Z.to_nat 0) [1; 0; -1] 0) with 1. change (nth (Z.to_nat 2) [1; 0; -1] 0) with (-1). unfold clip.
  rewrite (Rmax_right 0 ((1 + 1) / 2)), Rmin_left by lra. rewrite Rmax_left, Rmin_right by lra. do 2 f_equal; f_equal; [lra|f_equal; lra].
Qed.
Print Assumptions c106_likelihood.
Print Assumptions c106_likelihood_is_a_probability.
Print Assumptions c106_simulated_entries.
Print Assumptions c106_simulated_law.
Print Assumptions c106_agreement.
Print Assumptions c106_simulation_refuted.
Print Assumptions c107_born_rule.
Print Assumptions c107_probability.
Print Assumptions c107_several_experiments_refuted.
Print Assumptions c107_rebit.
Print Assumptions c107_rebit_visibility_refuted.
Print Assumptions c107_multi.
Print Assumptions c107_unusable_refuted.
