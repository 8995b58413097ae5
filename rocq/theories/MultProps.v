(** C99, C100: sampled counts and readings.  Statements use MultSpec.v, DerSpec.v, MomSpec.v and the model. *)
From Coq Require Import List.
From Verif Require Import Base RList Ext Sums DomModel DomSpec DomProofs2 DerModel DerSpec DerProofs DerProps MomSpec MultModel MultSpec MultProofs.
Import ListNotations.

(** C99 *)
(** [size] a number: one axis is added, and the numbers along the first axis are one draw from the distribution found there in [p]. *)
Theorem c99_samples N p r sides rest src : shp p = sides :: rest -> (0 < sides)%nat -> (0 < volume rest)%nat ->
  (forall i, index rest i -> accepted (distribution p i)) ->
  exists b, sample_multinomial N p (SInt r) src = Ok b /\ shp b = shp p ++ [r] /\
    forall side i k, (side < sides)%nat -> index rest i -> (k < r)%nat ->
      at_ b (side :: i ++ [k]) = nth side (run (np_row N 1 (removelast (distribution p i))) (src (ravel rest i) k)) 0%nat.
Proof.
  intros Hp H1 H2 Ha. destruct (sample_array N p (SInt r) r sides rest src eq_refl Hp H1 H2 Ha) as (b & E & S & H).
  exists b. split; [exact E|]. split; [rewrite Hp; exact S|exact H].
Qed.
(** Without [size] the result has the shape of [p] and holds one draw from each distribution. *)
Theorem c99_single_sample N p sides rest src : shp p = sides :: rest -> (0 < sides)%nat -> (0 < volume rest)%nat ->
  (forall i, index rest i -> accepted (distribution p i)) ->
  exists b, sample_multinomial N p SNone src = Ok b /\ shp b = shp p /\
    forall side i, (side < sides)%nat -> index rest i ->
      at_ b (side :: i) = nth side (run (np_row N 1 (removelast (distribution p i))) (src (ravel rest i) 0%nat)) 0%nat.
Proof.
  intros Hp H1 H2 Ha. destruct (sample_array N p SNone 1 sides rest src eq_refl Hp H1 H2 Ha) as (b & E & S & H).
  exists (first_of_last b). split; [exact E|]. change (sides :: rest ++ [1%nat]) with ((sides :: rest) ++ [1%nat]) in S.
  assert (Sf : shp (first_of_last b) = sides :: rest) by (cbn [shp first_of_last]; rewrite S; apply removelast_last).
  split; [congruence|]. intros side i Hs Hi. rewrite <- (H side i 0%nat Hs Hi) by lia. unfold at_ at 1. rewrite Sf. cbn [first_of_last elt]. rewrite S, last_last.
  unfold at_. rewrite S. change (side :: i ++ [0%nat]) with ((side :: i) ++ [0%nat]). rewrite ravel_app by (cbn [length]; f_equal; apply (index_length _ _ Hi)). cbn [volume fold_right ravel]. f_equal. lia.
Qed.
(** The documented tuple sizes fail: the axes are those of a one-dimensional size. *)
Theorem c99_tuple_size_refuted N p l src : (2 <= length l)%nat -> sample_multinomial N p (STuple l) src = Err ValueError.
Proof.
  intros Hl. destruct (sample_multinomial N p (STuple l) src) as [b|e] eqn:E.
  - exfalso. unfold sample_multinomial in E. cbn [sizes] in E. destruct (apply_along_axis0 _ p) as [a|]; [|discriminate]. cbn [bind] in E.
    unfold reshape in E. destruct (Nat.eqb _ _); [|discriminate]. cbn [bind] in E. unfold transpose in E. cbn [shp] in E. unfold is_perm in E.
    rewrite !app_length, seq_length in E. cbn [length] in E. rewrite (proj2 (Nat.eqb_neq _ _)) in E by lia. discriminate.
  - f_equal. apply sample_error in E; [assumption|]. cbn [sizes]. intros ->. cbn in Hl. lia.
Qed.
(** The sampler's law: the chance of a vector of counts is the total probability of the sequences of independent shots that have it. *)
Theorem c99_law ps N v : prob_vector ps -> chance (np_row N 1 (removelast ps)) v = count_mass (length ps) N (fun i => nth i ps 0) v.
Proof. apply chance_count_mass. Qed.
(** MultinomialModel.simulate_experiment: the counts reported for a repetition, model and experiment are a draw with that experiment's
    n_meas and that model's and experiment's outcome probabilities, whatever np.empty left in the last row. *)
Theorem c99_simulated_counts {V M E} (values : list V) (like : V -> M -> E -> R) ms es rep junk src :
  values <> [] -> ms <> [] -> es <> [] -> (0 < rep)%nat ->
  (forall x e, In x ms -> In e es -> rsum (map (fun v => like v x (fst e)) (removelast values)) <= 1 + / 10 ^ 12) ->
  exists out, simulate_multinomial values like ms es rep junk src = Ok out /\
    forall r m j x e, (r < rep)%nat -> nth_error ms m = Some x -> nth_error es j = Some e ->
      counts_at out r m j = Some (run (np_row (snd e) 1 (map (fun v => like v x (fst e)) (removelast values))) (src j m r)).
Proof.
  intros Hv Hm He Hr Hp. set (sides := length values). set (n_m := length ms). set (n_e := length es).
  assert (P1 : (0 < sides)%nat) by (unfold sides; destruct values; [now destruct Hv|cbn; lia]).
  assert (P2 : (0 < n_m)%nat) by (unfold n_m; destruct ms; [now destruct Hm|cbn; lia]).
  assert (P3 : (0 < n_e)%nat) by (unfold n_e; destruct es; [now destruct He|cbn; lia]).
  set (f := fun je : nat * (E * nat) => sample_multinomial (snd (snd je)) (mm_probs values like ms junk (fst je) (fst (snd je))) (SInt rep) (src (fst je))).
  assert (Hf : forall j e, nth_error es j = Some e -> exists b, f (j, e) = Ok b /\ shp b = [sides; n_m; rep] /\
     forall side m k x, (side < sides)%nat -> nth_error ms m = Some x -> (k < rep)%nat ->
       at_ b [side; m; k] = nth side (run (np_row (snd e) 1 (map (fun v => like v x (fst e)) (removelast values))) (src j m k)) 0%nat).
  { intros j e Hj. unfold f. cbn [fst snd].
    destruct (c99_samples (snd e) (mm_probs values like ms junk j (fst e)) rep sides [n_m] (src j) eq_refl P1 ltac:(cbn; lia)) as (b & Eb & Sb & Hb).
    - intros i Hi. inversion Hi as [|m ? i' ? Lm Hi']; subst. inversion Hi'; subst. unfold accepted. destruct (nth_error ms m) as [x|] eqn:Ex; [|apply nth_error_None in Ex; unfold n_m in Lm; lia].
      rewrite (mm_column values like ms junk j (fst e) m x Ex). apply Hp; eapply nth_error_In; eassumption.
    - exists b. split; [assumption|]. split; [exact Sb|]. intros side m k x Hs Hx Hk.
      assert (Lm : (m < n_m)%nat) by (apply nth_error_Some; congruence).
      pose proof (Hb side [m] k Hs ltac:(constructor; [assumption|constructor]) Hk) as Q. cbn [app] in Q. rewrite Q.
      rewrite (mm_column values like ms junk j (fst e) m x Hx). cbn [ravel volume fold_right]. rewrite Nat.mul_1_r, Nat.add_0_r. reflexivity. }
  assert (Hblocks : exists blocks, mapM f (combine (seq 0 n_e) es) = Ok blocks /\ length blocks = n_e /\
     forall j e, nth_error es j = Some e -> exists b, nth_error blocks j = Some b /\ f (j, e) = Ok b).
  { clear - Hf. unfold n_e. assert (G : forall l a, (forall j e, nth_error l j = Some e -> exists b, f ((a + j)%nat, e) = Ok b) ->
      exists blocks, mapM f (combine (seq a (length l)) l) = Ok blocks /\ length blocks = length l /\
        forall j e, nth_error l j = Some e -> exists b, nth_error blocks j = Some b /\ f ((a + j)%nat, e) = Ok b).
    { induction l as [|e l IH]; intros a H; [exists []; repeat split; intros [|j] e; discriminate|]. cbn [length seq combine mapM].
      destruct (H 0%nat e eq_refl) as (b & Eb). rewrite Nat.add_0_r in Eb. rewrite Eb. cbn [bind]. destruct (IH (S a)) as (bs & Ebs & L & Hbs).
      - intros j e' Hj. replace (S a + j)%nat with (a + S j)%nat by lia. now apply H.
      - rewrite Ebs. cbn [bind]. exists (b :: bs). split; [reflexivity|]. split; [cbn; now rewrite L|]. intros [|j] e' Hj; cbn [nth_error] in *.
        + injection Hj as <-. exists b. rewrite Nat.add_0_r. now split.
        + replace (a + S j)%nat with (S a + j)%nat by lia. now apply Hbs. }
    apply (G es 0%nat). intros j e Hj. destruct (Hf j e Hj) as (b & Eb & _). now exists b. }
  destruct Hblocks as (blocks & Eb & Lb & Hb). unfold simulate_multinomial. fold sides n_m n_e.
  change (mapM _ (combine (seq 0 n_e) es)) with (mapM f (combine (seq 0 n_e) es)). rewrite Eb. cbn [bind].
  assert (Hsh : forall j e b, nth_error es j = Some e -> nth_error blocks j = Some b -> shp b = [sides; n_m; rep] /\
     forall side m k x, (side < sides)%nat -> nth_error ms m = Some x -> (k < rep)%nat ->
       at_ b [side; m; k] = nth side (run (np_row (snd e) 1 (map (fun v => like v x (fst e)) (removelast values))) (src j m k)) 0%nat).
  { intros j e b Hj Hbj. destruct (Hb j e Hj) as (b' & A & B). destruct (Hf j e Hj) as (b'' & C & D). assert (b = b'') by congruence. now subst b''. }
  assert (Hst : exists b0, nth_error blocks 0 = Some b0 /\ stack blocks =
     Ok (ND (length blocks :: shp b0) (fun k => elt (nth (k / volume (shp b0)) blocks b0) (k mod volume (shp b0))%nat))).
  { destruct blocks as [|b0 bs]; [cbn in Lb; lia|]. exists b0. split; reflexivity. }
  destruct Hst as (b0 & Eb0 & Est). rewrite Est. cbn [bind].
  assert (S0 : shp b0 = [sides; n_m; rep]).
  { destruct es as [|e0 es']; [now destruct He|]. now destruct (Hsh 0%nat e0 b0 eq_refl Eb0) as [S0 _]. }
  rewrite S0, Lb. set (vol := volume [sides; n_m; rep]). set (os := ND _ _).
  assert (Hvol : vol = (sides * (n_m * rep))%nat) by (unfold vol; cbn; lia).
  destruct (transpose_at [3; 2; 0; 1]%nat os) as (t & Et & St & Ht); [reflexivity|]. rewrite Et. cbn [bind]. cbn in St.
  unfold from_regular_array. rewrite St. cbn [removelast last volume fold_right]. rewrite Nat.mul_1_r.
  rewrite (proj2 (Nat.eqb_neq _ _)) by nia. cbn [bind shp volume fold_right]. rewrite Nat.mul_1_r.
  set (fin := ND [rep; n_m; n_e] (fun i => map (fun j => elt t (i * sides + j)%nat) (seq 0 sides))).
  assert (Hfin : forall r m j x e, (r < rep)%nat -> nth_error ms m = Some x -> nth_error es j = Some e ->
     at_ fin [r; m; j] = run (np_row (snd e) 1 (map (fun v => like v x (fst e)) (removelast values))) (src j m r)).
  { intros r m j x e Lr Hx Hj. assert (Lm : (m < n_m)%nat) by (apply nth_error_Some; congruence). assert (Lj : (j < n_e)%nat) by (apply nth_error_Some; congruence).
    set (row := run _ _). assert (Lrow : length row = sides) by (unfold row; rewrite row_length, map_length, removelast_length; fold sides; lia).
    unfold at_, fin. cbn [elt shp]. rewrite <- (map_nth_seq row 0%nat), Lrow. apply map_ext_in. intros side Hside. apply in_seq in Hside.
    destruct (Hb j e Hj) as (b & Ebj & _). destruct (Hsh j e b Hj Ebj) as [Sb Hbv]. unfold row. rewrite <- (Hbv side m r x) by (try assumption; lia).
    transitivity (at_ t [r; m; j; side]).
    - unfold at_. rewrite St. f_equal. cbn [ravel volume fold_right]. lia.
    - rewrite Ht by (rewrite St; repeat constructor; lia). cbn [length seq map index_of Nat.eqb nth]. unfold os. cbn [shp elt]. fold os.
      assert (B : (ravel [sides; n_m; rep] [side; m; r] < vol)%nat) by (apply ravel_lt; repeat constructor; lia).
      change (ravel [n_e; sides; n_m; rep] [j; side; m; r]) with (j * vol + ravel [sides; n_m; rep] [side; m; r])%nat. set (q := ravel _ _) in *.
      rewrite (Nat.add_comm (j * vol)), Nat.mod_add, Nat.mod_small, Nat.div_add, Nat.div_small by lia. cbn [Nat.add].
      rewrite (nth_error_nth _ _ b0 Ebj). unfold at_. rewrite Sb. reflexivity. }
  change (fun i : nat => map (fun j : nat => elt t (i * sides + j)%nat) (seq 0 sides)) with (elt fin). change (ND [rep; n_m; n_e] (elt fin)) with fin.
  destruct (Nat.eqb_spec (rep * (n_m * n_e)) 1) as [One|Many].
  - eexists. split; [reflexivity|]. intros r m j x e Lr Hx Hj. assert (Lm : (m < n_m)%nat) by (apply nth_error_Some; congruence). assert (Lj : (j < n_e)%nat) by (apply nth_error_Some; congruence).
    assert (rep = 1 /\ n_m = 1 /\ n_e = 1)%nat as (R1 & R2 & R3) by nia. assert (r = 0%nat) by lia. assert (m = 0%nat) by lia. assert (j = 0%nat) by lia. subst r m j. cbn [counts_at].
    f_equal. rewrite <- (Hfin 0%nat 0%nat 0%nat x e) by assumption. unfold at_. cbn [ravel shp fin]. reflexivity.
  - eexists. split; [reflexivity|]. intros r m j x e Lr Hx Hj. assert (Lm : (m < n_m)%nat) by (apply nth_error_Some; congruence). assert (Lj : (j < n_e)%nat) by (apply nth_error_Some; congruence).
    unfold counts_at. cbn [shp fin]. rewrite !(proj2 (Nat.ltb_lt _ _)) by assumption. cbn [andb]. f_equal. now apply Hfin.
Qed.
(** Simulated data follow the model's own likelihood: an outcome's likelihood is the chance of simulating it. *)
Theorem c99_simulation_matches_likelihood {V M E} (values : list V) (like : V -> M -> E -> R) ms es os : many_outcome values like ms es ->
  Forall (fun o => length o = length values) os ->
  exists L, multinomial_like values like os ms es = Ok L /\
    forall a b c o m e, nth_error os a = Some o -> nth_error ms b = Some m -> nth_error es c = Some e -> nat_sum o = snd e ->
      entry L a b c = Some (Fin (chance (np_row (snd e) 1 (map (fun v => like v m (fst e)) (removelast values))) o)).
Proof.
  intros H Ho. destruct (c33_count_likelihood values like os ms es H Ho) as (L & EL & HL). exists L. split; [assumption|]. intros a b c o m e A B C N.
  rewrite (HL a b c o m e A B C). repeat f_equal. rewrite N. set (ps := map (fun v => like v m (fst e)) values).
  assert (Hps : prob_vector ps) by (apply H; eapply nth_error_In; eassumption).
  replace (map (fun v => like v m (fst e)) (removelast values)) with (removelast ps).
  - rewrite c99_law by assumption. unfold ps. now rewrite map_length.
  - unfold ps. clear. induction values as [|v [|w l] IH]; try reflexivity. cbn [removelast map] in *. f_equal. exact IH.
Qed.
(** Every simulated outcome lies in the domain the model declares for the experiment. *)
Theorem c99_counts_in_domain {V M E} (values : list V) (like : V -> M -> E -> R) (x : M) (e : E * nat) b : values <> [] -> binomial_source b ->
  md_in_domain {| m_n := snd e; m_k := length values |}
    [map Z.of_nat (run (np_row (snd e) 1 (map (fun v => like v x (fst e)) (removelast values))) b)] = true /\
  length (run (np_row (snd e) 1 (map (fun v => like v x (fst e)) (removelast values))) b) = length values.
Proof.
  intros Hv Hb. set (row := run _ _). assert (Ht : nat_sum row = snd e) by (apply row_total; assumption). split.
  - unfold md_in_domain. cbn [forallb m_n]. rewrite !andb_true_r. apply andb_true_iff. split.
    + apply forallb_forall. intros z Hz. apply in_map_iff in Hz. destruct Hz as (k & <- & _). apply Z.leb_le. lia.
    + apply Z.eqb_eq. rewrite <- Ht. clear. induction row as [|k l IH]; [reflexivity|]. cbn [map zsum fold_right]. fold (zsum (map Z.of_nat l)). rewrite IH. cbn. unfold nat_sum. lia.
  - unfold row. rewrite row_length, map_length, removelast_length. destruct values; [now destruct Hv|cbn; lia].
Qed.
(** Nothing to simulate, and probabilities that exceed one, are errors. *)
Theorem c99_nothing_to_simulate {V M E} (values : list V) (like : V -> M -> E -> R) ms es rep junk src : values <> [] ->
  (ms = [] \/ es = [] \/ rep = 0%nat \/
   exists x e, In x ms /\ In e es /\ 1 + / 10 ^ 12 < rsum (map (fun v => like v x (fst e)) (removelast values))) ->
  simulate_multinomial values like ms es rep junk src = Err ValueError.
Proof.
  intros Hv H. unfold simulate_multinomial.
  set (f := fun je : nat * (E * nat) => sample_multinomial (snd (snd je)) (mm_probs values like ms junk (fst je) (fst (snd je))) (SInt rep) (src (fst je))).
  change (mapM _ (combine (seq 0 (length es)) es)) with (mapM f (combine (seq 0 (length es)) es)).
  destruct es as [|e0 es']; [reflexivity|]. set (es := e0 :: es') in *.
  assert (Hall : forall x err, In x (combine (seq 0 (length es)) es) -> f x = Err err -> err = ValueError).
  { intros x err _ Hx. unfold f in Hx. apply sample_error in Hx; [assumption|discriminate]. }
  assert (Hone : (exists x err, In x (combine (seq 0 (length es)) es) /\ f x = Err err) -> bind (mapM f (combine (seq 0 (length es)) es)) (fun blocks =>
     bind (stack blocks) (fun os => bind (transpose [3; 2; 0; 1]%nat os) (fun os => bind (from_regular_array os) (fun os =>
     Ok (if Nat.eqb (volume (shp os)) 1 then OneCount (elt os 0%nat) else Counts os))))) = Err ValueError).
  { intros K. rewrite (mapM_value_error f _ Hall K). reflexivity. }
  destruct ms as [|x0 ms'].
  { apply Hone. exists (0%nat, e0), ValueError. split; [now left|]. unfold f, sample_multinomial, apply_along_axis0. reflexivity. }
  set (ms := x0 :: ms') in *. destruct H as [H|[H|[->|(x & e & Hx & He & Hgt)]]]; try discriminate.
  - destruct (mapM f (combine (seq 0 (length es)) es)) as [blocks|err] eqn:Em.
    2:{ cbn [bind]. f_equal. apply mapM_error in Em. destruct Em as (y & Hy & Ey). eapply Hall; eassumption. }
    cbn [bind]. unfold stack. destruct blocks as [|b0 bs]; [reflexivity|]. cbn [bind].
    assert (S0 : shp b0 = [length values; length ms; 0%nat]).
    { cbn [es length seq combine mapM] in Em. destruct (f (0%nat, e0)) as [b|] eqn:Ef; [|discriminate]. cbn [bind] in Em. destruct (mapM f _) as [r|]; [|discriminate]. cbn [bind] in Em.
      injection Em as <- <-. unfold f, sample_multinomial in Ef. destruct (apply_along_axis0 _ _) as [a|]; [|discriminate]. cbn [bind] in Ef. unfold reshape in Ef.
      destruct (Nat.eqb _ _); [|discriminate]. cbn [bind] in Ef. unfold transpose in Ef. cbn [shp sizes app mm_probs] in Ef. destruct (is_perm _ _); [|discriminate]. cbn [bind] in Ef.
      injection Ef as <-. reflexivity. }
    rewrite S0. unfold transpose. cbn [shp length is_perm Nat.eqb seq forallb existsb orb andb]. cbn [bind map nth]. unfold from_regular_array. cbn [shp removelast volume fold_right Nat.mul Nat.eqb]. reflexivity.
  - destruct (In_nth_error _ _ He) as (j & Hj). apply Hone. exists (j, e).
    assert (Hin : In (j, e) (combine (seq 0 (length es)) es)).
    { assert (Lj : (j < length es)%nat) by (apply nth_error_Some; congruence). pose proof (combine_nth (seq 0 (length es)) es j 0%nat e0 ltac:(now rewrite seq_length)) as Q.
      rewrite seq_nth, (nth_error_nth _ _ e0 Hj) in Q by assumption. cbn [Nat.add] in Q. rewrite <- Q. apply nth_In. rewrite combine_length, seq_length. lia. }
    destruct (f (j, e)) as [b|err] eqn:Ef; [|eauto]. exfalso. unfold f, sample_multinomial in Ef. destruct (apply_along_axis0 _ _) as [a|] eqn:Ea; [|discriminate]. clear Ef.
    unfold apply_along_axis0 in Ea. cbn [mm_probs shp fst snd sizes] in Ea. cbn [volume fold_right] in Ea. rewrite Nat.mul_1_r in Ea. destruct (Nat.eqb (length ms) 0) eqn:Z; [discriminate|].
    destruct (mapM _ (seq 0 (length ms))) as [rs|] eqn:Em; [|discriminate]. destruct (In_nth_error _ _ Hx) as (m & Hm).
    assert (Lm : (m < length ms)%nat) by (apply nth_error_Some; congruence).
    assert (Bad : exists y, In y (seq 0 (length ms)) /\ np_multinomial (snd e) (map (fun i => elt (mm_probs values like ms junk j (fst e)) (i * length ms + y)%nat) (seq 0 (length values))) (rep * 1) (src j y) = Err ValueError).
    { exists m. split; [apply in_seq; lia|]. unfold np_multinomial.
      replace (map _ (seq 0 (length values))) with (distribution (mm_probs values like ms junk j (fst e)) [m]).
      - rewrite (mm_column values like ms junk j (fst e) m x Hm). rewrite Rltb_true by assumption. reflexivity.
      - unfold distribution, at_. cbn [shp mm_probs hd]. apply map_ext. intros i. f_equal. cbn [ravel volume fold_right]. lia. }
    destruct Bad as (y & Hy & Ey). clear - Em Hy Ey. revert rs Em. induction (seq 0 (length ms)) as [|z l IH]; intros rs Em; [destruct Hy|]. cbn [mapM] in Em.
    destruct Hy as [->|Hy]; [unfold mm_probs in *; cbn [elt] in *; rewrite Ey in Em; discriminate|].
    match type of Em with bind ?t _ = _ => destruct t; [|discriminate] end. cbn [bind] in Em. destruct (mapM _ l) as [rs'|]; [|discriminate]. now apply (IH Hy rs').
Qed.
Definition dice : list nat := [0; 1; 2]%nat.
Definition dice_like (v : nat) (m : unit) (e : unit) : R := nth v [1 / 2; 1 / 4; 1 / 4] 0.
Example c99_example : many_outcome dice dice_like [tt; tt] [(tt, 2%nat); (tt, 5%nat)] /\
  (forall x e, In x [tt; tt] -> In e [(tt, 2%nat); (tt, 5%nat)] -> rsum (map (fun v => dice_like v x (fst e)) (removelast dice)) <= 1 + / 10 ^ 12) /\
  chance (np_row 2 1 [1 / 2; 1 / 4]) [1; 1; 0]%nat = 1 / 4 /\
  binomial_source (fun _ n _ => Nat.div2 n) /\ run (np_row 3 1 [1 / 2; 1 / 4]) (fun _ n _ => Nat.div2 n) = [1; 1; 1]%nat.
Proof.
  split; [|split; [|split; [|split]]].
  - intros m e _ _. unfold dice, dice_like. cbn [map nth]. split; [repeat constructor; lra|]. rewrite !rsum_cons, rsum_nil. lra.
  - intros x e _ _. unfold dice, dice_like. cbn [removelast map nth]. rewrite !rsum_cons, rsum_nil. assert (0 < / 10 ^ 12) by (apply Rinv_0_lt_compat, pow_lt; lra). lra.
  - change [1 / 2; 1 / 4] with (removelast [1 / 2; 1 / 4; 1 / 4]). rewrite c99_law by (split; [repeat constructor; lra|rewrite !rsum_cons, rsum_nil; lra]).
    unfold count_mass. cbn. lra.
  - intros i n p. apply Nat.div2_decr. lia.
  - reflexivity.
Qed.
Example c99_shape_example : let p := ND [2; 3]%nat (fun _ => 1 / 2) in
  (forall i, index [3]%nat i -> accepted (distribution p i)) /\ shp p = [2; 3]%nat /\ (0 < volume [3])%nat.
Proof.
  cbv zeta. split; [|split; [reflexivity|cbn; lia]]. intros i _. unfold accepted, distribution, at_. cbn [shp hd seq map elt removelast]. rewrite rsum_cons, rsum_nil.
  assert (0 < / 10 ^ 12) by (apply Rinv_0_lt_compat, pow_lt; lra). lra.
Qed.

(** C100 *)
(** Each reading is the mean of the underlying outcome's signal plus its standard deviation times a normal variate. *)
Theorem c100_readings n ms n_e rep (u : nat -> nat -> nat -> bool) z r m e x : (r < rep)%nat -> nth_error ms m = Some x -> (e < n_e)%nat ->
  let k := if u r m e then 1%nat else 0%nat in
  reading_at (simulate_hyper n ms n_e rep u z) r m e = Some (nth (n + k) x 0 + sqrt (nth (n + 2 + k) x 0) * z m e).
Proof.
  intros Hr Hm He k. assert (Lm : (m < length ms)%nat) by (apply nth_error_Some; congruence). unfold simulate_hyper.
  assert (Hf : forall {X} (f : nat -> X) k i, (i < k)%nat -> nth_error (map f (seq 0 k)) i = Some (f i)).
  { intros X f k0 i Hi. apply map_nth_error. rewrite nth_error_nth' with (d := 0%nat) by (rewrite seq_length; lia). now rewrite seq_nth by lia. }
  assert (T : forall (f : nat -> nat -> nat -> R),
    reading_at (@inr R _ (map (fun r => map (fun m => map (fun e => f r m e) (seq 0 n_e)) (seq 0 (length ms))) (seq 0 rep))) r m e = Some (f r m e)).
  { intros f. unfold reading_at. now rewrite !Hf by assumption. }
  specialize (T (fun r m e => hyper_outcome n (nth m ms []) (u r m e) (z m e))). cbv beta in T. rewrite (nth_error_nth _ _ [] Hm) in T.
  destruct (Nat.eqb_spec (rep * length ms * n_e) 1) as [One|Many]; [|exact T].
  apply Nat.eq_mul_1 in One. destruct One as [One R3]. apply Nat.eq_mul_1 in One. destruct One as [R1 R2]. assert (r = 0%nat) by lia. assert (m = 0%nat) by lia. assert (e = 0%nat) by lia. subst r m e rep n_e.
  rewrite R2. cbn [seq map nth reading_at]. rewrite (nth_error_nth _ _ [] Hm). reflexivity.
Qed.
(** Readings of different models or experiments have uncorrelated noise. *)
Theorem c100_pairs_uncorrelated {W} (Ex : (W -> R) -> R) n (x x' : list R) (b b' : bool) (z z' : W -> R) : expectation Ex ->
  Ex z = 0 -> Ex z' = 0 -> Ex (fun w => z w * z' w) = 0 ->
  Cov Ex (fun w => hyper_outcome n x b (z w)) (fun w => hyper_outcome n x' b' (z' w)) = 0.
Proof.
  intros [E1 Ea Es Ee] Hz Hz' Hzz. unfold Cov, hyper_outcome. set (m := nth _ x 0). set (s := sqrt (nth _ x 0)). set (m' := nth _ x' 0). set (s' := sqrt (nth _ x' 0)).
  assert (M : Ex (fun w => m + s * z w) = m).
  { rewrite (Ea (fun _ => m) (fun w => s * z w)), Es, Hz. rewrite (Ee (fun _ => m) (fun w => m * 1)) by (intros; ring). rewrite (Es m (fun _ => 1)), E1. ring. }
  assert (M' : Ex (fun w => m' + s' * z' w) = m').
  { rewrite (Ea (fun _ => m') (fun w => s' * z' w)), Es, Hz'. rewrite (Ee (fun _ => m') (fun w => m' * 1)) by (intros; ring). rewrite (Es m' (fun _ => 1)), E1. ring. }
  rewrite M, M'. rewrite (Ee _ (fun w => (s * s') * (z w * z' w))) by (intros; ring). rewrite (Es (s * s') (fun w => z w * z' w)), Hzz. ring.
Qed.
(** Repetitions are not independent: the noise is drawn once for all of them, so repetitions with the same underlying outcome agree
    exactly, and otherwise too their noise is fully correlated. *)
Theorem c100_repetitions_share_noise_refuted n ms n_e rep u z r r' m e x : (r < rep)%nat -> (r' < rep)%nat -> nth_error ms m = Some x -> (e < n_e)%nat ->
  u r m e = u r' m e ->
  reading_at (simulate_hyper n ms n_e rep u z) r m e = reading_at (simulate_hyper n ms n_e rep u z) r' m e.
Proof. intros H1 H2 Hm He Hu. rewrite !(c100_readings n ms n_e rep u z _ m e x) by assumption. now rewrite Hu. Qed.
Theorem c100_repetitions_correlated_refuted {W} (Ex : (W -> R) -> R) n (x : list R) (b b' : bool) (z : W -> R) : expectation Ex ->
  Ex z = 0 -> Ex (fun w => z w * z w) = 1 ->
  let s2 (c : bool) := nth (n + 2 + if c then 1%nat else 0%nat) x 0 in 0 < s2 b -> 0 < s2 b' ->
  Cov Ex (fun w => hyper_outcome n x b (z w)) (fun w => hyper_outcome n x b' (z w)) = sqrt (s2 b) * sqrt (s2 b') /\ sqrt (s2 b) * sqrt (s2 b') > 0.
Proof.
  intros [E1 Ea Es Ee] Hz Hzz s2 P P'. split; [|apply Rmult_lt_0_compat; now apply sqrt_lt_R0]. unfold Cov, hyper_outcome. cbv zeta.
  assert (M : forall m s, Ex (fun w => m + s * z w) = m).
  { intros m s. rewrite (Ea (fun _ => m) (fun w => s * z w)), Es, Hz. rewrite (Ee (fun _ => m) (fun w => m * 1)) by (intros; ring). rewrite (Es m (fun _ => 1)), E1. ring. }
  rewrite !M. fold (s2 b) (s2 b'). rewrite (Ee _ (fun w => (sqrt (s2 b) * sqrt (s2 b')) * (z w * z w))) by (intros; ring).
  rewrite (Es _ (fun w => z w * z w)), Hzz. ring.
Qed.
Example c100_example : let Ex := mean_of [1; -1] in
  expectation Ex /\ Ex (fun w => w) = 0 /\ Ex (fun w => w * w) = 1 /\
  reading_at (simulate_hyper 1 [[7; 0; 10; 4; 9]] 2 3 (fun r _ _ => Nat.eqb r 1) (fun _ e => INR e)) 1 0 1 = Some 13.
Proof.
  cbv zeta. assert (M : forall f : R -> R, mean_of [1; -1] f = (f 1 + f (-1)) / 2).
  { intros f. unfold mean_of. cbn [map length INR]. rewrite !rsum_cons, rsum_nil. field. }
  split; [|rewrite !M; split; [lra|split; [lra|]]].
  - split; intros; rewrite !M; try lra. now rewrite !H.
  - rewrite (c100_readings 1 _ 2 3 _ _ 1 0 1 [7; 0; 10; 4; 9]) by (try lia; reflexivity). cbn [Nat.eqb Nat.add nth INR]. replace 9 with (3 * 3) by lra. rewrite sqrt_square by lra. f_equal. lra.
Qed.
Print Assumptions c99_samples.
Print Assumptions c99_single_sample.
Print Assumptions c99_tuple_size_refuted.
Print Assumptions c99_law.
Print Assumptions c99_simulated_counts.
Print Assumptions c99_simulation_matches_likelihood.
Print Assumptions c99_counts_in_domain.
Print Assumptions c99_nothing_to_simulate.
Print Assumptions c100_readings.
Print Assumptions c100_pairs_uncorrelated.
Print Assumptions c100_repetitions_share_noise_refuted.
Print Assumptions c100_repetitions_correlated_refuted.
