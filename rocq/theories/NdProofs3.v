(** Proofs about the array code of the derived models, and updates with several outcomes or experiments. *)
From Verif Require Import Base Ext RList Sums DomModel TwoModel DerModel SmcModel RiskModel Nd NdModel NdModel2 NdSpec NdProofs NdProofs2.

(** ** All entries of an array *)
Lemma unravel_ravel sh : forall ix, Forall2 lt ix sh -> unravel sh (ravel sh ix) = ix /\ (ravel sh ix < prodn sh)%nat.
Proof.
  induction sh as [|d sh IH]; intros ix H; inversion H as [|i d' ix' sh' Hi Hix]; subst.
  - split; [reflexivity|cbn; lia].
  - destruct (IH ix' Hix) as (E & B). cbn [ravel unravel prodn fold_right]. change (fold_right Nat.mul 1%nat sh) with (prodn sh).
    split.
    + rewrite Nat.div_add_l by lia. rewrite (Nat.div_small (ravel sh ix')) by assumption. rewrite Nat.add_0_r. f_equal.
      rewrite Nat.add_comm, Nat.mod_add by lia. rewrite Nat.mod_small by assumption. exact E.
    + nia.
Qed.
Lemma unravel_range sh : forall k, (k < prodn sh)%nat -> Forall2 lt (unravel sh k) sh.
Proof.
  induction sh as [|d sh IH]; intros k H; cbn [unravel]; constructor.
  - cbn [prodn fold_right] in H. change (fold_right Nat.mul 1%nat sh) with (prodn sh) in H. apply Nat.div_lt_upper_bound; [nia|]. lia.
  - apply IH. apply Nat.mod_upper_bound. cbn [prodn fold_right] in H. change (fold_right Nat.mul 1%nat sh) with (prodn sh) in H. nia.
Qed.
Lemma in_entries {A} (a : nd A) v : In v (entries a) <-> exists ix, Forall2 lt ix (shp a) /\ get a ix = v.
Proof.
  unfold entries, size. split.
  - intros H. apply in_map_iff in H as (k & <- & Hk). apply in_seq in Hk. exists (unravel (shp a) k). split; [apply unravel_range; lia|reflexivity].
  - intros (ix & Hix & <-). destruct (unravel_ravel _ _ Hix) as (E & B). apply in_map_iff. exists (ravel (shp a) ix). split; [now rewrite E|]. apply in_seq. lia.
Qed.
Lemma F2_3 ix n m l : Forall2 lt ix [n; m; l] <-> exists i j k, ix = [i; j; k] /\ (i < n)%nat /\ (j < m)%nat /\ (k < l)%nat.
Proof.
  split.
  - intros H. inversion H as [|i ? ? ? Hi H1]; subst. inversion H1 as [|j ? ? ? Hj H2]; subst. inversion H2 as [|k ? ? ? Hk H3]; subst. inversion H3; subst.
    exists i, j, k. auto.
  - intros (i & j & k & -> & ? & ? & ?). repeat constructor; assumption.
Qed.
Lemma in_entries3 {A} (a : nd A) n m l v : shp a = [n; m; l] ->
  (In v (entries a) <-> exists i j k, (i < n)%nat /\ (j < m)%nat /\ (k < l)%nat /\ get a [i; j; k] = v).
Proof.
  intros Hs. rewrite in_entries, Hs. split.
  - intros (ix & Hix & <-). apply F2_3 in Hix as (i & j & k & -> & ? & ? & ?). exists i, j, k. auto.
  - intros (i & j & k & ? & ? & ? & <-). exists [i; j; k]. split; [|reflexivity]. apply F2_3. exists i, j, k. auto.
Qed.

Section Der.
Context {E : Type}.
Variable like_arr : nd Z -> nd R -> list E -> res (nd R).
Variables (d : nat) (good : Z -> Prop) (ok : E -> Prop) (dE : E) (like : Z -> list R -> E -> R).
Hypothesis H : implements d good ok dE like_arr like.

Lemma nan_check a n m l f : shp a = [n; m; l] -> (forall i j k, (i < n)%nat -> (j < m)%nat -> (k < l)%nat -> get a [i; j; k] = f i j k) ->
  (forall i j k, (i < n)%nat -> (j < m)%nat -> (k < l)%nat -> is_nan (f i j k) = false) -> is3 (assert_no_nan a) n m l f.
Proof.
  intros Hs Hg Hn. unfold assert_no_nan. destruct (existsb is_nan (entries a)) eqn:Ex.
  - apply existsb_exists in Ex as (v & Hv & Hnan). apply (in_entries3 a n m l) in Hv as (i & j & k & Hi & Hj & Hk & <-); [|assumption].
    rewrite Hg, Hn in Hnan by assumption. discriminate.
  - exists a. auto.
Qed.
Lemma nan_caught a n m l i j k : shp a = [n; m; l] -> (i < n)%nat -> (j < m)%nat -> (k < l)%nat -> is_nan (get a [i; j; k]) = true ->
  assert_no_nan a = Err AssertionError.
Proof.
  intros Hs Hi Hj Hk Hn. unfold assert_no_nan. assert (Ex : existsb is_nan (entries a) = true); [|now rewrite Ex].
  apply existsb_exists. exists (get a [i; j; k]). split; [|assumption]. apply (in_entries3 a n m l); [assumption|]. exists i, j, k. auto.
Qed.

Lemma mapM_concat {A} (f : nat -> res (nd A)) n sh (F : nat -> list nat -> A) (dom : list nat -> Prop) : (0 < n)%nat ->
  (forall i, (i < n)%nat -> exists b, f i = Ok b /\ shp b = 1%nat :: sh /\ forall ix, dom ix -> get b (0%nat :: ix) = F i ix) ->
  exists a, bind (mapM f (seq 0 n)) concat0 = Ok a /\ shp a = n :: sh /\ forall i ix, (i < n)%nat -> dom ix -> get a (i :: ix) = F i ix.
Proof.
  intros Hn Hf. destruct (Hf 0%nat Hn) as (b0 & _).
  pose (g := fun i => match f i with Ok b => b | Err _ => b0 end).
  rewrite (mapM_ok f g).
  2:{ intros i Hi. apply in_seq in Hi. destruct (Hf i ltac:(lia)) as (b & Eb & _). unfold g. now rewrite Eb. }
  cbn [bind]. destruct (concat_units g n sh Hn) as (a & E1 & E2 & E3).
  { intros i Hi. destruct (Hf i Hi) as (b & Eb & Sb & _). unfold g. now rewrite Eb. }
  exists a. split; [exact E1|]. split; [exact E2|]. intros i ix Hi Hd. rewrite E3 by assumption. destruct (Hf i Hi) as (b & Eb & Sb & Gb). unfold g. rewrite Eb. now apply Gb.
Qed.

(** the array before the check *)
Lemma binomial_raw os xs es n_o n_m : shp os = [n_o] -> shp xs = [n_m; d] -> (0 < n_o)%nat -> (0 < n_m)%nat -> good 1%Z -> Forall (fun e => ok (fst e)) es ->
  exists a, binomial_likelihood like_arr os xs es = assert_no_nan a /\ shp a = [n_o; n_m; length es] /\
    forall o i k, (o < n_o)%nat -> (i < n_m)%nat -> (k < length es)%nat ->
    get a [o; i; k] = binomial_pdf (snd (nth k es (dE, 0%nat))) (get os [o]) (like 1%Z (row d xs i) (fst (nth k es (dE, 0%nat)))).
Proof.
  intros Ho Hx Hpo Hpm Hg Hok. unfold binomial_likelihood.
  destruct (H (vec 0%Z [1%Z]) xs (map fst es) 1%nat n_m) as (p & E1 & E2 & E3);
    [reflexivity|assumption|lia|assumption|intros [|o] Hlt; [exact Hg|lia]|now apply Forall_map|].
  rewrite E1. cbn [bind]. rewrite map_length in *. destruct p as [sp gp]. cbn [shp get] in *. subst sp.
  unfold dim. rewrite Ho. cbn [nth].
  match goal with |- context [mapM ?f (seq 0 n_o)] =>
    destruct (mapM_concat f n_o [n_m; length es]
      (fun o ix => binomial_pdf (snd (nth (nth 1 ix 0%nat) es (dE, 0%nat))) (get os [o]) (like 1%Z (row d xs (hd 0%nat ix)) (fst (nth (nth 1 ix 0%nat) es (dE, 0%nat)))))
      (fun ix => exists i k, ix = [i; k] /\ (i < n_m)%nat /\ (k < length es)%nat)) as (a & Ea & Sa & Ga)
  end.
  - assumption.
  - intros o Hi. rewrite (take_ok o os n_o [] Ho Hi). nds. eexists. split; [reflexivity|]. split; [reflexivity|].
    intros ix (i & k & -> & H1 & H2). nds. pins. rewrite E3 by (assumption || lia). nds. rewrite (nth_map_in _ es k 0%nat (dE, 0%nat)), (nth_map_in _ es k dE (dE, 0%nat)) by assumption. reflexivity.
  - exists a. rewrite Ea. cbn [bind]. split; [reflexivity|]. split; [exact Sa|]. intros o i k H1 H2 H3. rewrite Ga by (assumption || (exists i, k; auto)). reflexivity.
Qed.

Lemma multinomial_raw values sides os xs es n_o n_m : (2 <= length values)%nat -> shp os = [n_o; sides] -> shp xs = [n_m; d] -> (0 < n_o)%nat -> (0 < n_m)%nat ->
  Forall good (removelast values) -> Forall (fun e => ok (fst e)) es ->
  exists a, multinomial_likelihood like_arr values os xs es = assert_no_nan a /\ shp a = [n_o; n_m; length es] /\
    forall o i k, (o < n_o)%nat -> (i < n_m)%nat -> (k < length es)%nat ->
    get a [o; i; k] = multinomial_pdf (row sides os o) (map (fun v => like v (row d xs i) (fst (nth k es (dE, 0%nat)))) (removelast values)).
Proof.
  intros Hv Ho Hx Hpo Hpm Hg Hok. unfold multinomial_likelihood.
  assert (Hvne : (0 < length (removelast values))%nat).
  { destruct values as [|v [|v' vs]]; cbn in Hv; try lia. cbn. lia. }
  destruct (H (vec 0%Z (removelast values)) xs (map fst es) (length (removelast values)) n_m) as (p & E1 & E2 & E3);
    [reflexivity|assumption|assumption|assumption| |now apply Forall_map|].
  { intros o Hlt. cbn [get vec hd]. rewrite Forall_forall in Hg. apply Hg. now apply nth_In. }
  rewrite E1. cbn [bind]. rewrite map_length in *. destruct p as [sp gp]. cbn [shp get] in *. subst sp. unfold multinomial_pdf_array. 
  unfold row in *. destruct os as [so go], xs as [sx gx]. cbn [shp get] in *. subst so sx. nds.
  eexists. split; [reflexivity|]. split; [reflexivity|]. intros o i k H1 H2 H3. unfold column. nds. f_equal.
  - apply map_ext_in. intros j Hj. apply in_seq in Hj. rewrite !Nat.mod_small by lia. reflexivity.
  - rewrite <- (map_nth_seq (removelast values) 0%Z) at 2. rewrite map_map. apply map_ext_in. intros j Hj. apply in_seq in Hj.
    rewrite !Nat.mod_small by lia. rewrite E3 by (assumption || lia). rewrite (nth_map_in _ es k dE (dE, 0%nat)) by assumption. reflexivity.
Qed.

Lemma hyper_arr os xs es n_o n_m : shp os = [n_o] -> shp xs = [n_m; d + 4]%nat -> (0 < n_o)%nat -> (0 < n_m)%nat -> good 0%Z -> good 1%Z -> Forall ok es ->
  (forall i, (i < n_m)%nat -> 0 < get xs [i; d + 2]%nat /\ 0 < get xs [i; d + 3]%nat) ->
  exists a, hyper_likelihood like_arr d os xs es = Ok a /\ shp a = [n_o; n_m; length es] /\
    forall o i k, (o < n_o)%nat -> (i < n_m)%nat -> (k < length es)%nat -> hyper_entry d like (get os [o]) (row (d + 4) xs i) (nth k es dE) = Ok (get a [o; i; k]).
Proof.
  intros Ho Hx Hpo Hpm Hg0 Hg1 Hok Hs. unfold hyper_likelihood. destruct os as [so go], xs as [sx gx]. cbn [shp get] in *. subst so sx.
  rewrite (proj2 (forallb_forall _ _)).
  2:{ intros v Hv. apply in_entries in Hv as (ix & Hix & <-).
      cbn -[Nat.sub Nat.add] in Hix. replace (d + 4 - (d + 2))%nat with 2%nat in Hix by lia.
      inversion Hix as [|u ? ? ? Hu H1]; subst. inversion H1 as [|u' ? ? ? Hu' H2]; subst. inversion H2 as [|i ? ? ? Hi H3]; subst. inversion H3 as [|z ? ? ? Hz H4]; subst. inversion H4; subst.
      nds. apply Rltb_true. destruct (Hs i Hi) as (S0 & S1). destruct u as [|[|u]]; [| |lia]; [rewrite Nat.add_0_r|replace (d + 2 + 1)%nat with (d + 3)%nat by lia]; assumption. }
  destruct (H (vec 0%Z [0; 1]%Z) (slice 1 0 d (Nd [n_m; (d + 4)%nat] gx)) es 2%nat n_m) as (p & E1 & E2 & E3);
    [reflexivity|cbn; now rewrite Nat.sub_0_r|lia|assumption|intros [|[|o]] Hlt; [exact Hg0|exact Hg1|lia]|assumption|].
  destruct p as [sp gp]. cbn [shp get] in *. subst sp.
  rewrite E1. clear E1. unfold slice in *. cbn [shp firstn skipn app] in *.
  replace (d + 2 - d)%nat with 2%nat by lia. replace (d + 4 - (d + 2))%nat with 2%nat by lia. nds.
  eexists. split; [reflexivity|]. split; [reflexivity|]. intros o i k H1 H2 H3. nds. pins. unfold hyper_entry. cbv zeta. unfold row in *. cbn [get firstn skipn app nth] in *.
  rewrite !nth_seq_map by lia. destruct (Hs i H2) as (S0 & S1).
  replace (d + 2 + 1)%nat with (d + 3)%nat by lia. rewrite ?Nat.add_0_r, ?Nat.add_1_r. rewrite !Rltb_true by assumption. cbn [andb].
  cbn [map]. rewrite !nth_seq_map by lia. rewrite !E3 by (assumption || lia). cbn [Nat.add get vec hd nth Z.of_nat].
  rewrite firstn_map. replace (firstn d (seq 0 (d + 4))) with (seq 0 d).
  2:{ rewrite seq_app, firstn_app, seq_length, Nat.sub_diag. cbn. rewrite app_nil_r. symmetry. rewrite <- (seq_length d 0) at 1. apply firstn_all. }
  rewrite ?Nat.add_0_r, ?Nat.add_1_r. reflexivity.
Qed.
End Der.

(** ** update with arrays of outcomes and experiments *)
Section Upd.
Context {O E : Type}.
Variable like_arr : nd O -> nd R -> list E -> res (nd R).
Lemma update_arr z w locs outcomes es n_o n_e f : (0 < n_o)%nat -> (0 < n_e)%nat ->
  is3 (like_arr outcomes locs es) n_o (length w) n_e f ->
  let scale o k := rsum (map (fun i => nth i w 0 * f o i k) (seq 0 (length w))) in
  let W o k i := nth i w 0 * f o i k / fix_norm (scale o k) in
  (forall o k i, (o < n_o)%nat -> (k < n_e)%nat -> (i < length w)%nat -> 0 <= W o k i) ->
  let total := rsum (map (fun q => W (q / (n_e * length w)) (q mod (n_e * length w) / length w) (q mod (n_e * length w) mod length w))%nat (seq 0 (n_o * (n_e * length w)))) in
  (total <= z -> update_arrays like_arr z (vec 0 w) locs outcomes es = Ok None) /\
  (z < total -> exists a, update_arrays like_arr z (vec 0 w) locs outcomes es = Ok (Some (a, scale 0 0)%nat) /\ is1 (Ok a) (length w) (W 0 0)%nat).
Proof.
  intros Hpo Hpe H scale W Hnn total. unfold update_arrays.
  destruct (hyp_arr _ _ _ _ _ _ _ _ H) as (Wa & L & N & E0 & (W' & EW & EW2 & EW3) & _ & (N' & EN & EN2 & EN3)).
  injection EW as <-. injection EN as <-. rewrite E0. cbn [bind]. rewrite (proj2 (forallb_forall _ _)).
  2:{ intros v Hv. apply (in_entries3 Wa n_o n_e (length w)) in Hv as (o & k & i & Ho & Hk & Hi & <-); [|assumption]. rewrite EW3 by assumption. apply Rleb_true. now apply Hnn. }
  assert (Et : rsum (entries Wa) = total).
  { unfold entries, total, size. rewrite EW2. cbn [prodn fold_right unravel]. rewrite Nat.mul_1_r. apply rsum_seq_ext. intros q Hq. rewrite !Nat.div_1_r.
    assert (Hn : (0 < n_e * length w)%nat) by nia. assert (Hw : (0 < length w)%nat) by nia.
    apply EW3.
    - apply Nat.div_lt_upper_bound; lia.
    - apply Nat.div_lt_upper_bound; [lia|]. rewrite Nat.mul_comm. apply Nat.mod_upper_bound. lia.
    - apply Nat.mod_upper_bound. lia. }
  rewrite Et. split.
  - intros Hz. now rewrite Rleb_true.
  - intros Hz. rewrite Rleb_false by assumption. rewrite (take_ok 0 Wa n_o [n_e; length w] EW2 Hpo). cbn [bind].
    rewrite (take_ok 0 (Nd [n_e; length w] _) n_e [length w] eq_refl Hpe). cbn [bind]. nds.
    rewrite (take_ok 0 N n_o [n_e; 1]%nat EN2 Hpo). cbn [bind]. rewrite (take_ok 0 (Nd [n_e; 1]%nat _) n_e [1]%nat eq_refl Hpe). cbn [bind get].
    rewrite EN3 by lia. eexists. split; [reflexivity|]. eexists. split; [reflexivity|]. split; [reflexivity|]. intros i Hi. cbn [get]. nds. pins. now apply EW3.
Qed.
End Upd.
