(** Proofs about array programs: shapes are resolved by rewriting, entries by evaluating the index arithmetic. *)
From Verif Require Import Base Ext RList Sums DomModel TwoModel DerModel SmcModel Nd NdModel NdSpec.

Lemma bdim_refl n : bdim n n = Ok n. Proof. unfold bdim. now rewrite Nat.eqb_refl. Qed.
Lemma bdim_1l n : bdim 1 n = Ok n. Proof. unfold bdim. destruct (Nat.eqb_spec 1 n); [now subst|reflexivity]. Qed.
Lemma bdim_1r n : bdim n 1 = Ok n. Proof. unfold bdim. destruct (Nat.eqb_spec n 1); [now subst|]. destruct (Nat.eqb_spec n 1); [contradiction|reflexivity]. Qed.
Lemma list_eqb_refl l : list_eqb l l = true. Proof. unfold list_eqb. destruct (list_eq_dec Nat.eq_dec l l); congruence. Qed.
Lemma pin n i : (i < n)%nat -> (if Nat.eqb n 1 then 0%nat else i) = i.
Proof. intros H. destruct (Nat.eqb_spec n 1); [subst; lia|reflexivity]. Qed.

Ltac nd1 := cbv beta iota zeta delta [bind op1 op2 bcast where_ assign newaxis T unpack amap scal vec mat2 fld shp get dim ndim size prodn
    bshape bshape_rev bidx firstn skipn app rev map2 hd tl repeat pad transpose tile is_perm forallb existsb andb orb negb position as_column
    slice sum_axis flatten reshape fst snd ravel unravel broadcast_arrays fold_left concat0 locate];
  cbn [length nth map seq Nat.eqb Nat.add fold_right Nat.sub Nat.max].
Lemma ltb_succ n : (n <? S n)%nat = true. Proof. apply Nat.ltb_lt. lia. Qed.
Ltac ltbs := repeat match goal with |- context [Nat.ltb ?a ?b] =>
  let v := eval compute in (Nat.ltb a b) in match v with true => change (Nat.ltb a b) with true | false => change (Nat.ltb a b) with false end end.
Ltac nds := repeat (progress (nd1; rewrite ?map_length, ?bdim_refl, ?bdim_1l, ?bdim_1r, ?list_eqb_refl, ?Nat.mul_1_r, ?Nat.mul_1_l, ?Nat.eqb_refl, ?Nat.add_0_r, ?Nat.div_1_r, ?Nat.mod_1_r, ?Nat.add_1_r, ?Nat.sub_0_r, ?Nat.ltb_irrefl, ?ltb_succ); ltbs).
Ltac pins := repeat match goal with
  | |- context [if Nat.eqb ?n 1 then 0%nat else ?i] => rewrite (pin n i) by lia end.

(** ** Concatenation of equal blocks *)
Lemma mapM_ok {X Y} (f : X -> res Y) (g : X -> Y) l : (forall x, In x l -> f x = Ok (g x)) -> mapM f l = Ok (map g l).
Proof. induction l as [|x l IH]; intros H; [reflexivity|]. cbn. rewrite H by now left. cbn. rewrite IH by (intros; apply H; now right). reflexivity. Qed.

Lemma locate_unit {A} : forall (l : list (nd A)) a i ix d, dim 0 a = 1%nat -> Forall (fun b => dim 0 b = 1%nat) l -> (i < S (length l))%nat ->
  locate a l i ix = get (nth i (a :: l) d) (0%nat :: ix).
Proof.
  induction l as [|b l IH]; intros a i ix d Ha Hl Hi.
  - cbn in Hi. assert (i = 0%nat) by lia. subst. reflexivity.
  - cbn [locate]. rewrite Ha. destruct (Nat.ltb_spec i 1).
    + assert (i = 0%nat) by lia. subst. reflexivity.
    + destruct i as [|i]; [lia|]. cbn [nth Nat.sub]. rewrite Nat.sub_0_r. inversion Hl; subst. rewrite (IH b i ix d) by (cbn in Hi; try lia; assumption).
      destruct i; reflexivity.
Qed.
Lemma total_units (l : list nat) : Forall (fun x => x = 1%nat) l -> fold_right Nat.add 0%nat l = length l.
Proof. induction 1 as [|x l Hx Hl IH]; [reflexivity|]. cbn. now rewrite Hx, IH. Qed.

(** blocks of shape [1 :: sh] *)
Lemma concat_units {A} (g : nat -> nd A) n sh : (0 < n)%nat -> (forall i, (i < n)%nat -> shp (g i) = 1%nat :: sh) ->
  exists a, concat0 (map g (seq 0 n)) = Ok a /\ shp a = n :: sh /\ forall i ix, (i < n)%nat -> get a (i :: ix) = get (g i) (0%nat :: ix).
Proof.
  intros Hn Hsh. destruct n as [|n]; [lia|]. cbn [seq map]. unfold concat0.
  rewrite (proj2 (forallb_forall _ _)).
  2:{ intros b [<-|Hb].
      - unfold ndim. rewrite (Hsh 0%nat) by lia. cbn. now rewrite list_eqb_refl.
      - apply in_map_iff in Hb as (i & <- & Hi). apply in_seq in Hi. unfold ndim. rewrite (Hsh i), (Hsh 0%nat) by lia. cbn. now rewrite list_eqb_refl. }
  eexists; split; [reflexivity|]. cbn [shp get]. split.
  - rewrite (Hsh 0%nat) by lia. cbn [tl]. f_equal. rewrite total_units.
    + cbn [map length]. now rewrite !map_length, seq_length.
    + apply Forall_forall. intros x Hx. change (g 0%nat :: map g (seq 1 n)) with (map g (seq 0 (S n))) in Hx. rewrite map_map in Hx.
      apply in_map_iff in Hx as (i & <- & Hi). apply in_seq in Hi. unfold dim. rewrite (Hsh i) by lia. reflexivity.
  - intros i ix Hi. cbn [hd tl]. rewrite (locate_unit _ _ _ _ (g 0%nat)).
    + change (g 0%nat :: map g (seq 1 n)) with (map g (seq 0 (S n))). rewrite (map_nth g (seq 0 (S n)) 0%nat i), seq_nth by lia. reflexivity.
    + unfold dim. rewrite (Hsh 0%nat) by lia. reflexivity.
    + apply Forall_forall. intros x Hx. apply in_map_iff in Hx as (j & <- & Hj). apply in_seq in Hj. unfold dim. rewrite (Hsh j) by lia. reflexivity.
    + rewrite map_length, seq_length. lia.
Qed.

(** ** pr0_to_likelihood_array: outcomes of shape (n_o,), or (n_o, 1, 1) as the score passes them *)
Lemma take_ok {A} i (a : nd A) n sh : shp a = n :: sh -> (i < n)%nat ->
  take 0 i a = Ok (Nd sh (fun ix => get a (i :: ix))).
Proof. intros Ha Hi. unfold take, ndim, dim. rewrite Ha. cbn [length nth firstn skipn app]. rewrite (proj2 (Nat.ltb_lt i n)) by assumption. reflexivity. Qed.
Lemma pr0_array os pr0 n_o u n m : shp os = n_o :: u -> prodn u = 1%nat -> (0 < n_o)%nat -> shp pr0 = [n; m] ->
  is3 (pr0_to_likelihood_array os pr0) n_o n m (fun o i j => pr0_like (get pr0 [i; j]) (get os (o :: map (fun _ => 0%nat) u))).
Proof.
  intros Ho Hu Hp Hs. unfold pr0_to_likelihood_array. replace (ndim os =? 0)%nat with false by (unfold ndim; now rewrite Ho).
  unfold dim. rewrite Ho. cbn [nth].
  rewrite (mapM_ok _ (fun o => if (get os (o :: map (fun _ => 0%nat) u) =? 0)%Z then newaxis 0 pr0 else amap (fun x => 1 - x) (newaxis 0 pr0))).
  2:{ intros o Hin. apply in_seq in Hin. rewrite (take_ok o os n_o u Ho) by lia. cbn [bind]. unfold amap at 1, truth, size. cbn [shp get].
      rewrite Hu, Nat.eqb_refl. reflexivity. }
  cbn [bind].
  destruct (concat_units (fun o => if (get os (o :: map (fun _ => 0%nat) u) =? 0)%Z then newaxis 0 pr0 else amap (fun x => 1 - x) (newaxis 0 pr0)) n_o [n; m] Hp)
    as (a & E1 & E2 & E3).
  { intros i _. destruct (_ =? 0)%Z; cbn; now rewrite Hs. }
  exists a. split; [exact E1|split; [exact E2|]]. intros o i j H1 H2 H3. rewrite E3 by assumption. unfold pr0_like.
  destruct (_ =? 0)%Z; reflexivity.
Qed.

Lemma is3_ext {A} r n m l (f g : nat -> nat -> nat -> A) : (forall i j k, (i < n)%nat -> (j < m)%nat -> (k < l)%nat -> f i j k = g i j k) ->
  is3 r n m l f -> is3 r n m l g.
Proof. intros H (a & E1 & E2 & E3). exists a. split; [exact E1|split; [exact E2|]]. intros. rewrite E3 by assumption. now apply H. Qed.

(** the record fields of an experiment list *)
Lemma nth_map_in {E B} (f : E -> B) l i d e0 : (i < length l)%nat -> nth i (map f l) d = f (nth i l e0).
Proof. intros H. rewrite (nth_indep _ d (f e0)) by (now rewrite map_length). apply map_nth. Qed.

Lemma inv_array os mps es n_o u n : shp os = n_o :: u -> prodn u = 1%nat -> (0 < n_o)%nat -> shp mps = [n; 1]%nat ->
  is3 (inv_likelihood os mps es) n_o n (length es) (fun o i k =>
    inv_like (fst (nth k es (0, 0))) (snd (nth k es (0, 0))) (get mps [i; 0%nat]) (get os (o :: map (fun _ => 0%nat) u))).
Proof.
  intros Ho Hu Hp Hm. unfold inv_likelihood. destruct mps as [sh g]. cbn [shp] in Hm. subst sh. nds.
  eapply is3_ext; [|eapply pr0_array; eauto; reflexivity].
  intros o i k H1 H2 H3. unfold inv_like, inv_pr0. f_equal. nds. pins.
  rewrite !(nth_map_in _ es k 0 (0, 0)) by assumption. reflexivity.
Qed.

Lemma prec_array os mps es n_o u n : shp os = n_o :: u -> prodn u = 1%nat -> (0 < n_o)%nat -> shp mps = [n; 1]%nat ->
  is3 (prec_likelihood os mps es) n_o n (length es) (fun o i k =>
    prec_like (nth k es 0) (get mps [i; 0%nat]) (get os (o :: map (fun _ => 0%nat) u))).
Proof.
  intros Ho Hu Hp Hm. unfold prec_likelihood. rewrite <- (map_length (fun t => (t, 0)) es).
  eapply is3_ext; [|eapply inv_array; eauto]. intros o i k H1 H2 H3. rewrite map_length in H3.
  cbv beta.  rewrite (nth_map_in _ es k (0, 0) 0) by assumption. reflexivity.
Qed.

Lemma t2_array os mps es n_o n : shp os = [n_o] -> (0 < n_o)%nat -> shp mps = [n; 2]%nat ->
  is3 (t2_likelihood os mps es) n_o n (length es) (fun o i k =>
    t2_like (nth k es 0) (get mps [i; 0%nat]) (get mps [i; 1%nat]) (get os [o])).
Proof.
  intros Ho Hp Hm. unfold t2_likelihood. destruct mps as [sh g]. cbn [shp] in Hm. subst sh. nds.
  eapply is3_ext; [|eapply pr0_array; eauto; reflexivity].
  intros o i k H1 H2 H3. unfold t2_like, t2_pr0. f_equal. nds. pins.
  rewrite !(nth_map_in _ es k 0 0) by assumption. reflexivity.
Qed.

Lemma coin_array {E} os mps (es : list E) n_o n : shp os = [n_o] -> (0 < n_o)%nat -> shp mps = [n; 1]%nat ->
  is3 (coin_likelihood os mps es) n_o n (length es) (fun o i k => coin_like (get mps [i; 0%nat]) (get os [o])).
Proof.
  intros Ho Hp Hm. unfold coin_likelihood. destruct mps as [sh g]. cbn [shp] in Hm. subst sh.
  eapply is3_ext; [|eapply pr0_array; eauto; nds; reflexivity].
  intros o i k H1 H2 H3. unfold coin_like. f_equal. nds. rewrite (Nat.mod_small i n) by assumption. reflexivity.
Qed.

Lemma noisy_array os mps es n_o n : shp os = [n_o] -> (0 < n_o)%nat -> shp mps = [n; 1]%nat ->
  is3 (noisy_likelihood os mps es) n_o n (length es) (fun o i k =>
    noisy_like (fst (nth k es (0, 0))) (snd (nth k es (0, 0))) (get mps [i; 0%nat]) (get os [o])).
Proof.
  intros Ho Hp Hm. unfold noisy_likelihood. destruct mps as [sh g]. cbn [shp] in Hm. subst sh. nds.
  eapply is3_ext; [|eapply pr0_array; eauto; nds; reflexivity].
  intros o i k H1 H2 H3. unfold noisy_like. f_equal. nds. pins.
  rewrite !(nth_map_in _ es k 0 (0, 0)) by assumption. reflexivity.
Qed.

Lemma rb_array os mps es n_o n : shp os = [n_o] -> (0 < n_o)%nat -> shp mps = [n; 3]%nat ->
  is3 (rb_likelihood os mps es) n_o n (length es) (fun o i k =>
    rb_like (nth k es 0%nat) (get mps [i; 0%nat]) (get mps [i; 1%nat]) (get mps [i; 2%nat]) (get os [o])).
Proof.
  intros Ho Hp Hm. unfold rb_likelihood. destruct mps as [sh g]. cbn [shp] in Hm. subst sh. nds.
  eapply is3_ext; [|eapply pr0_array; eauto; nds; reflexivity].
  intros o i k H1 H2 H3. unfold rb_like. f_equal. nds. pins.
  rewrite !(nth_map_in _ es k 0%nat 0%nat) by assumption. reflexivity.
Qed.

Lemma rb_il_array os mps es n_o n : shp os = [n_o] -> (0 < n_o)%nat -> shp mps = [n; 4]%nat ->
  is3 (rb_il_likelihood os mps es) n_o n (length es) (fun o i k =>
    rb_il_like (fst (nth k es (0%nat, false))) (snd (nth k es (0%nat, false))) (get mps [i; 0%nat]) (get mps [i; 1%nat]) (get mps [i; 2%nat]) (get mps [i; 3%nat]) (get os [o])).
Proof.
  intros Ho Hp Hm. unfold rb_il_likelihood. destruct mps as [sh g]. cbn [shp] in Hm. subst sh. nds.
  eapply is3_ext; [|eapply pr0_array; eauto; nds; reflexivity].
  intros o i k H1 H2 H3. unfold rb_il_like, rb_like. f_equal. nds. pins.
  rewrite !(nth_map_in _ es k 0%nat (0%nat, false)), !(nth_map_in _ es k false (0%nat, false)) by assumption. reflexivity.
Qed.

Lemma rdot_index_firstn d a b : length a = d -> length b = d -> rdot a b = rsum (map (fun k => nth k a 0 * nth k b 0) (seq 0 d)).
Proof. intros Ha Hb. unfold rdot. rewrite (map2_index Rmult a b 0 0) by congruence. now rewrite Ha. Qed.
Lemma tomo_array d os mps es n_o n : shp os = [n_o] -> (0 < n_o)%nat -> shp mps = [n; d]%nat -> Forall (fun e => length e = d) es ->
  is3 (tomo_likelihood d os mps es) n_o n (length es) (fun o i k => tomo_like (nth k es []) (row d mps i) (get os [o])).
Proof.
  intros Ho Hp Hm He. unfold tomo_likelihood, einsum_ei_mi. destruct mps as [sh g]. cbn [shp] in Hm. subst sh. nds.
  eapply is3_ext; [|eapply pr0_array; eauto; nds; reflexivity].
  intros o i k H1 H2 H3. unfold tomo_like. f_equal. nds. pins. f_equal. f_equal.
  rewrite (rdot_index_firstn d).
  - f_equal. apply map_ext_in. intros j Hj. apply in_seq in Hj. unfold row. cbn [get]. 
    rewrite (nth_map_in _ (seq 0 d) j 0 0%nat), seq_nth by (rewrite ?seq_length; lia). reflexivity.
  - rewrite Forall_forall in He. apply He. now apply nth_In.
  - unfold row. now rewrite map_length, seq_length.
Qed.

Definition fancy_raw {A} (row : nd A) (outcomes : nd Z) : nd A :=
  Nd (shp outcomes ++ tl (shp row)) (fun ix =>
    let z := get outcomes (firstn (ndim outcomes) ix) in
    get row (Z.to_nat (if (z <? 0)%Z then z + Z.of_nat (dim 0 row) else z)%Z :: skipn (ndim outcomes) ix)).
Lemma fancy_ok {A} (row : nd A) os n_o d : shp os = [n_o] -> dim 0 row = d ->
  (forall o, (o < n_o)%nat -> (0 <= get os [o] < Z.of_nat d)%Z) -> fancy row os = Ok (fancy_raw row os).
Proof.
  intros Ho Hd Hr. unfold fancy. rewrite (proj2 (forallb_forall _ _)); [reflexivity|].
  intros z Hz. unfold entries, size in Hz. rewrite Ho in Hz. apply in_map_iff in Hz as (k & <- & Hk). apply in_seq in Hk.
  cbn [prodn fold_right] in Hk. rewrite Nat.mul_1_r in Hk. cbn [unravel prodn fold_right]. rewrite Nat.div_1_r.
  specialize (Hr k ltac:(lia)). rewrite Hd. apply andb_true_intro. split; [apply Z.leb_le|apply Z.ltb_lt]; lia.
Qed.
Lemma die_array {E} d os mps (es : list E) n_o n : shp os = [n_o] -> (0 < n)%nat -> shp mps = [n; d]%nat ->
  (forall o, (o < n_o)%nat -> (0 <= get os [o] < Z.of_nat d)%Z) ->
  is3 (die_likelihood os mps es) n_o n (length es) (fun o i k => die_like (row d mps i) (Z.to_nat (get os [o]))).
Proof.
  intros Ho Hp Hm Hr. unfold die_likelihood.
  rewrite (mapM_ok _ (fun i => newaxis 0 (fancy_raw (Nd [d] (fun ix => get mps (i :: ix))) os))).
  2:{ intros i Hi. apply in_seq in Hi. unfold dim in Hi. rewrite Hm in Hi. cbn [nth] in Hi. rewrite (take_ok i mps n [d] Hm) by lia. cbn [bind].
      rewrite (fancy_ok _ os n_o d Ho); [reflexivity|reflexivity|assumption]. }
  unfold dim. rewrite Hm. cbn [bind nth].
  destruct (concat_units (fun i => newaxis 0 (fancy_raw (Nd [d] (fun ix => get mps (i :: ix))) os)) n [n_o] Hp) as (a & E1 & E2 & E3).
  { intros i Hi. unfold newaxis, fancy_raw. cbn. now rewrite Ho. }
  rewrite E1. cbn [bind]. destruct a as [sh ga]. cbn [shp] in E2. subst sh. cbn [get] in E3. 
  nds. eexists; split; [reflexivity|]. cbn [shp get]. split; [reflexivity|].
  intros o i k H1 H2 H3. nds. rewrite (Nat.mod_small i n), (Nat.mod_small o n_o) by assumption. rewrite E3 by assumption.
  unfold fancy_raw, newaxis. cbn [get shp firstn skipn app]. unfold ndim, dim. rewrite Ho. cbn [length firstn skipn shp nth].
  pose proof (Hr o H1) as Ho'. destruct (Z.ltb_spec (get os [o]) 0); [lia|]. unfold die_like, row.
  assert (Hz : (Z.to_nat (get os [o]) < d)%nat) by lia.
  rewrite (nth_map_in _ (seq 0 d) _ 0 0%nat) by (now rewrite seq_length). rewrite seq_nth by exact Hz. reflexivity.
Qed.

(** ** Scores *)
Lemma inv_score_arr os mps es n_o n : shp os = [n_o] -> (0 < n_o)%nat -> shp mps = [n; 1]%nat ->
  exists q L, inv_score_array os mps es = Ok (q, L) /\
    is4 (Ok q) 1 n_o n (length es) (fun _ o i k => inv_score (fst (nth k es (0, 0))) (snd (nth k es (0, 0))) (get mps [i; 0%nat]) (get os [o])) /\
    is3 (Ok L) n_o n (length es) (fun o i k => inv_like (fst (nth k es (0, 0))) (snd (nth k es (0, 0))) (get mps [i; 0%nat]) (get os [o])).
Proof.
  intros Ho Hp Hm. unfold inv_score_array. destruct mps as [sh g]. cbn [shp] in Hm. subst sh.
  destruct os as [sh og]. cbn [shp] in Ho. subst sh. nds.
  match goal with |- context [inv_likelihood ?o ?m ?e] => destruct (inv_array o m e n_o [1; 1]%nat n eq_refl eq_refl Hp eq_refl) as (L & E1 & E2 & E3) end.
  rewrite E1. nds. eexists _, L. split; [reflexivity|]. split.
  - eexists; split; [reflexivity|]. split; [reflexivity|]. intros z o i k H0 H1 H2 H3. nds. pins.
    rewrite !(nth_map_in _ es k 0 (0, 0)) by assumption. reflexivity.
  - exists L. split; [reflexivity|]. split; [exact E2|]. intros o i k H1 H2 H3. rewrite E3 by assumption. nds. reflexivity.
Qed.

Lemma prec_score_arr os mps es n_o n : shp os = [n_o] -> (0 < n_o)%nat -> shp mps = [n; 1]%nat ->
  exists q L, prec_score_array os mps es = Ok (q, L) /\
    is4 (Ok q) 1 n_o n (length es) (fun _ o i k => prec_score (nth k es 0) (get mps [i; 0%nat]) (get os [o])) /\
    is3 (Ok L) n_o n (length es) (fun o i k => prec_like (nth k es 0) (get mps [i; 0%nat]) (get os [o])).
Proof.
  intros Ho Hp Hm. unfold prec_score_array.
  destruct (inv_score_arr os mps (map (fun t => (t, 0)) es) n_o n Ho Hp Hm) as (q & L' & E1 & (q' & Eq & E2 & E3) & _). injection Eq as <-.
  destruct (prec_array os mps es n_o [] n Ho eq_refl Hp Hm) as (L & E4 & E5 & E6).
  rewrite E1. cbn [bind fst]. rewrite E4. cbn [bind]. rewrite map_length in *. exists q, L. split; [reflexivity|]. split.
  - exists q. split; [reflexivity|]. split; [exact E2|]. intros z o i k H0 H1 H2 H3. rewrite E3 by assumption.
    rewrite (nth_map_in _ es k (0, 0) 0) by assumption. reflexivity.
  - exists L. split; [reflexivity|]. split; [exact E5|]. exact E6.
Qed.

Lemma coin_score_arr {E} os mps (es : list E) n_o n : shp os = [n_o] -> (0 < n_o)%nat -> shp mps = [n; 1]%nat ->
  exists q L, coin_score_array os mps es = Ok (q, L) /\
    is4 (Ok q) 1 n_o n (length es) (fun _ o i k => coin_score (get mps [i; 0%nat]) (get os [o])) /\
    is3 (Ok L) n_o n (length es) (fun o i k => coin_like (get mps [i; 0%nat]) (get os [o])).
Proof.
  intros Ho Hp Hm. unfold coin_score_array. destruct (coin_array os mps es n_o n Ho Hp Hm) as (L & E1 & E2 & E3).
  rewrite E1. destruct mps as [sh g]. cbn [shp] in Hm. subst sh.
  destruct os as [sh og]. cbn [shp] in Ho. subst sh. nds. eexists _, L. split; [reflexivity|]. split.
  - eexists; split; [reflexivity|]. split; [cbn [shp]; nds; reflexivity|]. intros z o i k H0 H1 H2 H3. nds.
    rewrite (Nat.mod_small i n), (Nat.mod_small o n_o) by assumption. pins. reflexivity.
  - exists L. split; [reflexivity|]. split; assumption.
Qed.

Lemma rb_score_arr wrap os mps es n_o n : shp os = [n_o] -> (0 < n_o)%nat -> shp mps = [n; 3]%nat ->
  exists q L, rb_score_array wrap os mps es = Ok (q, L) /\
    is4 (Ok q) 3 n_o n (length es) (fun c o i k =>
      nth c (rb_score wrap (nth k es 0%nat) (get mps [i; 0%nat]) (get mps [i; 1%nat]) (get mps [i; 2%nat]) (get os [o])) NaN) /\
    is3 (Ok L) n_o n (length es) (fun o i k =>
      rb_like (nth k es 0%nat) (get mps [i; 0%nat]) (get mps [i; 1%nat]) (get mps [i; 2%nat]) (get os [o])).
Proof.
  intros Ho Hp Hm. unfold rb_score_array. destruct (rb_array os mps es n_o n Ho Hp Hm) as (L & E1 & E2 & E3).
  rewrite E1. destruct mps as [sh g]. cbn [shp] in Hm. subst sh. destruct L as [sh gL]. cbn [shp] in E2. subst sh. cbn [get] in *.
  destruct os as [sh og]. cbn [shp get] in *. subst sh. nds. eexists _, _. split; [reflexivity|]. split.
  - eexists; split; [reflexivity|]. split; [reflexivity|]. intros c o i k H0 H1 H2 H3. nds. pins. rewrite E3 by assumption. rewrite (nth_map_in _ es k 0%nat 0%nat) by assumption.
    destruct c as [|[|[|c]]]; [| | |lia]; cbn; nds; pins; rewrite ?(nth_map_in _ es k 0%nat 0%nat) by assumption; reflexivity.
  - exists (Nd [n_o; n; length es] gL). split; [reflexivity|]. split; [reflexivity|]. exact E3.
Qed.

Lemma rb_il_score_arr wrap os mps es n_o n : shp os = [n_o] -> (0 < n_o)%nat -> shp mps = [n; 4]%nat ->
  exists q L, rb_il_score_array wrap os mps es = Ok (q, L) /\
    is4 (Ok q) 4 n_o n (length es) (fun c o i k =>
      nth c (rb_il_score wrap (fst (nth k es (0%nat, false))) (snd (nth k es (0%nat, false)))
        (get mps [i; 0%nat]) (get mps [i; 1%nat]) (get mps [i; 2%nat]) (get mps [i; 3%nat]) (get os [o])) NaN) /\
    is3 (Ok L) n_o n (length es) (fun o i k =>
      rb_il_like (fst (nth k es (0%nat, false))) (snd (nth k es (0%nat, false)))
        (get mps [i; 0%nat]) (get mps [i; 1%nat]) (get mps [i; 2%nat]) (get mps [i; 3%nat]) (get os [o])).
Proof.
  intros Ho Hp Hm. unfold rb_il_score_array. destruct (rb_il_array os mps es n_o n Ho Hp Hm) as (L & E1 & E2 & E3).
  rewrite E1. destruct mps as [sh g]. cbn [shp] in Hm. subst sh. destruct L as [sh gL]. cbn [shp] in E2. subst sh. cbn [get] in *.
  destruct os as [sh og]. cbn [shp get] in *. subst sh. nds. eexists _, _. split; [reflexivity|]. split.
  - eexists; split; [reflexivity|]. split; [reflexivity|]. intros c o i k H0 H1 H2 H3. nds. pins. rewrite E3 by assumption.
    unfold rb_il_score. cbv zeta.
    assert (D : ((i * length es + k) / length es = i)%nat) by (rewrite Nat.div_add_l by lia; rewrite (Nat.div_small k) by lia; lia).
    assert (M : ((i * length es + k) mod length es = k)%nat) by (rewrite Nat.add_comm, Nat.mod_add by lia; now apply Nat.mod_small).
    destruct c as [|[|[|[|c]]]]; [| | | |lia]; cbn [Nat.ltb Nat.leb Nat.sub nth map]; nds; rewrite ?Nat.mul_0_l, ?Nat.add_0_l, ?D, ?M; pins; rewrite ?(nth_map_in _ es k 0%nat (0%nat, false)), ?(nth_map_in _ es k false (0%nat, false)) by assumption;
      destruct (nth k es (0%nat, false)) as [mm [|]]; reflexivity.
  - exists (Nd [n_o; n; length es] gL). split; [reflexivity|]. split; [reflexivity|]. exact E3.
Qed.

Lemma fisher_arr n_outcomes score p n n_e (sc : nat -> nat -> nat -> nat -> ext) (Lk : nat -> nat -> nat -> R) q L :
  (score (vec 0%Z (map Z.of_nat (seq 0 n_outcomes)))) = Ok (q, L) ->
  is4 (Ok q) p n_outcomes n n_e sc -> is3 (Ok L) n_outcomes n n_e Lk ->
  is4 (fisher_information n_outcomes score) p p n n_e (fun i j m e =>
    xsum (map (fun o => xmul (xmul (Fin (Lk o m e)) (sc i o m e)) (sc j o m e)) (seq 0 n_outcomes))).
Proof.
  intros Es (q' & Eq & E2 & E3) (L' & El & E4 & E5). injection Eq as <-. injection El as <-.
  unfold fisher_information. rewrite Es. cbn [bind fst snd]. unfold ndim. rewrite E2. cbn [length Nat.eqb]. unfold einsum_ome. cbn [amap shp]. rewrite E4, E2.
  rewrite list_eqb_refl. eexists; split; [reflexivity|]. split; [reflexivity|]. intros i j m e H0 H1 H2 H3. cbn [get nth amap]. f_equal.
  apply map_ext_in. intros o Ho. apply in_seq in Ho. cbn [get amap]. rewrite E5, !E3 by lia. reflexivity.
Qed.

Lemma timestep_arr {E} mps (es : list E) n d : shp mps = [n; d] ->
  is3 (default_timestep mps es) n d (length es) (fun i j _ => get mps [i; j]).
Proof.
  intros Hm. unfold default_timestep. destruct mps as [sh g]. cbn [shp] in Hm. subst sh. nds.
  eexists; split; [reflexivity|]. split; [reflexivity|]. intros i j k H1 H2 H3. nds. rewrite !Nat.mod_small by assumption. reflexivity.
Qed.
