(** Proofs about the self-tests. *)
From Coq Require Import String ZArith Lia Lra.
From Verif Require Import Base Ext RList DomModel DomProofs DomProps SimModel SimProofs FmtModel TwoModel Nd NdModel NdSpec NdProofs SelfModel.
From Coq Require Import List.
Close Scope string_scope.
Open Scope list_scope.

Lemma check_Ok b : check b = Ok tt <-> b = true.
Proof. destruct b; cbn; split; congruence. Qed.
Lemma bind_Ok_iff {A B} (r : res A) (f : A -> res B) y : bind r f = Ok y <-> exists x, r = Ok x /\ f x = Ok y.
Proof. destruct r as [x|e]; cbn; split; [intros H; now exists x|intros (z & Ez & H); injection Ez as <-; exact H|discriminate|intros (z & Ez & _); discriminate]. Qed.
Lemma list_eqb_true a b : list_eqb a b = true <-> a = b.
Proof. unfold list_eqb. destruct (list_eq_dec Nat.eq_dec a b); split; congruence. Qed.
Lemma mapM_unit {X} (f : X -> res unit) l : (exists y, mapM f l = Ok y) <-> forall x, In x l -> f x = Ok tt.
Proof.
  induction l as [|x l IH]; cbn [mapM].
  - split; [intros _ x []|intros _; now exists []].
  - destruct (f x) as [[]|e] eqn:Ef; cbn [bind].
    + split.
      * intros (y & Hy) z [<-|Hz]; [assumption|]. apply IH; [|assumption]. destruct (mapM f l) as [ys|]; [now exists ys|discriminate].
      * intros H. destruct (proj2 IH) as [ys E]; [intros z Hz; apply H; now right|]. rewrite E. cbn. eauto.
    + split; [intros (y & Hy); discriminate|]. intros H. rewrite (H x) in Ef by now left. discriminate.
Qed.
Lemma mapM_total {X Y} (f : X -> res Y) l : (exists y, mapM f l = Ok y) <-> forall x, In x l -> exists y, f x = Ok y.
Proof.
  induction l as [|x l IH]; cbn [mapM].
  - split; [intros _ x []|intros _; now exists []].
  - destruct (f x) as [v|e] eqn:Ef; cbn [bind].
    + split.
      * intros (y & Hy) z [<-|Hz]; [now exists v|]. apply IH; [|assumption]. destruct (mapM f l) as [ys|]; [now exists ys|discriminate].
      * intros H. destruct (proj2 IH) as [ys E]; [intros z Hz; apply H; now right|]. rewrite E. cbn. eauto.
    + split; [intros (y & Hy); discriminate|]. intros H. destruct (H x) as [v Hv]; [now left|]. rewrite Hv in Ef. discriminate.
Qed.

(** ** Entries of small arrays *)
Lemma in_entries2 {A} (a : nd A) n m z : shp a = [n; m] -> (In z (entries a) <-> exists i j, (i < n)%nat /\ (j < m)%nat /\ z = get a [i; j]).
Proof.
  intros S. unfold entries, size. rewrite S. cbn [prodn fold_right unravel]. rewrite in_map_iff. split.
  - intros (k & <- & Hk). apply in_seq in Hk. assert (M0 : (m <> 0)%nat) by (intros ->; lia). exists (k / m)%nat, (k mod m)%nat. rewrite Nat.mul_1_r, Nat.div_1_r.
    split; [apply Nat.div_lt_upper_bound; lia|]. split; [now apply Nat.mod_upper_bound|reflexivity].
  - intros (i & j & Hi & Hj & ->). exists (i * m + j)%nat. rewrite Nat.mul_1_r, Nat.div_1_r. split.
    + rewrite Nat.div_add_l by lia. rewrite (Nat.div_small j) by assumption. rewrite Nat.add_0_r. rewrite Nat.add_comm, Nat.mod_add by lia. rewrite Nat.mod_small by assumption. reflexivity.
    + apply in_seq. split; [lia|]. nia.
Qed.
Lemma in_entries1 {A} (a : nd A) n z : shp a = [n] -> (In z (entries a) <-> exists i, (i < n)%nat /\ z = get a [i]).
Proof.
  intros S. unfold entries, size. rewrite S. cbn [prodn fold_right unravel]. rewrite in_map_iff. split.
  - intros (k & <- & Hk). apply in_seq in Hk. exists k. rewrite Nat.div_1_r. split; [lia|reflexivity].
  - intros (i & Hi & ->). exists i. rewrite Nat.div_1_r. split; [reflexivity|apply in_seq; lia].
Qed.
Lemma in_entries3 {A} (a : nd A) n m l z : shp a = [n; m; l] -> (In z (entries a) <-> exists i j k, (i < n)%nat /\ (j < m)%nat /\ (k < l)%nat /\ z = get a [i; j; k]).
Proof.
  intros S. unfold entries, size. rewrite S. cbn [prodn fold_right unravel]. rewrite in_map_iff. rewrite !Nat.mul_1_r. split.
  - intros (k & <- & Hk). apply in_seq in Hk. assert (M0 : (m <> 0)%nat) by (intros ->; lia). assert (L0 : (l <> 0)%nat) by (intros ->; lia). rewrite Nat.div_1_r.
    exists (k / (m * l))%nat, (k mod (m * l) / l)%nat, ((k mod (m * l)) mod l)%nat.
    split; [apply Nat.div_lt_upper_bound; nia|]. split; [apply Nat.div_lt_upper_bound; [lia|]; rewrite (Nat.mul_comm l m); apply Nat.mod_upper_bound; nia|]. split; [now apply Nat.mod_upper_bound|reflexivity].
  - intros (i & j & k & Hi & Hj & Hk & ->). exists (i * (m * l) + (j * l + k))%nat. rewrite Nat.div_1_r.
    assert (Q : (j * l + k < m * l)%nat) by nia. split; [|apply in_seq; split; [lia|nia]].
    rewrite Nat.div_add_l by nia. rewrite (Nat.div_small (j * l + k)) by assumption. rewrite Nat.add_0_r. rewrite (Nat.add_comm (i * (m * l))), Nat.mod_add by nia. rewrite (Nat.mod_small (j * l + k)) by assumption.
    rewrite Nat.div_add_l by lia. rewrite (Nat.div_small k) by assumption. rewrite Nat.add_0_r. rewrite (Nat.add_comm (j * l)), Nat.mod_add by lia. rewrite Nat.mod_small by assumption. reflexivity.
Qed.

(** ** The loop that lengthens the list of outcomes *)
Lemma nth_mod_app {O} (os : list O) i d : os <> [] -> nth (i mod length (os ++ os)) (os ++ os) d = nth (i mod length os) os d.
Proof.
  intros N. assert (L : (length os <> 0)%nat) by (destruct os; [congruence|cbn; lia]). rewrite app_length. set (n := length os) in *.
  assert (E : (i mod n = (i mod (n + n)) mod n)%nat).
  { rewrite (Nat.div_mod i (n + n)) at 1 by lia. replace ((n + n) * (i / (n + n)) + i mod (n + n))%nat with (i mod (n + n) + (2 * (i / (n + n))) * n)%nat by lia. now rewrite Nat.mod_add by lia. }
  rewrite E. pose proof (Nat.mod_upper_bound i (n + n) ltac:(lia)) as U. set (r := (i mod (n + n))%nat) in *. clearbody r. destruct (Nat.lt_ge_cases r n) as [C|C].
  - rewrite app_nth1 by assumption. now rewrite (Nat.mod_small r n).
  - rewrite app_nth2 by assumption. fold n. replace (r mod n)%nat with (r - n)%nat; [reflexivity|]. replace r with (r - n + 1 * n)%nat at 2 by lia. rewrite Nat.mod_add by lia. now rewrite Nat.mod_small by lia.
Qed.
Lemma extend_done {O} n (d : O) : forall fuel os, os <> [] -> (n <= fuel + length os)%nat -> exists l, extend fuel n os = Some l /\ length l = n /\ forall i, (i < n)%nat -> nth i l d = nth (i mod length os) os d.
Proof.
  induction fuel as [|f IH]; intros os N H; cbn [extend].
  - rewrite (proj2 (Nat.ltb_ge (length os) n)) by lia. eexists. split; [reflexivity|]. destruct (Nat.ltb_spec n (length os)) as [C|C].
    + split; [rewrite firstn_length; lia|]. intros i Hi. rewrite Nat.mod_small by lia. rewrite <- (firstn_skipn n os) at 2. rewrite app_nth1; [reflexivity|rewrite firstn_length; lia].
    + split; [lia|]. intros i Hi. now rewrite Nat.mod_small by lia.
  - destruct (Nat.ltb_spec (length os) n) as [C|C].
    + assert (L : (length os <> 0)%nat) by (destruct os; [congruence|cbn; lia]).
      destruct (IH (os ++ os)) as (l & El & Ll & Nl); [destruct os; [congruence|discriminate]|rewrite app_length; lia|]. exists l. split; [exact El|]. split; [exact Ll|]. intros i Hi. rewrite Nl by assumption. now apply nth_mod_app.
    + eexists. split; [reflexivity|]. destruct (Nat.ltb_spec n (length os)) as [C2|C2].
      * split; [rewrite firstn_length; lia|]. intros i Hi. rewrite Nat.mod_small by lia. rewrite <- (firstn_skipn n os) at 2. rewrite app_nth1; [reflexivity|rewrite firstn_length; lia].
      * split; [lia|]. intros i Hi. now rewrite Nat.mod_small by lia.
Qed.
Lemma extend_empty {O} n fuel : (0 < n)%nat -> @extend O fuel n [] = None.
Proof. intros H. induction fuel as [|f IH]; cbn [extend length app]; rewrite (proj2 (Nat.ltb_lt 0 n)) by assumption; [reflexivity|exact IH]. Qed.

(** ** Permuted axes *)
Lemma perm3 (p : list nat) : is_perm 3 p = true -> In p [[0; 1; 2]; [0; 2; 1]; [1; 0; 2]; [1; 2; 0]; [2; 0; 1]; [2; 1; 0]]%nat.
Proof.
  unfold is_perm. intros H. apply andb_true_iff in H as [L F]. apply Nat.eqb_eq in L. destruct p as [|x [|y [|z [|? ?]]]]; try discriminate.
  assert (K : forall k, (k < 3)%nat -> k = x \/ k = y \/ k = z).
  { intros k Hk. rewrite forallb_forall in F. specialize (F k). rewrite existsb_exists in F. destruct F as (w & Iw & Ew); [apply in_seq; lia|]. apply Nat.eqb_eq in Ew. subst w. destruct Iw as [<-|[<-|[<-|[]]]]; tauto. }
  clear F L. pose proof (K 0%nat ltac:(lia)) as K0. pose proof (K 1%nat ltac:(lia)) as K1. pose proof (K 2%nat ltac:(lia)) as K2. clear K.
  destruct K0 as [<-|[<-|<-]]; destruct K1 as [K1|[K1|K1]]; try lia; rewrite <- K1 in *; destruct K2 as [K2|[K2|K2]]; try lia; rewrite <- K2 in *; cbn; tauto.
Qed.
Lemma permuted_shape {A} (a b : nd A) p n m l : transpose p a = Ok b -> shp a = [n; m; l] -> n <> m -> m <> l -> n <> l -> shp b = [n; m; l] -> p = [0; 1; 2]%nat.
Proof.
  unfold transpose, ndim. intros H Sa N1 N2 N3. rewrite Sa in H. destruct (is_perm (length [n; m; l]) p) eqn:P; [|discriminate]. injection H as <-. cbn [shp]. apply perm3 in P.
  cbn in P. destruct P as [<-|[<-|[<-|[<-|[<-|[<-|[]]]]]]]; cbn; intros E; try reflexivity; exfalso; injection E; intros; congruence.
Qed.

(** ** Simulation on arrays *)
Lemma first_true_lt l k : first_true l = Some k -> (k < length l)%nat.
Proof.
  revert k. induction l as [|b l IH]; intros k; cbn [first_true length]; [discriminate|]. destruct b; [intros E; injection E as <-; lia|].
  destruct (first_true l) as [j|]; cbn; [intros E; injection E as <-; specialize (IH j eq_refl); lia|discriminate].
Qed.
Lemma argmax_lt l : l <> [] -> (argmax_bool l < length l)%nat.
Proof. intros N. unfold argmax_bool. destruct (first_true l) as [k|] eqn:E; [now apply first_true_lt|]. destruct l; [congruence|cbn; lia]. Qed.
Lemma pick_in_range n probs u : (0 < n)%Z -> length probs = Z.to_nat n -> exists z, pick (default_values n) probs u = Ok z /\ (0 <= z < n)%Z.
Proof.
  intros Hn Hl. unfold pick. destruct (default_values n) as [|v0 vs] eqn:E; [exfalso; pose proof (default_values_length n) as E2; rewrite E in E2; simpl in E2; lia|]. rewrite <- E.
  pose proof (argmax_lt (map (fun c => Rltb u c) (cumsum probs))) as H. rewrite map_length, cumsum_length in H.
  assert (K : (argmax_bool (map (fun c => Rltb u c) (cumsum probs)) < length probs)%nat).
  { apply H. intros E3. apply (f_equal (@length bool)) in E3. rewrite map_length, cumsum_length in E3. cbn in E3. lia. }
  exists (Z.of_nat (argmax_bool (map (fun c => Rltb u c) (cumsum probs)))). split; [|lia]. rewrite np_index_default by lia. cbn [bind]. apply np_index_default. lia.
Qed.
Lemma index_all_ok values a : (forall z, In z (entries a) -> exists v, np_index values z = Ok v) ->
  index_all values a = Ok (amap (fun i => match np_index values i with Ok z => z | Err _ => 0%Z end) a).
Proof. intros H. unfold index_all. destruct (proj2 (mapM_total (np_index values) (entries a)) H) as [l El]. rewrite El. reflexivity. Qed.
Lemma pick_cons values probs u : values <> [] -> pick values probs u =
  bind (np_index values (Z.of_nat (argmax_bool (map (fun c => Rltb u c) (cumsum probs))))) (fun i => np_index values i).
Proof. destruct values; [congruence|reflexivity]. Qed.
Lemma simulate_arr {E} values like rand mps (es : list E) repeat n f :
  dim 0 mps = n -> values <> [] -> is3 (like (vec 0%Z values) mps es) (length values) n (length es) f ->
  (forall r i j, (r < repeat)%nat -> (i < n)%nat -> (j < length es)%nat -> exists z, pick values (map (fun o => f o i j) (seq 0 (length values))) (rand r i j) = Ok z) ->
  (repeat = 1 /\ length es = 1 /\ n = 1)%nat \/
  exists a, simulate_array values like rand mps es repeat = Ok a /\ shp a = [repeat; n; length es] /\
    forall r i j, (r < repeat)%nat -> (i < n)%nat -> (j < length es)%nat -> pick values (map (fun o => f o i j) (seq 0 (length values))) (rand r i j) = Ok (get a [r; i; j]).
Proof.
  intros Dm Nv (L & EL & SL & GL) P. set (ne := length es) in *. set (nv := length values) in *. assert (Lv : (0 < nv)%nat) by (unfold nv; destruct values; [congruence|cbn; lia]).
  destruct (Nat.eqb repeat 1 && Nat.eqb ne 1 && Nat.eqb n 1)%bool eqn:B.
  { left. rewrite !andb_true_iff, !Nat.eqb_eq in B. tauto. }
  right. unfold simulate_array. rewrite EL. cbn [bind]. fold ne. rewrite Dm. set (k := fun r i j => argmax_bool (map (fun c => Rltb (rand r i j) c) (cumsum (map (fun o => f o i j) (seq 0 nv))))).
  assert (A1 : exists above, op2 (fun c u => Rltb u c) (Ok (cumsum0 L)) (Ok (Nd [repeat; 1; n; ne]%nat (fun ix => rand (nth 0 ix 0%nat) (nth 2 ix 0%nat) (nth 3 ix 0%nat)))) = Ok above /\
     shp above = [repeat; nv; n; ne] /\ forall r o i j, (r < repeat)%nat -> (o < nv)%nat -> (i < n)%nat -> (j < ne)%nat ->
       get above [r; o; i; j] = Rltb (rand r i j) (nth o (cumsum (map (fun o => f o i j) (seq 0 nv))) 0)).
  { unfold cumsum0. destruct L as [sl gl]. cbn [shp get] in *. subst sl. nds. eexists. split; [reflexivity|]. split; [reflexivity|]. intros r o i j Hr Ho Hi Hj. nds. pins. f_equal. f_equal. f_equal.
    apply map_ext_in. intros o' Ho'. apply in_seq in Ho'. nds. pins. apply GL; lia. }
  destruct A1 as (above & E1 & S1 & G1). rewrite E1. cbn [bind]. unfold argmax1. unfold dim at 1. rewrite S1. cbn [nth]. rewrite (proj2 (Nat.eqb_neq nv 0)) by lia. cbn [bind firstn skipn app].
  set (kk := Nd _ _). assert (GK : forall r i j, (r < repeat)%nat -> (i < n)%nat -> (j < ne)%nat -> get kk [r; i; j] = k r i j).
  { intros r i j Hr Hi Hj. unfold kk, k. cbn [get firstn skipn app]. f_equal. unfold dim. rewrite S1. cbn [nth]. set (cs := cumsum (map (fun o => f o i j) (seq 0 nv))).
    assert (Lc : length cs = nv) by (unfold cs; now rewrite cumsum_length, map_length, seq_length).
    transitivity (map (fun c => Rltb (rand r i j) c) (map (fun o => nth o cs 0) (seq 0 nv))).
    - rewrite map_map. apply map_ext_in. intros o Ho. apply in_seq in Ho. rewrite G1 by lia. reflexivity.
    - f_equal. rewrite <- Lc. clear. induction cs as [|c cs IH]; [reflexivity|]. cbn [length seq map nth]. f_equal. rewrite <- seq_shift, map_map. exact IH. }
  assert (SK : shp kk = [repeat; n; ne]) by reflexivity. clearbody kk.
  assert (P' : forall r i j, (r < repeat)%nat -> (i < n)%nat -> (j < ne)%nat -> exists v w, np_index values (Z.of_nat (k r i j)) = Ok v /\ np_index values v = Ok w /\ pick values (map (fun o => f o i j) (seq 0 nv)) (rand r i j) = Ok w).
  { intros r i j Hr Hi Hj. destruct (P r i j Hr Hi Hj) as [w Hw]. pose proof Hw as Hw2. rewrite pick_cons in Hw by assumption. fold (k r i j) in Hw. apply bind_Ok_iff in Hw as (v & E2 & E3). exists v, w. tauto. }
  rewrite index_all_ok.
  2:{ intros z Hz. apply (in_entries3 _ repeat n ne) in Hz; [|exact SK]. destruct Hz as (r & i & j & Hr & Hi & Hj & ->). cbn [amap get]. rewrite GK by assumption. destruct (P' r i j Hr Hi Hj) as (v & w & E2 & _). now exists v. }
  cbn [bind]. rewrite index_all_ok.
  2:{ intros z Hz. apply (in_entries3 _ repeat n ne) in Hz; [|exact SK]. destruct Hz as (r & i & j & Hr & Hi & Hj & ->). cbn [amap get]. rewrite GK by assumption. destruct (P' r i j Hr Hi Hj) as (v & w & E2 & E3 & _). rewrite E2. now exists w. }
  cbn [bind]. rewrite B. eexists. split; [reflexivity|]. split; [exact SK|]. intros r i j Hr Hi Hj. cbn [amap get]. rewrite GK by assumption. destruct (P' r i j Hr Hi Hj) as (v & w & E2 & E3 & E4). rewrite E2, E3. exact E4.
Qed.

(** ** The tests *)
Lemma test_likelihood_iff {E} (m : tested E) prior es os : test_likelihood_of m prior es os = Ok tt <->
  exists o mps L, os = Ok o /\ modelparams prior es = Ok mps /\ t_likelihood m o mps es = Ok L /\ shp L = [n_outcomes (length es); n_models (length es); length es].
Proof.
  unfold test_likelihood_of. split.
  - intros H. apply bind_Ok_iff in H as (o & Eo & H). apply bind_Ok_iff in H as (mps & Em & H). apply bind_Ok_iff in H as (L & EL & H). rewrite check_Ok, list_eqb_true in H. exists o, mps, L. tauto.
  - intros (o & mps & L & -> & -> & EL & S). cbn [bind]. rewrite EL. cbn [bind]. rewrite check_Ok, list_eqb_true. exact S.
Qed.
Lemma take2_ok {A} k (a : nd A) n m l : shp a = [n; m; l] -> (k < l)%nat -> take 2 k a = Ok (Nd [n; m] (fun ix => get a (firstn 2 ix ++ k :: skipn 2 ix))).
Proof. intros S H. unfold take, ndim, dim. rewrite S. cbn [length nth firstn skipn app]. rewrite (proj2 (Nat.ltb_lt k l)) by assumption. reflexivity. Qed.
Lemma test_simulate_iff {E} (m : tested E) prior es : test_simulate_experiment m prior es = Ok tt <->
  exists mps a, modelparams prior es = Ok mps /\ t_simulate m mps es (n_repeat (length es)) = Ok a /\ shp a = [n_repeat (length es); n_models (length es); length es] /\
  forall j, (j < length es)%nat -> exists d ds l, t_domain m (firstn 1 (skipn j es)) = Ok (d :: ds) /\ o_in d l = Ok true /\
    l = entries (Nd [n_repeat (length es); n_models (length es)] (fun ix => get a [nth 0 ix 0; nth 1 ix 0; j]%nat)).
Proof.
  set (r := n_repeat (length es)). set (nm := n_models (length es)).
  assert (EN : forall a j, entries (Nd [r; nm] (fun ix => get a (firstn 2 ix ++ j :: skipn 2 ix))) = entries (Nd [r; nm] (fun ix => get a [nth 0 ix 0; nth 1 ix 0; j]%nat)) :> list Z) by (intros; reflexivity).
  unfold test_simulate_experiment. fold r nm. split.
  - intros H. apply bind_Ok_iff in H as (mps & Em & H). apply bind_Ok_iff in H as (a & Ea & H). apply bind_Ok_iff in H as (? & Ec & H). apply bind_Ok_iff in H as (us & Eu & _).
    destruct x. rewrite check_Ok, list_eqb_true in Ec. exists mps, a. split; [exact Em|]. split; [exact Ea|]. split; [exact Ec|]. intros j Hj.
    pose proof (proj1 (mapM_unit _ _) (ex_intro _ us Eu) j) as H. specialize (H ltac:(apply in_seq; lia)). apply bind_Ok_iff in H as (ds & Ed & H). destruct ds as [|d ds]; [discriminate|].
    rewrite (take2_ok j a r nm (length es)) in H by assumption. cbn [bind] in H. apply bind_Ok_iff in H as (b & Eb & H). rewrite check_Ok in H. subst b. rewrite EN in Eb. exists d, ds. eexists. eauto.
  - intros (mps & a & -> & Ea & Sa & H). cbn [bind]. rewrite Ea. cbn [bind]. rewrite Sa, list_eqb_refl. cbn [check bind]. 
    match goal with |- context [mapM ?f ?l] => destruct (proj2 (mapM_unit f l)) as [us Eu] end.
    { intros j Hj. apply in_seq in Hj. destruct (H j ltac:(lia)) as (d & ds & l & Ed & Eo & ->). rewrite Ed. cbn [bind]. rewrite (take2_ok j a r nm (length es)) by (try assumption; lia). cbn [bind]. rewrite EN, Eo. reflexivity. }
    rewrite Eu. reflexivity.
Qed.

Lemma n_models_pos k : (0 < n_models k)%nat. Proof. unfold n_models. destruct (k =? 20)%nat; lia. Qed.
Lemma rows_of {A} (a : nd A) nm p ne (d : A) : shp a = [nm; p; ne] -> (0 < nm)%nat -> (0 < ne)%nat ->
  exists b, bind (transpose [2; 0; 1]%nat a) (reshape_rest (nm * ne)) = Ok b /\ shp b = [nm * ne; p]%nat /\
  forall m e j, (m < nm)%nat -> (e < ne)%nat -> (j < p)%nat -> get b [e * nm + m; j]%nat = get a [m; j; e].
Proof.
  intros Sa Hm He. unfold transpose, ndim. rewrite Sa. cbn [length]. replace (is_perm 3 [2; 0; 1]%nat) with true by reflexivity. cbn [map nth bind]. unfold reshape_rest, size. cbn [shp prodn fold_right].
  rewrite (proj2 (Nat.eqb_neq (nm * ne) 0)) by nia. replace (ne * (nm * (p * 1)))%nat with (p * (nm * ne))%nat by lia. rewrite Nat.mod_mul by nia. rewrite Nat.eqb_refl. rewrite Nat.div_mul by nia.
  unfold reshape, size. cbn [shp prodn fold_right]. replace (nm * ne * (p * 1) =? ne * (nm * (p * 1)))%nat with true by (symmetry; apply Nat.eqb_eq; lia).
  eexists. split; [reflexivity|]. split; [reflexivity|]. intros m e j Im Ie Ij. cbn [get ravel unravel prodn fold_right]. rewrite !Nat.mul_1_r, !Nat.add_0_r, !Nat.div_1_r.
  assert (Q : (m * p + j < nm * p)%nat) by nia.
  replace ((e * nm + m) * p + j)%nat with (e * (nm * p) + (m * p + j))%nat by lia.
  rewrite (Nat.div_add_l e (nm * p) (m * p + j)) by nia. rewrite (Nat.div_small (m * p + j)) by assumption. rewrite Nat.add_0_r. rewrite (Nat.add_comm (e * (nm * p))), Nat.mod_add by nia. rewrite (Nat.mod_small (m * p + j)) by assumption.
  rewrite Nat.div_add_l by lia. rewrite (Nat.div_small j) by assumption. rewrite Nat.add_0_r. rewrite (Nat.add_comm (m * p)), Nat.mod_add by lia. rewrite Nat.mod_small by assumption. reflexivity.
Qed.
(** Validity decided row by row *)
Definition rowwise {E} (m : tested E) (V : list R -> bool) : Prop :=
  forall a n, shp a = [n; t_n_modelparams m] -> is1 (t_valid m a) n (fun i => V (map (fun j => get a [i; j]) (seq 0 (t_n_modelparams m)))).
Lemma all_true_1 v n f : is1 (Ok v) n f -> (all_true v = true <-> forall i, (i < n)%nat -> f i = true).
Proof.
  intros (v' & E & S & G). injection E as <-. unfold all_true. rewrite forallb_forall. split.
  - intros H i Hi. rewrite <- G by assumption. apply H. apply (in_entries1 v n); [assumption|]. now exists i.
  - intros H b Hb. apply (in_entries1 v n) in Hb; [|assumption]. destruct Hb as (i & Hi & ->). rewrite G by assumption. now apply H.
Qed.
Lemma test_timestep_iff {E} (m : tested E) V prior es : rowwise m V -> es <> [] ->
  (test_update_timestep m prior es = Ok tt <-> exists mps a, modelparams prior es = Ok mps /\ t_timestep m mps es = Ok a /\
    shp a = [n_models (length es); t_n_modelparams m; length es] /\
    forall i e, (i < n_models (length es))%nat -> (e < length es)%nat -> V (map (fun j => get a [i; j; e]) (seq 0 (t_n_modelparams m))) = true).
Proof.
  intros HV Ne. assert (He : (0 < length es)%nat) by (destruct es; [congruence|cbn; lia]). pose proof (n_models_pos (length es)) as Hm. unfold test_update_timestep. set (nm := n_models (length es)) in *. set (p := t_n_modelparams m) in *. set (ne := length es) in *.
  assert (K : forall a, shp a = [nm; p; ne] -> bind (transpose [2; 0; 1]%nat a) (fun a => bind (reshape_rest (nm * ne) a) (fun rows => bind (t_valid m rows) (fun v => check (all_true v)))) = Ok tt <->
    forall i e, (i < nm)%nat -> (e < ne)%nat -> V (map (fun j => get a [i; j; e]) (seq 0 p)) = true).
  { intros a Sa. destruct (rows_of a nm p ne 0 Sa Hm He) as (b & Eb & Sb & Gb). destruct (transpose [2; 0; 1]%nat a) as [t|x]; [|discriminate]. cbn [bind] in *. rewrite Eb. cbn [bind].
    destruct (HV b (nm * ne)%nat Sb) as (v & Ev & Sv & Gv). fold p in Gv. rewrite Ev. cbn [bind]. rewrite check_Ok. rewrite (all_true_1 v (nm * ne) _ (ex_intro _ v (conj eq_refl (conj Sv Gv)))).
    assert (RW : forall i e, (i < nm)%nat -> (e < ne)%nat -> map (fun j => get b [e * nm + i; j]%nat) (seq 0 p) = map (fun j => get a [i; j; e]) (seq 0 p)).
    { intros i e Hi Ie. apply map_ext_in. intros j Hj. apply in_seq in Hj. apply Gb; lia. }
    split.
    - intros H i e Hi Ie. rewrite <- RW by assumption. apply (H (e * nm + i)%nat). nia.
    - intros H q Hq. assert (Dq : (q = q / nm * nm + q mod nm)%nat) by (rewrite (Nat.mul_comm (q / nm)); apply Nat.div_mod; lia).
      pose proof (Nat.mod_upper_bound q nm ltac:(lia)) as U. assert (U2 : (q / nm < ne)%nat) by (apply Nat.div_lt_upper_bound; lia). rewrite Dq. rewrite RW by assumption. now apply H. }
  split.
  - intros H. apply bind_Ok_iff in H as (mps & Em & H). apply bind_Ok_iff in H as (a & Ea & H). apply bind_Ok_iff in H as (u & Ec & H). destruct u. rewrite check_Ok, list_eqb_true in Ec.
    exists mps, a. split; [exact Em|]. split; [exact Ea|]. split; [exact Ec|]. apply K; assumption.
  - intros (mps & a & -> & Ea & Sa & H). cbn [bind]. rewrite Ea. cbn [bind]. rewrite Sa, list_eqb_refl. cbn [check bind]. now apply K.
Qed.

(** ** MockModel *)
Lemma mock_rowwise {E} n rand : rowwise (@mock_model E n rand) (fun _ => true).
Proof. intros a k Sa. exists (Nd [dim 0 a] (fun _ => true)). split; [reflexivity|]. unfold dim. rewrite Sa. split; reflexivity. Qed.
Lemma mock_like {E} os mps (es : list E) n_o n d : shp os = [n_o] -> (0 < n_o)%nat -> shp mps = [n; d] ->
  is3 (mock_likelihood os mps es) n_o n (length es) (fun _ _ _ => / 2).
Proof.
  intros So Ho Sm. unfold mock_likelihood, dim. rewrite Sm. cbn [nth]. eapply is3_ext; [|apply (pr0_array os _ n_o [] n (length es)); [exact So|reflexivity|exact Ho|reflexivity]].
  intros i j k _ _ _. unfold pr0_like. cbn [amap get]. destruct (_ =? 0)%Z; lra.
Qed.

(** ** Comparing arrays *)
Lemma unravel_in : forall sh k, (k < prodn sh)%nat -> Forall2 lt (unravel sh k) sh.
Proof.
  induction sh as [|d sh IH]; intros k Hk; cbn [unravel]; [constructor|]. cbn [prodn fold_right] in Hk. fold (prodn sh) in Hk. assert (P : (0 < prodn sh)%nat) by nia.
  constructor; [apply Nat.div_lt_upper_bound; lia|]. apply IH. apply Nat.mod_upper_bound. lia.
Qed.
Lemma unravel_ravel : forall sh ix, Forall2 lt ix sh -> (ravel sh ix < prodn sh)%nat /\ unravel sh (ravel sh ix) = ix.
Proof.
  intros sh ix H. induction H as [|i d ix sh Hi H [IH1 IH2]]; [split; [cbn; lia|reflexivity]|]. cbn [ravel unravel prodn fold_right]. fold (prodn sh). split; [nia|]. rewrite Nat.div_add_l by lia. rewrite Nat.div_small by assumption.
  rewrite Nat.add_0_r. rewrite Nat.add_comm, Nat.mod_add by lia. rewrite Nat.mod_small by assumption. now rewrite IH2.
Qed.
Lemma almost_equal_iff (a b : nd ext) : almost_equal a b = Ok tt <-> shp a = shp b /\ forall ix, Forall2 lt ix (shp a) -> assert_almost_equal (get a ix) (get b ix) 3 = Ok tt.
Proof.
  assert (K : shp a = shp b -> forall x y, In (x, y) (combine (entries a) (entries b)) <-> exists ix, Forall2 lt ix (shp a) /\ x = get a ix /\ y = get b ix).
  { intros S x y. unfold entries, size. rewrite <- S.
    assert (C : forall l, combine (map (fun k => get a (unravel (shp a) k)) l) (map (fun k => get b (unravel (shp a) k)) l) = map (fun k => (get a (unravel (shp a) k), get b (unravel (shp a) k))) l).
    { induction l as [|k l IH]; [reflexivity|]. cbn [map combine]. now rewrite IH. }
    rewrite C, in_map_iff. split.
    - intros (k & Ek & Hk). apply in_seq in Hk. injection Ek as <- <-. exists (unravel (shp a) k). split; [apply unravel_in; lia|tauto].
    - intros (ix & Hx & -> & ->). destruct (unravel_ravel (shp a) ix Hx) as [H1 H2]. exists (ravel (shp a) ix). rewrite H2. split; [reflexivity|apply in_seq; lia]. }
  unfold almost_equal. split.
  - intros H. apply bind_Ok_iff in H as (u & Ec & H). destruct u. rewrite check_Ok, list_eqb_true in Ec. apply bind_Ok_iff in H as (us & Eu & _). split; [exact Ec|]. intros ix Hx.
    exact (proj1 (mapM_unit _ _) (ex_intro _ us Eu) (get a ix, get b ix) (proj2 (K Ec _ _) (ex_intro _ ix (conj Hx (conj eq_refl eq_refl))))).
  - intros [S H]. rewrite S, list_eqb_refl. cbn [check bind]. destruct (proj2 (mapM_unit (fun p : ext * ext => assert_almost_equal (fst p) (snd p) 3) (combine (entries a) (entries b)))) as [us ->]; [|reflexivity].
    intros [x y] Hxy. apply (K S) in Hxy. destruct Hxy as (ix & Hx & -> & ->). cbn [fst snd]. now apply H.
Qed.
