(** Proofs about multinomial sampling: index arithmetic, layout of the sampled arrays, law of the sampled counts. *)
From Coq Require Import List.
From Verif Require Import Base RList Sums DomModel DomProofs DomProofs2 DerModel DerSpec DerProofs TomoProofs2 MultModel MultSpec.
Import ListNotations.

(** ** Indices *)
Lemma volume_app s t : volume (s ++ t) = (volume s * volume t)%nat.
Proof. unfold volume. induction s as [|x s IH]; cbn; [now rewrite Nat.add_0_r|]. rewrite IH. lia. Qed.
Lemma ravel_lt s i : index s i -> (ravel s i < volume s)%nat.
Proof.
  intros H. unfold index in H. induction H as [|k n i s Hk H IH]; cbn; [lia|]. fold (volume s). nia.
Qed.
Lemma index_length s i : index s i -> length i = length s.
Proof. intros H. induction H; cbn; auto. Qed.
Lemma unravel_ravel s i : index s i -> unravel s (ravel s i) = i.
Proof.
  intros H. induction H as [|k n i s Hk H IH]; [reflexivity|]. cbn [unravel ravel]. pose proof (ravel_lt s i H) as L.
  rewrite Nat.div_add_l by lia. rewrite Nat.div_small by assumption. rewrite (Nat.add_comm (k * volume s)), Nat.mod_add, Nat.mod_small by lia. rewrite IH. f_equal. lia.
Qed.
Lemma ravel_app s t i j : length i = length s -> ravel (s ++ t) (i ++ j) = (ravel s i * volume t + ravel t j)%nat.
Proof.
  revert i; induction s as [|n s IH]; intros [|k i] H; try discriminate; [reflexivity|]. cbn [app ravel]. rewrite IH by (cbn in H; lia). rewrite volume_app. lia.
Qed.

(** ** Transposition *)
Lemma transpose_at {A} axes (a : nd A) : is_perm (length (shp a)) axes = true ->
  exists b, transpose axes a = Ok b /\ shp b = map (fun x => nth x (shp a) 0%nat) axes /\
    forall i, index (shp b) i -> at_ b i = elt a (ravel (shp a) (map (fun d => nth (index_of d axes) i 0%nat) (seq 0 (length axes)))).
Proof.
  intros H. unfold transpose. rewrite H. eexists. split; [reflexivity|]. split; [reflexivity|]. intros i Hi. unfold at_. cbn [elt shp] in *. now rewrite unravel_ravel.
Qed.
Lemma index_of_seq n : forall a d l, (d < n)%nat -> index_of (a + d) (seq a n ++ l) = d.
Proof.
  induction n as [|n IH]; intros a d l H; [lia|]. cbn [seq app index_of]. destruct d as [|d].
  - rewrite Nat.add_0_r, Nat.eqb_refl. reflexivity.
  - rewrite (proj2 (Nat.eqb_neq _ _)) by lia. f_equal. rewrite <- (IH (S a) d l) at 2 by lia. f_equal. lia.
Qed.
Lemma index_of_skip n : forall a d l, (d < a)%nat -> index_of d (seq a n ++ l) = (n + index_of d l)%nat.
Proof.
  induction n as [|n IH]; intros a d l H; [reflexivity|]. cbn [seq app index_of]. rewrite (proj2 (Nat.eqb_neq _ _)) by lia. cbn [Nat.add]. f_equal. apply IH. lia.
Qed.
Definition rotation (n : nat) : list nat := seq 1 n ++ [0%nat].
Lemma rotation_perm n : is_perm (S n) (rotation n) = true.
Proof.
  unfold is_perm, rotation. rewrite app_length, seq_length. cbn [length]. rewrite Nat.add_1_r, Nat.eqb_refl. cbn [andb]. apply forallb_forall. intros d Hd.
  apply in_seq in Hd. apply existsb_exists. exists d. split; [|apply Nat.eqb_refl]. apply in_or_app. destruct d as [|d]; [right; now left|left]. apply in_seq. lia.
Qed.
Lemma rotation_shape n r s : length s = n -> map (fun x => nth x (r :: s) 0%nat) (rotation n) = s ++ [r].
Proof.
  intros H. unfold rotation. rewrite map_app. cbn [map nth]. f_equal. rewrite <- seq_shift, map_map. cbn [nth]. rewrite <- H. apply map_nth_seq.
Qed.
Lemma rotation_index n k i : length i = n -> map (fun d => nth (index_of d (rotation n)) (i ++ [k]) 0%nat) (seq 0 (length (rotation n))) = k :: i.
Proof.
  intros H. unfold rotation. rewrite app_length, seq_length. cbn [length]. rewrite Nat.add_1_r. cbn [seq map]. f_equal.
  - rewrite index_of_skip by lia. cbn [index_of Nat.eqb]. rewrite Nat.add_0_r, app_nth2 by lia. rewrite H, Nat.sub_diag. reflexivity.
  - match goal with |- map ?h _ = _ => set (f := h) end. rewrite <- seq_shift, map_map. unfold f. clear f. subst n. transitivity (map (fun j => nth j i 0%nat) (seq 0 (length i))); [|apply map_nth_seq]. apply map_ext_in. intros d Hd. apply in_seq in Hd. change (S d) with (1 + d)%nat.
    rewrite index_of_seq by lia. rewrite app_nth1 by lia. reflexivity.
Qed.
Lemma rotate {A} n r s (a : nd A) : shp a = r :: s -> length s = n ->
  exists b, transpose (rotation n) a = Ok b /\ shp b = s ++ [r] /\ forall i k, index s i -> (k < r)%nat -> at_ b (i ++ [k]) = at_ a (k :: i).
Proof.
  intros Ha Hs. destruct (transpose_at (rotation n) a) as (b & E & S & H); [rewrite Ha; cbn [length]; rewrite Hs; apply rotation_perm|].
  exists b. split; [assumption|]. rewrite Ha, rotation_shape in S by assumption. split; [assumption|]. intros i k Hi Hk. rewrite H.
  - rewrite rotation_index by (rewrite (index_length _ _ Hi); assumption). reflexivity.
  - rewrite S. apply Forall2_app; [assumption|]. constructor; [assumption|constructor].
Qed.

(** ** One row of counts *)
Lemma run_tmap {A B} (f : A -> B) t : forall b, run (tmap f t) b = f (run t b).
Proof. induction t as [a|n p k IH]; intros b; cbn; [reflexivity|]. apply IH. Qed.
Lemma row_length qs : forall n s b, length (run (np_row n s qs) b) = S (length qs).
Proof.
  induction qs as [|q qs IH]; intros n s b; cbn [np_row run]; [reflexivity|]. rewrite run_tmap. cbn [length]. f_equal.
  destruct (Nat.eqb _ 0); [cbn; now rewrite repeat_length|]. apply IH.
Qed.
Lemma row_total qs : forall n s b, binomial_source b -> nat_sum (run (np_row n s qs) b) = n.
Proof.
  induction qs as [|q qs IH]; intros n s b Hb; cbn [np_row run]; [cbn; lia|]. rewrite run_tmap. cbn [nat_sum fold_right]. fold nat_sum.
  pose proof (Hb 0%nat n (q / s)) as L. destruct (Nat.eqb_spec (n - b 0%nat n (q / s)) 0) as [Z|Z].
  - cbn [run]. rewrite nat_sum_repeat0. lia.
  - rewrite IH by (intros i m p; apply Hb). lia.
Qed.

(** ** sample_multinomial *)
Definition column (p : nd R) (c : nat) : list R := map (fun i => elt p (i * volume (tl (shp p)) + c)%nat) (seq 0 (hd 0%nat (shp p))).

Lemma removelast_length {A} (l : list A) : length (removelast l) = (length l - 1)%nat.
Proof. induction l as [|x [|y l] IH]; try reflexivity. cbn [removelast length] in *. rewrite IH. lia. Qed.
Lemma core N p s sides rest src r : shp p = sides :: rest -> (0 < sides)%nat -> (0 < volume rest)%nat -> s = [r] ->
  (forall c, (c < volume rest)%nat -> accepted (column p c)) ->
  exists b, bind (apply_along_axis0 (fun c ps => match s with [] => Err TypeError | _ => np_multinomial N ps (volume s) (src c) end) p) (fun samples =>
            bind (reshape (s ++ shp p) samples) (fun samples => transpose (seq 1 (length (shp p)) ++ [0%nat]) samples)) = Ok b /\
    shp b = sides :: rest ++ [r] /\
    forall side i k, (side < sides)%nat -> index rest i -> (k < r)%nat ->
      at_ b (side :: i ++ [k]) = nth side (run (np_row N 1 (removelast (column p (ravel rest i)))) (src (ravel rest i) k)) 0%nat.
Proof.
  intros Hp Hs Hc -> Ha. unfold apply_along_axis0. rewrite Hp. rewrite (proj2 (Nat.eqb_neq _ _)) by lia. cbn [volume fold_right]. rewrite Nat.mul_1_r. fold (volume rest).
  set (row c k := run (np_row N 1 (removelast (column p c))) (src c k)).
  assert (Hrow : forall c k, length (row c k) = sides).
  { intros c k. unfold row. rewrite row_length, removelast_length. unfold column. rewrite map_length, seq_length, Hp. cbn [hd]. lia. }
  rewrite (mapM_ok _ (fun c => flat_map (row c) (seq 0 r))).
  2:{ intros c Hin. apply in_seq in Hin. specialize (Ha c ltac:(lia)). unfold np_multinomial.
      replace (map _ (seq 0 sides)) with (column p c) by (unfold column; rewrite Hp; reflexivity).
      rewrite Rltb_false by (unfold accepted in Ha; lra). reflexivity. }
  cbn [bind]. assert (Hl : forall c, length (flat_map (row c) (seq 0 r)) = (r * sides)%nat).
  { intros c. rewrite (length_flat_uniform _ _ sides) by (intros; apply Hrow). now rewrite seq_length. }
  assert (Hn : forall c, (c < volume rest)%nat -> nth c (map (fun c => flat_map (row c) (seq 0 r)) (seq 0 (volume rest))) [] = flat_map (row c) (seq 0 r)).
  { intros c Hlt. rewrite (nth_indep _ [] (flat_map (row 0%nat) (seq 0 r))) by (rewrite map_length, seq_length; assumption).
    rewrite (map_nth (fun c => flat_map (row c) (seq 0 r))), seq_nth by assumption. reflexivity. }
  rewrite (Hn 0%nat) by lia. rewrite Hl. unfold reshape. cbn [shp app]. cbn [volume fold_right]. fold (volume rest).
  rewrite Nat.mul_assoc, Nat.eqb_refl. cbn [bind elt].
  match goal with |- context [ND _ ?e] => set (f := e) end.
  destruct (rotate (length (sides :: rest)) r (sides :: rest) (ND (r :: sides :: rest) f) eq_refl eq_refl) as (b & E & S & H).
  exists b. split; [exact E|]. split; [exact S|]. intros side i k Hside Hi Hk. change (side :: i ++ [k]) with ((side :: i) ++ [k]). rewrite H; [|constructor; assumption|assumption].
  unfold at_. cbn [shp elt ravel]. pose proof (ravel_lt _ _ Hi) as L. set (c := ravel rest i) in *. cbn [volume fold_right]. fold (volume rest). unfold f.
  replace (k * (sides * volume rest) + (side * volume rest + c))%nat with (c + (k * sides + side) * volume rest)%nat by lia.
  rewrite Nat.mod_add, Nat.mod_small by lia. rewrite Nat.div_add, Nat.div_small by lia. rewrite Hn by assumption. cbn [Nat.add].
  rewrite (nth_flat_uniform _ _ sides 0%nat) by (try (intros; apply Hrow); rewrite ?seq_length; assumption). rewrite seq_nth by assumption. reflexivity.
Qed.

(** ** The law of one row *)
Lemma chance_tmap_cons k t : forall x v, chance (tmap (cons k) t) (x :: v) = if Nat.eqb k x then chance t v else 0.
Proof.
  induction t as [w|n p f IH]; intros x v; cbn [tmap chance].
  - destruct (Nat.eqb_spec k x) as [->|D].
    + destruct (list_eq_dec Nat.eq_dec (x :: w) (x :: v)) as [E|E], (list_eq_dec Nat.eq_dec w v) as [F|F]; congruence.
    + destruct (list_eq_dec Nat.eq_dec (k :: w) (x :: v)) as [E|E]; congruence.
  - destruct (Nat.eqb_spec k x) as [->|D].
    + apply Sum_ext. intros j _. rewrite IH, Nat.eqb_refl. reflexivity.
    + apply Sum_zero. intros j _. rewrite IH, (proj2 (Nat.eqb_neq _ _) D). ring.
Qed.
Lemma chance_tmap_nil k t : chance (tmap (cons k) t) [] = 0.
Proof.
  induction t as [w|n p f IH]; cbn [tmap chance].
  - destruct (list_eq_dec Nat.eq_dec (k :: w) []); congruence.
  - apply Sum_zero. intros j _. rewrite IH. ring.
Qed.
Lemma Sum_pick n f x : (forall j, (j < n)%nat -> j <> x -> f j = 0) -> Sum n f = if Nat.ltb x n then f x else 0.
Proof.
  revert f x; induction n as [|n IH]; intros f x H; [reflexivity|]. rewrite Sum_S. destruct x as [|x].
  - cbn. rewrite Sum_zero by (intros i Hi; apply H; lia). ring.
  - rewrite (H 0%nat) by lia. rewrite (IH _ x) by (intros j Hj D; apply H; lia). change (Nat.ltb (S x) (S n)) with (Nat.ltb x n). ring.
Qed.
Lemma G_all_zero p v : (forall i, (i < length v)%nat -> p i = 0) -> (0 < nat_sum v)%nat -> G p v = 0.
Proof.
  revert p; induction v as [|x v IH]; intros p Hp Hv; [cbn in Hv; lia|]. cbn [G]. destruct x as [|x].
  - rewrite IH; [ring| |cbn in Hv; unfold nat_sum; lia]. intros i Hi. apply Hp. cbn. lia.
  - rewrite (Hp 0%nat) by (cbn; lia). cbn [pow]. unfold Rdiv. ring.
Qed.
Definition target (n : nat) (s : R) (k : nat) (p : nat -> R) (v : list nat) : R :=
  if Nat.eqb (length v) k && Nat.eqb (nat_sum v) n then INR (fact n) * G p v / s ^ n else 0.
Lemma chance_zeros k v p s : chance (Ret (repeat 0%nat k)) v = target 0 s k p v.
Proof.
  cbn [chance]. unfold target. destruct (list_eq_dec Nat.eq_dec (repeat 0%nat k) v) as [<-|D].
  - rewrite repeat_length, nat_sum_repeat0, Nat.eqb_refl. cbn [andb Nat.eqb fact INR pow]. rewrite G_zero. field.
  - destruct (Nat.eqb_spec (length v) k) as [L|L]; [|reflexivity]. destruct (Nat.eqb_spec (nat_sum v) 0) as [Z|Z]; [|reflexivity].
    exfalso. apply D. apply nat_sum_zero in Z. congruence.
Qed.
Lemma row_law qs : forall n l s v, Forall (fun q => 0 <= q) qs -> 0 <= l -> s = rsum qs + l -> 0 < s ->
  chance (np_row n s qs) v = target n s (S (length qs)) (fun i => nth i (qs ++ [l]) 0) v.
Proof.
  induction qs as [|q qs IH]; intros n l s v Hq Hl Es Hs.
  - rewrite rsum_nil in Es. cbn [np_row chance length app]. unfold target. destruct (list_eq_dec Nat.eq_dec [n] v) as [<-|D].
    + cbn [length nat_sum fold_right]. rewrite Nat.add_0_r, !Nat.eqb_refl. cbn [andb G nth]. replace l with s by lra. pose proof (fact_pos n). pose proof (pow_lt s n Hs). field. lra.
    + destruct v as [|x [|y v]]; try reflexivity. cbn [length nat_sum fold_right]. rewrite Nat.add_0_r. cbn [andb Nat.eqb]. destruct (Nat.eqb_spec x n) as [->|Dx]; [|reflexivity].
      now destruct D.
  - apply Forall_inv_tail in Hq as Hq2. apply Forall_inv in Hq as Hq1. rewrite rsum_cons in Es. cbn [np_row chance].
    destruct v as [|x v]; [unfold target; cbn [length Nat.eqb andb]; apply Sum_zero; intros j _; rewrite chance_tmap_nil; ring|].
    rewrite (Sum_pick _ _ x) by (intros j _ D; rewrite chance_tmap_cons, (proj2 (Nat.eqb_neq _ _) D); ring).
    rewrite chance_tmap_cons, Nat.eqb_refl. unfold target. cbn [length app]. change (Nat.eqb (S (length v)) (S (S (length qs)))) with (Nat.eqb (length v) (S (length qs))).
    cbn [nat_sum fold_right]. fold (nat_sum v). destruct (Nat.ltb_spec x (S n)) as [Lx|Lx].
    2:{ rewrite (proj2 (Nat.eqb_neq (x + nat_sum v) n)) by lia. rewrite andb_false_r. reflexivity. }
    set (k := S (length qs)) in *.
    assert (Ht : binom_mass n (q / s) x * chance (if Nat.eqb (n - x) 0 then Ret (repeat 0%nat k) else np_row (n - x) (s - q) qs) v =
                 binom_mass n (q / s) x * target (n - x) (s - q) k (fun i => nth i (qs ++ [l]) 0) v).
    { destruct (Nat.eqb_spec (n - x) 0) as [Z|Z]; [rewrite Z; f_equal; apply chance_zeros|]. destruct (Req_dec (s - q) 0) as [D|D].
      - unfold binom_mass. replace q with s by lra. replace (1 - s / s) with 0 by (field; lra). rewrite pow_i by lia. ring.
      - f_equal. apply IH; try assumption; try lra. pose proof (rsum_nonneg qs Hq2). lra. }
    rewrite Ht. clear Ht. unfold target. destruct (Nat.eqb_spec (length v) k) as [Lv|Lv]; [|cbn [andb]; ring]. cbn [andb].
    destruct (Nat.eqb_spec (nat_sum v) (n - x)) as [Lw|Lw]; [|rewrite (proj2 (Nat.eqb_neq (x + nat_sum v) n)) by lia; ring].
    rewrite (proj2 (Nat.eqb_eq (x + nat_sum v) n)) by lia. cbn [G nth].
    assert (B : INR (binom n x) = INR (fact n) / (INR (fact x) * INR (fact (n - x)))).
    { pose proof (binom_fact n x ltac:(lia)) as B. apply (f_equal INR) in B. rewrite !mult_INR in B. pose proof (fact_pos x). pose proof (fact_pos (n - x)). rewrite <- B. field. lra. }
    unfold binom_mass. rewrite B. clear B. change (fun j : nat => nth j (qs ++ [l]) 0) with (fun i : nat => nth i (qs ++ [l]) 0).
    set (g := G (fun i : nat => nth i (qs ++ [l]) 0) v) in *. pose proof (fact_pos x) as F1. pose proof (fact_pos (n - x)) as F2.
    replace (s ^ n) with (s ^ x * s ^ (n - x)) by (rewrite <- pow_add; f_equal; lia). pose proof (pow_lt s x Hs) as P1. pose proof (pow_lt s (n - x) Hs) as P2.
    replace ((q / s) ^ x) with (q ^ x / s ^ x) by (unfold Rdiv; rewrite Rpow_mult_distr, pow_inv; reflexivity).
    replace ((1 - q / s) ^ (n - x)) with ((s - q) ^ (n - x) / s ^ (n - x)).
    2:{ replace (1 - q / s) with ((s - q) * / s) by (field; lra). rewrite Rpow_mult_distr, pow_inv. reflexivity. }
    destruct (Req_dec (s - q) 0) as [D|D].
    + destruct (Nat.eq_dec (n - x) 0) as [Z|Z]; [rewrite Z in *; cbn [pow fact INR]; field; lra|].
      assert (Hg : g = 0).
      { unfold g. apply G_all_zero; [|lia]. intros i Hi. assert (Z0 : Forall (fun q => q = 0) (qs ++ [l])).
        { pose proof (rsum_nonneg qs Hq2). apply Forall_app. split; [|constructor; [lra|constructor]]. assert (R0 : rsum qs = 0) by lra. clear - Hq2 R0.
          induction Hq2 as [|y ys Hy H IH]; [constructor|]. rewrite rsum_cons in R0. pose proof (rsum_nonneg ys H). constructor; [lra|apply IH; lra]. }
        rewrite Forall_forall in Z0. apply Z0. apply nth_In. rewrite app_length. cbn [length]. unfold k in Lv. lia. }
      rewrite Hg. unfold Rdiv. ring.
    + assert (Hd : (s - q) ^ (n - x) <> 0) by (apply pow_nonzero; assumption). field. repeat split; lra.
Qed.
Lemma count_mass_wrong k n p v : ~ (length v = k /\ nat_sum v = n) -> count_mass k n p v = 0.
Proof.
  intros H. unfold count_mass. replace (filter _ (strings k n)) with (@nil (list nat)); [reflexivity|]. symmetry.
  assert (A : forall s, In s (strings k n) -> counts k s <> v).
  { intros s Hs E. apply H. apply strings_length in Hs. destruct Hs as [H1 H2]. subst v. split; [apply counts_length|]. rewrite nat_sum_counts; assumption. }
  induction (strings k n) as [|s l IH]; [reflexivity|]. cbn [filter]. destruct (list_eq_dec Nat.eq_dec (counts k s) v) as [E|E]; [exfalso; apply (A s); [now left|assumption]|].
  apply IH. intros t Ht. apply A. now right.
Qed.
Lemma chance_count_mass ps n v : prob_vector ps -> chance (np_row n 1 (removelast ps)) v = count_mass (length ps) n (fun i => nth i ps 0) v.
Proof.
  intros Hp. pose proof (prob_vector_nonempty _ Hp) as Hne. destruct Hp as [Hn Hs]. assert (Hps : ps <> []) by (intros ->; cbn in Hne; lia).
  pose proof (app_removelast_last 0 Hps) as E. set (qs := removelast ps) in *. set (l := last ps 0) in *. rewrite E in Hn, Hs. apply Forall_app in Hn. destruct Hn as [Hq Hl].
  apply Forall_inv in Hl. rewrite rsum_app, rsum_cons, rsum_nil in Hs. rewrite (row_law qs n l 1 v) by (try assumption; lra).
  rewrite E, app_length. cbn [length]. rewrite Nat.add_1_r. unfold target. destruct (Nat.eqb_spec (length v) (S (length qs))) as [L|L]; [destruct (Nat.eqb_spec (nat_sum v) n) as [M|M]|]; cbn [andb].
  - rewrite count_mass_value by assumption. rewrite pow1. unfold Rdiv. rewrite Rinv_1. ring.
  - symmetry. apply count_mass_wrong. tauto.
  - symmetry. apply count_mass_wrong. tauto.
Qed.

(** ** sample_multinomial, by index *)
Lemma unravel_index s : forall k, (k < volume s)%nat -> index s (unravel s k) /\ ravel s (unravel s k) = k.
Proof.
  induction s as [|n s IH]; intros k H; [cbn in H; split; [constructor|cbn; lia]|]. cbn [volume fold_right] in H. fold (volume s) in H.
  assert (V : (0 < volume s)%nat) by (destruct (volume s); lia). cbn [unravel ravel].
  destruct (IH (k mod volume s)%nat) as [A B]; [apply Nat.mod_upper_bound; lia|]. split.
  - constructor; [apply Nat.div_lt_upper_bound; lia|assumption].
  - rewrite B. rewrite (Nat.div_mod k (volume s)) at 3 by lia. lia.
Qed.
Lemma column_distribution p sides rest i : shp p = sides :: rest -> column p (ravel rest i) = distribution p i.
Proof. intros H. unfold column, distribution, at_. rewrite H. reflexivity. Qed.
Lemma sample_array N p sz r sides rest src : sizes sz = [r] -> shp p = sides :: rest -> (0 < sides)%nat -> (0 < volume rest)%nat ->
  (forall i, index rest i -> accepted (distribution p i)) ->
  exists b, sample_multinomial N p sz src = Ok (match sz with SNone => first_of_last b | _ => b end) /\ shp b = sides :: rest ++ [r] /\
    forall side i k, (side < sides)%nat -> index rest i -> (k < r)%nat ->
      at_ b (side :: i ++ [k]) = nth side (run (np_row N 1 (removelast (distribution p i))) (src (ravel rest i) k)) 0%nat.
Proof.
  intros Es Hp H1 H2 Ha. destruct (core N p (sizes sz) sides rest src r Hp H1 H2 Es) as (b & E & S & H).
  { intros c Hc. destruct (unravel_index rest c Hc) as [A B]. rewrite <- B, (column_distribution p sides) by assumption. auto. }
  exists b. split; [|split; [assumption|]].
  - unfold sample_multinomial. destruct (apply_along_axis0 _ p) as [a|]; [|discriminate]. cbn [bind] in *. destruct (reshape _ a) as [a'|]; [|discriminate].
    cbn [bind] in *. rewrite E. cbn [bind]. destruct sz; reflexivity.
  - intros side i k A B C. rewrite H by assumption. now rewrite (column_distribution p sides).
Qed.

(** ** simulate_experiment *)
Lemma mapM_value_error {X Y} (f : X -> res Y) l : (forall x e, In x l -> f x = Err e -> e = ValueError) ->
  (exists x e, In x l /\ f x = Err e) -> mapM f l = Err ValueError.
Proof.
  induction l as [|x l IH]; intros H (y & e & Hy & Ey); [destruct Hy|]. cbn [mapM]. destruct (f x) as [a|e'] eqn:Ex.
  - cbn [bind]. rewrite IH; [reflexivity|intros z e' Hz; apply H; now right|]. destruct Hy as [->|Hy]; [congruence|]. eauto.
  - cbn [bind]. f_equal. apply (H x); [now left|assumption].
Qed.
Lemma mapM_error {X Y} (f : X -> res Y) l e : mapM f l = Err e -> exists x, In x l /\ f x = Err e.
Proof.
  induction l as [|x l IH]; cbn [mapM]; [discriminate|]. destruct (f x) as [a|e'] eqn:Ex; cbn [bind].
  - destruct (mapM f l) as [r|e'']; cbn [bind]; [discriminate|]. intros [= <-]. destruct IH as (y & Hy & Ey); [reflexivity|]. exists y. split; [now right|assumption].
  - intros [= <-]. exists x. split; [now left|assumption].
Qed.
Lemma np_multinomial_error N ps M src e : np_multinomial N ps M src = Err e -> e = ValueError.
Proof. unfold np_multinomial. destruct (Rltb _ _); congruence. Qed.
Lemma sample_error N p sz src e : sizes sz <> [] -> sample_multinomial N p sz src = Err e -> e = ValueError.
Proof.
  intros Hs. unfold sample_multinomial. destruct (apply_along_axis0 _ p) as [a|e'] eqn:E1; cbn [bind].
  - unfold reshape. destruct (Nat.eqb _ _); cbn [bind]; [|congruence]. unfold transpose. destruct (is_perm _ _); cbn [bind]; [|congruence]. destruct sz; discriminate.
  - intros [= <-]. unfold apply_along_axis0 in E1. destruct (shp p) as [|sides rest]; [congruence|]. destruct (Nat.eqb _ 0); [congruence|].
    destruct (mapM _ _) as [rs|e''] eqn:E2; cbn [bind] in E1; [discriminate|]. injection E1 as <-. apply mapM_error in E2. destruct E2 as (c & _ & E).
    destruct (sizes sz); [now destruct Hs|]. now apply np_multinomial_error in E.
Qed.
Definition mm_probs {V M E} (values : list V) (like : V -> M -> E -> R) (ms : list M) (junk : nat -> nat -> R) (j : nat) (e : E) : nd R :=
  ND [length values; length ms] (fun k => match nth_error (removelast values) (k / length ms), nth_error ms (k mod length ms) with
      | Some v, Some x => like v x e
      | _, _ => junk (k mod length ms)%nat j
      end).
Lemma mm_column {V M E} (values : list V) (like : V -> M -> E -> R) ms junk j e m x : nth_error ms m = Some x ->
  removelast (distribution (mm_probs values like ms junk j e) [m]) = map (fun v => like v x e) (removelast values).
Proof.
  intros Hm. assert (Lm : (m < length ms)%nat) by (apply nth_error_Some; congruence). unfold distribution. cbn [shp mm_probs hd].
  assert (EE : forall side, at_ (mm_probs values like ms junk j e) [side; m] = match nth_error (removelast values) side with Some v => like v x e | None => junk m j end).
  { intros side. unfold at_. cbn [shp mm_probs elt ravel volume fold_right]. rewrite Nat.mul_1_r, Nat.mul_1_r, Nat.add_0_r. fold (mm_probs values like ms junk j e).
    rewrite (Nat.add_comm (side * _)), Nat.mod_add, Nat.mod_small by lia. rewrite Nat.div_add, Nat.div_small by lia. cbn [Nat.add]. rewrite Hm. destruct (nth_error (removelast values) side); reflexivity. }
  rewrite (map_ext _ _ EE). clear EE. destruct values as [|v0 vs]; [reflexivity|]. set (values := v0 :: vs).
  assert (L : length values = Datatypes.S (length (removelast values))) by (rewrite removelast_length; cbn; lia). rewrite L. rewrite seq_S, map_app. cbn [map Nat.add]. rewrite removelast_last.
  generalize (removelast values). intros l. clear. induction l as [|v l IH]; [reflexivity|]. cbn [length seq map nth_error]. f_equal. rewrite <- seq_shift, map_map. apply IH.
Qed.
