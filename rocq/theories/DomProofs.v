(** Proofs about domains and structured arrays. *)
From Verif Require Import Base RList Ext DomModel DomSpec.

(** ** Integers inside the reals *)
Lemma Int_part_IZR z : Int_part (IZR z) = z.
Proof.
  unfold Int_part. pose proof (up_tech (IZR z) z) as H. rewrite <- H; [lia|lra|rewrite plus_IZR; lra].
Qed.
Lemma trunc_IZR z : trunc (IZR z) = z.
Proof. unfold trunc. rewrite <- opp_IZR, !Int_part_IZR. rb; lia. Qed.
Lemma integral_spec x : integral (PRe (Fin x)) = true <-> exists z, x = IZR z.
Proof.
  cbn [integral]. destruct (Reqb_spec (IZR (Int_part x)) x) as [E|E]; split; intros H; try discriminate; try reflexivity.
  - exists (Int_part x). congruence.
  - destruct H as (z & ->). exfalso. apply E. now rewrite Int_part_IZR.
Qed.

(** ** Integer domains *)
Lemma arange_In a b z : In z (arange a b) <-> (a <= z < b)%Z.
Proof.
  unfold arange. rewrite in_map_iff. split.
  - intros (i & <- & Hi). apply in_seq in Hi. lia.
  - intros H. exists (Z.to_nat (z - a)). split; [lia|]. apply in_seq. lia.
Qed.
Lemma arange_NoDup a b : NoDup (arange a b).
Proof.
  unfold arange. generalize (Z.to_nat (b - a)); intros n. apply FinFun.Injective_map_NoDup; [|apply seq_NoDup].
  intros x y H. lia.
Qed.
Lemma arange_length a b : length (arange a b) = Z.to_nat (b - a).
Proof. unfold arange. now rewrite map_length, seq_length. Qed.

Lemma int_new_Z a b : int_domain_new (Fin (IZR a)) (Fin (IZR b)) = Ok {| i_min := ZFin a; i_max := ZFin b |}.
Proof. unfold int_domain_new, int_bound. now rewrite !trunc_IZR. Qed.

Definition b_le (b : zbound) (z : Z) : Prop := match b with ZNeg => True | ZFin a => (a <= z)%Z | ZPos => False end.
Definition b_ge (b : zbound) (z : Z) : Prop := match b with ZPos => True | ZFin a => (z <= a)%Z | ZNeg => False end.

Lemma id_in_one d p : id_in_domain d [p] = true <-> exists z, p = PRe (Fin (IZR z)) /\ b_le (i_min d) z /\ b_ge (i_max d) z.
Proof.
  unfold id_in_domain. cbn [forallb]. destruct p as [x|]; cbn [isreal andb]; [|split; [discriminate|intros (z & E & _); discriminate]].
  rewrite !andb_true_r. rewrite !andb_true_iff. split.
  - intros [[H1 H2] H3]. destruct x as [x| | |]; try discriminate. apply integral_spec in H1 as (z & ->).
    exists z. split; [reflexivity|]. split.
    + destruct (i_min d) as [|a|]; cbn in *; [exact I| |discriminate]. destruct (Rleb_spec (IZR a) (IZR z)); [now apply le_IZR|discriminate].
    + destruct (i_max d) as [|a|]; cbn in *; [discriminate| |exact I]. destruct (Rleb_spec (IZR z) (IZR a)); [now apply le_IZR|discriminate].
  - intros (z & E & H1 & H2). injection E as ->. split; [split|].
    + apply integral_spec. now exists z.
    + destruct (i_min d) as [|a|]; cbn in *; [reflexivity| |contradiction]. apply Rleb_true. now apply IZR_le.
    + destruct (i_max d) as [|a|]; cbn in *; [contradiction| |reflexivity]. apply Rleb_true. now apply IZR_le.
Qed.

Lemma id_in_all d ps : id_in_domain d ps = forallb (fun p => id_in_domain d [p]) ps.
Proof.
  unfold id_in_domain. cbn [forallb]. induction ps as [|p ps IH]; [reflexivity|]. cbn [forallb]. rewrite <- IH. clear IH.
  rewrite !andb_true_r. destruct (isreal p); cbn [andb]; [|reflexivity]. destruct (forallb isreal ps); [|now rewrite andb_false_r].
  destruct (integral p), (forallb integral ps), (ge p _), (le p _); cbn; rewrite ?andb_false_r; reflexivity.
Qed.

(** ** Real domains *)
Lemma rd_in_one d p : rd_in_domain d [p] = true <-> exists x, p = PRe x /\ xle (r_min d) x /\ xle x (r_max d).
Proof.
  unfold rd_in_domain. cbn [forallb]. destruct p as [x|]; cbn [isreal andb]; [|split; [discriminate|intros (z & E & _); discriminate]].
  rewrite !andb_true_r, andb_true_iff. split.
  - intros [H1 H2]. now exists x.
  - intros (y & E & H1 & H2). injection E as ->. split; assumption.
Qed.
Lemma rd_in_all d ps : rd_in_domain d ps = forallb (fun p => rd_in_domain d [p]) ps.
Proof.
  unfold rd_in_domain. cbn [forallb]. induction ps as [|p ps IH]; [reflexivity|]. cbn [forallb]. rewrite <- IH. clear IH.
  rewrite !andb_true_r. destruct (isreal p); cbn [andb]; [|reflexivity]. destruct (forallb isreal ps); [|now rewrite andb_false_r].
  destruct (ge p _), (le p _); cbn; rewrite ?andb_false_r; reflexivity.
Qed.

(** ** Combinations with replacement *)
Lemma cwr_nil {A} n : @cwr A [] n = match n with 0%nat => [[]] | S _ => [] end.
Proof. reflexivity. Qed.
Lemma cwr_0 {A} (l : list A) : cwr l 0 = [[]].
Proof. destruct l; reflexivity. Qed.
Lemma cwr_cons {A} (x : A) r n : cwr (x :: r) (S n) = map (cons x) (cwr (x :: r) n) ++ cwr r (S n).
Proof. reflexivity. Qed.

Lemma binom_0 n : binom n 0 = 1%nat. Proof. destruct n; reflexivity. Qed.
Lemma binom_S n k : binom (S n) (S k) = (binom n k + binom n (S k))%nat. Proof. reflexivity. Qed.
Lemma binom_gt n : forall k, (n < k)%nat -> binom n k = 0%nat.
Proof.
  induction n as [|n IH]; intros [|k] H; try lia; [reflexivity|]. rewrite binom_S, !IH by lia. reflexivity.
Qed.
Lemma binom_diag n : binom n n = 1%nat.
Proof. induction n as [|n IH]; [reflexivity|]. rewrite binom_S, IH, binom_gt by lia. lia. Qed.
Lemma binom_fact n : forall k, (k <= n)%nat -> (binom n k * (fact k * fact (n - k)) = fact n)%nat.
Proof.
  induction n as [|n IH]; intros k Hk.
  - assert (k = 0%nat) by lia. subst. reflexivity.
  - destruct k as [|k]; [rewrite binom_0; cbn [fact Nat.sub]; lia|].
    rewrite binom_S. destruct (Nat.eq_dec k n) as [->|Hne].
    + rewrite binom_diag, binom_gt by lia. replace (S n - S n)%nat with 0%nat by lia. cbn [fact]. lia.
    + pose proof (IH k ltac:(lia)) as H1. pose proof (IH (S k) ltac:(lia)) as H2.
      replace (S n - S k)%nat with (n - k)%nat by lia.
      replace (n - k)%nat with (S (n - S k)) in * by lia. set (m := (n - S k)%nat) in *.
      assert (Em : (S m + k = n)%nat) by lia.
      change (fact (S n)) with (S n * fact n)%nat. change (fact (S k)) with (S k * fact k)%nat in *. change (fact (S m)) with (S m * fact m)%nat in *.
      transitivity (S k * (binom n k * (fact k * (S m * fact m))) + S m * (binom n (S k) * (S k * fact k * fact m)))%nat; [ring|].
      rewrite H1, H2. rewrite <- Em. ring.
Qed.

Lemma cwr_length {A} (l : list A) : forall n, l <> [] -> length (cwr l n) = binom (n + length l - 1) (length l - 1).
Proof.
  induction l as [|x r IH]; [congruence|]. intros n _. destruct r as [|y r].
  - cbn [length]. replace (1 - 1)%nat with 0%nat by lia. rewrite binom_0. induction n as [|n IHn]; [reflexivity|].
    rewrite cwr_cons, app_length, map_length, IHn. reflexivity.
  - induction n as [|n IHn]; [cbn [length]; rewrite cwr_0; cbn [length]; now rewrite Nat.add_0_l, binom_diag|].
    rewrite cwr_cons, app_length, map_length, IHn. rewrite IH by discriminate. cbn [length].
    replace (S n + S (S (length r)) - 1)%nat with (S (n + S (length r))) by lia.
    replace (S (S (length r)) - 1)%nat with (S (length r)) by lia.
    rewrite binom_S. replace (n + S (S (length r)) - 1)%nat with (n + S (length r))%nat by lia.
    replace (S n + S (length r) - 1)%nat with (n + S (length r))%nat by lia. replace (S (length r) - 1)%nat with (length r) by lia. lia.
Qed.

(** ** Count vectors.  Counting [i] in a combination of indices. *)
Definition counts (k : nat) (c : list nat) : list Z := map (fun i => Z.of_nat (count_occ Nat.eq_dec c i)) (seq 0 k).

Lemma cwr_map {A B} (f : A -> B) l : forall n, cwr (map f l) n = map (map f) (cwr l n).
Proof.
  induction l as [|x r IH]; intros n; [destruct n; reflexivity|]. cbn [map]. induction n as [|n IHn]; [reflexivity|].
  rewrite !cwr_cons, map_app, IHn, IH, !map_map. cbn [map]. reflexivity.
Qed.

Lemma map2_Zadd_index k f g : map2 Z.add (map f (seq 0 k)) (map g (seq 0 k)) = map (fun i => (f i + g i)%Z) (seq 0 k).
Proof. generalize (seq 0 k). induction l as [|x l IH]; [reflexivity|]. cbn. now rewrite IH. Qed.
Lemma repeat_index k (z : Z) : repeat z k = map (fun _ => z) (seq 0 k).
Proof. generalize 0%nat. induction k as [|k IH]; intros s; [reflexivity|]. cbn. now rewrite <- IH. Qed.

Lemma sum_rows_counts k c : sum_rows k (map (unit_row k) c) = counts k c.
Proof.
  unfold sum_rows. rewrite repeat_index.
  assert (G : forall c f, fold_left (map2 Z.add) (map (unit_row k) c) (map f (seq 0 k)) =
     map (fun i => (f i + Z.of_nat (count_occ Nat.eq_dec c i))%Z) (seq 0 k)).
  { clear. induction c as [|x c IH]; intros f; cbn [map fold_left count_occ].
    - apply map_ext. intros i. lia.
    - unfold unit_row at 2. rewrite map2_Zadd_index, IH. apply map_ext. intros i.
      destruct (Nat.eqb_spec x i), (Nat.eq_dec x i); try contradiction; lia. }
  rewrite (G c (fun _ => 0%Z)). reflexivity.
Qed.

(** Members of [cwr (seq s k) n] are exactly the non-decreasing lists of length n over s..s+k-1. *)
Inductive ndecr : nat -> list nat -> Prop :=
| nd_nil s : ndecr s []
| nd_cons s x l : (s <= x)%nat -> ndecr x l -> ndecr s (x :: l).
Lemma ndecr_weaken s s' l : (s' <= s)%nat -> ndecr s l -> ndecr s' l.
Proof. intros H H1. destruct H1; constructor; [lia|assumption]. Qed.

Lemma cwr_seq k : forall s n c, In c (cwr (seq s k) n) <-> length c = n /\ ndecr s c /\ (forall x, In x c -> (x < s + k)%nat).
Proof.
  induction k as [|k IH]; intros s n c.
  - cbn [seq]. rewrite cwr_nil. destruct n; cbn [In]; split.
    + intros [<-|[]]. split; [reflexivity|]. split; [constructor|]. intros x [].
    + intros (H & _). left. destruct c; [reflexivity|discriminate].
    + intros [].
    + intros (H & Hn & Hb). destruct Hn as [|s x l Hx Hn]; [discriminate|]. specialize (Hb x ltac:(now left)). lia.
  - cbn [seq]. revert c. induction n as [|n IHn]; intros c.
    + rewrite cwr_0. cbn [In]. split.
      * intros [<-|[]]. split; [reflexivity|]. split; [constructor|]. intros x [].
      * intros (H & _). left. destruct c; [reflexivity|discriminate].
    + rewrite cwr_cons, in_app_iff, in_map_iff, IH. split.
      * intros [(c' & <- & Hc)|(H1 & H2 & H3)].
        -- apply IHn in Hc as (H1 & H2 & H3). split; [simpl; lia|]. split; [constructor; [lia|assumption]|].
           intros x [<-|Hx]; [lia|auto].
        -- split; [assumption|]. split; [apply (ndecr_weaken (S s)); [lia|assumption]|]. intros x Hx. specialize (H3 x Hx). lia.
      * intros (H1 & H2 & H3). destruct H2 as [|s x l Hx H2]; [discriminate|]. destruct (Nat.eq_dec x s) as [->|Hne].
        -- left. exists l. split; [reflexivity|]. apply IHn. split; [simpl in H1; lia|]. split; [assumption|]. intros y Hy. apply H3. now right.
        -- right. split; [assumption|]. split; [constructor; [lia|assumption]|]. intros y Hy. specialize (H3 y Hy). lia.
Qed.

Lemma cwr_NoDup {A} (l : list A) : NoDup l -> forall n, NoDup (cwr l n).
Proof.
  induction 1 as [|x r Hx Hr IH]; intros n; [destruct n; repeat constructor; simpl; tauto|].
  induction n as [|n IHn]; [rewrite cwr_0; repeat constructor; simpl; tauto|]. rewrite cwr_cons.
  assert (Hsub : forall l m c, In c (@cwr A l m) -> forall y, In y c -> In y l).
  { clear. induction l as [|x r IH]; intros m c Hc y Hy; [destruct m; [destruct Hc as [<-|[]]; destruct Hy|destruct Hc]|].
    revert c Hc y Hy. induction m as [|m IHm]; intros c Hc y Hy; [rewrite cwr_0 in Hc; destruct Hc as [<-|[]]; destruct Hy|].
    rewrite cwr_cons in Hc. apply in_app_iff in Hc as [Hc|Hc].
    - apply in_map_iff in Hc as (c' & <- & Hc'). destruct Hy as [<-|Hy]; [now left|]. eapply IHm; eassumption.
    - right. eapply IH; eassumption. }
  assert (Happ : forall (u v : list (list A)), NoDup u -> NoDup v -> (forall z, In z u -> ~ In z v) -> NoDup (u ++ v)).
  { clear. induction 1 as [|z u Hz Hu IHu]; intros Hv Hd; [assumption|]. cbn. constructor.
    - rewrite in_app_iff. intros [H|H]; [contradiction|]. apply (Hd z); [now left|assumption].
    - apply IHu; [assumption|]. intros y Hy. apply Hd. now right. }
  apply Happ.
  - apply FinFun.Injective_map_NoDup; [intros a b E; now injection E|assumption].
  - apply IH.
  - intros z Hz Hz'. apply in_map_iff in Hz as (c & <- & _). apply Hx. eapply Hsub; [exact Hz'|]. now left.
Qed.

Lemma ndecr_ge s l : ndecr s l -> forall x, In x l -> (s <= x)%nat.
Proof. induction 1 as [|s x l Hx H IH]; intros y Hy; [destruct Hy|]. destruct Hy as [<-|Hy]; [assumption|]. specialize (IH y Hy). lia. Qed.

(** A non-decreasing list is determined by its counts. *)
Lemma ndecr_counts s l l' : ndecr s l -> ndecr s l' -> (forall i, count_occ Nat.eq_dec l i = count_occ Nat.eq_dec l' i) -> l = l'.
Proof.
  intros H. revert l'. induction H as [s|s x l Hx H IH]; intros l' H' Hc.
  - destruct l' as [|y l']; [reflexivity|]. specialize (Hc y). cbn in Hc. destruct (Nat.eq_dec y y); [discriminate|contradiction].
  - destruct H' as [|s y l' Hy H'].
    + specialize (Hc x). cbn in Hc. destruct (Nat.eq_dec x x); [discriminate|contradiction].
    + assert (x = y).
      { destruct (lt_eq_lt_dec x y) as [[Hlt|]|Hlt]; [exfalso|assumption|exfalso].
        - specialize (Hc x). cbn in Hc. destruct (Nat.eq_dec x x); [|contradiction]. destruct (Nat.eq_dec y x); [lia|].
          assert (In x l') by (apply (count_occ_In Nat.eq_dec); lia). pose proof (ndecr_ge _ _ H' x ltac:(assumption)). lia.
        - specialize (Hc y). cbn in Hc. destruct (Nat.eq_dec y y); [|contradiction]. destruct (Nat.eq_dec x y); [lia|].
          assert (In y l) by (apply (count_occ_In Nat.eq_dec); lia). pose proof (ndecr_ge _ _ H y ltac:(assumption)). lia. }
      subst y. f_equal. apply IH; [assumption|]. intros i. specialize (Hc i). cbn in Hc. destruct (Nat.eq_dec x i); lia.
Qed.

Lemma counts_sum k c : (forall x, In x c -> (x < k)%nat) -> zsum (counts k c) = Z.of_nat (length c).
Proof.
  induction c as [|x c IH]; intros H; unfold counts in *; cbn [count_occ length].
  - clear. induction (seq 0 k) as [|i l IHl]; [reflexivity|]. cbn in *. exact IHl.
  - rewrite Nat2Z.inj_succ, <- IH by (intros y Hy; apply H; now right). specialize (H x ltac:(now left)).
    assert (G : forall s k, (s <= x < s + k)%nat -> zsum (map (fun i => Z.of_nat (if Nat.eq_dec x i then S (count_occ Nat.eq_dec c i) else count_occ Nat.eq_dec c i)) (seq s k))
      = Z.succ (zsum (map (fun i => Z.of_nat (count_occ Nat.eq_dec c i)) (seq s k)))).
    { assert (G0 : forall s k, (x < s)%nat -> zsum (map (fun i => Z.of_nat (if Nat.eq_dec x i then S (count_occ Nat.eq_dec c i) else count_occ Nat.eq_dec c i)) (seq s k))
        = zsum (map (fun i => Z.of_nat (count_occ Nat.eq_dec c i)) (seq s k))).
      { intros s j. revert s. induction j as [|j IHj]; intros s Hs; [reflexivity|]. cbn [seq map zsum fold_right]. fold zsum.
        unfold zsum in IHj. rewrite IHj by lia. destruct (Nat.eq_dec x s); [lia|reflexivity]. }
      intros s j. revert s. induction j as [|j IHj]; intros s Hs; [lia|]. cbn [seq map]. unfold zsum in *. cbn [fold_right].
      destruct (Nat.eq_dec x s) as [->|Hne].
      - rewrite G0 by lia. lia.
      - rewrite IHj by lia. lia. }
    apply G. lia.
Qed.

(** The non-decreasing list with given counts. *)
Fixpoint expand (s : nat) (v : list Z) : list nat :=
  match v with [] => [] | z :: r => repeat s (Z.to_nat z) ++ expand (S s) r end.
Lemma expand_ndecr v : forall s, ndecr s (expand s v).
Proof.
  induction v as [|z r IH]; intros s; [constructor|]. cbn. induction (Z.to_nat z) as [|m IHm]; cbn.
  - apply (ndecr_weaken (S s)); [lia|apply IH].
  - constructor; [lia|assumption].
Qed.
Lemma expand_bound v : forall s x, In x (expand s v) -> (x < s + length v)%nat.
Proof.
  induction v as [|z r IH]; intros s x Hx; [destruct Hx|]. cbn in Hx. apply in_app_iff in Hx as [Hx|Hx].
  - apply repeat_spec in Hx. simpl. lia.
  - specialize (IH (S s) x Hx). simpl. lia.
Qed.
Lemma count_occ_repeat' x n i : count_occ Nat.eq_dec (repeat x n) i = if Nat.eq_dec x i then n else 0%nat.
Proof. induction n as [|n IH]; cbn; [destruct (Nat.eq_dec x i); reflexivity|]. rewrite IH. destruct (Nat.eq_dec x i); reflexivity. Qed.
Lemma expand_counts v : Forall (fun z => (0 <= z)%Z) v -> forall s,
  map (fun i => Z.of_nat (count_occ Nat.eq_dec (expand s v) i)) (seq s (length v)) = v.
Proof.
  induction 1 as [|z r Hz Hr IH]; intros s; [reflexivity|]. cbn [length seq map expand]. f_equal.
  - rewrite count_occ_app, count_occ_repeat'. destruct (Nat.eq_dec s s); [|contradiction].
    assert (E : count_occ Nat.eq_dec (expand (S s) r) s = 0%nat).
    { apply count_occ_not_In. intros H. pose proof (ndecr_ge _ _ (expand_ndecr r (S s)) s H). lia. }
    rewrite E. lia.
  - transitivity (map (fun i => Z.of_nat (count_occ Nat.eq_dec (expand (S s) r) i)) (seq (S s) (length r))); [|apply IH].
    apply map_ext_in. intros i Hi. apply in_seq in Hi. rewrite count_occ_app, count_occ_repeat'. destruct (Nat.eq_dec s i); [lia|]. reflexivity.
Qed.

Definition md_rows (d : mult_domain) : list (list Z) := map (counts (m_k d)) (cwr (seq 0 (m_k d)) (m_n d)).
Lemma md_rows_eq d : map (sum_rows (m_k d)) (cwr (masks (m_k d)) (m_n d)) = md_rows d.
Proof.
  unfold masks, md_rows. rewrite cwr_map, map_map. apply map_ext. intros c. apply sum_rows_counts.
Qed.
Lemma md_rows_length d : (0 < m_k d)%nat -> length (md_rows d) = md_n_members d.
Proof.
  intros H. unfold md_rows, md_n_members. rewrite map_length, cwr_length, seq_length; [reflexivity|].
  destruct (m_k d); [lia|discriminate].
Qed.
Lemma md_values_ok junk d : (0 < m_k d)%nat -> md_values junk d = Ok (md_rows d).
Proof.
  intros H. unfold md_values. rewrite md_rows_eq, md_rows_length by assumption. rewrite Nat.leb_refl, Nat.sub_diag. cbn. now rewrite app_nil_r.
Qed.
Lemma zsum_Forall_nonneg v : Forall (fun z => (0 <= z)%Z) v -> (0 <= zsum v)%Z.
Proof. induction 1 as [|z r Hz Hr IH]; cbn; [lia|]. unfold zsum in IH. lia. Qed.

Lemma md_rows_In d v : (0 < m_k d)%nat -> (In v (md_rows d) <-> length v = m_k d /\ Forall (fun z => (0 <= z)%Z) v /\ zsum v = Z.of_nat (m_n d)).
Proof.
  intros Hk. unfold md_rows. rewrite in_map_iff. split.
  - intros (c & <- & Hc). apply cwr_seq in Hc as (H1 & H2 & H3). split; [unfold counts; now rewrite map_length, seq_length|].
    split; [unfold counts; apply Forall_forall; intros z Hz; apply in_map_iff in Hz as (i & <- & _); lia|].
    rewrite counts_sum; [congruence|]. intros x Hx. specialize (H3 x Hx). lia.
  - intros (H1 & H2 & H3). exists (expand 0 v).
    assert (Ec : counts (m_k d) (expand 0 v) = v) by (unfold counts; rewrite <- H1; now apply expand_counts).
    split; [exact Ec|]. apply cwr_seq. split; [|split; [apply expand_ndecr|intros x Hx; apply expand_bound in Hx; lia]].
    rewrite <- Ec in H3. rewrite counts_sum in H3; [lia|]. intros x Hx. apply expand_bound in Hx. lia.
Qed.
Lemma NoDup_map_in {A B} (f : A -> B) l : (forall x y, In x l -> In y l -> f x = f y -> x = y) -> NoDup l -> NoDup (map f l).
Proof.
  intros Hf H. induction H as [|x l Hx Hl IH]; [constructor|]. cbn. constructor.
  - rewrite in_map_iff. intros (y & E & Hy). apply Hf in E; [subst; contradiction|now right|now left].
  - apply IH. intros; apply Hf; auto; now right.
Qed.
Lemma md_rows_NoDup d : NoDup (md_rows d).
Proof.
  unfold md_rows. apply NoDup_map_in; [|apply cwr_NoDup, seq_NoDup].
  intros x y Hx Hy E. apply cwr_seq in Hx as (_ & Hx & Bx). apply cwr_seq in Hy as (_ & Hy & By).
  apply (ndecr_counts 0); [assumption|assumption|]. intros i. destruct (lt_dec i (m_k d)) as [Hi|Hi].
  - assert (N : nth i (counts (m_k d) x) 0%Z = nth i (counts (m_k d) y) 0%Z) by now rewrite E.
    unfold counts in N.
    assert (G : forall c, nth i (map (fun i => Z.of_nat (count_occ Nat.eq_dec c i)) (seq 0 (m_k d))) 0%Z = Z.of_nat (count_occ Nat.eq_dec c i)).
    { intros c. rewrite (nth_indep _ 0%Z ((fun i => Z.of_nat (count_occ Nat.eq_dec c i)) 0%nat)) by now rewrite map_length, seq_length.
      rewrite (map_nth (fun i => Z.of_nat (count_occ Nat.eq_dec c i))), seq_nth by assumption. reflexivity. }
    rewrite !G in N. lia.
  - assert (Z1 : forall c, (forall z, In z c -> (z < 0 + m_k d)%nat) -> count_occ Nat.eq_dec c i = 0%nat).
    { intros c Hc. apply count_occ_not_In. intros Hin. specialize (Hc i Hin). lia. }
    rewrite (Z1 x), (Z1 y); auto.
Qed.
Lemma md_in_one d v : md_in_domain d [v] = true <-> Forall (fun z => (0 <= z)%Z) v /\ zsum v = Z.of_nat (m_n d).
Proof.
  unfold md_in_domain. cbn [forallb]. rewrite !andb_true_r, andb_true_iff, Z.eqb_eq, forallb_forall, Forall_forall.
  split; intros [H1 H2]; (split; [|assumption]); intros x Hx; specialize (H1 x Hx); lia.
Qed.
Lemma md_in_all d ps : md_in_domain d ps = forallb (fun p => md_in_domain d [p]) ps.
Proof.
  unfold md_in_domain. induction ps as [|p ps IH]; [reflexivity|]. cbn [forallb] in *. rewrite <- IH, !andb_true_r.
  destruct (forallb _ p), (Z.eqb _ _), (forallb _ ps); cbn; rewrite ?andb_false_r; reflexivity.
Qed.
