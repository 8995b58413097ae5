(** Proofs for the mixed approximate updater and the Bayesian Cramer-Rao updater. *)
From Verif Require Import Base Ext RList Sums SmcModel PartSpec MiscModel.

(** ** Permutations of indices *)
Lemma map_nth_seq {A} (d : A) (l : list A) : map (fun i => nth i l d) (seq 0 (length l)) = l.
Proof. induction l as [|a l IH]; [reflexivity|]. cbn [length seq map nth]. f_equal. rewrite <- seq_shift, map_map. exact IH. Qed.
Lemma fancy_perm {A} (d : A) (l : list A) idxs : Permutation idxs (seq 0 (length l)) -> Permutation (fancy d l idxs) l.
Proof. intros H. unfold fancy. transitivity (map (fun i => nth i l d) (seq 0 (length l))); [now apply Permutation_map|rewrite map_nth_seq; reflexivity]. Qed.
Lemma fancy_length {A} (d : A) l idxs : length (fancy d l idxs) = length idxs.
Proof. apply map_length. Qed.
Lemma fancy_nth {A} (d : A) l idxs k : (k < length idxs)%nat -> nth k (fancy d l idxs) d = nth (nth k idxs 0%nat) l d.
Proof. intros H. unfold fancy. rewrite (nth_indep _ d (nth 0 l d)) by (now rewrite map_length). now rewrite (map_nth (fun i => nth i l d)). Qed.
Lemma perm_seq_length l n : Permutation l (seq 0 n) -> length l = n.
Proof. intros H. apply Permutation_length in H. now rewrite seq_length in H. Qed.
Lemma perm_seq_lt l n k : Permutation l (seq 0 n) -> (k < n)%nat -> (nth k l 0 < n)%nat.
Proof. intros H Hk. assert (I : In (nth k l 0%nat) (seq 0 n)) by (apply (Permutation_in _ H), nth_In; rewrite (perm_seq_length _ _ H); assumption). apply in_seq in I. lia. Qed.
Lemma perm_seq_inj l n a b : Permutation l (seq 0 n) -> (a < n)%nat -> (b < n)%nat -> nth a l 0%nat = nth b l 0%nat -> a = b.
Proof.
  intros H Ha Hb E. pose proof (perm_seq_length _ _ H) as L. assert (N : NoDup l) by (apply (Permutation_NoDup (Permutation_sym H)), seq_NoDup).
  rewrite (NoDup_nth l 0%nat) in N. apply N; lia.
Qed.
(** A strictly increasing self-map of an initial segment is the identity. *)
Lemma increasing_id (f : nat -> nat) n : (forall a, (a < n)%nat -> (f a < n)%nat) -> (forall a b, (a < b < n)%nat -> (f a < f b)%nat) -> forall a, (a < n)%nat -> f a = a.
Proof.
  intros Hr Hi.
  assert (Lo : forall a, (a < n)%nat -> (a <= f a)%nat).
  { induction a as [|a IH]; intros Ha; [lia|]. pose proof (IH ltac:(lia)). pose proof (Hi a (S a) ltac:(lia)). lia. }
  assert (Up : forall k a, (a + k + 1 = n)%nat -> (f a <= a)%nat).
  { induction k as [|k IH]; intros a Ha; [pose proof (Hr a ltac:(lia)); lia|]. pose proof (IH (S a) ltac:(lia)). pose proof (Hi a (S a) ltac:(lia)). lia. }
  intros a Ha. pose proof (Lo a Ha). pose proof (Up (n - a - 1)%nat a ltac:(lia)). lia.
Qed.
Lemma argsort_inverse order inv n : Permutation order (seq 0 n) -> argsorts inv (map INR order) -> forall p, (p < n)%nat -> nth (nth p inv 0%nat) order 0%nat = p.
Proof.
  intros Ho [Hp Hs] p Hlt. pose proof (perm_seq_length _ _ Ho) as Lo. rewrite map_length, Lo in *.
  apply (increasing_id (fun p => nth (nth p inv 0%nat) order 0%nat) n); [| |assumption].
  - intros a Ha. apply perm_seq_lt; [assumption|]. now apply (perm_seq_lt _ n).
  - intros a b Hab. pose proof (Hs a b ltac:(lia)) as Le.
    assert (G : forall a, (a < n)%nat -> nth (nth a inv 0%nat) (map INR order) 0 = INR (nth (nth a inv 0%nat) order 0%nat)).
    { intros c Hc. assert (nth c inv 0 < n)%nat by now apply (perm_seq_lt _ n).
      rewrite (nth_indep _ 0 (INR 0)) by (rewrite map_length, Lo; assumption). apply map_nth. }
    rewrite !G in Le by lia. apply INR_le in Le.
    assert (nth (nth a inv 0%nat) order 0%nat <> nth (nth b inv 0%nat) order 0%nat); [|lia].
    intros E. apply (perm_seq_inj _ n) in E; [|assumption|now apply perm_seq_lt; [|lia]|now apply perm_seq_lt; [|lia]]. apply (perm_seq_inj _ n) in E; [lia|assumption|lia|lia].
Qed.

(** ** Masks *)
Lemma nth_map_seq {A} (f : nat -> A) n p d : (p < n)%nat -> nth p (map f (seq 0 n)) d = f p.
Proof. intros H. rewrite (nth_indep _ d (f 0%nat)) by (now rewrite map_length, seq_length). rewrite (map_nth f), seq_nth by assumption. reflexivity. Qed.
Lemma select_partition {A} (mask : list bool) (l : list A) : length mask = length l -> Permutation (select mask l ++ select (map negb mask) l) l.
Proof.
  revert l. induction mask as [|b mask IH]; intros [|x l] E; try discriminate; [constructor|]. cbn [select map]. injection E as E. destruct b; cbn [negb].
  - cbn. constructor. now apply IH.
  - symmetry. apply Permutation_cons_app. symmetry. now apply IH.
Qed.
Lemma scatter_select {A B} (f g : A -> B) mask l : length mask = length l ->
  scatter mask (map f (select mask l)) (map g (select (map negb mask) l)) = map2 (fun (b : bool) x => if b then f x else g x) mask l.
Proof.
  revert l. induction mask as [|b mask IH]; intros [|x l] E; try discriminate; [reflexivity|]. injection E as E. destruct b; cbn; now rewrite IH.
Qed.
Lemma in_select (mask : list bool) (w : list R) x : length mask = length w -> In x (select mask w) -> exists p, (p < length w)%nat /\ nth p mask false = true /\ nth p w 0 = x.
Proof.
  revert w. induction mask as [|b mask IH]; intros [|y w] E H; try discriminate; [destruct H|]. injection E as E. destruct b; cbn [select] in H.
  - destruct H as [<-|H]; [exists 0%nat; cbn; repeat split; lia|]. destruct (IH w E H) as (p & A1 & A2 & A3). exists (S p). cbn. repeat split; try assumption; lia.
  - destruct (IH w E H) as (p & A1 & A2 & A3). exists (S p). cbn. repeat split; try assumption; lia.
Qed.
Lemma select_nil (mask : list bool) (w : list R) : length mask = length w -> select mask w = [] -> forall p, (p < length w)%nat -> nth p mask false = false.
Proof.
  revert w. induction mask as [|b mask IH]; intros [|y w] E H p Hp; try discriminate; [cbn in Hp; lia|]. destruct b; [discriminate|]. destruct p; [reflexivity|].
  cbn in *. apply (IH w); [lia|assumption|lia].
Qed.
Lemma select_nonempty (mask : list bool) (w : list R) p : length mask = length w -> (p < length w)%nat -> nth p mask false = true -> select mask w <> [].
Proof. intros E Hp H C. rewrite (select_nil mask w E C p Hp) in H. discriminate. Qed.
Lemma rsum_select (mask : list bool) (w : list R) : length mask = length w -> rsum (select mask w) = Sum (length w) (fun p => if nth p mask false then nth p w 0 else 0).
Proof.
  revert w. induction mask as [|b mask IH]; intros [|y w] E; try discriminate; [reflexivity|]. injection E as E. cbn [length]. rewrite Sum_S. cbn [nth].
  rewrite <- (IH w E). destruct b; cbn [select]; [apply rsum_cons|]. ring.
Qed.

Lemma rsum_ge_const l t : (forall x, In x l -> t <= x) -> INR (length l) * t <= rsum l.
Proof.
  induction l as [|a l IH]; intros H; [rewrite rsum_nil; cbn; lra|]. cbn [length]. rewrite S_INR, rsum_cons. pose proof (H a (or_introl eq_refl)).
  pose proof (IH (fun x Hx => H x (or_intror Hx))). lra.
Qed.
Lemma rsum_le_const l t : (forall x, In x l -> x <= t) -> rsum l <= INR (length l) * t.
Proof.
  induction l as [|a l IH]; intros H; [rewrite rsum_nil; cbn; lra|]. cbn [length]. rewrite S_INR, rsum_cons. pose proof (H a (or_introl eq_refl)).
  pose proof (IH (fun x Hx => H x (or_intror Hx))). lra.
Qed.

(** ** The order used by the updater *)
Section Mixed.
Variable asort : list R -> list nat.
Hypothesis asort_ok : forall l, argsorts (asort l) l.
Variables (shuffled : list nat) (ratio thresh : R) (min_good : nat) (w : list R).
Hypothesis shuf : Permutation shuffled (seq 0 (length w)).
Hypothesis wpos : Forall (fun x => 0 <= x) w.

Let n := length w.
Let idxs := asort (fancy 0 w shuffled).
Let order := fancy 0%nat shuffled idxs.
Let inv := asort (map INR order).
Let sw := fancy 0 w order.
Let M (k : nat) : bool := Rleb (1 - ratio) (nth k (cumsum sw) 0) || Rleb thresh (nth k sw 0).

Lemma shuf_len : length shuffled = n. Proof. exact (perm_seq_length _ _ shuf). Qed.
Lemma idxs_perm : Permutation idxs (seq 0 n).
Proof. destruct (asort_ok (fancy 0 w shuffled)) as [H _]. now rewrite fancy_length, shuf_len in H. Qed.
Lemma order_perm : Permutation order (seq 0 n).
Proof. transitivity shuffled; [|exact shuf]. apply fancy_perm. rewrite shuf_len. exact idxs_perm. Qed.
Lemma order_len : length order = n. Proof. exact (perm_seq_length _ _ order_perm). Qed.
Lemma sw_len : length sw = n. Proof. unfold sw. rewrite fancy_length. exact order_len. Qed.
Lemma inv_perm : Permutation inv (seq 0 n).
Proof. destruct (asort_ok (map INR order)) as [H _]. now rewrite map_length, order_len in H. Qed.
Lemma inv_right p : (p < n)%nat -> nth (nth p inv 0%nat) order 0%nat = p.
Proof. apply argsort_inverse; [exact order_perm|apply asort_ok]. Qed.
Lemma inv_lt p : (p < n)%nat -> (nth p inv 0 < n)%nat.
Proof. apply perm_seq_lt, inv_perm. Qed.
Lemma order_lt k : (k < n)%nat -> (nth k order 0 < n)%nat.
Proof. apply perm_seq_lt, order_perm. Qed.
Lemma inv_left k : (k < n)%nat -> nth (nth k order 0%nat) inv 0%nat = k.
Proof.
  intros Hk. apply (perm_seq_inj order n); [exact order_perm|apply inv_lt; now apply order_lt|assumption|]. apply inv_right. now apply order_lt.
Qed.
Lemma sw_nth k : (k < n)%nat -> nth k sw 0 = nth (nth k order 0%nat) w 0.
Proof. intros Hk. apply fancy_nth. rewrite order_len. exact Hk. Qed.
Lemma sw_sorted a b : (a <= b < n)%nat -> nth a sw 0 <= nth b sw 0.
Proof.
  intros Hab. rewrite !sw_nth by lia. assert (Li : length idxs = n) by exact (perm_seq_length _ _ idxs_perm).
  unfold order. rewrite !fancy_nth by lia.
  destruct (asort_ok (fancy 0 w shuffled)) as [_ H]. rewrite fancy_length, shuf_len in H. specialize (H a b Hab). fold idxs in H.
  rewrite !fancy_nth in H by (rewrite shuf_len; apply perm_seq_lt; [exact idxs_perm|lia]). exact H.
Qed.
Lemma sw_pos : Forall (fun x => 0 <= x) sw.
Proof.
  apply Forall_forall. intros x Hx. apply in_map_iff in Hx. destruct Hx as (k & <- & Hk). rewrite Forall_forall in wpos. apply wpos. apply nth_In.
  assert (I : In k (seq 0 n)) by (apply (Permutation_in _ order_perm), Hk). apply in_seq in I. unfold n in I. lia.
Qed.
Lemma firstn_mono l a b : Forall (fun x => 0 <= x) l -> (a <= b)%nat -> rsum (firstn a l) <= rsum (firstn b l).
Proof.
  intros F. revert a b. induction F as [|x l Hx F IH]; intros [|a] [|b] Hab; cbn [firstn]; try lra; try lia.
  - rewrite rsum_cons. rewrite rsum_nil. pose proof (IH 0%nat b ltac:(lia)). cbn [firstn] in H. rewrite rsum_nil in H. lra.
  - rewrite !rsum_cons. pose proof (IH a b ltac:(lia)). lra.
Qed.
Lemma cum_mono a b : (a <= b < n)%nat -> nth a (cumsum sw) 0 <= nth b (cumsum sw) 0.
Proof. intros H. rewrite !cumsum_nth by (rewrite sw_len; lia). apply firstn_mono; [exact sw_pos|lia]. Qed.
Lemma M_mono a b : (a <= b < n)%nat -> M a = true -> M b = true.
Proof.
  intros H. unfold M. rewrite !orb_true_iff. pose proof (cum_mono a b H). pose proof (sw_sorted a b H).
  intros [E|E]; [left|right]; (destruct (Rleb_spec (1 - ratio) (nth a (cumsum sw) 0)) || idtac);
  repeat match goal with H : Rleb ?x ?y = true |- _ => destruct (Rleb_spec x y); [clear H|discriminate] end; try discriminate; apply Rleb_true; lra.
Qed.
(** The threshold test is an upper set of the sorted order. *)
Lemma M_cut : exists cut, (cut <= n)%nat /\ forall k, (k < n)%nat -> M k = (cut <=? k)%nat.
Proof.
  assert (G : forall m, (m <= n)%nat -> exists cut, (cut <= m)%nat /\ forall k, (k < m)%nat -> M k = (cut <=? k)%nat).
  { induction m as [|m IH]; intros Hm; [exists 0%nat; split; [lia|intros; lia]|]. destruct (IH ltac:(lia)) as (cut & Hc & HM).
    destruct (M m) eqn:E.
    - exists cut. split; [lia|]. intros k Hk. destruct (Nat.eq_dec k m) as [->|Hne]; [|apply HM; lia]. rewrite E. symmetry. apply Nat.leb_le. lia.
    - exists (S m). split; [lia|]. intros k Hk. replace (S m <=? k)%nat with false by (symmetry; apply Nat.leb_gt; lia).
      destruct (Nat.eq_dec k m) as [->|Hne]; [assumption|]. destruct (M k) eqn:Ek; [|reflexivity]. rewrite (M_mono k m) in E; [discriminate|lia|assumption]. }
  apply (G n). lia.
Qed.
Lemma good_first : fancy false (map2 (fun c x => Rleb (1 - ratio) c || Rleb thresh x) (cumsum sw) sw) inv = map (fun p => M (nth p inv 0%nat)) (seq 0 n).
Proof.
  unfold fancy. pose proof (perm_seq_length _ _ inv_perm) as Li. rewrite <- (map_nth_seq 0%nat inv) at 1. rewrite Li, map_map. apply map_ext_in. intros p Hp. apply in_seq in Hp.
  unfold M. rewrite (nth_map2 _ _ _ _ 0 0) by (rewrite ?cumsum_length, ?sw_len; try reflexivity; apply inv_lt; lia). reflexivity.
Qed.
Lemma count_cut m cut : (cut <= m)%nat -> length (filter (fun b => b) (map (fun k => (cut <=? k)%nat) (seq 0 m))) = (m - cut)%nat.
Proof.
  intros H. induction m as [|m IH]; [reflexivity|]. rewrite seq_S, map_app, filter_app, app_length. cbn [map filter length].
  destruct (Nat.eq_dec cut (S m)) as [->|Hne].
  - replace (S m <=? 0 + m)%nat with false by (symmetry; apply Nat.leb_gt; lia). cbn [filter length].
    assert (Z : filter (fun b : bool => b) (map (fun k => (S m <=? k)%nat) (seq 0 m)) = []).
    { clear. assert (G : forall l, (forall k, In k l -> (k <= m)%nat) -> filter (fun b : bool => b) (map (fun k => (S m <=? k)%nat) l) = []).
      { induction l as [|k l IH]; intros Hl; [reflexivity|]. cbn [map filter]. replace (S m <=? k)%nat with false by (symmetry; apply Nat.leb_gt; pose proof (Hl k (or_introl eq_refl)); lia). apply IH. intros; apply Hl; now right. }
      apply G. intros k Hk. apply in_seq in Hk. lia. }
    rewrite Z. cbn. lia.
  - rewrite IH by lia. replace (cut <=? 0 + m)%nat with true by (symmetry; apply Nat.leb_le; lia). cbn [filter length]. lia.
Qed.
Lemma filter_perm_len (f : nat -> bool) l m : Permutation l m -> length (filter (fun b => b) (map f l)) = length (filter (fun b => b) (map f m)).
Proof. induction 1; cbn [map filter]; [reflexivity| | |congruence]; repeat match goal with |- context [if ?b then _ else _] => destruct b end; cbn [length]; congruence. Qed.
Lemma count_pos cut : (cut <= n)%nat -> length (filter (fun b => b) (map (fun p => (cut <=? nth p inv 0%nat)%nat) (seq 0 n))) = (n - cut)%nat.
Proof.
  intros H. rewrite <- (count_cut n cut H). rewrite <- (map_map (fun p => nth p inv 0%nat) (fun k => (cut <=? k)%nat)).
  rewrite (filter_perm_len (fun k => (cut <=? k)%nat) (map (fun p => nth p inv 0%nat) (seq 0 n)) (seq 0 n)); [reflexivity|].
  rewrite <- (perm_seq_length _ _ inv_perm) at 1. rewrite map_nth_seq. exact inv_perm.
Qed.

(** Whatever branch is taken, the good particles are those at sorted positions [cut] and above. *)
Lemma mask_cut : exists cut, (cut <= n)%nat /\
  mixed_mask asort shuffled ratio thresh min_good w = map (fun p => (cut <=? nth p inv 0%nat)%nat) (seq 0 n) /\
  (forall k, (k < cut)%nat -> M k = false) /\ (Nat.min min_good n <= n - cut)%nat /\
  ((Nat.min min_good n < n - cut)%nat -> forall k, (cut <= k < n)%nat -> M k = true).
Proof.
  destruct M_cut as (cut & Hc & HM). unfold mixed_mask. fold idxs order inv sw. rewrite good_first.
  assert (E1 : map (fun p => M (nth p inv 0%nat)) (seq 0 n) = map (fun p => (cut <=? nth p inv 0%nat)%nat) (seq 0 n)).
  { apply map_ext_in. intros p Hp. apply in_seq in Hp. apply HM, inv_lt. lia. }
  rewrite E1, count_pos by assumption. destruct (Nat.ltb_spec (n - cut) min_good) as [Hlt|Hge].
  - exists (n - min_good)%nat. split; [lia|]. rewrite map_length, seq_length, order_len. split; [|split; [|split]].
    + apply map_ext_in. intros p Hp. apply in_seq in Hp. apply eq_true_iff_eq. rewrite existsb_exists, Nat.leb_le. split.
      * intros (q & Hq & Eq). apply Nat.eqb_eq in Eq. subst q. destruct (In_nth _ _ 0%nat Hq) as (j & Hj & Ej). rewrite skipn_length, order_len in Hj. 
        assert (Ej' : nth (n - min_good + j) order 0%nat = p) by (rewrite <- Ej; rewrite <- (firstn_skipn (n - min_good) order) at 1; rewrite app_nth2; rewrite firstn_length, order_len; [f_equal; lia|lia]).
        rewrite <- Ej'. rewrite inv_left by lia. lia.
      * intros Hle. exists p. split; [|now apply Nat.eqb_refl]. pose proof (inv_lt p ltac:(lia)) as Hl.
        assert (E : nth (nth p inv 0 - (n - min_good))%nat (skipn (n - min_good) order) 0%nat = p).
        { rewrite <- (inv_right p) at 2 by lia. rewrite <- (firstn_skipn (n - min_good) order) at 2. rewrite app_nth2; rewrite firstn_length, order_len; [f_equal; lia|lia]. }
        rewrite <- E. apply nth_In. rewrite skipn_length, order_len. lia.
    + intros k Hk. rewrite HM by lia. apply Nat.leb_gt. lia.
    + lia.
    + lia.
  - exists cut. split; [assumption|]. split; [reflexivity|]. split; [|split].
    + intros k Hk. rewrite HM by lia. apply Nat.leb_gt. lia.
    + lia.
    + intros _ k Hk. rewrite HM by lia. apply Nat.leb_le. lia.
Qed.
Lemma mask_len : length (mixed_mask asort shuffled ratio thresh min_good w) = length w.
Proof. destruct mask_cut as (cut & _ & -> & _). now rewrite map_length, seq_length. Qed.

Lemma mask_heaviest p q : (p < n)%nat -> (q < n)%nat ->
  nth p (mixed_mask asort shuffled ratio thresh min_good w) false = true -> nth q (mixed_mask asort shuffled ratio thresh min_good w) false = false ->
  nth q w 0 <= nth p w 0.
Proof.
  intros Hp Hq. destruct mask_cut as (cut & _ & -> & _). rewrite !nth_map_seq by assumption. intros A B. apply Nat.leb_le in A. apply Nat.leb_gt in B.
  rewrite <- (inv_right p) by assumption. rewrite <- (inv_right q) by assumption. rewrite <- !sw_nth by now apply inv_lt. apply sw_sorted. pose proof (inv_lt p Hp). lia.
Qed.
Lemma mask_count : (Nat.min min_good n <= length (filter (fun b => b) (mixed_mask asort shuffled ratio thresh min_good w)))%nat.
Proof. destruct mask_cut as (cut & Hc & -> & _ & H & _). now rewrite count_pos. Qed.

(** Total weight at sorted positions below [cut]. *)
Lemma sum_below cut : (cut <= n)%nat -> Sum n (fun p => if (cut <=? nth p inv 0%nat)%nat then 0 else nth p w 0) = rsum (firstn cut sw).
Proof.
  intros Hc. rewrite Sum_rsum.
  rewrite (rsum_perm _ (map (fun p => if (cut <=? nth p inv 0%nat)%nat then 0 else nth p w 0) order)) by (apply Permutation_map, Permutation_sym, order_perm).
  rewrite <- (map_nth_seq 0%nat order) at 1. rewrite map_map, order_len.
  transitivity (rsum (map (fun k => if (cut <=? k)%nat then 0 else nth k sw 0) (seq 0 n))).
  - f_equal. apply map_ext_in. intros k Hk. apply in_seq in Hk. rewrite inv_left, sw_nth by lia. reflexivity.
  - rewrite <- Sum_rsum. revert Hc. rewrite <- sw_len. clear. generalize sw as l. intros l. revert cut. induction l as [|a l IH]; intros [|cut] H; try (cbn in H; lia).
    + reflexivity.
    + cbn [firstn]. apply Sum_zero. intros i Hi. reflexivity.
    + cbn [length] in *. rewrite Sum_S. cbn [firstn]. rewrite rsum_cons. cbn [Nat.leb nth]. f_equal. apply IH. lia.
Qed.
Hypothesis wsum : rsum w = 1.
Lemma total_split cut : Sum n (fun p => if (cut <=? nth p inv 0%nat)%nat then nth p w 0 else 0) + Sum n (fun p => if (cut <=? nth p inv 0%nat)%nat then 0 else nth p w 0) = 1.
Proof.
  rewrite <- Sum_plus, <- wsum. rewrite <- (map_nth_seq 0 w) at 1. fold n. rewrite <- Sum_rsum. apply Sum_ext. intros i _. destruct (cut <=? nth i inv 0%nat)%nat; ring.
Qed.
(** Either everything is good or the good weight exceeds the mixture ratio. *)
Lemma mask_mass : (forall p, (p < n)%nat -> nth p (mixed_mask asort shuffled ratio thresh min_good w) false = true) \/
  ratio < rsum (select (mixed_mask asort shuffled ratio thresh min_good w) w).
Proof.
  destruct mask_cut as (cut & Hc & Em & HM & _). rewrite rsum_select by exact mask_len. rewrite Em. destruct cut as [|cut].
  - left. intros p Hp. now rewrite nth_map_seq.
  - right. pose proof (HM cut ltac:(lia)) as F. unfold M in F. apply orb_false_iff in F. destruct F as [F _].
    destruct (Rleb_spec (1 - ratio) (nth cut (cumsum sw) 0)) as [|F']; [discriminate|]. rewrite cumsum_nth in F' by (rewrite sw_len; lia).
    rewrite <- sum_below in F' by assumption. pose proof (total_split (S cut)) as T.
    rewrite (Sum_ext (length w) _ (fun p => if (S cut <=? nth p inv 0%nat)%nat then nth p w 0 else 0)); [fold n; lra|].
    intros p Hp. now rewrite nth_map_seq.
Qed.
Lemma all_good_ratio : 1 <= ratio -> forall p, (p < n)%nat -> nth p (mixed_mask asort shuffled ratio thresh min_good w) false = true.
Proof.
  intros Hr p Hp. destruct mask_cut as (cut & Hc & Em & HM & _). destruct cut as [|cut]; [rewrite Em; now rewrite nth_map_seq|].
  pose proof (HM cut ltac:(lia)) as F. unfold M in F. apply orb_false_iff in F. destruct F as [F _].
  destruct (Rleb_spec (1 - ratio) (nth cut (cumsum sw) 0)) as [|F']; [discriminate|]. rewrite cumsum_nth in F' by (rewrite sw_len; lia).
  pose proof (firstn_mono sw 0 (S cut) sw_pos ltac:(lia)) as P. change (firstn 0 sw) with (@nil R) in P. rewrite rsum_nil in P. lra.
Qed.

(** The internal assertion fails exactly when no particle is left for the approximate model. *)
Lemma mixed_assert_iff : 0 <= ratio ->
  mixed_assert (mixed_mask asort shuffled ratio thresh min_good w) w = false <-> (forall p, (p < n)%nat -> nth p (mixed_mask asort shuffled ratio thresh min_good w) false = true).
Proof.
  intros Hr. set (mask := mixed_mask asort shuffled ratio thresh min_good w) in *. pose proof mask_len as Lm. fold mask in Lm.
  assert (Ln : length (map negb mask) = length w) by now rewrite map_length.
  assert (Nn : forall p, (p < n)%nat -> nth p (map negb mask) false = negb (nth p mask false)).
  { intros p Hp. rewrite (nth_indep _ false (negb false)) by (rewrite Ln; exact Hp). apply map_nth. }
  split.
  - intros F p Hp. destruct (nth p mask false) eqn:Ep; [reflexivity|exfalso].
    assert (Gne : select mask w <> []).
    { intros C. pose proof mask_mass as Mm. fold mask in Mm. destruct Mm as [Al|Mm]; [rewrite Al in Ep by assumption; discriminate|]. rewrite C in Mm. rewrite rsum_nil in Mm. lra. }
    assert (Bne : select (map negb mask) w <> []) by (apply (select_nonempty _ _ p); [assumption|assumption|rewrite Nn, Ep by assumption; reflexivity]).
    assert (Gb : forall x y, In x (select mask w) -> In y (select (map negb mask) w) -> y <= x).
    { intros x y Hx Hy. apply in_select in Hx; [|assumption]. apply in_select in Hy; [|assumption]. destruct Hx as (a & A1 & A2 & <-). destruct Hy as (b & B1 & B2 & <-).
      apply mask_heaviest; try assumption. rewrite Nn in B2 by assumption. fold mask. destruct (nth b mask false); [discriminate|reflexivity]. }
    unfold mixed_assert, xmean in F. assert (P1 : 0 < INR (length (select mask w))) by (apply lt_0_INR; destruct (select mask w); [congruence|cbn; lia]).
    assert (P2 : 0 < INR (length (select (map negb mask) w))) by (apply lt_0_INR; destruct (select (map negb mask) w); [congruence|cbn; lia]).
    cbn [xdiv] in F. rewrite !Reqb_false in F by lra. cbn [xsub xopp xadd xleb] in F.
    destruct (Rleb_spec (- / 1000000) (rsum (select mask w) / INR (length (select mask w)) + - (rsum (select (map negb mask) w) / INR (length (select (map negb mask) w))))) as [|F']; [discriminate|].
    destruct (select (map negb mask) w) as [|y bad] eqn:Eb; [congruence|].
    assert (Q : exists t, (forall x, In x (select mask w) -> t <= x) /\ (forall z, In z (y :: bad) -> z <= t)).
    { destruct (select mask w) as [|x0 good] eqn:Eg; [congruence|]. clear - Gb.
      assert (K : forall l : list R, l <> [] -> exists t, In t l /\ forall x, In x l -> t <= x).
      { induction l as [|a l IH]; intros H; [congruence|]. destruct l as [|b l]; [exists a; split; [now left|intros x [<-|[]]; lra]|].
        destruct (IH ltac:(discriminate)) as (t & It & Ht). destruct (Rle_dec a t).
        - exists a. split; [now left|]. intros x [<-|Hx]; [lra|]. specialize (Ht x Hx). lra.
        - exists t. split; [now right|]. intros x [<-|Hx]; [lra|]. now apply Ht. }
      destruct (K (x0 :: good) ltac:(discriminate)) as (t & It & Ht). exists t. split; [assumption|]. intros z Hz. now apply Gb. }
    destruct Q as (t & Q1 & Q2). apply rsum_ge_const in Q1. apply rsum_le_const in Q2.
    assert (t <= rsum (select mask w) / INR (length (select mask w))) by (apply (Rmult_le_reg_r (INR (length (select mask w)))); [assumption|]; unfold Rdiv; rewrite Rmult_assoc, Rinv_l by lra; lra).
    assert (rsum (y :: bad) / INR (length (y :: bad)) <= t) by (apply (Rmult_le_reg_r (INR (length (y :: bad)))); [assumption|]; unfold Rdiv; rewrite Rmult_assoc, Rinv_l by lra; lra).
    assert (0 < / 1000000) by lra. lra.
  - intros Al. assert (C : select (map negb mask) w = []).
    { destruct (select (map negb mask) w) as [|y bad] eqn:Eb; [reflexivity|]. assert (I : In y (select (map negb mask) w)) by (rewrite Eb; now left).
      apply in_select in I; [|assumption]. destruct I as (p & Hp & Ep & _). rewrite Nn, (Al p Hp) in Ep by assumption. discriminate. }
    unfold mixed_assert. rewrite C. unfold xmean at 2. cbn [length INR]. rewrite rsum_nil, xdiv_00. destruct (xmean (select mask w)); reflexivity.
Qed.
End Mixed.
