(** Proofs about the distributions: composition of products and mixtures, beta-binomial moments. *)
From Verif Require Import Base RList Ext Sums DomModel DomProofs SmcModel LwModel LwProofs DistModel DistSpec DistProofs.

(** ** Products and mixtures *)
Lemma bind_Ok {A B} (x : res A) (f : A -> res B) b : bind x f = Ok b -> exists a, x = Ok a /\ f a = Ok b.
Proof. destruct x; cbn; [eauto|discriminate]. Qed.
Lemma factors_spec n w l : forall k as_, factors n w k l = Ok as_ -> length as_ = length l /\ forall j f, nth_error l j = Some f -> exists a, sample f n (sub w (k + j)) = Ok a /\ nth_error as_ j = Some a.
Proof.
  induction l as [|f l IH]; intros k as_ H.
  - injection H as <-. split; [reflexivity|]. intros [|j] f H; discriminate.
  - cbn [factors] in H. apply bind_Ok in H. destruct H as (a & E & H). apply bind_Ok in H. destruct H as (r & E2 & H). injection H as <-.
    destruct (IH (S k) r E2) as [L G]. split; [cbn; congruence|]. intros [|j] g Hg; cbn in Hg.
    + injection Hg as <-. exists a. rewrite Nat.add_0_r. split; [assumption|reflexivity].
    + destruct (G j g Hg) as (b & Eb & Nb). exists b. replace (k + S j)%nat with (S k + j)%nat by lia. split; assumption.
Qed.
Lemma concat1_rows n as_ c rows : concat1 as_ = Ok (A2 c rows) -> Forall (fun a => exists d x, a = A2 d x /\ length x = n) as_ ->
  length rows = n /\ forall i, (i < n)%nat -> nth i rows [] = concat (map (fun a => match a with A2 _ x => nth i x [] | A1 _ => [] end) as_).
Proof.
  intros H F. revert c rows H; induction F as [|a l (d & x & -> & Hx) F IH]; intros c rows H; [discriminate|]. destruct l as [|b l].
  - cbn in H. injection H as <- <-. split; [assumption|]. intros i Hi. cbn. now rewrite app_nil_r.
  - rewrite concat1_cons in H by discriminate. apply bind_Ok in H. destruct H as ([y|d' y] & E & H); [discriminate|]. destruct (IH _ _ E) as [Ly G]. rewrite Hx, Ly, Nat.eqb_refl in H. injection H as <- <-.
    split; [rewrite map2_length; congruence|]. intros i Hi. rewrite (nth_map2 _ _ _ _ [] [] []) by congruence. rewrite G by assumption. reflexivity.
Qed.
Lemma fine_A2 d n w a : documented d -> good_source w -> (0 < n)%nat -> sample d n w = Ok a -> exists x, a = A2 (n_rvs d) x /\ length x = n /\ Forall (fun r => length r = n_rvs d) x.
Proof.
  intros Hd Hw Hn E. destruct (sample_fine d n w Hd Hw Hn) as [(b & Eb & S)|[Eb _]]; rewrite E in Eb; [|discriminate]. injection Eb as <-. destruct a as [x|c x]; [destruct S|]. destruct S as (-> & H1 & H2). exists x. auto.
Qed.
Lemma product_rows l n w c rows : documented (Product l) -> good_source w -> (0 < n)%nat -> sample (Product l) n w = Ok (A2 c rows) ->
  exists blocks, length blocks = length l /\ (forall k f, nth_error l k = Some f -> exists x, sample f n (sub w k) = Ok (A2 (n_rvs f) x) /\ nth_error blocks k = Some x) /\
    forall i, (i < n)%nat -> nth i rows [] = concat (map (fun x => nth i x []) blocks).
Proof.
  intros Hd Hw Hn H. apply doc_product in Hd. destruct Hd as [Hne Hd]. rewrite sample_product in H. apply bind_Ok in H. destruct H as (as_ & E & H).
  destruct (factors_spec n w l 0 as_ E) as [L G]. rewrite Forall_forall in Hd.
  assert (G' : forall k f, nth_error l k = Some f -> exists x, sample f n (sub w k) = Ok (A2 (n_rvs f) x) /\ nth_error as_ k = Some (A2 (n_rvs f) x) /\ length x = n).
  { intros k f Hf. destruct (G k f Hf) as (a & Ea & Na). cbn in Ea. destruct (fine_A2 f n (sub w k) a (Hd f (nth_error_In l k Hf)) (sub_good w k Hw) Hn Ea) as (x & -> & Hx & _). eauto. }
  assert (F : Forall (fun a => exists d x, a = A2 d x /\ length x = n) as_).
  { apply Forall_forall. intros a Ha. apply In_nth_error in Ha. destruct Ha as (k & Hk). destruct (nth_error l k) as [f|] eqn:Hf.
    - destruct (G' k f Hf) as (x & _ & Nx & Hx). rewrite Hk in Nx. injection Nx as ->. eauto.
    - apply nth_error_None in Hf. assert (k < length as_)%nat by (apply nth_error_Some; congruence). lia. }
  rewrite hstack_A2 in H; [|destruct as_; [destruct l; [now destruct Hne|discriminate]|discriminate]|eapply Forall_impl; [|exact F]; intros a (d & x & -> & _); exact I].
  destruct (concat1_rows n as_ c rows H F) as [_ R]. exists (map (fun a => match a with A2 _ x => x | A1 _ => [] end) as_). rewrite map_length. split; [assumption|]. split.
  - intros k f Hf. destruct (G' k f Hf) as (x & Ex & Nx & _). exists x. split; [assumption|]. now rewrite nth_error_map, Nx.
  - intros i Hi. rewrite R by assumption. rewrite map_map. f_equal. apply map_ext_in. intros a Ha. rewrite Forall_forall in F. destruct (F a Ha) as (d & x & -> & _). reflexivity.
Qed.
Lemma parts_spec w l : Forall documented l -> good_source w -> forall ns k as_, length ns = length l -> parts w k l ns = Ok as_ ->
  exists blocks, length blocks = length l /\ (forall j f m, nth_error l j = Some f -> nth_error ns j = Some m ->
      (m = 0%nat /\ nth_error blocks j = Some []) \/ exists x, sample f m (sub w (k + j)) = Ok (A2 (n_rvs f) x) /\ length x = m /\ nth_error blocks j = Some x) /\
    concat blocks = concat (map (fun a => match a with A2 _ x => x | A1 _ => [] end) as_) /\ Forall (fun a => exists d x, a = A2 d x) as_.
Proof.
  intros Hd Hw. induction Hd as [|f l Hf Hd IH]; intros [|m ns] k as_ Hl H; try discriminate.
  - injection H as <-. exists []. repeat split; [intros [|j] f m H; discriminate|constructor].
  - injection Hl as Hl. cbn [parts] in H. destruct (Nat.eqb_spec m 0) as [->|Hm].
    + destruct (IH ns (S k) as_ Hl H) as (bs & L & G & C & F). exists ([] :: bs). split; [cbn; congruence|]. split; [|split; assumption].
      intros [|j] g q Hg Hq; cbn in Hg, Hq; [injection Hq as <-; left; now split|]. replace (k + S j)%nat with (S k + j)%nat by lia. now apply G.
    + apply bind_Ok in H. destruct H as (a & E & H). apply bind_Ok in H. destruct H as (r & E2 & H). injection H as <-. destruct (IH ns (S k) r Hl E2) as (bs & L & G & C & F).
      destruct (fine_A2 f m (sub w k) a Hf (sub_good w k Hw) ltac:(lia) E) as (x & -> & Hx & _). exists (x :: bs). split; [cbn; congruence|]. split; [|split; [cbn; now rewrite C|constructor; eauto]].
      intros [|j] g q Hg Hq; cbn in Hg, Hq.
      * injection Hg as <-. injection Hq as <-. right. exists x. rewrite Nat.add_0_r. auto.
      * replace (k + S j)%nat with (S k + j)%nat by lia. now apply G.
Qed.
Lemma concat0_rows as_ c rows : concat0 as_ = Ok (A2 c rows) -> Forall (fun a => exists d x, a = A2 d x) as_ -> rows = concat (map (fun a => match a with A2 _ x => x | A1 _ => [] end) as_).
Proof.
  intros H F. revert c rows H; induction F as [|a l (d & x & ->) F IH]; intros c rows H; [discriminate|]. destruct l as [|b l].
  - cbn in H. injection H as <- <-. cbn. now rewrite app_nil_r.
  - rewrite concat0_cons in H by discriminate. apply bind_Ok in H. destruct H as ([y|d' y] & E & H); [discriminate|]. destruct (Nat.eqb d d'); [|discriminate]. injection H as <- <-. cbn [map concat]. f_equal. exact (IH _ _ E).
Qed.
Lemma mixture_rows weights l shuffle n w c rows : documented (Mixture weights l shuffle) -> good_source w -> (0 < n)%nat -> sample (Mixture weights l shuffle) n w = Ok (A2 c rows) ->
  exists ns blocks, length ns = length l /\ fold_right Nat.add 0%nat ns = n /\ length blocks = length l /\
    (forall k f m, nth_error l k = Some f -> nth_error ns k = Some m ->
      (m = 0%nat /\ nth_error blocks k = Some []) \/ exists x, sample f m (sub w k) = Ok (A2 (n_rvs f) x) /\ length x = m /\ nth_error blocks k = Some x) /\
    (if shuffle then Permutation rows (concat blocks) else rows = concat blocks).
Proof.
  intros Hd Hw Hn H. apply doc_mixture in Hd. destruct Hd as (Hne & Hlw & Hd). rewrite sample_mixture in H. apply bind_Ok in H. destruct H as (as_ & E & H). apply bind_Ok in H. destruct H as (a & E2 & H).
  destruct (gd_counts _ (Hw []) n weights) as [Hc1 Hc2]. specialize (Hc2 ltac:(destruct weights, l; try discriminate; now destruct Hne)). fold (here w) in Hc1, Hc2.
  assert (Hd' : Forall documented l) by (eapply Forall_impl; [|exact Hd]; cbn; tauto).
  destruct (parts_spec w l Hd' Hw _ 0%nat as_ (eq_trans Hc1 Hlw) E) as (bs & L & G & C & F).
  exists (counts (here w) n weights), bs. split; [congruence|]. split; [assumption|]. split; [assumption|]. split; [exact G|]. rewrite C. destruct a as [x|c' x].
  - exfalso. destruct shuffle; discriminate.
  - apply concat0_rows in E2; [|assumption]. rewrite <- E2. destruct shuffle; injection H as <- <-; [|reflexivity]. apply pick_rows_perm. apply (gd_shuffled _ (Hw [])).
Qed.

(** ** Rising factorials and the beta-binomial distribution *)
Lemma rising_last a k : rising a (S k) = rising a k * (a + INR k).
Proof.
  revert a; induction k as [|k IH]; intros a; [cbn; ring|]. change (rising a (S (S k))) with (a * rising (a + 1) (S k)). rewrite IH. change (rising a (S k)) with (a * rising (a + 1) k). rewrite S_INR. ring.
Qed.
Lemma rising_pos a k : 0 < a -> 0 < rising a k.
Proof. revert a; induction k as [|k IH]; intros a Ha; cbn; [lra|]. apply Rmult_lt_0_compat; [assumption|apply IH; lra]. Qed.
Lemma Sum_last n f : Sum (S n) f = Sum n f + f n.
Proof. rewrite !Sum_rsum, seq_S, map_app, rsum_app. cbn [map]. rewrite rsum_cons, rsum_nil. cbn. ring. Qed.
(** Pascal's rule inside a sum. *)
Lemma binom_sum n (f : nat -> R) : Sum (S (S n)) (fun k => INR (binom (S n) k) * f k) = Sum (S n) (fun k => INR (binom n k) * f k) + Sum (S n) (fun k => INR (binom n k) * f (S k)).
Proof.
  rewrite Sum_S. rewrite (Sum_ext (S n) _ (fun k => INR (binom n k) * f (S k) + INR (binom n (S k)) * f (S k))) by (intros k Hk; rewrite binom_S, plus_INR; ring).
  rewrite Sum_plus. rewrite (Sum_last n (fun k => INR (binom n (S k)) * f (S k))). rewrite (binom_gt n (S n)) by lia.
  rewrite (Sum_S n (fun k => INR (binom n k) * f k)). rewrite !binom_0. cbn [INR]. ring.
Qed.
Lemma vandermonde n : forall a b, Sum (S n) (fun k => INR (binom n k) * (rising a k * rising b (n - k))) = rising (a + b) n.
Proof.
  induction n as [|n IH]; intros a b; [cbn; ring|]. rewrite binom_sum.
  rewrite (Sum_ext (S n) (fun k => INR (binom n k) * (rising a k * rising b (S n - k))) (fun k => INR (binom n k) * (rising a k * rising b (n - k)) * (b + INR (n - k)))).
  2:{ intros k Hk. replace (S n - k)%nat with (S (n - k)) by lia. rewrite rising_last. ring. }
  rewrite (Sum_ext (S n) (fun k => INR (binom n k) * (rising a (S k) * rising b (S n - S k))) (fun k => INR (binom n k) * (rising a k * rising b (n - k)) * (a + INR k))).
  2:{ intros k Hk. cbn [Nat.sub]. rewrite rising_last. ring. }
  rewrite <- Sum_plus. rewrite (Sum_ext (S n) _ (fun k => INR (binom n k) * (rising a k * rising b (n - k)) * (a + b + INR n))).
  - rewrite Sum_scal_r, IH. now rewrite rising_last.
  - intros k Hk. rewrite minus_INR by lia. ring.
Qed.
Lemma binom_absorb n : forall k, (S k * binom (S n) (S k) = S n * binom n k)%nat.
Proof.
  induction n as [|n IH]; intros k; [destruct k as [|[|k]]; cbn; lia|]. rewrite (binom_S (S n) k), Nat.mul_add_distr_l, IH. destruct k as [|k].
  - rewrite !binom_0. pose proof (IH 0%nat) as H0. rewrite binom_0 in H0. pose proof (binom_S n 0) as P. rewrite binom_0 in P. lia.
  - pose proof (IH k) as H0. pose proof (binom_S n k) as P. revert H0 P. generalize (binom (S n) (S k)) (binom n k) (binom n (S k)). intros x y z H0 ->. nia.
Qed.
Lemma betabin_total n a b : 0 < a -> 0 < b -> Sum (S n) (betabin_pmf n a b) = 1.
Proof.
  intros Ha Hb. unfold betabin_pmf. pose proof (rising_pos (a + b) n ltac:(lra)). rewrite (Sum_ext (S n) _ (fun k => INR (binom n k) * (rising a k * rising b (n - k)) * / rising (a + b) n)) by (intros; field; lra).
  rewrite Sum_scal_r, vandermonde. apply Rinv_r. lra.
Qed.
(** Shifting one success out of the sum. *)
Lemma betabin_shift n a b (g : nat -> R) : 0 < a -> 0 < b ->
  Sum (S (S n)) (fun k => INR k * g k * betabin_pmf (S n) a b k) = INR (S n) * (a / (a + b)) * Sum (S n) (fun k => g (S k) * betabin_pmf n (a + 1) b k).
Proof.
  intros Ha Hb. rewrite Sum_S. change (INR 0) with 0. rewrite !Rmult_0_l, Rplus_0_l. rewrite <- Sum_scal. apply Sum_ext. intros k Hk. unfold betabin_pmf.
  pose proof (binom_absorb n k) as B. apply (f_equal INR) in B. rewrite !mult_INR in B. cbn [Nat.sub].
  change (rising a (S k)) with (a * rising (a + 1) k). change (rising (a + b) (S n)) with ((a + b) * rising (a + b + 1) n). replace (a + 1 + b) with (a + b + 1) by ring.
  pose proof (rising_pos (a + b + 1) n ltac:(lra)).
  transitivity (INR (S k) * INR (binom (S n) (S k)) * (g (S k) * (a * rising (a + 1) k * rising b (n - k) / ((a + b) * rising (a + b + 1) n)))); [ring|]. rewrite B. field. lra.
Qed.
Lemma betabin_mean n a b : 0 < a -> 0 < b -> Sum (S n) (fun k => INR k * betabin_pmf n a b k) = INR n * a / (a + b).
Proof.
  intros Ha Hb. destruct n as [|n]; [cbn; field; lra|]. rewrite (Sum_ext _ _ (fun k => INR k * 1 * betabin_pmf (S n) a b k)) by (intros; ring). rewrite (betabin_shift n a b (fun _ => 1)) by assumption.
  rewrite (Sum_ext _ _ (betabin_pmf n (a + 1) b)) by (intros; ring). rewrite betabin_total by lra. field. lra.
Qed.
Lemma betabin_square n a b : 0 < a -> 0 < b -> Sum (S n) (fun k => INR k * INR k * betabin_pmf n a b k) = INR n * a / (a + b) * (1 + (INR n - 1) * (a + 1) / (a + b + 1)).
Proof.
  intros Ha Hb. destruct n as [|n]; [cbn; field; lra|]. rewrite (betabin_shift n a b INR) by assumption.
  rewrite (Sum_ext _ _ (fun k => INR k * betabin_pmf n (a + 1) b k + betabin_pmf n (a + 1) b k)) by (intros; rewrite S_INR; ring). rewrite Sum_plus, betabin_mean, betabin_total by lra. rewrite S_INR. field. lra.
Qed.

Lemma filter_filter_and {A} (f g : A -> bool) l : filter f (filter g l) = filter (fun x => g x && f x) l.
Proof. induction l as [|x l IH]; [reflexivity|]. cbn. destruct (g x); cbn; [|assumption]. destruct (f x); now rewrite IH. Qed.
