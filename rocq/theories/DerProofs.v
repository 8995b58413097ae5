(** Proofs about the derived models: binomial and multinomial likelihoods. *)
From Verif Require Import Base RList Ext Sums DomModel DomProofs DerModel DerSpec.

(** ** Records *)
Lemma strings_length k n s : In s (strings k n) -> length s = n /\ Forall (fun i => (i < k)%nat) s.
Proof.
  revert s; induction n as [|n IH]; intros s H; cbn [strings] in H.
  - destruct H as [<-|[]]. split; [reflexivity|constructor].
  - apply in_flat_map in H. destruct H as (i & Hi & H). apply in_map_iff in H. destruct H as (t & <- & Ht). apply in_seq in Hi.
    destruct (IH t Ht). split; [cbn; lia|]. constructor; [lia|assumption].
Qed.
Lemma SumL_flat_map {A B} (f : A -> list B) l (g : B -> R) : SumL (flat_map f l) g = SumL l (fun a => SumL (f a) g).
Proof. induction l as [|a l IH]; [reflexivity|]. cbn [flat_map]. rewrite SumL_app, IH. reflexivity. Qed.
Lemma SumL_map {A B} (f : A -> B) l (g : B -> R) : SumL (map f l) g = SumL l (fun a => g (f a)).
Proof. induction l as [|a l IH]; [reflexivity|]. cbn [map]. unfold SumL in *. cbn [fold_right]. now rewrite IH. Qed.
Lemma SumL_seq n f : SumL (seq 0 n) f = Sum n f.
Proof. reflexivity. Qed.
Lemma filter_flat_map {A B} (P : B -> bool) (f : A -> list B) l : filter P (flat_map f l) = flat_map (fun a => filter P (f a)) l.
Proof. induction l as [|a l IH]; [reflexivity|]. cbn [flat_map]. now rewrite filter_app, IH. Qed.
Lemma filter_map {A B} (P : B -> bool) (f : A -> B) l : filter P (map f l) = map f (filter (fun a => P (f a)) l).
Proof. induction l as [|a l IH]; [reflexivity|]. cbn [map filter]. destruct (P (f a)); cbn [map]; now rewrite IH. Qed.
Lemma filter_ext_In {A} (P Q : A -> bool) l : (forall a, In a l -> P a = Q a) -> filter P l = filter Q l.
Proof. induction l as [|a l IH]; intros H; [reflexivity|]. cbn. rewrite H by now left. rewrite IH; [reflexivity|]. intros; apply H; now right. Qed.

Lemma strings_total k n p : SumL (strings k n) (record_prob p) = Sum k p ^ n.
Proof.
  induction n as [|n IH]; [cbn; ring|]. cbn [strings pow]. rewrite SumL_flat_map, SumL_seq.
  rewrite (Sum_ext k _ (fun i => p i * Sum k p ^ n)). - rewrite Sum_scal_r. ring.
  - intros i _. rewrite SumL_map. cbn [record_prob]. now rewrite SumL_scal, IH.
Qed.
Lemma record_prob_nonneg p s : (forall i, 0 <= p i) -> 0 <= record_prob p s.
Proof. intros H. induction s as [|i s IH]; cbn; [lra|]. now apply Rmult_le_pos. Qed.
Lemma record_prob_ext p q k s : (forall i, (i < k)%nat -> p i = q i) -> Forall (fun i => (i < k)%nat) s -> record_prob p s = record_prob q s.
Proof. intros H Hs. induction Hs as [|i s Hi Hs IH]; [reflexivity|]. cbn. now rewrite H, IH. Qed.

(** Grouping by a key. *)
Lemma SumL_group {A K} (dec : forall a b : K, {a = b} + {a <> b}) (key : A -> K) (g : A -> R) keys l : NoDup keys -> (forall a, In a l -> In (key a) keys) ->
  SumL keys (fun v => SumL (filter (fun a => if dec (key a) v then true else false) l) g) = SumL l g.
Proof.
  intros Hn. induction l as [|a l IH]; intros H.
  - cbn [filter]. rewrite SumL_rsum. apply rsum_map_zero.
  - assert (E : SumL (a :: l) g = g a + SumL l g) by reflexivity. rewrite E, <- IH by (intros; apply H; now right).
    assert (F : forall keys, NoDup keys -> In (key a) keys -> SumL keys (fun v => if dec (key a) v then g a else 0) = g a).
    { clear. intros keys Hn. induction Hn as [|k keys Hk Hn IHn]; intros H; [destruct H|]. unfold SumL in *. cbn [fold_right].
      destruct (dec (key a) k) as [<-|D].
      - assert (Z : forall ks, ~ In (key a) ks -> fold_right (fun v acc => (if dec (key a) v then g a else 0) + acc) 0 ks = 0).
        { induction ks as [|x ks IHk]; intros Hx; [reflexivity|]. cbn. destruct (dec (key a) x) as [<-|]; [exfalso; apply Hx; now left|]. rewrite IHk; [ring|]. intros ?; apply Hx; now right. }
        rewrite Z by assumption. ring.
      - destruct H as [H|H]; [congruence|]. rewrite IHn by assumption. ring. }
    rewrite <- (F keys) at 1 by (try assumption; apply H; now left). rewrite !SumL_rsum, <- rsum_map_plus. apply rsum_map_ext. intros v _.
    cbn [filter]. destruct (dec (key a) v); [reflexivity|]. ring.
Qed.

(** ** Binomial *)
Lemma ones_mass_0 p k : ones_mass 0 p k = if Nat.eqb k 0 then 1 else 0.
Proof. unfold ones_mass. cbn. destruct k; cbn; ring. Qed.
Lemma ones_mass_S n p k : ones_mass (S n) p k = p 0%nat * ones_mass n p k + (match k with O => 0 | S k' => p 1%nat * ones_mass n p k' end).
Proof.
  unfold ones_mass. cbn [strings seq flat_map]. rewrite app_nil_r, filter_app, SumL_app, !filter_map, !SumL_map. cbn [record_prob]. rewrite !SumL_scal. f_equal.
  destruct k as [|k].
  - cbn. replace (filter (fun _ => false) (strings 2 n)) with (@nil (list nat)); [cbn; ring|]. induction (strings 2 n); [reflexivity|]. cbn. assumption.
  - reflexivity.
Qed.
Lemma binom_gt n k : (n < k)%nat -> binom n k = 0%nat.
Proof. revert k; induction n as [|n IH]; intros [|k] H; cbn; try lia. rewrite !IH by lia. lia. Qed.
Lemma ones_mass_pmf n k p : p 0%nat + p 1%nat = 1 -> ones_mass n p k = INR (binom n k) * p 1%nat ^ k * (1 - p 1%nat) ^ (n - k).
Proof.
  intros H. replace (1 - p 1%nat) with (p 0%nat) by lra. revert k; induction n as [|n IH]; intros k.
  - rewrite ones_mass_0. destruct k; cbn; ring.
  - rewrite ones_mass_S, IH. destruct k as [|k].
    + replace (binom n 0) with 1%nat by (destruct n; reflexivity). cbn [binom pow]. rewrite Nat.sub_0_r. cbn [Nat.sub pow INR]. ring.
    + rewrite IH. cbn [binom]. rewrite plus_INR. cbn [Nat.sub pow]. destruct (Nat.le_gt_cases (S k) n) as [L|L].
      * replace (n - k)%nat with (S (n - S k)) by lia. cbn [pow]. ring.
      * rewrite (binom_gt n (S k)) by lia. cbn [INR]. ring.
Qed.
Lemma ones_mass_sum n p : SumL (seq 0 (S n)) (ones_mass n p) = (p 0%nat + p 1%nat) ^ n.
Proof.
  transitivity (SumL (strings 2 n) (record_prob p)).
  - rewrite <- (SumL_group Nat.eq_dec (fun s => count_occ Nat.eq_dec s 1%nat) (record_prob p) (seq 0 (S n)) (strings 2 n)).
    + apply SumL_ext. intros k _. unfold ones_mass. f_equal. apply filter_ext_In. intros s _.
      destruct (Nat.eqb_spec (count_occ Nat.eq_dec s 1%nat) k), (Nat.eq_dec (count_occ Nat.eq_dec s 1%nat) k); congruence.
    + apply seq_NoDup.
    + intros s Hs. apply strings_length in Hs. apply in_seq. pose proof (count_occ_bound Nat.eq_dec 1%nat s). lia.
  - rewrite strings_total. f_equal. unfold Sum. cbn. ring.
Qed.

(** ** Multinomial *)
Fixpoint dec_at (i : nat) (v : list nat) : list nat :=
  match v, i with
  | [], _ => []
  | x :: r, O => pred x :: r
  | x :: r, S i' => x :: dec_at i' r
  end.
(** product of p_j^{n_j} / n_j! *)
Fixpoint G (p : nat -> R) (v : list nat) : R :=
  match v with [] => 1 | x :: r => p 0%nat ^ x / INR (fact x) * G (fun j => p (S j)) r end.
Lemma fact_pos n : 0 < INR (fact n).
Proof. apply lt_0_INR, lt_O_fact. Qed.
Lemma G_dec p v i : (i < length v)%nat -> (0 < nth i v 0)%nat -> p i * G p (dec_at i v) = INR (nth i v 0%nat) * G p v.
Proof.
  revert p i; induction v as [|x v IH]; intros p i Hi Hp; [cbn in Hi; lia|]. destruct i as [|i]; cbn [dec_at G nth].
  - destruct x as [|x]; [cbn in Hp; lia|]. cbn [pred pow]. rewrite fact_simpl, mult_INR. pose proof (fact_pos x). pose proof (lt_0_INR (S x) ltac:(lia)). field. lra.
  - cbn in Hi, Hp. rewrite <- Rmult_assoc, (Rmult_comm (p (S i))), Rmult_assoc. rewrite (IH (fun j => p (S j))) by lia. ring.
Qed.
Lemma dec_at_nth v i j : nth j (dec_at i v) 0%nat = if Nat.eqb i j then pred (nth j v 0%nat) else nth j v 0%nat.
Proof. revert i j; induction v as [|x v IH]; intros i j; destruct i, j; cbn; try reflexivity. - now destruct (Nat.eqb i j). - apply IH. Qed.
Lemma dec_at_length v i : length (dec_at i v) = length v.
Proof. revert i; induction v as [|x v IH]; intros [|i]; cbn; auto. Qed.
Lemma nat_sum_dec v i : (i < length v)%nat -> (0 < nth i v 0)%nat -> S (nat_sum (dec_at i v)) = nat_sum v.
Proof.
  revert i; induction v as [|x v IH]; intros i Hi Hp; [cbn in Hi; lia|]. destruct i as [|i]; cbn in *; [lia|]. specialize (IH i ltac:(lia) Hp). unfold nat_sum in *. lia.
Qed.
Lemma counts_length k s : length (counts k s) = k.
Proof. unfold counts. now rewrite map_length, seq_length. Qed.
Lemma nth_counts k s j : (j < k)%nat -> nth j (counts k s) 0%nat = count_occ Nat.eq_dec s j.
Proof.
  intros H. unfold counts. rewrite (nth_indep _ 0%nat (count_occ Nat.eq_dec s 0%nat)) by (rewrite map_length, seq_length; lia).
  rewrite (map_nth (fun i => count_occ Nat.eq_dec s i)), seq_nth by lia. reflexivity.
Qed.
Lemma counts_cons k i s v : (i < k)%nat -> length v = k -> (counts k (i :: s) = v <-> (0 < nth i v 0)%nat /\ counts k s = dec_at i v).
Proof.
  intros Hi Hv. split.
  - intros <-. rewrite nth_counts by assumption. rewrite count_occ_cons_eq by reflexivity. split; [lia|].
    apply nth_ext with 0%nat 0%nat; [now rewrite dec_at_length, !counts_length|]. rewrite counts_length. intros j Hj.
    rewrite dec_at_nth, !nth_counts by assumption. destruct (Nat.eqb_spec i j) as [<-|D].
    + now rewrite count_occ_cons_eq by reflexivity.
    + now rewrite count_occ_cons_neq by assumption.
  - intros [Hp E]. apply nth_ext with 0%nat 0%nat; [rewrite counts_length; auto|]. rewrite counts_length. intros j Hj.
    pose proof (f_equal (fun l => nth j l 0%nat) E) as Ej. cbv beta in Ej. rewrite dec_at_nth, nth_counts in Ej by assumption. rewrite nth_counts by assumption.
    destruct (Nat.eqb_spec i j) as [<-|D].
    + rewrite count_occ_cons_eq by reflexivity. lia.
    + now rewrite count_occ_cons_neq by assumption.
Qed.
Lemma nat_sum_repeat0 m : nat_sum (repeat 0%nat m) = 0%nat.
Proof. induction m; cbn; auto. Qed.
Lemma nat_sum_zero v : nat_sum v = 0%nat -> v = repeat 0%nat (length v).
Proof. induction v as [|x v IH]; intros H; [reflexivity|]. cbn in *. assert (x = 0)%nat as -> by lia. f_equal. now apply IH. Qed.
Lemma G_zero p m : G p (repeat 0%nat m) = 1.
Proof. revert p; induction m as [|m IH]; intros p; cbn; [reflexivity|]. rewrite IH. field. Qed.
Lemma INR_nat_sum v : INR (nat_sum v) = Sum (length v) (fun i => INR (nth i v 0%nat)).
Proof. induction v as [|x v IH]; [reflexivity|]. cbn [length nat_sum fold_right]. rewrite Sum_S, plus_INR. cbn [nth]. now rewrite <- IH. Qed.

Lemma count_mass_S k n p v : length v = k ->
  count_mass k (S n) p v = Sum k (fun i => if Nat.ltb 0 (nth i v 0%nat) then p i * count_mass k n p (dec_at i v) else 0).
Proof.
  intros Hv. unfold count_mass. cbn [strings]. rewrite filter_flat_map, SumL_flat_map, SumL_seq. apply Sum_ext. intros i Hi. rewrite filter_map, SumL_map. cbn [record_prob].
  rewrite SumL_scal. destruct (Nat.ltb_spec 0 (nth i v 0%nat)) as [L|L].
  - f_equal. f_equal. apply filter_ext_In. intros s _.
    destruct (list_eq_dec Nat.eq_dec (counts k (i :: s)) v) as [E|E], (list_eq_dec Nat.eq_dec (counts k s) (dec_at i v)) as [F|F]; try reflexivity; exfalso.
    + apply F. now apply counts_cons in E.
    + apply E. now apply counts_cons.
  - replace (filter _ (strings k n)) with (@nil (list nat)); [cbn; ring|]. induction (strings k n) as [|s l IH]; [reflexivity|]. cbn [filter].
    destruct (list_eq_dec Nat.eq_dec (counts k (i :: s)) v) as [E|E]; [|assumption]. apply counts_cons in E; [lia|assumption|assumption].
Qed.
Lemma counts_nil k : counts k [] = repeat 0%nat k.
Proof.
  apply nth_ext with 0%nat 0%nat; [now rewrite counts_length, repeat_length|]. intros j Hj. rewrite counts_length in Hj. rewrite nth_counts by assumption.
  now rewrite nth_repeat.
Qed.
Lemma count_mass_value k n p v : length v = k -> nat_sum v = n -> count_mass k n p v = INR (fact n) * G p v.
Proof.
  revert v; induction n as [|n IH]; intros v Hv Hs.
  - apply nat_sum_zero in Hs. unfold count_mass. cbn [strings filter]. rewrite counts_nil. rewrite Hv in Hs.
    destruct (list_eq_dec Nat.eq_dec (repeat 0%nat k) v) as [E|E]; [|congruence]. rewrite Hs, G_zero. cbn. ring.
  - rewrite count_mass_S by assumption. rewrite (Sum_ext k _ (fun i => INR (nth i v 0%nat) * (INR (fact n) * G p v))).
    + rewrite Sum_scal_r. replace (Sum k (fun i => INR (nth i v 0%nat))) with (INR (S n)) by (rewrite <- Hv, <- INR_nat_sum; now rewrite Hs).
      rewrite fact_simpl, mult_INR. ring.
    + intros i Hi. destruct (Nat.ltb_spec 0 (nth i v 0%nat)) as [L|L].
      * rewrite IH by (rewrite ?dec_at_length; try assumption; pose proof (nat_sum_dec v i ltac:(lia) L); lia).
        transitivity (INR (fact n) * (p i * G p (dec_at i v))); [ring|]. rewrite G_dec by (try assumption; lia). ring.
      * replace (nth i v 0%nat) with 0%nat by lia. cbn [INR]. ring.
Qed.

(** The log-space formula. *)
Lemma exp_ln_fact n : exp (gammaln1 n) = INR (fact n).
Proof. unfold gammaln1. apply exp_ln, fact_pos. Qed.
Definition good_pair (k : nat) (q : R) := ~ (k <> 0%nat /\ q = 0).
Lemma mask_spec n ep : existsb (fun x => x) (map2 (fun k q => negb (Nat.eqb k 0) && Reqb q 0) n ep) = false <-> Forall (fun kq => good_pair (fst kq) (snd kq)) (combine n ep).
Proof.
  revert ep; induction n as [|k n IH]; intros [|q ep]; cbn; try (split; [constructor|reflexivity]).
  rewrite orb_false_iff, IH. split.
  - intros [A B]. constructor; [|assumption]. cbn. intros [Hk ->]. rewrite (proj2 (Nat.eqb_neq k 0) Hk), Reqb_true in A by reflexivity. discriminate.
  - intros H. inversion H as [|? ? A B]; subst. split; [|assumption]. cbn in A. destruct (Nat.eqb_spec k 0); [reflexivity|]. cbn.
    apply Reqb_false. intros ->. now apply A.
Qed.
Lemma nlogp_fin n p : 0 <= p -> exists r, nlogp n p = Fin r /\ (good_pair n p -> exp r = p ^ n).
Proof.
  intros Hp. unfold nlogp. destruct (Reqb_spec p 0) as [->|D].
  - exists 0. split; [reflexivity|]. intros Hg. rewrite exp_0. destruct n as [|n]; [reflexivity|]. exfalso. apply Hg. split; [discriminate|reflexivity].
  - cbn [xln]. rewrite Rltb_true by lra. exists (INR n * ln p). split; [reflexivity|]. intros _.
    change (exp (INR n * ln p)) with (Rpower p (INR n)). apply Rpower_pow. lra.
Qed.
Lemma log_sum_value n ep : length n = length ep -> Forall (fun q => 0 <= q) ep ->
  exists r, xsum (map2 nlogp n ep) = Fin r /\
   (Forall (fun kq => good_pair (fst kq) (snd kq)) (combine n ep) -> exp (r - rsum (map gammaln1 n)) = G (fun i => nth i ep 0) n) /\
   (~ Forall (fun kq => good_pair (fst kq) (snd kq)) (combine n ep) -> G (fun i => nth i ep 0) n = 0).
Proof.
  revert ep; induction n as [|k n IH]; intros [|q ep] Hl Hp; cbn [length] in *; try discriminate.
  - exists 0. split; [reflexivity|]. split; [intros _; cbn [map]; rewrite rsum_nil, Rminus_0_r; cbn; apply exp_0|]. intros H. exfalso. apply H. constructor.
  - inversion Hp as [|? ? Hq Hp']; subst. destruct (IH ep ltac:(lia) Hp') as (r & Er & E1 & E2). destruct (nlogp_fin k q Hq) as (s & Es & F).
    exists (s + r). cbn [map2]. rewrite xsum_cons, Es, Er. split; [reflexivity|]. cbn [combine map G nth]. split.
    + intros H. inversion H as [|? ? A B]; subst. cbn in A. rewrite rsum_cons.
      replace (s + r - (gammaln1 k + rsum (map gammaln1 n))) with (s + (- gammaln1 k + (r - rsum (map gammaln1 n)))) by ring.
      rewrite !exp_plus, exp_Ropp, exp_ln_fact, (F A), (E1 B). unfold Rdiv. ring.
    + intros H. assert (D : ~ good_pair k q \/ ~ Forall (fun kq => good_pair (fst kq) (snd kq)) (combine n ep)).
      { destruct (Nat.eq_dec k 0) as [->|Dk]; [right; intros B; apply H; constructor; [cbn; intros [A _]; now apply A|assumption]|].
        destruct (Req_dec q 0) as [->|Dq]; [left; intros A; apply A; now split|right]. intros B. apply H. constructor; [cbn; intros [_ A]; now apply Dq|assumption]. }
      destruct D as [D|D].
      * destruct (Nat.eq_dec k 0) as [->|Dk]; [exfalso; apply D; intros [A _]; now apply A|]. destruct (Req_dec q 0) as [->|Dq]; [|exfalso; apply D; intros [_ A]; now apply Dq].
        rewrite pow_i by lia. unfold Rdiv. ring.
      * rewrite (E2 D). ring.
Qed.
Lemma multinomial_pdf_value n p : Forall (fun q => 0 <= q) p -> 0 <= 1 - rsum p -> length n = S (length p) ->
  multinomial_pdf n p = Fin (INR (fact (nat_sum n)) * G (fun i => nth i (p ++ [1 - rsum p]) 0) n).
Proof.
  intros Hp Hs Hl. unfold multinomial_pdf. rewrite Hl. replace (S (length p) - 1)%nat with (length p) by lia. rewrite Nat.eqb_refl. cbv zeta.
  assert (HF : Forall (fun q => 0 <= q) (p ++ [1 - rsum p])) by (apply Forall_app; auto).
  destruct (log_sum_value n (p ++ [1 - rsum p]) ltac:(rewrite app_length; cbn; lia) HF) as (r & Er & E1 & E2). rewrite Er. cbn [xadd xexp].
  destruct (existsb _ _) eqn:M; cbn [negb xmul].
  - f_equal. rewrite E2; [ring|]. intros A. apply mask_spec in A. congruence.
  - f_equal. apply mask_spec in M. rewrite <- (E1 M). replace (gammaln1 (nat_sum n) - rsum (map gammaln1 n) + r) with (gammaln1 (nat_sum n) + (r - rsum (map gammaln1 n))) by ring.
    rewrite exp_plus, exp_ln_fact. ring.
Qed.
Lemma count_mass_ext k n p q v : (forall i, (i < k)%nat -> p i = q i) -> count_mass k n p v = count_mass k n q v.
Proof.
  intros H. unfold count_mass. apply SumL_ext. intros s Hs. apply filter_In in Hs. apply (record_prob_ext p q k); [assumption|]. apply strings_length with n. tauto.
Qed.
Lemma count_mass_nonneg k n p v : (forall i, (i < k)%nat -> 0 <= p i) -> 0 <= count_mass k n p v.
Proof.
  intros H. unfold count_mass. apply SumL_nonneg. intros s Hs. apply filter_In in Hs. destruct Hs as [Hs _]. apply strings_length in Hs. destruct Hs as [_ Hs].
  induction Hs as [|i s Hi Hs IH]; cbn; [lra|]. apply Rmult_le_pos; auto.
Qed.
Lemma nat_sum_counts k s : Forall (fun i => (i < k)%nat) s -> nat_sum (counts k s) = length s.
Proof.
  intros H. induction H as [|i s Hi H IH]; [rewrite counts_nil; apply nat_sum_repeat0|].
  assert (E : counts k s = dec_at i (counts k (i :: s))) by (apply (counts_cons k i s (counts k (i :: s)) Hi (counts_length _ _)); reflexivity).
  assert (P : (0 < nth i (counts k (i :: s)) 0)%nat) by (apply (counts_cons k i s (counts k (i :: s)) Hi (counts_length _ _)); reflexivity).
  rewrite <- (nat_sum_dec (counts k (i :: s)) i) by (rewrite ?counts_length; assumption). rewrite <- E, IH. reflexivity.
Qed.
Lemma count_mass_sum k n p keys : NoDup keys -> (forall v, length v = k -> nat_sum v = n -> In v keys) ->
  SumL keys (count_mass k n p) = Sum k p ^ n.
Proof.
  intros Hn Hall. rewrite <- strings_total. unfold count_mass.
  apply (SumL_group (list_eq_dec Nat.eq_dec) (counts k) (record_prob p) keys (strings k n)); [assumption|].
  intros s Hs. apply strings_length in Hs. destruct Hs as [Hs1 Hs2]. apply Hall; [apply counts_length|]. rewrite nat_sum_counts; assumption.
Qed.

(** ** Arrays *)
Lemma entry_table {O M E V} (f : O -> M -> E -> V) os ms es a b c o m e : nth_error os a = Some o -> nth_error ms b = Some m -> nth_error es c = Some e ->
  entry (table f os ms es) a b c = Some (f o m e).
Proof.
  intros Ho Hm He. unfold entry, table. rewrite (map_nth_error _ _ _ Ho), (map_nth_error _ _ _ Hm). apply (map_nth_error _ _ _ He).
Qed.
Lemma existsb_false {A} (P : A -> bool) l : existsb P l = false <-> (forall a, In a l -> P a = false).
Proof.
  induction l as [|x l IH]; cbn; [split; [tauto|reflexivity]|]. rewrite orb_false_iff, IH. split.
  - intros [H1 H2] a [<-|H]; auto.
  - intros H. split; auto.
Qed.
Lemma no_nan_table {O M E} (f : O -> M -> E -> ext) os ms es : (forall o m e, In o os -> In m ms -> In e es -> is_nan (f o m e) = false) ->
  no_nan (table f os ms es) = Ok (table f os ms es).
Proof.
  intros H. unfold no_nan. destruct (existsb _ _) eqn:X; [|reflexivity]. exfalso. apply existsb_exists in X. destruct X as (x & Hx & X).
  unfold table in Hx. apply in_map_iff in Hx. destruct Hx as (o & <- & Ho). apply existsb_exists in X. destruct X as (y & Hy & X).
  apply in_map_iff in Hy. destruct Hy as (m & <- & Hm). apply existsb_exists in X. destruct X as (z & Hz & X). apply in_map_iff in Hz. destruct Hz as (e & <- & He).
  rewrite H in X by assumption. discriminate.
Qed.
