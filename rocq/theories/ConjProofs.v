(** Proofs for C144. *)
From Verif Require Import Base RList Ext Sums SmcModel SmcSpec SmcProofs SmcProofs2 RiskModel RiskSpec RiskProofs DistSpec DistProofs2 DomModel DerModel DerSpec DerProofs DerProofs2 TwoModel ConjSpec.
From Coq Require Import List.

Lemma rising_add a i j : rising a (i + j) = rising a i * rising (a + INR i) j.
Proof. revert a. induction i as [|i IH]; intros a; [cbn [Nat.add rising INR]; rewrite Rplus_0_r; ring|]. cbn [Nat.add rising]. rewrite IH, S_INR. replace (a + 1 + INR i) with (a + (INR i + 1)) by ring. ring. Qed.
Lemma rising_1 a : rising a 1 = a.
Proof. cbn. ring. Qed.

Section Cloud.
Context {O : Type}.
Implicit Types s : @state O.

Lemma mixed_0 s k : mixed s k 0 = Sum (n_particles s) (fun i => wt s i * bias_of s i ^ k).
Proof. unfold mixed. apply Sum_ext. intros i _. cbn [pow]. ring. Qed.
Lemma mixed_S s i j : mixed s i (S j) = mixed s i j - mixed s (S i) j.
Proof. unfold mixed. rewrite <- Sum_minus. apply Sum_ext. intros k _. cbn [pow]. ring. Qed.

Lemma mixed_beta s D a b : 0 < a -> 0 < b -> beta_moments D a b s -> forall j i, (i + j <= D)%nat -> mixed s i j = rising a i * rising b j / rising (a + b) (i + j).
Proof.
  intros Ha Hb H. induction j as [|j IH]; intros i Hi.
  - rewrite mixed_0, (H i) by lia. rewrite Nat.add_0_r. cbn [rising]. unfold Rdiv. ring.
  - rewrite mixed_S, !IH by lia. rewrite Nat.add_succ_r. cbn [Nat.add]. rewrite !rising_last. rewrite plus_INR.
    assert (0 < rising (a + b) (i + j)) by (apply rising_pos; lra). assert (0 < a + b + (INR i + INR j)) by (pose proof (pos_INR i); pose proof (pos_INR j); lra). field. split; lra.
Qed.

(** Weights proportional to p^h (1 - p)^t times the old ones *)
Lemma beta_posterior s s' D a b h t N : 0 < a -> 0 < b -> beta_moments (D + (h + t)) a b s -> n_particles s' = n_particles s -> ls s' = ls s -> N <> 0 ->
  (forall i, (i < n_particles s)%nat -> wt s' i * (N * mixed s h t) = wt s i * (N * (bias_of s i ^ h * (1 - bias_of s i) ^ t))) ->
  beta_moments D (a + INR h) (b + INR t) s'.
Proof.
  intros Ha Hb H Hn Hl HN Hw k Hk.
  assert (P1 : 0 < rising a h) by now apply rising_pos. assert (P2 : 0 < rising b t) by now apply rising_pos. assert (P3 : 0 < rising (a + b) (h + t)) by (apply rising_pos; lra).
  assert (Hm : mixed s h t = rising a h * rising b t / rising (a + b) (h + t)) by (apply (mixed_beta s (D + (h + t)) a b Ha Hb H); lia).
  assert (Hm0 : 0 < mixed s h t) by (rewrite Hm; apply Rdiv_lt_0_compat; [now apply Rmult_lt_0_compat|assumption]).
  assert (Hk2 : mixed s (h + k) t = rising a (h + k) * rising b t / rising (a + b) (h + k + t)) by (apply (mixed_beta s (D + (h + t)) a b Ha Hb H); lia).
  apply Rmult_eq_reg_r with (mixed s h t); [|lra]. transitivity (mixed s (h + k) t).
  - rewrite Hn, <- Sum_scal_r. unfold mixed. apply Sum_ext. intros i Hi. specialize (Hw i Hi). fold (mixed s h t). rewrite pow_add.
    unfold bias_of, at_ in *. rewrite Hl. set (p := nth 0 (nth i (ls s) []) 0) in *.
    assert (E1 : wt s' i * mixed s h t = wt s i * (p ^ h * (1 - p) ^ t)) by (apply Rmult_eq_reg_l with N; [|assumption]; rewrite <- Rmult_assoc, (Rmult_comm N), Rmult_assoc, Hw; ring).
    transitivity (wt s' i * mixed s h t * p ^ k); [ring|]. rewrite E1. ring.
  - rewrite Hk2, Hm. replace (h + k + t)%nat with (h + t + k)%nat by lia. rewrite (rising_add a h k), (rising_add (a + b) (h + t) k). rewrite plus_INR. replace (a + b + (INR h + INR t)) with (a + INR h + (b + INR t)) by ring.
    assert (0 < rising (a + INR h + (b + INR t)) k) by (apply rising_pos; pose proof (pos_INR h); pose proof (pos_INR t); lra). field. split; lra.
Qed.
End Cloud.

Section Coin.
Context {E RND : Type}.
Notation state := (@state Z).
Notation config := (@config Z E RND).
Implicit Types (c : config) (s : state).

Lemma evidence_coin c s o e D a b : 0 < a -> 0 < b -> beta_moments (S D) a b s -> (forall x, In x (ls s) -> lik (md c) o x e = coin_like (nth 0 x 0) o) ->
  evidence c s o e = (if Z.eqb o 0 then a else b) / (a + b)
  /\ (forall i, (i < n_particles s)%nat -> lik (md c) o (at_ s i) e = bias_of s i ^ (if Z.eqb o 0 then 1 else 0) * (1 - bias_of s i) ^ (if Z.eqb o 0 then 0 else 1)).
Proof.
  intros Ha Hb H HL.
  assert (Hl : forall i, (i < n_particles s)%nat -> lik (md c) o (at_ s i) e = bias_of s i ^ (if Z.eqb o 0 then 1 else 0) * (1 - bias_of s i) ^ (if Z.eqb o 0 then 0 else 1)).
  { intros i Hi. rewrite HL by (now apply nth_In). unfold coin_like, pr0_like. fold (bias_of s i). destruct (Z.eqb o 0); cbn [pow]; ring. }
  split; [|exact Hl]. unfold evidence. transitivity (mixed s (if Z.eqb o 0 then 1 else 0) (if Z.eqb o 0 then 0 else 1)).
  - unfold mixed. apply Sum_ext. intros i Hi. rewrite Hl by assumption. ring.
  - rewrite (mixed_beta s (S D) a b Ha Hb H) by (destruct (Z.eqb o 0); lia). destruct (Z.eqb o 0); cbn [Nat.add rising]; field; lra.
Qed.

Lemma conjugate_lem c rs : good_config c -> zthresh c < 1 -> (forall r l e, timestep (md c) r l e = l) -> forall data idx s a b D,
  full_inv s -> 0 < a -> 0 < b -> (forall o e x, In (o, e) data -> In x (ls s) -> lik (md c) o x e = coin_like (nth 0 x 0) o) ->
  beta_moments (D + length data) a b s -> eps * (a + b + INR (length data)) <= a -> eps * (a + b + INR (length data)) <= b ->
  let s' := run c s (updates rs idx data) in
  full_inv s' /\ ls s' = ls s /\ beta_moments D (a + INR (heads data)) (b + INR (tails data)) s' /\
  exists Ns, nrec s' = nrec s ++ Ns /\ Forall (fun x => 0 < x) Ns /\ rprod Ns = rising a (heads data) * rising b (tails data) / rising (a + b) (length data).
Proof.
  intros G Ht Hst. induction data as [|[o e] data IH]; intros idx s a b D Hinv Ha Hb HL HB He1 He2 s'.
  - split; [exact Hinv|]. split; [reflexivity|]. cbn [heads tails filter length INR] in *. rewrite !Rplus_0_r, Nat.add_0_r in *. split; [exact HB|]. exists []. split; [cbn; now rewrite app_nil_r|]. split; [constructor|]. unfold rprod. cbn. field.
  - cbn [length] in *. rewrite S_INR in *. assert (E0 := eps_pos). pose proof (pos_INR (length data)) as Ln.
    assert (HB1 : beta_moments (S (D + length data)) a b s) by (replace (S (D + length data)) with (D + S (length data))%nat by lia; exact HB).
    destruct (evidence_coin c s o e (D + length data) a b Ha Hb HB1 (fun x Hx => HL o e x (or_introl eq_refl) Hx)) as [Hev Hlk].
    assert (Hreg : eps <= evidence c s o e).
    { rewrite Hev. assert (0 <= eps * INR (length data)) by (apply Rmult_le_pos; lra). apply Rmult_le_reg_r with (a + b); [lra|]. unfold Rdiv. rewrite Rmult_assoc, Rinv_l, Rmult_1_r by lra. destruct (Z.eqb o 0); nra. }
    pose proof (update_regular_inv c (rs idx) s o e G Ht Hinv Hreg) as Hinv1.
    set (s1 := fst (update c (rs idx) s o e false)) in *.
    assert (Hs1 : s1 = fst (install c (rs idx) (recorded s o) (norm_row c (ws s) (ls s) o e) (evidence c s o e) e false)).
    { unfold s1. destruct Hinv as [Hlen [Hw Hs]]. rewrite update_regular by (auto; apply (lik_nonneg c G)). reflexivity. }
    assert (Hl1 : ls s1 = ls s) by (rewrite Hs1, install_nocheck; cbn; apply Hst).
    assert (Hn1 : n_particles s1 = n_particles s) by (unfold n_particles; now rewrite Hl1).
    assert (Hr1 : nrec s1 = nrec s ++ [evidence c s o e]) by (rewrite Hs1, install_nocheck; reflexivity).
    set (h := if Z.eqb o 0 then 1%nat else 0%nat). set (t := if Z.eqb o 0 then 0%nat else 1%nat).
    assert (Hht : (h + t = 1)%nat) by (unfold h, t; destruct (Z.eqb o 0); reflexivity).
    assert (Hmix : evidence c s o e = mixed s h t).
    { unfold evidence, mixed. apply Sum_ext. intros i Hi. rewrite Hlk by assumption. unfold h, t. ring. }
    assert (HB2 : beta_moments (D + length data) (a + INR h) (b + INR t) s1).
    { apply (beta_posterior s s1 (D + length data) a b h t 1); try assumption; try lra; [rewrite Hht; replace (D + length data + 1)%nat with (S (D + length data)) by lia; exact HB1|].
      intros i Hi. rewrite <- Hmix. destruct Hinv as [Hlen [Hw Hs]]. rewrite Hs1, install_nocheck. unfold wt at 1. cbn [fst ws]. rewrite norm_row_nth by assumption. unfold bayes. fold (evidence c s o e). rewrite Hlk by assumption. fold h. fold t. field. lra. }
    assert (Hsum : a + INR h + (b + INR t) = a + b + 1) by (unfold h, t; destruct (Z.eqb o 0); cbn [INR]; ring).
    assert (Hh0 : 0 <= INR h) by apply pos_INR. assert (Ht0 : 0 <= INR t) by apply pos_INR.
    destruct (IH (S idx) s1 (a + INR h) (b + INR t) D) as (I1 & I2 & I3 & Ns & I4 & I5 & I6); try assumption; try lra.
    { intros o' e' x Hd Hx. rewrite Hl1 in Hx. apply HL; [now right|assumption]. }
    { rewrite Hsum. replace (a + b + 1 + INR (length data)) with (a + b + (INR (length data) + 1)) by ring. lra. }
    { rewrite Hsum. replace (a + b + 1 + INR (length data)) with (a + b + (INR (length data) + 1)) by ring. lra. }
    assert (Ehd : heads ((o, e) :: data) = (h + heads data)%nat) by (unfold heads, h; cbn [filter fst]; destruct (Z.eqb o 0); reflexivity).
    assert (Etl : tails ((o, e) :: data) = (t + tails data)%nat) by (unfold tails, t; cbn [filter fst]; destruct (Z.eqb o 0); reflexivity).
    unfold s'. rewrite run_updates_cons. fold s1. split; [exact I1|]. split; [congruence|]. rewrite Ehd, Etl, !plus_INR. split.
    + replace (a + (INR h + INR (heads data))) with (a + INR h + INR (heads data)) by ring. replace (b + (INR t + INR (tails data))) with (b + INR t + INR (tails data)) by ring. exact I3.
    + exists (evidence c s o e :: Ns). split; [rewrite I4, Hr1, <- app_assoc; reflexivity|]. split; [constructor; [lra|exact I5]|]. rewrite rprod_cons, I6, Hev, Hsum.
      rewrite (rising_add a h), (rising_add b t). cbn [rising]. assert (0 < rising (a + b + 1) (length data)) by (apply rising_pos; lra).
      unfold h, t. destruct (Z.eqb o 0); cbn [rising INR]; rewrite ?Rplus_0_r; field; split; lra.
Qed.
End Coin.

(** ** Counts *)
Lemma pmf_total p n : SumL (seq 0 (S n)) (fun k => INR (binom n k) * (1 - p) ^ k * p ^ (n - k)) = 1.
Proof.
  assert (H := ones_mass_sum n (fun i => match i with O => p | _ => 1 - p end)). cbv beta iota in H. replace (p + (1 - p)) with 1 in H by ring. rewrite pow1 in H. etransitivity; [|exact H]. apply SumL_ext. intros k _.
  rewrite ones_mass_pmf by ring. replace (1 - (1 - p)) with p by ring. reflexivity.
Qed.
Section Counts.
Context {E RND : Type}.
Notation state := (@state nat).
Notation config := (@config nat (E * nat) RND).
Implicit Types (c : config) (s : state).

Lemma evidence_counts c s e n k D a b : 0 < a -> 0 < b -> coin_counts c s e n -> (k <= n)%nat -> beta_moments (D + n) a b s ->
  evidence c s k (e, n) = INR (binom n k) * mixed s (n - k) k /\ evidence c s k (e, n) = beta_binomial n a b k.
Proof.
  intros Ha Hb HL Hk HB. assert (E1 : evidence c s k (e, n) = INR (binom n k) * mixed s (n - k) k).
  { unfold evidence, mixed. rewrite <- Sum_scal. apply Sum_ext. intros i Hi. rewrite HL by (auto; now apply nth_In). fold (bias_of s i). ring. }
  split; [exact E1|]. rewrite E1. unfold beta_binomial. rewrite (mixed_beta s (D + n) a b Ha Hb HB) by lia. replace (n - k + k)%nat with n by lia. reflexivity.
Qed.
Lemma binom_pos n : forall k, (k <= n)%nat -> (0 < binom n k)%nat.
Proof. induction n as [|n IH]; intros [|k] H; cbn [binom]; try lia. destruct (Nat.eq_dec k n) as [->|]; [specialize (IH n); lia|specialize (IH k); lia]. Qed.
Lemma beta_binomial_pos n a b k : 0 < a -> 0 < b -> (k <= n)%nat -> 0 < beta_binomial n a b k.
Proof.
  intros Ha Hb Hk. unfold beta_binomial. apply Rmult_lt_0_compat; [apply (lt_INR 0); now apply binom_pos|]. apply Rdiv_lt_0_compat; [apply Rmult_lt_0_compat; now apply rising_pos|apply rising_pos; lra].
Qed.

Lemma count_update_lem c r s e n k D a b : good_config c -> zthresh c < 1 -> (forall r l e, timestep (md c) r l e = l) -> full_inv s -> 0 < a -> 0 < b ->
  coin_counts c s e n -> (k <= n)%nat -> beta_moments (D + n) a b s -> eps <= beta_binomial n a b k ->
  let s' := fst (update c r s k (e, n) false) in
  full_inv s' /\ ls s' = ls s /\ nrec s' = nrec s ++ [beta_binomial n a b k] /\ beta_moments D (a + INR (n - k)) (b + INR k) s'.
Proof.
  intros G Ht Hst Hinv Ha Hb HL Hk HB He s'. destruct (evidence_counts c s e n k D a b Ha Hb HL Hk HB) as [E1 E2].
  assert (Hreg : eps <= evidence c s k (e, n)) by lra. split; [now apply update_regular_inv|].
  assert (Hs' : s' = fst (install c r (recorded s k) (norm_row c (ws s) (ls s) k (e, n)) (evidence c s k (e, n)) (e, n) false)).
  { unfold s'. destruct Hinv as [Hlen [Hw Hs]]. rewrite update_regular by (auto; apply (lik_nonneg c G)). reflexivity. }
  assert (Hl : ls s' = ls s) by (rewrite Hs', install_nocheck; cbn; apply Hst). split; [exact Hl|].
  split; [rewrite Hs', install_nocheck; cbn [fst nrec recorded]; now rewrite E2|].
  assert (E0 := eps_pos). assert (Hb0 : INR (binom n k) <> 0) by (apply not_0_INR; pose proof (binom_pos n k Hk); lia).
  apply (beta_posterior s s' D a b (n - k) k (INR (binom n k))); try assumption; [replace (n - k + k)%nat with n by lia; exact HB|unfold n_particles; now rewrite Hl|].
  intros i Hi. rewrite <- E1. destruct Hinv as [Hlen [Hw Hs]]. rewrite Hs', install_nocheck. unfold wt at 1. cbn [fst ws]. rewrite norm_row_nth by assumption. unfold bayes. fold (evidence c s k (e, n)).
  rewrite HL by (auto; now apply nth_In). fold (bias_of s i). field. lra.
Qed.

(** Any number of counts *)
Lemma count_history_lem c rs : good_config c -> zthresh c < 1 -> (forall r l e, timestep (md c) r l e = l) -> forall data idx s a b D,
  full_inv s -> 0 < a -> 0 < b -> (forall d, In d data -> coin_counts c s (fst (snd d)) (snd (snd d)) /\ (fst d <= snd (snd d))%nat) ->
  beta_moments (D + (zeros_in data + ones_in data)) a b s -> regular c rs idx data s ->
  let s' := run c s (updates rs idx data) in
  ls s' = ls s /\ beta_moments D (a + INR (zeros_in data)) (b + INR (ones_in data)) s' /\
  exists Ns, nrec s' = nrec s ++ Ns /\ Forall (fun x => 0 < x) Ns /\
    rprod Ns = rprod (map (fun d => INR (binom (snd (snd d)) (fst d))) data) * (rising a (zeros_in data) * rising b (ones_in data) / rising (a + b) (zeros_in data + ones_in data)).
Proof.
  intros G Ht Hst. induction data as [|[k [e n]] data IH]; intros idx s a b D Hinv Ha Hb HL HB HR s'.
  - split; [reflexivity|]. cbn in HB |- *. rewrite Nat.add_0_r in HB. rewrite !Rplus_0_r. split; [exact HB|]. exists []. split; [now rewrite app_nil_r|]. split; [constructor|]. unfold rprod. cbn. field.
  - destruct HR as [He HR]. destruct (HL _ (or_introl eq_refl)) as [HC Hk]. cbn [fst snd] in HC, Hk. cbn [zeros_in ones_in] in *.
    assert (HB1 : beta_moments (D + (zeros_in data + ones_in data) + n) a b s) by (replace (D + (zeros_in data + ones_in data) + n)%nat with (D + (n - k + zeros_in data + (k + ones_in data)))%nat by lia; exact HB).
    rewrite (proj2 (evidence_counts c s e n k (D + (zeros_in data + ones_in data)) a b Ha Hb HC Hk HB1)) in He.
    destruct (count_update_lem c (rs idx) s e n k (D + (zeros_in data + ones_in data)) a b G Ht Hst Hinv Ha Hb HC Hk HB1 He) as (J1 & J2 & J3 & J4).
    set (s1 := fst (update c (rs idx) s k (e, n) false)) in *.
    pose proof (pos_INR (n - k)) as P1. pose proof (pos_INR k) as P2.
    destruct (IH (S idx) s1 (a + INR (n - k)) (b + INR k) D) as (I1 & I2 & Ns & I3 & I4 & I5); try assumption; try lra.
    { intros d Hd. destruct (HL d (or_intror Hd)) as [HC' Hk']. split; [|exact Hk']. intros k' x Hk2 Hx. rewrite J2 in Hx. now apply HC'. }
    unfold s'. rewrite run_updates_cons. fold s1. split; [congruence|]. rewrite !plus_INR. split.
    + replace (a + (INR (n - k) + INR (zeros_in data))) with (a + INR (n - k) + INR (zeros_in data)) by ring. replace (b + (INR k + INR (ones_in data))) with (b + INR k + INR (ones_in data)) by ring. exact I2.
    + exists (beta_binomial n a b k :: Ns). split; [rewrite I3, J3, <- app_assoc; reflexivity|]. split; [constructor; [pose proof eps_pos; lra|exact I4]|]. cbn [map fst snd]. rewrite !rprod_cons, I5. unfold beta_binomial.
      replace (n - k + zeros_in data + (k + ones_in data))%nat with (n + (zeros_in data + ones_in data))%nat by lia.
      rewrite (rising_add a (n - k)), (rising_add b k), (rising_add (a + b) n). replace (a + INR (n - k) + (b + INR k)) with (a + b + INR n) by (rewrite minus_INR by assumption; ring).
      assert (0 < rising (a + b) n) by (apply rising_pos; lra). assert (0 < rising (a + b + INR n) (zeros_in data + ones_in data)) by (apply rising_pos; pose proof (pos_INR n); lra). field. split; lra.
Qed.

(** Variance of normalised weights from two moments *)
Lemma variance_moments n p f m1 m2 : Sum n p = 1 -> Sum n (fun i => p i * f i) = m1 -> Sum n (fun i => p i * f i ^ 2) = m2 -> variance n p f = m2 - m1 ^ 2.
Proof.
  intros H0 H1 H2. unfold variance. rewrite H1. rewrite (Sum_ext _ _ (fun i => p i * f i ^ 2 - 2 * m1 * (p i * f i) + m1 ^ 2 * p i)) by (intros; ring). rewrite Sum_plus, Sum_minus, !Sum_scal, H0, H1, H2. ring.
Qed.

Lemma risk_lem c s e n q a b : good_config c -> full_inv s -> 0 < a -> 0 < b -> coin_counts c s e n -> beta_moments (n + 2) a b s ->
  (forall k, (k < n)%nat -> eps <= beta_binomial n a b k) ->
  bayes_risk1 c [q] (ws s) (ls s) (seq 0 (S n)) (e, n) = Fin (q * (a * b / ((a + b) * (a + b + 1) * (a + b + INR n)))).
Proof.
  intros G Hinv Ha Hb HL HB He. destruct Hinv as [Hlen Hpv].
  assert (HB' : beta_moments (2 + n) a b s) by (now rewrite Nat.add_comm).
  assert (Hseq : seq 0 (S n) = seq 0 n ++ [n]) by apply seq_S.
  assert (Hrl : removelast (seq 0 (S n)) = seq 0 n) by (rewrite Hseq; apply removelast_last).
  assert (Hnorm : lik_normalised c s (seq 0 (S n)) (e, n)).
  { intros i Hi. rewrite <- (pmf_total (bias_of s i) n). apply SumL_ext. intros k Hk. apply in_seq in Hk. rewrite HL by (try lia; now apply nth_In). reflexivity. }
  rewrite (c13_value c [q] s (seq 0 (S n)) (e, n) n); try assumption; [|apply (lik_nonneg c G)|now rewrite Hrl| |].
  - f_equal. unfold expected_posterior_loss.
    pose proof (pos_INR n) as Ln. set (S0 := a + b + INR n). assert (HS0 : 0 < S0) by (unfold S0; lra).
    (* one outcome *)
    assert (Hk : forall k, (k <= n)%nat -> evidence c s k (e, n) * loss [q] s (posterior c s k (e, n)) = q * / S0 * (INR (binom n k) * mixed s (S (n - k)) (S k))).
    { intros k Hk. destruct (evidence_counts c s e n k 2 a b Ha Hb HL Hk HB') as [E1 E2].
      assert (Hp : 0 < evidence c s k (e, n)) by (rewrite E2; now apply beta_binomial_pos).
      assert (Hb0 : 0 < INR (binom n k)) by (apply (lt_INR 0); now apply binom_pos).
      assert (Hmom : forall d, Sum (n_particles s) (fun i => posterior c s k (e, n) i * bias_of s i ^ d) = mixed s (n - k + d) k / mixed s (n - k) k).
      { intros d. unfold posterior, bayes. fold (evidence c s k (e, n)). rewrite (Sum_ext _ _ (fun i => / mixed s (n - k) k * (wt s i * bias_of s i ^ (n - k + d) * (1 - bias_of s i) ^ k))).
        - rewrite Sum_scal. unfold Rdiv. apply Rmult_comm.
        - intros i Hi. rewrite HL by (auto; now apply nth_In). fold (bias_of s i). rewrite E1, pow_add. assert (mixed s (n - k) k <> 0) by (intros Z0; rewrite E1, Z0 in Hp; lra). field. split; lra. }
      assert (Hnk : INR (n - k) = INR n - INR k) by (now apply minus_INR).
      assert (Hm : forall d, (d <= 2)%nat -> mixed s (n - k + d) k = rising a (n - k) * rising (a + INR (n - k)) d * rising b k / (rising (a + b) n * rising S0 d)).
      { intros d Hd. rewrite (mixed_beta s (2 + n) a b Ha Hb HB') by lia. rewrite (rising_add a (n - k) d). replace (n - k + d + k)%nat with (n + d)%nat by lia. rewrite (rising_add (a + b) n d). reflexivity. }
      assert (P1 : 0 < rising a (n - k)) by now apply rising_pos. assert (P2 : 0 < rising b k) by now apply rising_pos. assert (P3 : 0 < rising (a + b) n) by (apply rising_pos; lra).
      assert (P4 : 0 <= INR (n - k)) by apply pos_INR. assert (P5 : 0 <= INR k) by apply pos_INR.
      assert (M0 : mixed s (n - k) k = rising a (n - k) * rising b k / rising (a + b) n).
      { rewrite <- (Nat.add_0_r (n - k)) at 1. rewrite Hm by lia. cbn [rising]. field. lra. }
      unfold loss. cbn [length]. rewrite Sum_S, Sum_0, Rplus_0_r. cbn [nth].
      rewrite (variance_moments _ _ _ ((a + INR (n - k)) / S0) ((a + INR (n - k)) * (a + INR (n - k) + 1) / (S0 * (S0 + 1)))).
      - rewrite E1, (mixed_beta s (2 + n) a b Ha Hb HB' (S k) (S (n - k))) by lia. rewrite M0.
        replace (S (n - k) + S k)%nat with (S (S n)) by lia. rewrite !(rising_last _ (S n)), !(rising_last _ n), (rising_last a), (rising_last b). rewrite S_INR. fold S0. replace (a + b + (INR n + 1)) with (S0 + 1) by (unfold S0; ring).
        replace (b + INR k) with (S0 - (a + INR (n - k))) by (unfold S0; rewrite Hnk; ring). field. repeat split; lra.
      - transitivity (Sum (n_particles s) (fun i => posterior c s k (e, n) i * bias_of s i ^ 0)); [apply Sum_ext; intros; cbn [pow]; ring|]. rewrite Hmom, Nat.add_0_r. field. rewrite M0. apply Rgt_not_eq, Rdiv_lt_0_compat; [now apply Rmult_lt_0_compat|assumption].
      - transitivity (Sum (n_particles s) (fun i => posterior c s k (e, n) i * bias_of s i ^ 1)); [apply Sum_ext; intros; unfold bias_of; cbn [pow]; ring|]. rewrite Hmom, Hm, M0 by lia. cbn [rising]. field. repeat split; lra.
      - change (Sum (n_particles s) (fun i => posterior c s k (e, n) i * bias_of s i ^ 2) = (a + INR (n - k)) * (a + INR (n - k) + 1) / (S0 * (S0 + 1))). rewrite Hmom, Hm, M0 by lia. cbn [rising]. field. repeat split; lra. }
    rewrite (SumL_ext _ _ (fun k => q * / S0 * (INR (binom n k) * mixed s (S (n - k)) (S k)))) by (intros k Hk'; apply in_seq in Hk'; apply Hk; lia).
    rewrite SumL_scal.
    assert (Htot : SumL (seq 0 (S n)) (fun k => INR (binom n k) * mixed s (S (n - k)) (S k)) = mixed s 1 1).
    { unfold mixed at 1. rewrite (SumL_ext _ _ (fun k => Sum (n_particles s) (fun i => wt s i * bias_of s i * (1 - bias_of s i) * (INR (binom n k) * (1 - bias_of s i) ^ k * bias_of s i ^ (n - k))))).
      - rewrite SumL_Sum_swap. unfold mixed. apply Sum_ext. intros i _. rewrite SumL_scal, pmf_total. cbn [pow]. ring.
      - intros k _. rewrite <- Sum_scal. apply Sum_ext. intros i _. cbn [pow]. ring. }
    rewrite Htot, (mixed_beta s (2 + n) a b Ha Hb HB') by lia. cbn [Nat.add rising]. unfold S0. field. repeat split; lra.
  - intros k Hk. rewrite Hrl in Hk. apply in_seq in Hk. right. rewrite (proj2 (evidence_counts c s e n k 2 a b Ha Hb HL ltac:(lia) HB')). apply He. lia.
  - rewrite (proj2 (evidence_counts c s e n n 2 a b Ha Hb HL (le_n n) HB')). now apply beta_binomial_pos.
Qed.
End Counts.
