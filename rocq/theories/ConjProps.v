(** C144: a coin's posterior is the conjugate one.  A cloud that reproduces the moments of a Beta distribution is carried by the
    updates to a cloud that reproduces the moments of the Beta distribution with the counted zeros and ones added to its
    parameters; the normalisations, the estimates and the Bayes risk are those of the exact calculation. *)
From Verif Require Import Base RList Ext Sums SmcModel SmcSpec SmcProofs SmcProofs2 PartModel PartSpec PartProofs PartProofs3 PartProps RiskModel RiskSpec RiskProofs SmcProps DistSpec DistProofs2 DomModel DerModel DerSpec DerProofs DerProofs2 TwoModel ConjSpec ConjProofs.
From Coq Require Import List.

(** Single shots, any number of them in any order.  [nrec s = []]: nothing recorded before. *)
Theorem c144_conjugate {E RND} (c : @config Z E RND) rs s data a b D : good_config c -> zthresh c < 1 -> (forall r l e, timestep (md c) r l e = l) ->
  full_inv s -> 0 < a -> 0 < b -> (forall o e x, In (o, e) data -> In x (ls s) -> lik (md c) o x e = coin_like (nth 0 x 0) o) ->
  beta_moments (D + length data) a b s -> eps * (a + b + INR (length data)) <= a -> eps * (a + b + INR (length data)) <= b -> nrec s = [] ->
  let s' := run c s (updates rs 0 data) in
  ls s' = ls s /\ beta_moments D (a + INR (heads data)) (b + INR (tails data)) s' /\
  exists x, log_total_likelihood s' = Fin x /\ exp x = rising a (heads data) * rising b (tails data) / rising (a + b) (length data).
Proof.
  intros G Ht Hst Hinv Ha Hb HL HB He1 He2 H0 s'. destruct (conjugate_lem c rs G Ht Hst data 0%nat s a b D Hinv Ha Hb HL HB He1 He2) as (_ & H1 & H2 & Ns & H3 & H4 & H5).
  split; [exact H1|]. split; [exact H2|]. rewrite H0 in H3. cbn [app] in H3. exists (ln (rprod Ns)). split; [unfold s'; rewrite log_total_exp; now rewrite H3|]. rewrite exp_ln by now apply rprod_pos. exact H5.
Qed.
(** The mean and variance the updater reports then are those of the Beta distribution. *)
Theorem c144_estimates {O} (s : @state O) a b d : 0 < a -> 0 < b -> (0 < d)%nat -> full_inv s -> beta_moments 2 a b s ->
  nth 0 (est_mean d (ws s) (ls s)) 0 = a / (a + b) /\ nth 0 (nth 0 (est_cov d (ws s) (ls s)) []) 0 = a * b / ((a + b) ^ 2 * (a + b + 1)).
Proof.
  intros Ha Hb Hd [Hl Hp] HB. assert (M1 := HB 1%nat ltac:(lia)). assert (M2 := HB 2%nat ltac:(lia)). cbn [rising] in M1, M2.
  assert (E1 : expect (length (ws s)) (fun i => nth i (ws s) 0) (coord (ls s) 0) = a / (a + b)).
  { unfold expect. rewrite Hl. transitivity (Sum (n_particles s) (fun i => wt s i * bias_of s i ^ 1)); [|rewrite M1; field; lra]. apply Sum_ext. intros i _. unfold wt, bias_of, at_, coord. cbn [pow]. ring. }
  split; [now rewrite c17_mean_is_weighted_average|]. rewrite c17_covariance_is_mean_outer_deviation by assumption.
  unfold covar. rewrite E1. unfold expect. rewrite Hl.
  transitivity (Sum (n_particles s) (fun i => wt s i * bias_of s i ^ 2 - 2 * (a / (a + b)) * (wt s i * bias_of s i ^ 1) + (a / (a + b)) ^ 2 * wt s i)).
  - apply Sum_ext. intros i _. unfold wt, bias_of, at_, coord. cbn [pow]. ring.
  - rewrite Sum_plus, Sum_minus, !Sum_scal, M1, M2. rewrite (full_inv_Sum s (conj Hl Hp)). field. lra.
Qed.

(** A count of ones out of [n] from BinomialModel(CoinModel()). *)
Definition counted_coin {E RND} (c : @config nat (E * nat) RND) (s : @state nat) (e : E) (n : nat) : Prop :=
  forall k x, (k <= n)%nat -> In x (ls s) -> binomial_like (fun o x (_ : E) => coin_like (nth 0 x 0) o) [k] [x] [(e, n)] = Ok [[[Fin (lik (md c) k x (e, n))]]].
Lemma counted_coin_counts {E RND} (c : @config nat (E * nat) RND) s e n : counted_coin c s e n -> coin_counts c s e n.
Proof.
  intros H k x Hk Hx. specialize (H k x Hk Hx). unfold binomial_like, no_nan, table in H. cbn [map fst snd] in H. change (coin_like (nth 0 x 0) 1) with (1 - nth 0 x 0) in H. unfold binomial_pdf, scipy_binom_pmf in H.
  destruct (Rleb 0 (1 - nth 0 x 0) && Rleb (1 - nth 0 x 0) 1)%bool; cbn in H; [|discriminate]. injection H as H. rewrite <- H. replace (1 - (1 - nth 0 x 0)) with (nth 0 x 0) by ring. reflexivity.
Qed.
Theorem c144_counts {E RND} (c : @config nat (E * nat) RND) r s e n k D a b : good_config c -> zthresh c < 1 -> (forall r l e, timestep (md c) r l e = l) ->
  full_inv s -> 0 < a -> 0 < b -> counted_coin c s e n -> (k <= n)%nat -> beta_moments (D + n) a b s -> eps <= beta_binomial n a b k ->
  let s' := fst (update c r s k (e, n) false) in
  ls s' = ls s /\ nrec s' = nrec s ++ [beta_binomial n a b k] /\ beta_moments D (a + INR (n - k)) (b + INR k) s'.
Proof. intros G Ht Hst Hinv Ha Hb HL Hk HB He s'. exact (proj2 (count_update_lem c r s e n k D a b G Ht Hst Hinv Ha Hb (counted_coin_counts c s e n HL) Hk HB He)). Qed.
(** Any number of counts; [regular]: no evidence below machine epsilon. *)
Theorem c144_count_history {E RND} (c : @config nat (E * nat) RND) rs s data D a b : good_config c -> zthresh c < 1 -> (forall r l e, timestep (md c) r l e = l) ->
  full_inv s -> 0 < a -> 0 < b -> (forall d, In d data -> counted_coin c s (fst (snd d)) (snd (snd d)) /\ (fst d <= snd (snd d))%nat) ->
  beta_moments (D + (zeros_in data + ones_in data)) a b s -> regular c rs 0 data s -> nrec s = [] ->
  let s' := run c s (updates rs 0 data) in
  ls s' = ls s /\ beta_moments D (a + INR (zeros_in data)) (b + INR (ones_in data)) s' /\
  exists x, log_total_likelihood s' = Fin x /\
    exp x = rprod (map (fun d => INR (binom (snd (snd d)) (fst d))) data) * (rising a (zeros_in data) * rising b (ones_in data) / rising (a + b) (zeros_in data + ones_in data)).
Proof.
  intros G Ht Hst Hinv Ha Hb HL HB HR H0 s'.
  destruct (count_history_lem c rs G Ht Hst data 0%nat s a b D Hinv Ha Hb (fun d Hd => conj (counted_coin_counts c s _ _ (proj1 (HL d Hd))) (proj2 (HL d Hd))) HB HR) as (H1 & H2 & Ns & H3 & H4 & H5).
  split; [exact H1|]. split; [exact H2|]. rewrite H0 in H3. cbn [app] in H3. exists (ln (rprod Ns)). split; [unfold s'; rewrite log_total_exp; now rewrite H3|]. rewrite exp_ln by now apply rprod_pos. exact H5.
Qed.
(** The Bayes risk of [n] further shots. *)
Theorem c144_risk {E RND} (c : @config nat (E * nat) RND) s e n q a b : good_config c -> full_inv s -> 0 < a -> 0 < b -> counted_coin c s e n -> beta_moments (n + 2) a b s ->
  (forall k, (k < n)%nat -> eps <= beta_binomial n a b k) ->
  bayes_risk1 c [q] (ws s) (ls s) (seq 0 (S n)) (e, n) = Fin (q * (a * b / ((a + b) * (a + b + 1) * (a + b + INR n)))).
Proof. intros G Hinv Ha Hb HL HB He. exact (risk_lem c s e n q a b G Hinv Ha Hb (counted_coin_counts c s e n HL) HB He). Qed.

(** Several numbers of shots at once, as [bayes_risk] gets them from an array of experiments; BinomialModel's outcomes are 0 to [n]. *)
Theorem c144_risk_array {E RND} (c : @config nat (E * nat) RND) s (es : list (E * nat)) q a b : good_config c -> full_inv s -> 0 < a -> 0 < b -> es <> [] ->
  (forall e n, In (e, n) es -> counted_coin c s e n /\ beta_moments (n + 2) a b s /\ forall k, (k < n)%nat -> eps <= beta_binomial n a b k) ->
  bayes_risk c [q] (fun e => seq 0 (S (snd e))) false s es = Ok (map (fun e => Fin (q * (a * b / ((a + b) * (a + b + 1) * (a + b + INR (snd e)))))) es).
Proof.
  intros G Hinv Ha Hb Hne H. rewrite c13_array_of_experiments by (auto; discriminate). f_equal. apply map_ext_in. intros [e n] He. destruct (H e n He) as (H1 & H2 & H3). cbn [snd]. now apply c144_risk.
Qed.

(** Two particles that reproduce the moments of the uniform distribution up to the third. *)
Definition gauss2 {O} : @state O :=
  {| ws := [1/2; 1/2]; ls := [[1/2 - / (2 * sqrt 3)]; [1/2 + / (2 * sqrt 3)]]; drec := []; nrec := []; mness := PInf; rcnt := 0; jr := false; calls := 0 |}.
Definition coin_config {O E} (l : O -> loc -> E -> R) : @config O E unit :=
  {| md := {| lik := l; timestep := fun _ x _ => x; canon := fun x => x |}; prior := fun _ n => repeat [0] n; rsmp := fun _ _ _ => Err RuntimeError;
     rthresh := 1/2; zpolicy := PError; zthresh := 1/2; canonize := true |}.
(** likelihoods cut off outside [0, 1], where no particle is *)
Definition cut (x : loc) : R := Rmax 0 (Rmin 1 (nth 0 x 0)).
Definition one_shot (o : Z) (x : loc) (_ : unit) : R := coin_like (cut x) o.
Definition count_shot (k : nat) (x : loc) (e : unit * nat) : R := INR (binom (snd e) k) * (1 - cut x) ^ k * cut x ^ (snd e - k).
Lemma cut_range x : 0 <= cut x <= 1.
Proof. unfold cut. split; [apply Rmax_l|]. apply Rmax_lub; [lra|apply Rmin_l]. Qed.
Lemma coin_good {O E} (l : O -> loc -> E -> R) : (forall o x e, 0 <= l o x e) -> good_config (coin_config l).
Proof. intros H. constructor; cbn; auto; [intros; apply repeat_length|discriminate]. Qed.
Lemma one_shot_good : good_config (coin_config one_shot).
Proof. apply coin_good. intros o x e. unfold one_shot, coin_like, pr0_like. pose proof (cut_range x). destruct (Z.eqb o 0); lra. Qed.
Lemma count_shot_good : good_config (coin_config count_shot).
Proof. apply coin_good. intros o x e. unfold count_shot. pose proof (cut_range x). apply Rmult_le_pos; [apply Rmult_le_pos; [apply pos_INR|apply pow_le; lra]|apply pow_le; lra]. Qed.
Lemma gauss2_inv {O} : full_inv (@gauss2 O).
Proof. split; [reflexivity|split; [repeat constructor; lra|cbn; rewrite !rsum_cons, rsum_nil; lra]]. Qed.
Lemma gauss2_root : let h := / (2 * sqrt 3) in 0 < h < 1/2 /\ h * h = 1/12.
Proof.
  cbv zeta. assert (H3 : sqrt 3 * sqrt 3 = 3) by (apply sqrt_sqrt; lra). assert (Hp : 0 < sqrt 3) by (apply sqrt_lt_R0; lra). set (t := sqrt 3) in *. clearbody t.
  assert (Ht : 1 < t) by nra. split; [split; [apply Rinv_0_lt_compat; lra|]|].
  - replace (1/2) with (/ 2) by lra. apply Rinv_lt_contravar; nra.
  - replace (/ (2 * t) * / (2 * t)) with (/ (4 * (t * t))) by (field; lra). rewrite H3. lra.
Qed.
Lemma gauss2_moments {O} : beta_moments 3 1 1 (@gauss2 O).
Proof.
  destruct gauss2_root as [Hh H2]. intros k Hk. unfold n_particles. cbn [gauss2 ls length]. rewrite !Sum_S, Sum_0. unfold wt, bias_of, at_. cbn [gauss2 ws ls nth]. set (h := / (2 * sqrt 3)) in *. clearbody h.
  assert (Hk' : (k = 0 \/ k = 1 \/ k = 2 \/ k = 3)%nat) by lia. destruct Hk' as [->|[->|[->| ->]]]; cbn [pow rising]; try lra; nra.
Qed.
Lemma gauss2_cut {O} x : In x (ls (@gauss2 O)) -> cut x = nth 0 x 0 /\ 0 <= nth 0 x 0 <= 1.
Proof.
  destruct gauss2_root as [Hh H2]. intros Hx. assert (0 <= nth 0 x 0 <= 1) by (destruct Hx as [<-|[<-|[]]]; cbn [nth]; lra). split; [|assumption]. unfold cut. rewrite Rmin_right by lra. now apply Rmax_right.
Qed.
Lemma gauss2_counted n : counted_coin (coin_config count_shot) gauss2 tt n.
Proof.
  intros k x Hk Hx. destruct (gauss2_cut x Hx) as [E1 E2]. unfold binomial_like, no_nan, table, binomial_pdf, scipy_binom_pmf. cbn [map fst snd coin_config md lik]. unfold count_shot, coin_like, pr0_like. cbn [Z.eqb fst snd]. rewrite E1, !Rleb_true by lra. cbn. replace (1 - (1 - nth 0 x 0)) with (nth 0 x 0) by ring. reflexivity.
Qed.
Lemma eps_small : eps <= 1/64.
Proof. unfold eps. replace (1/64) with (/ 2 ^ 6) by lra. apply Rinv_le_contravar; [apply pow_lt; lra|]. apply Rle_pow; [lra|lia]. Qed.
(** Two shots, a zero and a one: the posterior has the mean of Beta(2, 2), and the data had probability 1/6. *)
Example ex_c144 : let s' := run (coin_config one_shot) gauss2 (updates (fun _ => tt) 0 [(0%Z, tt); (1%Z, tt)]) in
  beta_moments 1 2 2 s' /\ exists x, log_total_likelihood s' = Fin x /\ exp x = 1/6.
Proof.
  pose proof eps_small as Ep. pose proof eps_pos as E0. destruct (c144_conjugate (coin_config one_shot) (fun _ => tt) gauss2 [(0%Z, tt); (1%Z, tt)] 1 1 1) as (_ & H2 & x & H3 & H4); try (cbn [length INR]; lra); try reflexivity; [apply one_shot_good|cbn; lra|apply gauss2_inv| |apply gauss2_moments|].
  - intros o e x _ Hx. cbn [coin_config md lik]. unfold one_shot. now rewrite (proj1 (gauss2_cut x Hx)).
  - cbn in H2. replace (1 + 1) with 2 in H2 by ring. split; [exact H2|]. exists x. split; [exact H3|]. rewrite H4. cbn. field.
Qed.
(** One further shot: risk 1/18. *)
Example ex_c144_risk : bayes_risk1 (coin_config count_shot) [1] (ws (@gauss2 nat)) (ls (@gauss2 nat)) (seq 0 2) (tt, 1%nat) = Fin (1/18).
Proof.
  pose proof eps_small as Ep. rewrite (c144_risk (coin_config count_shot) gauss2 tt 1 1 1 1); try lra; [f_equal; cbn [INR]; field|apply count_shot_good|apply gauss2_inv|apply gauss2_counted|apply gauss2_moments|].
  intros k Hk. replace k with 0%nat by lia. unfold beta_binomial. cbn. lra.
Qed.
Example ex_c144_counts : let s' := fst (update (coin_config count_shot) tt gauss2 1%nat (tt, 2%nat) false) in nrec s' = [1/3] /\ beta_moments 1 2 2 s'.
Proof.
  pose proof eps_small as Ep. assert (B : beta_binomial 2 1 1 1 = 1/3) by (unfold beta_binomial; cbn; field). intros s'. destruct (c144_counts (coin_config count_shot) tt gauss2 tt 2 1 1 1 1) as (_ & H2 & H3); try lra; try lia; try reflexivity; [apply count_shot_good|cbn; lra|apply gauss2_inv|apply gauss2_counted|apply gauss2_moments|].
  fold s' in H2, H3. split; [rewrite H2, B; reflexivity|]. cbn in H3. replace (1 + 1) with 2 in H3 by ring. exact H3.
Qed.
Example ex_c144_risks : bayes_risk (coin_config count_shot) [1] (fun e => seq 0 (S (snd e))) false gauss2 [(tt, 0%nat); (tt, 1%nat)] = Ok [Fin (1/12); Fin (1/18)].
Proof.
  pose proof eps_small as Ep. rewrite (c144_risk_array (coin_config count_shot) gauss2 _ 1 1 1); [|apply count_shot_good|apply gauss2_inv|lra|lra|discriminate|].
  - cbn [map snd INR]. apply f_equal. apply f_equal2; [f_equal; field|]. apply f_equal2; [f_equal; field|reflexivity].
  - intros e n Hi. assert (Hn : (n <= 1)%nat) by (destruct Hi as [[= _ <-]|[[= _ <-]|[]]]; lia). destruct e. split; [apply gauss2_counted|]. split; [intros k Hk; apply gauss2_moments; lia|].
    intros k Hk. replace k with 0%nat by lia. replace n with 1%nat by lia. unfold beta_binomial. cbn. lra.
Qed.
Example ex_c144_history : let s' := run (coin_config count_shot) gauss2 (updates (fun _ => tt) 0 [(1%nat, (tt, 2%nat))]) in
  beta_moments 1 2 2 s' /\ exists x, log_total_likelihood s' = Fin x /\ exp x = 1/3.
Proof.
  pose proof eps_small as Ep. assert (B : beta_binomial 2 1 1 1 = 1/3) by (unfold beta_binomial; cbn; field).
  destruct (c144_count_history (coin_config count_shot) (fun _ => tt) gauss2 [(1%nat, (tt, 2%nat))] 1 1 1) as (_ & H2 & x & H3 & H4); try lra; try reflexivity; [apply count_shot_good|cbn; lra|apply gauss2_inv| |apply gauss2_moments| |].
  - intros d [<-|[]]. split; [apply gauss2_counted|cbn; lia].
  - split; [|exact I]. rewrite (proj2 (evidence_counts _ gauss2 tt 2 1 1 1 1 Rlt_0_1 Rlt_0_1 (counted_coin_counts _ _ _ _ (gauss2_counted 2)) ltac:(lia) gauss2_moments)). lra.
  - cbn in H2. replace (1 + 1) with 2 in H2 by ring. split; [exact H2|]. exists x. split; [exact H3|]. rewrite H4. cbn. unfold rprod. cbn. field.
Qed.
Example ex_c144_estimates : nth 0 (est_mean 1 (ws (@gauss2 Z)) (ls (@gauss2 Z))) 0 = 1/2 /\ nth 0 (nth 0 (est_cov 1 (ws (@gauss2 Z)) (ls (@gauss2 Z))) []) 0 = 1/12.
Proof. destruct (c144_estimates (@gauss2 Z) 1 1 1 Rlt_0_1 Rlt_0_1 (Nat.lt_succ_diag_r 0) gauss2_inv) as [H1 H2]; [intros k Hk; apply gauss2_moments; lia|]. rewrite H1, H2. split; field. Qed.
Print Assumptions c144_conjugate.
Print Assumptions c144_estimates.
Print Assumptions c144_counts.
Print Assumptions c144_risk.
Print Assumptions c144_count_history.
Print Assumptions c144_risk_array.
