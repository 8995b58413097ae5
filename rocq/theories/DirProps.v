(** C147: a die's posterior is the conjugate one.  A cloud that reproduces the moments of a Dirichlet distribution over the face
    probabilities is carried by the updates to a cloud that reproduces the moments of the Dirichlet distribution with the counted faces
    added to its parameters; the normalisations, the estimates and the Bayes risk are those of the exact calculation. *)
From Verif Require Import Base RList Ext Sums SmcModel SmcSpec SmcProofs SmcProofs2 PartModel PartSpec PartProofs PartProofs3 PartProps RiskModel RiskSpec RiskProofs DistSpec DistProofs2 DomModel DerModel DerSpec DerProofs DerProps TwoModel ConjSpec ConjProofs CountProofs DirSpec DirProofs.
From Coq Require Import List.

(** Any number of rolls of NDieModel, in any order.  [nrec s = []]: nothing recorded before. *)
Theorem c147_rolls {E RND} (c : @config nat E RND) rs s data K al D : good_config c -> zthresh c < 1 -> (forall r l e, timestep (md c) r l e = l) ->
  full_inv s -> (forall j, (j < K)%nat -> 0 < al j) -> (forall o e, In (o, e) data -> (o < K)%nat /\ forall x, In x (ls s) -> lik (md c) o x e = die_like x o) -> (0 < K)%nat ->
  dirichlet_moments K (D + length data) al s -> (forall j, (j < K)%nat -> eps * (Sum K al + INR (length data)) <= al j) -> nrec s = [] ->
  let s' := run c s (updates rs 0 data) in
  ls s' = ls s /\ dirichlet_moments K D (fun j => al j + INR (rolled data j)) s' /\
  exists x, log_total_likelihood s' = Fin x /\ exp x = Prod K (fun j => rising (al j) (rolled data j)) / rising (Sum K al) (length data).
Proof.
  intros G Ht Hst Hinv Ha HL HK HD He H0 s'. assert (HF : Forall (fun d => (fst d < K)%nat) data) by (apply Forall_forall; intros [o e] Hd; exact (proj1 (HL o e Hd))).
  assert (Hr : forall j, (j < K)%nat -> summed (fun d => unit_count (fst d)) data j = rolled data j) by (intros; apply summed_rolled).
  destruct (dir_history c rs K (fun _ => 1) (fun d => unit_count (fst d)) G Ht Hst HK data 0%nat s al D Hinv Ha) as (_ & H1 & H2 & Ns & H3 & H4 & H5).
  - intros [o e] Hd. split; [lra|]. intros x Hx. destruct (HL o e Hd) as [Ho HL1]. cbn [fst snd]. rewrite monomial_unit, HL1 by assumption. unfold die_like. ring.
  - rewrite (size_ext K _ _ Hr), size_rolled by assumption. exact HD.
  - now apply rolls_heard.
  - split; [exact H1|]. split.
    + apply (moments_ext K D _ _ _) with (2 := H2). intros j Hj. unfold plus_counts. now rewrite Hr.
    + fold s' in H3. rewrite H0 in H3. cbn [app] in H3. exists (ln (rprod Ns)). split; [rewrite log_total_exp; now rewrite H3|]. rewrite exp_ln by now apply rprod_pos. rewrite H5.
      rewrite (dm_ext K al al _ _ (fun _ _ => eq_refl) Hr). unfold dirichlet_moment. rewrite size_rolled by assumption.
      assert (R1 : rprod (map (fun _ : nat * E => 1) data) = 1) by (clear; induction data as [|d data IH]; [reflexivity|cbn [map]; rewrite rprod_cons, IH; ring]). rewrite R1. ring.
Qed.
(** The mean and covariance the updater reports are those of the Dirichlet distribution. *)
Theorem c147_estimates {O} (s : @state O) K al i j : (0 < K)%nat -> (forall j, (j < K)%nat -> 0 < al j) -> full_inv s -> dirichlet_moments K 2 al s -> (i < K)%nat -> (j < K)%nat ->
  let A := Sum K al in
  nth j (est_mean K (ws s) (ls s)) 0 = al j / A /\
  nth j (nth i (est_cov K (ws s) (ls s)) []) 0 = ((if Nat.eqb i j then al i * A else 0) - al i * al j) / (A ^ 2 * (A + 1)).
Proof.
  intros HK Ha [Hl Hp] HB Hi Hj A. assert (HA := Sum_positive K al HK Ha). fold A in HA.
  assert (M1 : forall k, (k < K)%nat -> expect (length (ws s)) (fun i => nth i (ws s) 0) (coord (ls s) k) = al k / A).
  { intros k Hk. assert (H1 := HB (unit_count k) ltac:(rewrite size_unit by assumption; lia)). rewrite dm_unit in H1 by assumption. fold A in H1. rewrite <- H1. unfold expect. rewrite Hl. apply Sum_ext. intros i' _. rewrite monomial_unit by assumption. reflexivity. }
  split; [rewrite c17_mean_is_weighted_average by assumption; now apply M1|]. rewrite c17_covariance_is_mean_outer_deviation by assumption.
  unfold covar. rewrite !M1 by assumption. unfold expect. rewrite Hl.
  assert (M2 := HB (fun k => unit_count i k + unit_count j k)%nat ltac:(rewrite size_add, !size_unit by assumption; lia)). rewrite dm_add, !dm_unit, Sum_counts, size_unit in M2 by assumption. fold A in M2.
  assert (Hu : plus_counts al (unit_count i) j = al j + (if Nat.eqb i j then 1 else 0)) by (unfold plus_counts, unit_count; rewrite (Nat.eqb_sym j i); destruct (Nat.eqb i j); cbn [INR]; ring). rewrite Hu in M2. cbn [INR] in M2.
  assert (M1' : forall k, (k < K)%nat -> Sum (n_particles s) (fun p => wt s p * coord (ls s) k p) = al k / A) by (intros k Hk; rewrite <- (M1 k Hk); unfold expect; rewrite Hl; reflexivity).
  transitivity (Sum (n_particles s) (fun p => wt s p * monomial K (at_ s p) (fun k => (unit_count i k + unit_count j k)%nat) - al i / A * (wt s p * coord (ls s) j p) - al j / A * (wt s p * coord (ls s) i p) + al i / A * (al j / A) * wt s p)).
  - apply Sum_ext. intros p _. rewrite monomial_add, !monomial_unit by assumption. unfold wt, at_, coord. ring.
  - rewrite Sum_plus, !Sum_minus, !Sum_scal, M2, !M1' by assumption. rewrite (full_inv_Sum s (conj Hl Hp)). destruct (Nat.eqb_spec i j) as [<-|]; field; lra.
Qed.

(** Count vectors from MultinomialModel(NDieModel(K)); the particles are probability vectors. *)
Definition counted_die {E RND} (c : @config (list nat) (E * nat) RND) (s : @state (list nat)) (K : nat) (v : list nat) (e : E * nat) : Prop :=
  length v = K /\ (forall x, In x (ls s) -> length x = K /\ prob_vector x /\
    multinomial_like (seq 0 K) (fun o x (_ : E) => die_like x o) [v] [x] [e] = Ok [[[Fin (lik (md c) v x e)]]]).
Lemma G_Prod v : forall f, G f v * fact_prod v = Prod (length v) (fun j => f j ^ nth j v 0%nat).
Proof.
  induction v as [|k v IH]; intros f; [unfold Prod; cbn; ring|]. cbn [length]. rewrite Prod_S. cbn [G fact_prod nth]. rewrite <- (IH (fun i => f (S i))). pose proof (fact_pos k). field. lra.
Qed.
Lemma G_monomial v x : G (fun i => nth i x 0) v * fact_prod v = monomial (length v) x (fun j => nth j v 0%nat).
Proof. apply G_Prod. Qed.
Lemma counted_die_lik {E RND} (c : @config (list nat) (E * nat) RND) s K v e x : counted_die c s K v e -> In x (ls s) ->
  lik (md c) v x e = orderings v * monomial K x (fun j => nth j v 0%nat).
Proof.
  intros [Hv H] Hx. destruct (H x Hx) as (Hlx & Hp & HL). unfold multinomial_like, no_nan, table in HL. cbn [map fst snd] in HL. unfold die_like in HL.
  assert (Hm : map (fun o => nth o x 0) (seq 0 K) = x) by (rewrite <- Hlx; apply map_nth_seq).
  rewrite (many_pdf (seq 0 K) (fun o => nth o x 0) v) in HL by (rewrite ?Hm, ?seq_length; assumption). cbn in HL. injection HL as HL. rewrite <- HL, seq_length.
  rewrite count_mass_value by auto. rewrite <- Hv, <- G_monomial. unfold orderings. pose proof (fact_prod_pos v). rewrite Hv, Hm. field. lra.
Qed.
Lemma size_list v : size (length v) (fun j => nth j v 0%nat) = nat_sum v.
Proof. unfold size. f_equal. apply map_nth_seq. Qed.
Theorem c147_counts {E RND} (c : @config (list nat) (E * nat) RND) rs s (data : list (list nat * (E * nat))) K al D : good_config c -> zthresh c < 1 -> (forall r l e, timestep (md c) r l e = l) ->
  full_inv s -> (0 < K)%nat -> (forall j, (j < K)%nat -> 0 < al j) -> (forall v e, In (v, e) data -> counted_die c s K v e) ->
  dirichlet_moments K (D + nat_sum (map (fun d => nat_sum (fst d)) data)) al s -> all_likely K al (map fst data) -> nrec s = [] ->
  let s' := run c s (updates rs 0 data) in
  ls s' = ls s /\ dirichlet_moments K D (fun j => al j + INR (totals (map fst data) j)) s' /\
  exists x, log_total_likelihood s' = Fin x /\ exp x = rprod (map (fun d => orderings (fst d)) data) * dirichlet_moment K al (totals (map fst data)).
Proof.
  intros G Ht Hst Hinv HK Ha HL HD He H0 s'. set (m := fun (d : list nat * (E * nat)) j => nth j (fst d) 0%nat).
  assert (Hr : forall j, (j < K)%nat -> summed m data j = totals (map fst data) j) by (intros j _; clear; induction data as [|d data IH]; [reflexivity|cbn; now rewrite IH]).
  destruct (dir_history c rs K (fun d => orderings (fst d)) m G Ht Hst HK data 0%nat s al D Hinv Ha) as (_ & H1 & H2 & Ns & H3 & H4 & H5).
  - intros [v e] Hd. split; [apply orderings_pos|]. intros x Hx. exact (counted_die_lik c s K v e x (HL v e Hd) Hx).
  - assert (Hs : size K (summed m data) = nat_sum (map (fun d => nat_sum (fst d)) data)); [|now rewrite Hs].
    assert (HV : forall d, In d data -> length (fst d) = K) by (intros [v e] Hd; exact (proj1 (HL v e Hd))). clear - HV. induction data as [|d data IH]; [now apply size_zero|].
    change (size K (fun j => m d j + summed m data j)%nat = nat_sum (fst d) + nat_sum (map (fun d => nat_sum (fst d)) data))%nat. rewrite size_add, IH by (intros; apply HV; now right). f_equal. rewrite <- (HV d (or_introl eq_refl)). apply size_list.
  - clear - He. revert al He. induction data as [|d data IH]; intros al He; [exact I|]. destruct He as [He1 He2]. split; [exact He1|]. now apply IH.
  - split; [exact H1|]. split.
    + apply (moments_ext K D _ _ _) with (2 := H2). intros j Hj. unfold plus_counts. now rewrite Hr.
    + fold s' in H3. rewrite H0 in H3. cbn [app] in H3. exists (ln (rprod Ns)). split; [rewrite log_total_exp; now rewrite H3|]. rewrite exp_ln by now apply rprod_pos. rewrite H5.
      now rewrite (dm_ext K al al _ _ (fun _ _ => eq_refl) Hr).
Qed.

(** The Bayes risk of one further roll; the outcomes are the faces. *)
Theorem c147_risk {E RND} (c : @config nat E RND) (s : @state nat) e K al Q : good_config c -> full_inv s -> (0 < K)%nat -> (forall j, (j < K)%nat -> 0 < al j) ->
  (forall o x, (o < K)%nat -> In x (ls s) -> lik (md c) o x e = die_like x o) -> (forall x, In x (ls s) -> length x = K /\ rsum x = 1) ->
  dirichlet_moments K 3 al s -> (forall j, (j < K)%nat -> eps * Sum K al <= al j) -> (length Q <= K)%nat ->
  let A := Sum K al in
  bayes_risk1 c Q (ws s) (ls s) (seq 0 K) e = Fin (Sum (length Q) (fun j => nth j Q 0 * (al j * (A - al j) / (A * (A + 1) ^ 2)))).
Proof.
  intros G Hinv HK Ha HL HX HD He HQ A. destruct Hinv as [Hlen Hpv]. assert (HA := Sum_positive K al HK Ha). fold A in HA.
  assert (Hev : forall o, (o < K)%nat -> evidence c s o e = al o / A).
  { intros o Ho. rewrite (dir_evidence c s o e K 3 al (unit_count o) 1); [rewrite dm_unit by assumption; fold A; ring| |exact HD|rewrite size_unit by assumption; lia]. intros x Hx. rewrite monomial_unit, HL by assumption. unfold die_like. ring. }
  destruct K as [|K0]; [lia|]. assert (Hseq : seq 0 (S K0) = seq 0 K0 ++ [K0]) by apply seq_S. assert (Hrl : removelast (seq 0 (S K0)) = seq 0 K0) by (rewrite Hseq; apply removelast_last). set (K := S K0) in *.
  rewrite (c13_value c Q s (seq 0 K) e K0); try assumption; [|apply (lik_nonneg c G)|now rewrite Hrl| | |].
  - f_equal. unfold expected_posterior_loss. rewrite SumL_seq.
    rewrite (Sum_ext K _ (fun o => Sum (length Q) (fun j => nth j Q 0 * (al o / A * ((al j + INR (unit_count o j)) * (A + 1 - (al j + INR (unit_count o j))) / ((A + 1) ^ 2 * (A + 1 + 1))))))).
    + rewrite Sum_swap. apply Sum_ext. intros j Hj. rewrite Sum_scal. f_equal.
      rewrite (Sum_ext K _ (fun o => (al j * (A + 1 - al j)) / (A * (A + 1) ^ 2 * (A + 1 + 1)) * al o + (A - 2 * al j) / (A * (A + 1) ^ 2 * (A + 1 + 1)) * (al o * INR (unit_count o j)))).
      * rewrite Sum_plus, !Sum_scal. fold A. assert (Hpick : Sum K (fun o => al o * INR (unit_count o j)) = al j).
        { assert (Hjk : (j < K)%nat) by lia. revert Hjk. generalize K. clear. intros K. revert al j. induction K as [|K IH]; intros al j Hj; [lia|]. rewrite Sum_S. destruct j as [|j].
          - rewrite (Sum_ext K _ (fun _ => 0 * 0)) by (intros; cbn; ring). rewrite Sum_scal. cbn. ring.
          - change (unit_count 0 (S j)) with 0%nat. rewrite (Sum_ext K _ (fun i => al (S i) * INR (unit_count i j))) by reflexivity. rewrite (IH (fun i => al (S i)) j) by lia. cbn. ring. }
        rewrite Hpick. field. lra.
      * intros o Ho. unfold unit_count. destruct (Nat.eqb_spec j o) as [<-|]; cbn [INR]; field; lra.
    + intros o Ho. rewrite Hev by assumption. unfold loss. rewrite <- Sum_scal. apply Sum_ext. intros j Hj. rewrite (post_var c s o e K al j HK Ha Ho ltac:(lia) (fun x Hx => HL o x Ho Hx) HD). unfold plus_counts. fold A. ring.
  - intros i Hi. rewrite SumL_seq. destruct (HX (at_ s i) (nth_In _ _ Hi)) as [H1 H2]. rewrite <- H2, rsum_index, H1. apply Sum_ext. intros o Ho. rewrite HL by (auto; now apply nth_In). reflexivity.
  - intros o Ho. rewrite Hrl in Ho. apply in_seq in Ho. right. rewrite Hev by lia. apply Rmult_le_reg_r with A; [lra|]. unfold Rdiv. rewrite Rmult_assoc, Rinv_l, Rmult_1_r by lra. apply He. lia.
  - rewrite Hev by lia. apply Rdiv_lt_0_compat; [apply Ha; lia|lra].
Qed.

(** Seven particles on three faces that reproduce the moments of the uniform distribution up to the third: the corners, the middles of
    the edges and the centre of the triangle. *)
Definition tri {O} : @state O :=
  {| ws := [1/20; 1/20; 1/20; 2/15; 2/15; 2/15; 9/20];
     ls := [[1; 0; 0]; [0; 1; 0]; [0; 0; 1]; [1/2; 1/2; 0]; [1/2; 0; 1/2]; [0; 1/2; 1/2]; [1/3; 1/3; 1/3]]; drec := []; nrec := []; mness := PInf; rcnt := 0; jr := false; calls := 0 |}.
Lemma tri_inv {O} : full_inv (@tri O).
Proof. split; [reflexivity|split; [repeat constructor; lra|cbn; rewrite !rsum_cons, rsum_nil; lra]]. Qed.
Lemma tri_moments {O} : dirichlet_moments 3 3 (fun _ => 1) (@tri O).
Proof.
  intros m Hm. unfold size in Hm. cbn [seq map nat_sum fold_right] in Hm. unfold dirichlet_moment, size, monomial. rewrite !Sum_S, !Sum_0. cbn [seq map]. unfold nat_sum, n_particles. cbn [tri ls length fold_right]. rewrite !Sum_S, !Sum_0, !Prod_S.
  unfold Prod, wt, at_. cbn [seq fold_right tri ws ls nth]. remember (m 0%nat) as a eqn:Ea. remember (m 1%nat) as b eqn:Eb. remember (m 2%nat) as d eqn:Ed. clear Ea Eb Ed m.
  destruct a as [|[|[|[|a]]]]; [| | | |lia]; (destruct b as [|[|[|[|b]]]]; [| | | |lia]; (destruct d as [|[|[|[|d]]]]; [| | | |lia]; (lia || (cbn [Nat.add pow rising]; field)))).
Qed.
Definition tri_config {O E} (l : O -> loc -> E -> R) : @config O E unit :=
  {| md := {| lik := l; timestep := fun _ x _ => x; canon := fun x => x |}; prior := fun _ n => repeat [0] n; rsmp := fun _ _ _ => Err RuntimeError;
     rthresh := 1/2; zpolicy := PError; zthresh := 1/2; canonize := true |}.
Definition face (o : nat) (x : loc) (_ : unit) : R := Rabs (nth o x 0).
Definition counts_of (v : list nat) (x : loc) (_ : unit * nat) : R := orderings v * Rabs (monomial 3 x (fun j => nth j v 0%nat)).
Lemma tri_good {O E} (l : O -> loc -> E -> R) : (forall o x e, 0 <= l o x e) -> good_config (tri_config l).
Proof. intros H. constructor; cbn; auto; [intros; apply repeat_length|discriminate]. Qed.
Lemma face_good : good_config (tri_config face).
Proof. apply tri_good. intros. apply Rabs_pos. Qed.
Lemma counts_good : good_config (tri_config counts_of).
Proof. apply tri_good. intros. apply Rmult_le_pos; [left; apply orderings_pos|apply Rabs_pos]. Qed.
Lemma tri_in {O} x : In x (ls (@tri O)) -> length x = 3%nat /\ prob_vector x.
Proof. intros H. cbn in H. repeat destruct H as [<-|H]; try contradiction; (split; [reflexivity|split; [repeat constructor; lra|rewrite !rsum_cons, rsum_nil; lra]]). Qed.
Lemma nth_nonneg x o : Forall (fun y => 0 <= y) x -> 0 <= nth o x 0.
Proof. intros H. revert o. induction H; intros [|o]; cbn; auto; lra. Qed.
Lemma tri_face {O} o x : In x (ls (@tri O)) -> face o x tt = die_like x o.
Proof. intros H. unfold face, die_like. apply Rabs_right, Rle_ge, nth_nonneg, (proj2 (tri_in x H)). Qed.
Lemma tri_counted v n : length v = 3%nat -> counted_die (tri_config counts_of) tri 3 v (tt, n).
Proof.
  intros Hv. split; [exact Hv|]. intros x Hx. destruct (tri_in x Hx) as [Hlx Hp]. split; [exact Hlx|]. split; [exact Hp|]. unfold multinomial_like, no_nan, table. cbn [map fst snd]. unfold die_like.
  assert (Hm : map (fun o => nth o x 0) (seq 0 3) = x) by (rewrite <- Hlx; apply map_nth_seq).
  rewrite (many_pdf (seq 0 3) (fun o => nth o x 0) v) by (rewrite ?Hm, ?seq_length; assumption). cbn [tri_config md lik]. unfold counts_of. rewrite seq_length, Hm.
  rewrite Rabs_right; [|apply Rle_ge; unfold monomial; rewrite !Prod_S; unfold Prod; cbn [seq fold_right]; repeat apply Rmult_le_pos; try lra; apply pow_le, nth_nonneg, Hp].
  rewrite count_mass_value by auto. rewrite <- Hv, <- G_monomial. unfold orderings. pose proof (fact_prod_pos v). cbn. match goal with |- Ok [[[Fin ?a]]] = Ok [[[Fin ?b]]] => replace b with a; [reflexivity|] end. field. lra.
Qed.
Lemma tri_eps : eps <= 1/64.
Proof. unfold eps. replace (1/64) with (/ 2 ^ 6) by lra. apply Rinv_le_contravar; [apply pow_lt; lra|]. apply Rle_pow; [lra|lia]. Qed.
(** Faces 2, 0: the posterior has the mean of Dirichlet(2, 1, 2), and the data had probability 1/12. *)
Example ex_c147 : let s' := run (tri_config face) tri (updates (fun _ => tt) 0 [(2%nat, tt); (0%nat, tt)]) in
  dirichlet_moments 3 1 (fun j => if Nat.eqb j 1 then 1 else 2) s' /\ exists x, log_total_likelihood s' = Fin x /\ exp x = 1/12.
Proof.
  pose proof tri_eps as Ep. pose proof eps_pos as E0. destruct (c147_rolls (tri_config face) (fun _ => tt) tri [(2%nat, tt); (0%nat, tt)] 3 (fun _ => 1) 1) as (_ & H2 & x & H3 & H4); try reflexivity; try lia; try (intros; lra); [apply face_good|cbn; lra|apply tri_inv| |apply tri_moments| |].
  - intros o [] Hd. split; [destruct Hd as [[= <-]|[[= <-]|[]]]; lia|]. intros x Hx. exact (tri_face o x Hx).
  - intros j Hj. rewrite !Sum_S, Sum_0. cbn [length INR]. lra.
  - split; [apply (moments_ext 3 1 _ _ _) with (2 := H2); intros j Hj; assert (j = 0 \/ j = 1 \/ j = 2)%nat as [->|[->| ->]] by lia; cbn; ring|]. exists x. split; [exact H3|]. rewrite H4. rewrite !Sum_S, Sum_0. unfold Prod. cbn. field.
Qed.
Example ex_c147_counts : let s' := run (tri_config counts_of) tri (updates (fun _ => tt) 0 [([1; 0; 1]%nat, (tt, 2%nat))]) in
  dirichlet_moments 3 1 (fun j => if Nat.eqb j 1 then 1 else 2) s' /\ exists x, log_total_likelihood s' = Fin x /\ exp x = 1/6.
Proof.
  pose proof tri_eps as Ep. pose proof eps_pos as E0.
  assert (B : dirichlet_multinomial 3 (fun _ => 1) [1; 0; 1]%nat = 1/6) by (unfold dirichlet_multinomial, orderings, dirichlet_moment, size; rewrite !Sum_S, Sum_0; unfold Prod; cbn; field).
  destruct (c147_counts (tri_config counts_of) (fun _ => tt) tri [([1; 0; 1]%nat, (tt, 2%nat))] 3 (fun _ => 1) 1) as (_ & H2 & x & H3 & H4); try reflexivity; try lia; try (intros; lra); [apply counts_good|cbn; lra|apply tri_inv| |apply tri_moments| |].
  - intros v e [[= <- <-]|[]]. now apply tri_counted.
  - cbn [map fst all_likely]. split; [lra|exact I].
  - split; [apply (moments_ext 3 1 _ _ _) with (2 := H2); intros j Hj; assert (j = 0 \/ j = 1 \/ j = 2)%nat as [->|[->| ->]] by lia; cbn; ring|]. exists x. split; [exact H3|]. rewrite H4. unfold dirichlet_multinomial in B. cbn [map fst]. rewrite rprod_cons. unfold rprod. cbn [fold_left fold_right]. rewrite <- B.
    rewrite Rmult_1_r. reflexivity.
Qed.
(** One further roll: risk 3 * 2 / (3 * 16) = 1/8. *)
Example ex_c147_risk : bayes_risk1 (tri_config face) [1; 1; 1] (ws (@tri nat)) (ls (@tri nat)) (seq 0 3) tt = Fin (1/8).
Proof.
  pose proof tri_eps as Ep. rewrite (c147_risk (tri_config face) tri tt 3 (fun _ => 1) [1; 1; 1]); try lia; try (intros; lra); [|apply face_good|apply tri_inv| | |apply tri_moments| |cbn; lia].
  - f_equal. cbn [length]. rewrite !Sum_S, !Sum_0. cbn [nth]. field.
  - intros o x _ Hx. exact (tri_face o x Hx).
  - intros x Hx. destruct (tri_in x Hx) as [H1 [_ H2]]. now split.
  - intros j Hj. rewrite !Sum_S, Sum_0. lra.
Qed.
Example ex_c147_estimates : nth 1 (est_mean 3 (ws (@tri nat)) (ls (@tri nat))) 0 = 1/3 /\ nth 1 (nth 0 (est_cov 3 (ws (@tri nat)) (ls (@tri nat))) []) 0 = -1/36.
Proof.
  destruct (c147_estimates (@tri nat) 3 (fun _ => 1) 0 1) as [H1 H2]; try lia; try (intros; lra); [apply tri_inv|intros m Hm; apply tri_moments; lia|]. rewrite !Sum_S, Sum_0 in H1, H2. rewrite H1, H2. cbn [Nat.eqb]. split; field.
Qed.
Print Assumptions c147_rolls.
Print Assumptions c147_estimates.
Print Assumptions c147_counts.
Print Assumptions c147_risk.
