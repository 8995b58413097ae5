(** Property C98: the ready-made estimators of simple_est.py. *)
From Coq Require Import String.
From Verif Require Import Base RList Ext Sums SmcModel SmcSpec SmcProofs DerModel DomModel TwoModel DistModel DistSpec DistProofs2 DistProps MiscProofs2 SimpleModel SimpleProofs SimpleProps.
From Coq Require Import List.

(** ** The data *)
(** A data argument that holds these rows of cells: a plain array, a record array, a DataFrame, or a text of several lines. *)
Inductive holds (names : list string) : SimpleModel.source -> list (list R) -> Prop :=
| h_plain rows : Forall (fun r => length r = length names) rows -> holds names (SArray (Plain2 (length names) rows)) rows
| h_records rows : Forall (fun r => length r = length names) rows -> holds names (SArray (Recs names (Arr1 (map (by_name names) rows)))) rows
| h_frame rows : Forall (fun r => length r = length names) rows -> holds names (SFrame names (map (by_name names) rows)) rows
| h_text rows : Forall (fun r => length r = length names) rows -> length rows <> 1%nat -> holds names (SText rows) rows.

Lemma map2_maps {A B C D} (f : B -> C -> D) (g : A -> B) (h : A -> C) l : map2 f (map g l) (map h l) = map (fun a => f (g a) (h a)) l.
Proof. induction l as [|a l IH]; cbn; [reflexivity|]. now rewrite IH. Qed.
Lemma holds_route names data rows fs c0 l junk : NoDup names -> holds names data rows ->
  nth_error names (fst c0) = Some (snd c0) -> (forall f c, In (f, c) l -> nth_error names (fst c) = Some (snd c)) ->
  bind (load names data) (fun t => data_to_params t (EFields fs) c0 (CDict l) junk) = data_to_params (Plain2 (length names) rows) (EFields fs) c0 (CDict l) junk.
Proof.
  intros ND H H0 Hl. destruct H as [rows Hr|rows Hr|rows Hr|rows Hr H1]; cbn [load bind].
  - reflexivity.
  - symmetry. now apply c97_positions_and_names_agree.
  - symmetry. now apply c97_positions_and_names_agree.
  - replace (forallb _ rows) with true. 2:{ symmetry. apply forallb_forall. rewrite Forall_forall in Hr. intros r Hi. apply Nat.eqb_eq. auto. }
    cbn [bind]. rewrite (c97_positions_and_names_agree names rows c0 l fs junk ND Hr H0 Hl). destruct rows as [|a [|b rows]]; [reflexivity|now contradiction H1|reflexivity].
Qed.

Lemma combine_maps {A B C} (f : A -> B) (g : A -> C) l : combine (map f l) (map g l) = map (fun a => (f a, g a)) l.
Proof. induction l as [|a l IH]; cbn; [reflexivity|]. now rewrite IH. Qed.

(** ** Posterior expectations *)
Definition post_mean (n : nat) (L : nat -> R) (f : nat -> R) : R := Sum n (fun i => L i * f i) / Sum n L.
Definition post_cov (n : nat) (L : nat -> R) (f g : nat -> R) : R := post_mean n L (fun i => f i * g i) - post_mean n L f * post_mean n L g.

Lemma report_mean n L x w : length x = n -> length w = n -> (forall i, (i < n)%nat -> nth i w 0 = L i / Sum n L) -> forall j, rdot w (col j x) = post_mean n L (fun i => nth j (nth i x []) 0).
Proof.
  intros Hx Hw Hn j. unfold col. rewrite rdot_map. rewrite (rsum_map2_index _ _ _ 0 []) by congruence. rewrite Hw. unfold post_mean, Rdiv. rewrite <- Sum_scal_r. apply Sum_ext. intros i Hi. rewrite Hn by assumption. unfold Rdiv. ring.
Qed.
Lemma report_cov n L x w : length x = n -> length w = n -> (forall i, (i < n)%nat -> nth i w 0 = L i / Sum n L) -> forall j k,
  particle_cov w x j k = post_cov n L (fun i => nth j (nth i x []) 0) (fun i => nth k (nth i x []) 0).
Proof.
  intros Hx Hw Hn j k. unfold particle_cov, post_cov. rewrite !(report_mean n L x w Hx Hw Hn). f_equal. rewrite (rsum_map2_index _ _ _ 0 []) by congruence. rewrite Hw. unfold post_mean, Rdiv. rewrite <- Sum_scal_r. apply Sum_ext. intros i Hi. rewrite Hn by assumption. unfold Rdiv. ring.
Qed.

Lemma binom_lik_nonneg k n p : 0 <= binom_lik k n p.
Proof.
  unfold binom_lik. destruct (k <? 0)%Z; [lra|]. unfold binomial_pdf, scipy_binom_pmf. destruct (Rleb_spec 0 p); cbn [andb]; [|lra]. destruct (Rleb_spec p 1); cbn [andb]; [|lra]. apply Rmult_le_pos; [apply Rmult_le_pos; [apply pos_INR|apply pow_le; lra]|apply pow_le; lra].
Qed.
Lemma prec_lik_nonneg o x e : 0 <= prec_lik o x e.
Proof. unfold prec_lik. destruct (field "x" e), (field "n_meas" e); try lra. apply binom_lik_nonneg. Qed.
Lemma rb_lik_nonneg il o x e : 0 <= rb_lik il o x e.
Proof. unfold rb_lik. destruct (field "m" e), (field "n_meas" e); try lra. destruct il; [destruct (field "reference" e); try lra|]; apply binom_lik_nonneg. Qed.
(** Probability of [k] successes in [n] trials *)
Definition pmf (n k : nat) (p : R) : R := INR (binom n k) * p ^ k * (1 - p) ^ (n - k).
Lemma binom_lik_pmf k n p : 0 <= p <= 1 -> binom_lik (Z.of_nat k) n p = pmf n k p.
Proof. intros H. unfold binom_lik. replace (Z.of_nat k <? 0)%Z with false by (symmetry; apply Z.ltb_ge; lia). rewrite Nat2Z.id. unfold binomial_pdf, scipy_binom_pmf. rewrite !Rleb_true by lra. reflexivity. Qed.

Lemma map_rep {A B} (f : A -> B) x n : map f (repeat x n) = repeat (f x) n.
Proof. induction n as [|n IH]; cbn; [reflexivity|]. now rewrite IH. Qed.
Lemma sin_square x : 0 <= sin x ^ 2 <= 1.
Proof. pose proof (SIN_bound x). cbn. nra. Qed.

Section Est.
Context {RND : Type}.
Implicit Types (rs : RND -> list R -> list loc -> res (list R * list loc)).
Lemma eps10 : eps <= 10 * eps /\ 10 * eps < 1.
Proof. pose proof eps_pos. split; [lra|]. unfold eps in *. assert (16 < 2 ^ 52). { replace 16 with (2 ^ 4) by ring. apply Rlt_pow; [lra|lia]. }
  apply (Rmult_lt_reg_r (2 ^ 52)); [lra|]. rewrite Rmult_assoc, Rinv_l by lra. lra. Qed.
Lemma do_update_bayes l rs cloud d n r rnds os es est s : (forall o x e, 0 <= l o x e) -> length cloud = n -> (0 < n)%nat ->
  do_update (est_config l rs cloud) d n r rnds (Arr1 os) (Arr1 es) = Ok (est, s) -> rcnt s = 0%nat ->
  let L i := rprod (map (fun p => l (fst p) (nth i cloud []) (snd p)) (combine os es)) in
  0 < Sum n L /\ ls s = cloud /\ length (ws s) = n /\ est = report d (ws s) (ls s) /\ forall i, (i < n)%nat -> nth i (ws s) 0 = L i / Sum n L.
Proof.
  intros HL Hc Hn H Hr L. unfold do_update in H. cbn [init bind] in H. unfold batch_update in H. destruct (Nat.eqb _ _); [|discriminate].
  cbn [fst reset prior est_config canonize md canon] in H. set (c := est_config l rs cloud) in *.
  match type of H with match batch_loop c rnds 1 0 _ ?s0 with _ => _ end = _ => set (s0' := s0) in H end.
  destruct (batch_loop c rnds 1 0 (combine os es) s0') as [s' [x|]] eqn:Eb; [discriminate|]. injection H as <- <-.
  destruct (batch_from_uniform c rnds eq_refl (proj1 eps10) (proj2 eps10) HL (fun _ _ _ => eq_refl) (combine os es) 0%nat s0' s') as (H1 & H2 & H3 & H4).
  - cbn. lia.
  - cbn. now rewrite Hc.
  - assumption.
  - cbn. assumption.
  - cbn [s0' ls] in *. rewrite Hc in *. split; [exact H1|]. split; [assumption|]. split; [assumption|]. split; [reflexivity|]. exact H4.
Qed.

(** Results are those of updating with one datum at a time, resampling when the effective sample size asks for it, and stopping
    at the first exception. *)
Theorem c98_one_datum_at_a_time l rs cloud d n r rnds os es : length os = length es ->
  let c := est_config l rs cloud in
  exists s0, init c r n false = Ok s0 /\
  do_update c d n r rnds (Arr1 os) (Arr1 es) =
    match run_until_exn c s0 (map (fun p => OUpdate (rnds (fst p)) (fst (snd p)) (snd (snd p)) true) (combine (seq 0 (length os)) (combine os es))) with
    | (s, None) => Ok (report d (ws s) (ls s), s)
    | (_, Some x) => Err x
    end.
Proof.
  intros Hl c. eexists. split; [reflexivity|]. unfold do_update. cbn [init bind]. unfold batch_update. rewrite Hl, Nat.eqb_refl.
  match goal with |- match batch_loop c rnds 1 0 _ ?s0 with _ => _ end = _ => generalize s0 end. intros s0.
  replace (length es) with (length (combine os es)) by (rewrite combine_length; lia). generalize 0%nat as idx. revert s0. generalize (combine os es) as data.
  assert (G : forall data s0 idx, batch_loop c rnds 1 idx data s0 = run_until_exn c s0 (map (fun p => OUpdate (rnds (fst p)) (fst (snd p)) (snd (snd p)) true) (combine (seq idx (length data)) data))).
  { induction data as [|[o e] data IH]; intros s0 idx; [reflexivity|]. cbn [batch_loop length seq combine map run_until_exn step fst snd]. rewrite update_check_split.
    destruct (update c (rnds idx) s0 o e false) as [s1 [x|]] eqn:Eu; [reflexivity|]. rewrite Z.mod_1_r. cbn [Z.eqb].
    assert (Hne : Rleb (rsum (new_weights c s0 o e)) (zthresh c) = true -> False).
    { intros Hle. rewrite update_unfold in Eu. destruct (Nat.eqb _ _); [|discriminate]. cbv zeta in Eu. rewrite Hle in Eu. cbn in Eu. discriminate. }
    destruct (Rleb _ _); [exfalso; now apply Hne|]. destruct (maybe_resample c (rnds idx) s1) as [s2 [x|]]; [reflexivity|]. apply IH. }
  intros data s0 idx. now rewrite G.
Qed.

(** ** simple_est_prec *)
Lemma prec_route data (rows : list (nat * R * nat)) junk : holds prec_names data (map (fun q => [INR (fst (fst q)); snd (fst q); INR (snd q)]) rows) ->
  bind (load prec_names data) (fun t => data_to_params t prec_dtype counts_col prec_cols (EFieldsOf junk)) =
  Ok (Arr1 (map (fun q => Z.of_nat (fst (fst q))) rows),
      Arr1 (map (fun q => put "n_meas" (VUInt (snd q)) (put "x" (VFloat (snd (fst q))) (EFieldsOf junk))) rows)).
Proof.
  intros H. unfold prec_dtype, prec_cols. rewrite (holds_route prec_names data (map (fun q => [INR (fst (fst q)); snd (fst q); INR (snd q)]) rows)); try assumption.
  - unfold data_to_params. cbn [take counts_col fst length prec_names Nat.ltb Nat.leb bind issctype amap set_fields set_field kind_of find String.eqb option_map snd]. cbn.
    rewrite !map_length. rewrite !Nat.eqb_refl. cbn. rewrite !map_map, !map2_maps. cbn. rewrite ?map_length, ?Nat.eqb_refl. cbn. rewrite ?map2_maps. do 2 f_equal.
    + f_equal. apply map_ext. intros q. rewrite INR_IZR_INZ. apply c97_counts_are_kept.
    + f_equal. apply map_ext. intros q. now rewrite INR_IZR_INZ, c97_counts_are_kept, Nat2Z.id.
  - repeat constructor; cbn; intuition discriminate.
  - reflexivity.
  - intros f c [E|[E|[]]]; injection E as <- <-; reflexivity.
Qed.

Theorem c98_precession_is_bayes rs w r rnds junk data fmin fmax n (rows : list (nat * R * nat)) est s : (0 < n)%nat ->
  holds prec_names data (map (fun q => [INR (fst (fst q)); snd (fst q); INR (snd q)]) rows) ->
  simple_est_prec rs w r rnds (EFieldsOf junk) data fmin fmax n = Ok (est, s) -> rcnt s = 0%nat ->
  let freq i := unif (here w) i 0 * fmax in
  let L i := rprod (map (fun q => pmf (snd q) (fst (fst q)) (sin (freq i * snd (fst q) / 2) ^ 2)) rows) in
  0 < Sum n L /\ est = Scalars (post_mean n L freq) (post_cov n L freq freq).
Proof.
  intros Hn Hh H Hr freq L. unfold simple_est_prec in H. cbn [new_uniform get_ranges get_range range_rows bind] in H.
  pose proof (prec_route data rows junk Hh) as Hroute. destruct (load prec_names data) as [t|x]; [|discriminate]. cbn [bind] in H, Hroute. rewrite Hroute in H. cbn [bind sample length fst snd cloud_of] in H.
  set (cloud := map (map finite) (map (fun i => map Fin (uniform_row [(0, fmax)] (unif (here w) i))) (nrange n))) in H.
  assert (Hcl : length cloud = n) by (unfold cloud, nrange; now rewrite !map_length, seq_length).
  assert (Hx : forall i, (i < n)%nat -> nth i cloud [] = [freq i]).
  { intros i Hi. unfold cloud, nrange. rewrite map_map. rewrite MiscProofs2.nth_map_seq by assumption. cbn. f_equal. unfold freq. ring. }
  destruct (do_update_bayes prec_lik rs cloud 1 n r rnds _ _ est s prec_lik_nonneg Hcl Hn H Hr) as (H1 & H2 & H3 & H4 & H5).
  set (L' := fun i => rprod (map (fun p => prec_lik (fst p) (nth i cloud []) (snd p)) (combine (map (fun q => Z.of_nat (fst (fst q))) rows) (map (fun q => put "n_meas" (VUInt (snd q)) (put "x" (VFloat (snd (fst q))) (EFieldsOf junk))) rows)))) in *.
  assert (HLL : forall i, (i < n)%nat -> L' i = L i).
  { intros i Hi. unfold L', L. rewrite Hx by assumption. f_equal. rewrite combine_maps, map_map. apply map_ext. intros q. cbn [fst snd]. unfold prec_lik. rewrite ?field_put. cbn [field put String.eqb Ascii.eqb Bool.eqb nth].
    unfold prec_like, inv_like, pr0_like, inv_pr0. cbn [Z.eqb]. replace (snd (fst q) * (freq i - 0) / 2) with (freq i * snd (fst q) / 2) by field. pose proof (sin2_cos2 (freq i * snd (fst q) / 2)) as Hsc. unfold Rsqr in Hsc.
    set (x := freq i * snd (fst q) / 2) in *. replace (1 - cos x ^ 2) with (sin x ^ 2) by (cbn; lra). apply binom_lik_pmf. pose proof (SIN_bound x). cbn. nra. }
  assert (HS : Sum n L' = Sum n L) by (apply Sum_ext; assumption).
  split; [now rewrite <- HS|]. rewrite H4. unfold report. cbn [Nat.eqb].
  assert (Hcl' : length (ls s) = n) by congruence.
  assert (Hpm : forall g h, (forall i, (i < n)%nat -> g i = h i) -> post_mean n L' g = post_mean n L h).
  { intros g h Hgh. unfold post_mean. rewrite HS. f_equal. apply Sum_ext. intros i Hi. now rewrite HLL, Hgh. }
  f_equal.
  - unfold particle_mean. cbn [seq map nth]. rewrite (report_mean n L' (ls s) (ws s) Hcl' H3 H5). apply Hpm. intros i Hi. rewrite H2, Hx by assumption. reflexivity.
  - rewrite (report_cov n L' (ls s) (ws s) Hcl' H3 H5). unfold post_cov. f_equal; [apply Hpm|f_equal; apply Hpm]; intros i Hi; rewrite H2, Hx by assumption; reflexivity.
Qed.
(** Hence the estimate lies between zero and [freq_max], with a non-negative variance. *)
Theorem c98_precession_range rs w r rnds junk data fmin fmax n (rows : list (nat * R * nat)) est s : (0 < n)%nat -> good_source w -> 0 <= fmax ->
  holds prec_names data (map (fun q => [INR (fst (fst q)); snd (fst q); INR (snd q)]) rows) ->
  simple_est_prec rs w r rnds (EFieldsOf junk) data fmin fmax n = Ok (est, s) -> rcnt s = 0%nat ->
  exists m v, est = Scalars m v /\ 0 <= m <= fmax /\ 0 <= v.
Proof.
  intros Hn Hw Hf Hh H Hr. destruct (c98_precession_is_bayes rs w r rnds junk data fmin fmax n rows est s Hn Hh H Hr) as (HS & ->).
  set (freq := fun i => unif (here w) i 0 * fmax) in *. set (L := fun i => rprod _) in *.
  assert (HL : forall i, 0 <= L i).
  { intros i. apply rprod_nonneg. apply Forall_forall. intros x Hx. apply in_map_iff in Hx. destruct Hx as (q & <- & _). rewrite <- binom_lik_pmf; [apply binom_lik_nonneg|]. apply sin_square. }
  assert (Hfr : forall i, 0 <= freq i <= fmax). { intros i. unfold freq. pose proof (gd_unif _ (Hw []) i 0%nat) as Hu. change (w []) with (here w) in Hu. generalize dependent (unif (here w) i 0). intros u Hu. clear - Hu Hf. split; [apply Rmult_le_pos; lra|nra]. }
  eexists _, _. split; [reflexivity|]. set (T := Sum n L) in *. set (m := post_mean n L freq).
  assert (Hm : Sum n (fun i => L i * freq i) = m * T). { unfold m, post_mean. fold T. field. lra. }
  split; [split|].
  - apply (Rmult_le_reg_r T); [assumption|]. rewrite Rmult_0_l, <- Hm. apply Sum_nonneg. intros i _. apply Rmult_le_pos; [auto|apply Hfr].
  - apply (Rmult_le_reg_r T); [assumption|]. rewrite <- Hm. unfold T. rewrite <- Sum_scal. apply Sum_le. intros i _. rewrite Rmult_comm. apply Rmult_le_compat_r; [auto|apply Hfr].
  - unfold post_cov. fold m. unfold post_mean. fold T. apply (Rmult_le_reg_r T); [assumption|]. rewrite Rmult_0_l.
    replace ((Sum n (fun i => L i * (freq i * freq i)) / T - m * m) * T) with (Sum n (fun i => L i * (freq i * freq i)) - 2 * m * (m * T) + m * m * T) by (field; lra).
    rewrite <- Hm at 1. unfold T. rewrite <- !Sum_scal, <- Sum_minus, <- Sum_plus. apply Sum_nonneg. intros i _. replace (L i * (freq i * freq i) - 2 * m * (L i * freq i) + m * m * L i) with (L i * (freq i - m) ^ 2) by ring. apply Rmult_le_pos; [auto|apply pow2_ge_0].
Qed.

(** The minimum frequency asked for does not constrain the estimate: with draws at the lower end and no counts, the estimate is
    zero whatever [freq_min] is. *)
Lemma lik_zero_freq junk (t : R) (m : nat) : prec_lik 0 [0] (put "n_meas" (VUInt m) (put "x" (VFloat t) (EFieldsOf junk))) = 1.
Proof.
  unfold prec_lik. cbn [field put String.eqb Ascii.eqb Bool.eqb nth]. unfold prec_like, inv_like, pr0_like, inv_pr0. cbn [Z.eqb]. replace (t * (0 - 0) / 2) with 0 by field. rewrite cos_0.
  change 0%Z with (Z.of_nat 0). rewrite binom_lik_pmf by lra. unfold pmf. replace (1 - 1 ^ 2) with 0 by ring. destruct m; cbn; rewrite ?Rminus_0_r, ?pow1; ring.
Qed.
Definition zero_draws : DistModel.source := fun _ =>
  {| unif := fun _ _ => 0; gauss := fun _ _ => 0; raw := fun _ => 0; rawrow := fun k _ => repeat 0 k; bits := fun _ => 0%nat;
     counts := fun n ws => match ws with [] => [] | _ :: ws' => n :: repeat 0%nat (length ws') end; shuffled := seq 0 |}.
Lemma zero_draws_good : good_source zero_draws.
Proof.
  intros p. constructor; cbn; intros.
  - lra.
  - apply repeat_length.
  - destruct weights as [|a l]; cbn; [split; [reflexivity|tauto]|]. rewrite repeat_length. split; [reflexivity|]. intros _. replace (fold_right Nat.add 0%nat (repeat 0%nat (length l))) with 0%nat; [lia|]. induction l; cbn; auto.
  - apply Permutation_refl.
Qed.
Lemma c98_freq_min_witness rs r rnds junk fmin fmax n (rows : list (R * nat)) data : (0 < n)%nat -> 0 < fmin -> fmin < fmax ->
  holds prec_names data (map (fun q => [INR (fst (fst q)); snd (fst q); INR (snd q)]) (map (fun q => (0%nat, fst q, snd q)) rows)) ->
  exists m v s, simple_est_prec rs zero_draws r rnds (EFieldsOf junk) data fmin fmax n = Ok (Scalars m v, s) /\ m < fmin.
Proof.
  intros Hn Hf Hff Hh.
  assert (Hex : exists s, simple_est_prec rs zero_draws r rnds (EFieldsOf junk) data fmin fmax n = Ok (report 1 (ws s) (ls s), s) /\ rcnt s = 0%nat).
  { pose proof (prec_route data _ junk Hh) as Hroute. unfold simple_est_prec. cbn [new_uniform get_ranges get_range range_rows bind]. destruct (load prec_names data) as [t|x]; [|discriminate]. cbn [bind] in *. rewrite Hroute. cbn [bind sample length fst snd cloud_of].
    set (cloud := map (map finite) (map (fun i => map Fin (uniform_row [(0, fmax)] (unif (here zero_draws) i))) (nrange n))).
    assert (Hcl : length cloud = n) by (unfold cloud, nrange; now rewrite !map_length, seq_length).
    assert (Hx : cloud = repeat [0] n).
    { unfold cloud, nrange. rewrite map_map. rewrite <- (seq_length n 0) at 2. generalize (seq 0 n) as l. induction l as [|i l IH]; [reflexivity|]. cbn [map length repeat]. rewrite IH. f_equal. cbn. f_equal. ring. }
    unfold do_update. cbn [init bind]. unfold batch_update. rewrite !map_length, Nat.eqb_refl.
    cbn [fst reset prior est_config canonize md canon]. set (c := est_config prec_lik rs cloud) in *.
    match goal with |- context [batch_loop c rnds 1 0 _ ?s0] => set (s0' := s0) end.
    assert (G : forall (rows : list (R * nat)) idx s, ws s = uniform_weights n -> ls s = cloud -> rcnt s = 0%nat ->
      exists s', batch_loop c rnds 1 idx (combine (map (fun q => Z.of_nat (fst (fst q))) (map (fun q => (0%nat, fst q, snd q)) rows)) (map (fun q => put "n_meas" (VUInt (snd q)) (put "x" (VFloat (snd (fst q))) (EFieldsOf junk))) (map (fun q => (0%nat, fst q, snd q)) rows))) s = (s', None) /\ rcnt s' = 0%nat).
    { clear - Hn Hcl Hx. induction rows as [|[t m] rows IH]; intros idx s Hws Hls Hrc; [exists s; now split|]. cbn [map combine batch_loop fst snd]. change (Z.of_nat 0) with 0%Z.
      set (e := put "n_meas" (VUInt m) (put "x" (VFloat t) (EFieldsOf junk))).
      assert (Hlen : length (ws s) = length (ls s)) by (rewrite Hws, Hls, Hcl; unfold uniform_weights; apply repeat_length).
      destruct (uniform_prob n Hn) as [Hnn Hsum].
      assert (Hat : forall i, (i < n)%nat -> at_ s i = [0]). { intros i Hi. unfold at_. rewrite Hls, Hx. rewrite (nth_indep _ [] [0]) by (now rewrite repeat_length). apply nth_repeat. }
      assert (Hlk : forall i, (i < n)%nat -> lik (md c) 0%Z (at_ s i) e = 1). { intros i Hi. rewrite Hat by assumption. apply lik_zero_freq. }
      assert (Hnp : n_particles s = n) by (unfold n_particles; congruence).
      assert (Hev : evidence c s 0%Z e = 1).
      { unfold evidence. rewrite Hnp. rewrite (Sum_ext _ _ (fun i => nth i (ws s) 0)) by (intros i Hi; rewrite Hlk by assumption; unfold wt; ring). rewrite <- Hsum, <- Hws, rsum_index. rewrite Hlen, Hls, Hcl. reflexivity. }
      destruct (c01_lem c (rnds idx) s 0%Z e Hlen ltac:(rewrite Hws; assumption) prec_lik_nonneg (proj2 eps10)) as (s1 & E1 & Hl1 & Hw1 & Hls1 & _); [rewrite Hev; destruct eps10; pose proof eps_pos; lra|].
      rewrite E1. rewrite Z.mod_1_r. cbn [Z.eqb]. cbn [timestep md c est_config] in Hls1.
      assert (Hws1 : ws s1 = uniform_weights n).
      { apply (nth_ext _ _ 0 0); [rewrite Hl1, Hws; reflexivity|]. intros i Hi. rewrite Hl1, Hlen, Hls, Hcl in Hi. fold (wt s1 i). rewrite Hw1 by (rewrite Hnp; assumption). unfold bayes. fold (evidence c s 0%Z e). rewrite Hev, Hlk by assumption. unfold wt. rewrite Hws. field. }
      assert (Hm : maybe_resample c (rnds idx) s1 = (s1, None)).
      { unfold maybe_resample. rewrite Hws1. unfold n_ess, uniform_weights. rewrite map_rep. assert (0 < INR n) by (apply lt_0_INR; lia).
        assert (Hrs : forall x k, rsum (repeat x k) = INR k * x). { intros x k. induction k as [|k IHk]; [cbn; unfold rsum; cbn; ring|]. cbn [repeat]. rewrite rsum_cons, IHk, S_INR. ring. }
        rewrite Hrs. replace (INR n * (/ INR n * / INR n)) with (/ INR n) by (field; lra). rewrite xdiv_Fin by (apply Rinv_neq_0_compat; lra). unfold n_particles. rewrite Hls1, Hls, Hcl. cbn [xltb rthresh c est_config].
        replace (1 / / INR n) with (INR n) by (field; lra). cbn. rewrite Rltb_false by lra. reflexivity. }
      rewrite Hm. apply IH; [assumption|congruence|]. pose proof (proj1 (SmcProofs2.update_nocheck_counters c (rnds idx) s 0%Z e)) as Hc. rewrite E1 in Hc. cbn [fst] in Hc. congruence. }
    destruct (G rows 0%nat s0') as (s' & E & Hrc); [reflexivity|reflexivity|reflexivity|]. rewrite E. exists s'. now split. }
  destruct Hex as (s & E & Hrc). destruct (c98_precession_is_bayes rs zero_draws r rnds junk data fmin fmax n _ _ s Hn Hh E Hrc) as (HT & Hest). rewrite Hest in E. eexists _, _, s. split; [exact E|].
  unfold post_mean. rewrite (Sum_zero _ (fun i => _ * _)); [unfold Rdiv; rewrite Rmult_0_l; assumption|]. intros i _. cbn. ring.
Qed.
Theorem c98_freq_min_refuted rs r rnds junk fmin fmax n (rows : list (R * nat)) data : (0 < n)%nat -> 0 < fmin -> fmin < fmax ->
  holds prec_names data (map (fun q => [INR (fst (fst q)); snd (fst q); INR (snd q)]) (map (fun q => (0%nat, fst q, snd q)) rows)) ->
  exists w m v s, good_source w /\ simple_est_prec rs w r rnds (EFieldsOf junk) data fmin fmax n = Ok (Scalars m v, s) /\ m < fmin.
Proof. intros Hn Hf Hff Hh. destruct (c98_freq_min_witness rs r rnds junk fmin fmax n rows data Hn Hf Hff Hh) as (m & v & s & H). exists zero_draws, m, v, s. split; [apply zero_draws_good|exact H]. Qed.

(** A text of a single line cannot be used at all. *)
Theorem c98_single_line_refuted rs w r rnds junk fmin fmax n line : length line = 3%nat -> simple_est_prec rs w r rnds junk (SText [line]) fmin fmax n = Err IndexError.
Proof.
  intros H. unfold simple_est_prec. cbn [new_uniform get_ranges get_range range_rows bind load forallb prec_names length]. rewrite H. cbn. destruct junk; reflexivity.
Qed.
Theorem c98_other_types rs w r rnds junk fmin fmax n : simple_est_prec rs w r rnds junk SOther fmin fmax n = Err TypeError.
Proof. reflexivity. Qed.

(** ** simple_est_rb *)
Lemma post_uniform_rows ranges valid mi n w a : good_source w -> sample (Postselected (Uniform ranges) valid mi) n w = Ok a ->
  exists rows, a = A2 (length ranges) rows /\ length rows = n /\
  forall i, (i < n)%nat -> exists z, (forall j, 0 <= z j < 1) /\ nth i rows [] = map Fin (uniform_row ranges z) /\ valid (nth i rows []) = true.
Proof.
  intros Hw H. cbn [sample bind n_rvs assignable] in H. apply bind_Ok in H. destruct H as (rows & E & Ea). injection Ea as <-. exists rows. split; [reflexivity|].
  rewrite Nat.eqb_refl in E.
  apply c50_first_valid_proposals in E; [|intros q k rws Er; injection Er as <-; unfold nrange; now rewrite map_length, seq_length|apply repeat_length].
  destruct E as (Hl & p & Hp & Hv). split; [assumption|]. intros i Hi. destruct (Hv i Hi) as (k & Hk & Hvk & Hb & Hn). rewrite Hn.
  assert (Hin : In i (pending valid p n k)).
  { unfold pending. apply filter_In. split; [apply in_seq; lia|]. apply forallb_forall. intros q Hq. apply in_seq in Hq. rewrite Hb by lia. reflexivity. }
  assert (Hne : pending valid p n k <> []) by (intros E0; rewrite E0 in Hin; contradiction).
  specialize (Hp k Hk Hne). injection Hp as Hp. apply (In_nth _ _ 0%nat) in Hin. destruct Hin as (idx & Hidx & Ei).
  exists (unif (here (sub w k)) idx). split; [|split; [|assumption]].
  - intros j. exact (gd_unif _ (Hw [k]) idx j).
  - pose proof (f_equal (fun l => nth idx l []) Hp) as Hx. cbv beta in Hx. rewrite (nth_indep (map (p k) _) [] (p k 0%nat)) in Hx by (now rewrite map_length). rewrite map_nth, Ei in Hx. rewrite <- Hx.
    unfold nrange. now rewrite nth_map_seq by assumption.
Qed.

(** Columns: survivals, sequence length, number of sequences and, when interleaved, whether the row is a reference. *)
Record rb_datum := { survived : nat; gates : nat; shots : nat; is_ref : bool }.
Definition rb_cells (il : bool) (q : rb_datum) : list R :=
  [INR (survived q); INR (gates q); INR (shots q)] ++ (if il then [if is_ref q then 1 else 0] else []).
Definition rb_row (il : bool) junk (q : rb_datum) : erow :=
  let e := put "n_meas" (VUInt (shots q)) (put "m" (VUInt (gates q)) (EFieldsOf junk)) in
  if il then put "reference" (VBool (is_ref q)) e else e.
Lemma rb_route il data (rows : list rb_datum) junk : holds (rb_names il) data (map (rb_cells il) rows) ->
  bind (load (rb_names il) data) (fun t => data_to_params t (rb_dtype il) counts_col (rb_cols il) (EFieldsOf junk)) =
  Ok (Arr1 (map (fun q => Z.of_nat (survived q)) rows), Arr1 (map (rb_row il junk) rows)).
Proof.
  assert (Ku : forall n, Z.to_nat (trunc (INR n)) = n) by (intros n; now rewrite INR_IZR_INZ, c97_counts_are_kept, Nat2Z.id).
  assert (Kz : forall n, trunc (INR n) = Z.of_nat n) by (intros n; rewrite INR_IZR_INZ; apply c97_counts_are_kept).
  intros H. unfold rb_dtype, rb_cols. rewrite (holds_route (rb_names il) data (map (rb_cells il) rows)); try assumption.
  - destruct il; cbn [rb_names rb_cells app] in *; unfold data_to_params; cbn [take counts_col fst length Nat.ltb Nat.leb bind issctype amap set_fields set_field kind_of find String.eqb option_map snd app]; cbn;
      rewrite ?map_length, ?Nat.eqb_refl; cbn; rewrite ?map_map, ?map2_maps; cbn; rewrite ?map_length, ?Nat.eqb_refl; cbn; rewrite ?map2_maps; cbn; rewrite ?map_length, ?Nat.eqb_refl; cbn; rewrite ?map2_maps; do 2 f_equal; f_equal; apply map_ext; intros q; rewrite ?Ku, ?Kz; try reflexivity.
    unfold rb_row. cbn. do 3 f_equal. destruct (c97_numbers_are_kept 0 (is_ref q) 0) as (_ & Hb & _). cbn in Hb. injection Hb as Hb. now rewrite Hb.
  - destruct il; repeat constructor; cbn; intuition discriminate.
  - destruct il; reflexivity.
  - destruct il; cbn; intros f c Hi; repeat (destruct Hi as [E|Hi]; [injection E as <- <-; reflexivity|]); contradiction.
Qed.

(** Survival probability of a sequence, from the parameters (p, A, B) or (p_tilde, p_ref, A, B) of particle [x] *)
Definition survival (il : bool) (x : nat -> R) (q : rb_datum) : R :=
  if il then x 2%nat * (if is_ref q then x 1%nat else x 0%nat * x 1%nat) ^ gates q + x 3%nat else x 1%nat * x 0%nat ^ gates q + x 2%nat.
Definition in_support (il : bool) (pmin pmax : R) (x : nat -> R) : Prop :=
  (if il then pmin <= x 0%nat <= pmax /\ pmin <= x 1%nat <= pmax /\ 0 <= x 0%nat <= 1 /\ 0 <= x 1%nat <= 1 /\ 0 <= x 2%nat /\ 0 <= x 3%nat /\ x 2%nat + x 3%nat <= 1
   else pmin <= x 0%nat <= pmax /\ 0 <= x 0%nat <= 1 /\ 0 <= x 1%nat /\ 0 <= x 2%nat /\ x 1%nat + x 2%nat <= 1).
Lemma pow01 p m : 0 <= p <= 1 -> 0 <= p ^ m <= 1.
Proof. intros H. split; [now apply pow_le|]. rewrite <- (pow1 m). now apply pow_incr. Qed.
Lemma survival_prob il pmin pmax x q : in_support il pmin pmax x -> 0 <= survival il x q <= 1.
Proof.
  unfold in_support, survival. destruct il; intros H.
  - set (p := if is_ref q then x 1%nat else x 0%nat * x 1%nat). assert (Hp : 0 <= p <= 1) by (unfold p; destruct (is_ref q); nra). pose proof (pow01 p (gates q) Hp) as Hq. clearbody p. generalize dependent (p ^ gates q). intros y Hy. clear Hp p. nra.
  - pose proof (pow01 (x 0%nat) (gates q) ltac:(lra)) as Hq. generalize dependent (x 0%nat ^ gates q). intros y Hy. nra.
Qed.

Theorem c98_benchmarking_is_bayes rs w r rnds junk data il pmin pmax n (rows : list rb_datum) est s : (0 < n)%nat -> good_source w -> pmin <= pmax ->
  holds (rb_names il) data (map (rb_cells il) rows) ->
  simple_est_rb rs w r rnds (EFieldsOf junk) data il pmin pmax n = Ok (est, s) -> rcnt s = 0%nat ->
  let d := if il then 4%nat else 3%nat in
  exists x : nat -> nat -> R, (forall i, (i < n)%nat -> in_support il pmin pmax (x i)) /\
  let L i := rprod (map (fun q => pmf (shots q) (survived q) (survival il (x i) q)) rows) in
  0 < Sum n L /\ exists mean cov, est = Arrays mean cov /\ length mean = d /\
    (forall j, (j < d)%nat -> nth j mean 0 = post_mean n L (fun i => x i j)) /\
    (forall j k, (j < d)%nat -> (k < d)%nat -> cov j k = post_cov n L (fun i => x i j) (fun i => x i k)).
Proof.
  intros Hn Hw Hpp Hh H Hr d. unfold simple_est_rb, rb_prior in H. revert H. generalize 100%nat as mi. intros mi H. pose proof (rb_route il data rows junk Hh) as Hroute.
  set (ranges := if il then [(pmin, pmax); (pmin, pmax); (0, 1); (0, 1)] else [(pmin, pmax); (0, 1); (0, 1)]).
  replace (new_uniform (R2 (if il then [[pmin; pmax]; [pmin; pmax]; [0; 1]; [0; 1]] else [[pmin; pmax]; [0; 1]; [0; 1]]))) with (Ok (Uniform ranges)) in H by (unfold ranges; destruct il; reflexivity).
  cbn [bind] in H. destruct (load (rb_names il) data) as [t|e0]; [|discriminate]. cbn [bind] in H, Hroute. rewrite Hroute in H. cbn [bind fst snd] in H.
  apply bind_Ok in H. destruct H as (a & Ha & H). destruct (post_uniform_rows ranges (rb_row_valid il) mi n w a Hw Ha) as (rws & -> & Hlr & Hrow). cbn [cloud_of] in H.
  set (cloud := map (map finite) rws) in H. assert (Hcl : length cloud = n) by (unfold cloud; now rewrite map_length).
  set (x := fun i j => nth j (nth i cloud []) 0).
  assert (Hx : forall i, (i < n)%nat -> exists z, (forall j, 0 <= z j < 1) /\ nth i cloud [] = uniform_row ranges z /\ rb_row_valid il (map Fin (uniform_row ranges z)) = true).
  { intros i Hi. destruct (Hrow i Hi) as (z & Hz & En & Hv). exists z. split; [assumption|]. split; [|now rewrite <- En]. unfold cloud. change (@nil R) with (map finite []). rewrite map_nth, En, map_map. cbn. apply map_id. }
  assert (Hsup : forall i, (i < n)%nat -> in_support il pmin pmax (x i)).
  { intros i Hi. destruct (Hx i Hi) as (z & Hz & En & Hv). unfold x. rewrite En. unfold in_support, ranges in *. pose proof (Hz 0%nat). pose proof (Hz 1%nat). pose proof (Hz 2%nat). pose proof (Hz 3%nat). clear - Hpp Hv H0 H1 H2 H3. destruct il; cbn in *; unfold rb_il_valid, rb_valid in Hv;
      repeat match goal with Hb : (_ && _)%bool = true |- _ => apply andb_true_iff in Hb; destruct Hb end;
      repeat match goal with Hb : Rleb ?a ?b = true |- _ => destruct (Rleb_spec a b); [clear Hb|discriminate] end; repeat split; try lra; nra. }
  exists x. split; [assumption|]. intros L.
  destruct (do_update_bayes (rb_lik il) rs cloud d n r rnds _ _ est s (rb_lik_nonneg il) Hcl Hn H Hr) as (H1 & H2 & H3 & H4 & H5).
  set (L' := fun i => rprod (map (fun p => rb_lik il (fst p) (nth i cloud []) (snd p)) _)) in *.
  assert (HLL : forall i, (i < n)%nat -> L' i = L i).
  { intros i Hi. unfold L', L. f_equal. rewrite combine_maps, map_map. apply map_ext. intros q. cbn [fst snd]. rewrite <- binom_lik_pmf by (eapply survival_prob; apply Hsup; assumption).
    unfold rb_lik, rb_row, survival, x. destruct il; cbn [field put String.eqb Ascii.eqb Bool.eqb]; unfold rb_il_like, rb_like, pr0_like; cbn [Z.eqb]; f_equal; destruct (is_ref q); ring. }
  assert (HS : Sum n L' = Sum n L) by (apply Sum_ext; assumption).
  split; [now rewrite <- HS|]. rewrite H4. unfold report. exists (particle_mean d (ws s) (ls s)), (particle_cov (ws s) (ls s)). split; [unfold d; now destruct il|]. split; [unfold particle_mean; now rewrite map_length, seq_length|].
  assert (Hcl' : length (ls s) = n) by congruence.
  assert (Hpm : forall g, post_mean n L' g = post_mean n L g).
  { intros g. unfold post_mean. rewrite HS. f_equal. apply Sum_ext. intros i Hi. now rewrite HLL. }
  split.
  - intros j Hj. unfold particle_mean. rewrite nth_map_seq by assumption. rewrite (report_mean n L' (ls s) (ws s) Hcl' H3 H5). rewrite H2. apply Hpm.
  - intros j k _ _. rewrite (report_cov n L' (ls s) (ws s) Hcl' H3 H5). rewrite H2. unfold post_cov. now rewrite !Hpm.
Qed.
End Est.
(** The hypotheses are satisfiable: two data, two particles. *)
Example c98_example : holds prec_names (SText [[INR 0; 1; INR 5]; [INR 0; 2; INR 5]]) (map (fun q => [INR (fst (fst q)); snd (fst q); INR (snd q)]) (map (fun q => (0%nat, fst q, snd q)) [(1, 5%nat); (2, 5%nat)])) /\
  exists m v s, simple_est_prec (RND := unit) (fun _ _ _ => Err RuntimeError) zero_draws tt (fun _ => tt) (EFieldsOf (fun _ => VUInt 0)) (SText [[INR 0; 1; INR 5]; [INR 0; 2; INR 5]]) (1/2) 1 2 = Ok (Scalars m v, s) /\ m < 1/2.
Proof.
  assert (Hh : holds prec_names (SText [[INR 0; 1; INR 5]; [INR 0; 2; INR 5]]) (map (fun q => [INR (fst (fst q)); snd (fst q); INR (snd q)]) (map (fun q => (0%nat, fst q, snd q)) [(1, 5%nat); (2, 5%nat)]))) by (cbn [map fst snd]; apply h_text; [repeat constructor|discriminate]).
  split; [exact Hh|]. eapply c98_freq_min_witness; [lia|lra|lra|exact Hh].
Qed.
Print Assumptions c98_one_datum_at_a_time.
Print Assumptions c98_precession_is_bayes.
Print Assumptions c98_precession_range.
Print Assumptions c98_freq_min_refuted.
Print Assumptions c98_single_line_refuted.
Print Assumptions c98_other_types.
Print Assumptions c98_benchmarking_is_bayes.
