(** Proofs for C110: Liu-West resampling has the properties learning needs. *)
From Verif Require Import Base RList Ext Sums SmcModel SmcSpec PartModel PartSpec SmcProofs2 PartProofs LwModel LwSpec LwProofs LwProofs2 LwProofs3 LearnProofs ReSpec ReProofs ReModel.
From Coq Require Import List.

(** Averages over ancestors (with their weights) and kernel vectors. *)
Fixpoint picks (w : list R) (Ez : (list R -> R) -> R) (n : nat) (F : list (nat * list R) -> R) : R :=
  match n with
  | 0%nat => F []
  | S n' => Sum (length w) (fun j => nth j w 0 * Ez (fun z => picks w Ez n' (fun r => F ((j, z) :: r))))
  end.
Definition picked (w : list R) (r : list (R * list R)) : list (nat * list R) := map (fun p => (sample_index w (fst p), snd p)) r.
Definition good_picks (n d m : nat) (r : list (nat * list R)) : Prop := length r = n /\ Forall (fun p => (fst p < m)%nat /\ length (snd p) = d) r.

Lemma Sum_mono_len f m k : (k <= m)%nat -> (forall i, 0 <= f i) -> Sum k f <= Sum m f.
Proof. intros H Hf. induction H as [|m H IH]; [lra|]. rewrite Sum_last. specialize (Hf m). lra. Qed.

Lemma Sum_const n k : Sum n (fun _ => k) = INR n * k.
Proof. induction n as [|n IH]; [rewrite Sum_0; cbn; ring|]. rewrite Sum_last, IH, S_INR. ring. Qed.
Lemma nth_uniform n i : (i < n)%nat -> nth i (uniform_weights n) 0 = / INR n.
Proof.
  intros Hi. assert (H : In (nth i (uniform_weights n) 0) (uniform_weights n)) by (apply nth_In; now rewrite uniform_weights_length).
  unfold uniform_weights in H at 2. apply repeat_spec in H. rewrite H. unfold Rdiv. ring.
Qed.

Section Picks.
Variables (d : nat) (Eu : (R -> R) -> R) (Ez : (list R -> R) -> R) (w : list R).
Hypothesis (HEu : uniform_law Eu) (HEz : kernel_expectation d Ez) (Hp : prob_vector w).

Lemma draws_ext n : forall f g, (forall r, good_draws n d r -> f r = g r) -> draws Eu Ez n f = draws Eu Ez n g.
Proof.
  induction n as [|n IH]; intros f g H; cbn; [apply H; split; [reflexivity|constructor]|].
  apply (eu_ext Eu HEu). intros u Hu. apply (ez_ext d Ez HEz). intros z Hz. apply IH. intros r [H1 H2]. apply H.
  split; [cbn; now rewrite H1|]. constructor; [split; assumption|assumption].
Qed.
Lemma picks_ext n : forall f g, (forall r, good_picks n d (length w) r -> f r = g r) -> picks w Ez n f = picks w Ez n g.
Proof.
  induction n as [|n IH]; intros f g H; cbn; [apply H; split; [reflexivity|constructor]|].
  apply Sum_ext. intros j Hj. f_equal. apply (ez_ext d Ez HEz). intros z Hz. apply IH. intros r [H1 H2]. apply H.
  split; [cbn; now rewrite H1|]. constructor; [split; assumption|assumption].
Qed.
Lemma picks_const n k : picks w Ez n (fun _ => k) = k.
Proof.
  induction n as [|n IH]; cbn; [reflexivity|]. rewrite (Sum_ext _ _ (fun j => nth j w 0 * k)).
  - rewrite Sum_scal_r, prob_Sum by assumption. ring.
  - intros j _. f_equal. transitivity (Ez (fun _ => k)); [|apply (ez_const d Ez HEz)]. apply (ez_ext d Ez HEz). intros; apply IH.
Qed.
Lemma picks_plus n : forall F G, picks w Ez n (fun r => F r + G r) = picks w Ez n F + picks w Ez n G.
Proof.
  induction n as [|n IH]; intros F G; cbn; [reflexivity|]. rewrite <- Sum_plus. apply Sum_ext. intros j _.
  rewrite <- Rmult_plus_distr_l, <- (ez_plus d Ez HEz). f_equal. apply (ez_ext d Ez HEz). intros z _.
  exact (IH (fun r => F ((j, z) :: r)) (fun r => G ((j, z) :: r))).
Qed.
Lemma picks_scal n : forall k F, picks w Ez n (fun r => k * F r) = k * picks w Ez n F.
Proof.
  induction n as [|n IH]; intros k F; cbn; [reflexivity|]. rewrite <- Sum_scal. apply Sum_ext. intros j _.
  rewrite <- Rmult_assoc, (Rmult_comm k), Rmult_assoc, <- (ez_scal d Ez HEz k). f_equal. apply (ez_ext d Ez HEz). intros z _.
  exact (IH k (fun r => F ((j, z) :: r))).
Qed.
Lemma picks_Sum n m (F : nat -> list (nat * list R) -> R) : picks w Ez n (fun r => Sum m (fun i => F i r)) = Sum m (fun i => picks w Ez n (F i)).
Proof.
  induction m as [|m IH]; [exact (picks_const n 0)|]. rewrite Sum_last, <- IH, <- picks_plus. apply picks_ext. intros; apply Sum_last.
Qed.
Lemma picks_pos n : (forall f, (forall z, length z = d -> 0 <= f z) -> 0 <= Ez f) ->
  forall F, (forall r, good_picks n d (length w) r -> Forall (fun p => 0 < nth (fst p) w 0) r -> 0 <= F r) -> 0 <= picks w Ez n F.
Proof.
  intros HP. induction n as [|n IH]; intros F H; cbn; [apply H; [split; [reflexivity|constructor]|constructor]|].
  apply Sum_nonneg. intros j Hj. pose proof (prob_nth_nonneg w j Hp) as Hw. destruct (Req_dec (nth j w 0) 0) as [->|Hn]; [lra|].
  apply Rmult_le_pos; [assumption|]. apply HP. intros z Hz. apply IH. intros r [H1 H2] H3. apply H.
  - split; [cbn; now rewrite H1|]. constructor; [split; assumption|assumption].
  - constructor; [cbn; lra|assumption].
Qed.
(** One of the draws alone. *)
Lemma picks_nth n (F : nat * list R -> R) p0 : forall i, (i < n)%nat ->
  picks w Ez n (fun r => F (nth i r p0)) = Sum (length w) (fun j => nth j w 0 * Ez (fun z => F (j, z))).
Proof.
  induction n as [|n IH]; intros i Hi; [lia|]. cbn [picks]. destruct i as [|i].
  - apply Sum_ext. intros j _. f_equal. apply (ez_ext d Ez HEz). intros z _. cbn. apply picks_const.
  - etransitivity; [apply Sum_ext; intros j _; apply (f_equal (Rmult (nth j w 0))); etransitivity; [apply (ez_ext d Ez HEz); intros z _; cbn; apply IH; lia|apply (ez_const d Ez HEz)]|].
    rewrite Sum_scal_r, prob_Sum by assumption. ring.
Qed.

(** Two different draws are independent. *)
Lemma picks_pair n (F G : nat * list R -> R) p0 : forall i k, (i < n)%nat -> (k < n)%nat -> i <> k ->
  picks w Ez n (fun r => F (nth i r p0) * G (nth k r p0)) =
  Sum (length w) (fun j => nth j w 0 * Ez (fun z => F (j, z))) * Sum (length w) (fun j => nth j w 0 * Ez (fun z => G (j, z))).
Proof.
  induction n as [|n IH]; intros i k Hi Hk Hik; [lia|]. cbn [picks]. destruct i as [|i], k as [|k]; [lia| | |].
  - rewrite <- Sum_scal_r. apply Sum_ext. intros j _. rewrite Rmult_assoc. f_equal. rewrite Rmult_comm, <- (ez_scal d Ez HEz). apply (ez_ext d Ez HEz).
    intros z _. cbn [nth]. rewrite (picks_scal n (F (j, z)) (fun r => G (nth k r p0))), (picks_nth n G p0 k) by lia. ring.
  - rewrite Rmult_comm, <- Sum_scal_r. apply Sum_ext. intros j _. rewrite Rmult_assoc. f_equal. rewrite Rmult_comm, <- (ez_scal d Ez HEz). apply (ez_ext d Ez HEz).
    intros z _. cbn [nth]. rewrite <- (picks_nth n F p0 i) by lia. rewrite Rmult_comm, <- (picks_scal n (G (j, z)) (fun r => F (nth i r p0))). apply picks_ext. intros; ring.
  - etransitivity; [apply Sum_ext; intros j _; apply (f_equal (Rmult (nth j w 0))); etransitivity; [apply (ez_ext d Ez HEz); intros z _; cbn [nth]; apply IH; lia|apply (ez_const d Ez HEz)]|].
    rewrite Sum_scal_r, prob_Sum by assumption. ring.
Qed.

(** Averaging over uniform numbers and kernel vectors is averaging over ancestors and kernel vectors. *)
Lemma draws_picks n : forall f F, (forall r, good_draws n d r -> f r = F (picked w r)) -> draws Eu Ez n f = picks w Ez n F.
Proof.
  induction n as [|n IH]; intros f F H; cbn; [exact (H [] (conj eq_refl (Forall_nil _)))|].
  rewrite (eu_ext Eu HEu _ (fun u => Ez (fun z => picks w Ez n (fun r => F ((sample_index w u, z) :: r))))).
  - apply (eu_step Eu HEu w (fun j => Ez (fun z => picks w Ez n (fun r => F ((j, z) :: r))))); [assumption|].
    intros j u Hj Hs. assert (Hu : 0 <= u < 1).
    { destruct Hs as [S1 S2]. assert (Z : forall m (g : nat -> R), (forall i, 0 <= g i) -> 0 <= Sum m g) by (intros; apply Sum_nonneg; auto).
      split; [eapply Rle_trans; [|exact S1]; apply Z; intros; now apply prob_nth_nonneg|].
      eapply Rlt_le_trans; [exact S2|]. rewrite <- (Sum_last j (fun i => nth i w 0)). rewrite <- (prob_Sum w Hp). apply Sum_mono_len; [lia|]. intros; now apply prob_nth_nonneg. }
    apply (sample_index_slot w u j Hp Hu Hj) in Hs. now rewrite Hs.
  - intros u Hu. apply (ez_ext d Ez HEz). intros z Hz. apply IH. intros r [H1 H2]. apply (H ((u, z) :: r)).
    split; [cbn; now rewrite H1|]. constructor; [split; assumption|assumption].
Qed.
End Picks.

Section Instance.
Variables (valid : loc -> bool) (postselect : bool) (sqrtm : list (list R) -> list (list R) * ext) (cfg : lw_config) (d n : nat) (junk : nat -> loc).
Variables (Eu : (R -> R) -> R) (Ez : (list R -> R) -> R).
Hypothesis (HEu : uniform_law Eu) (HEz : kernel_expectation d Ez).
Hypothesis (Hn : c_default_n cfg = None \/ c_default_n cfg = Some n) (Hmax : (0 < c_maxiter cfg)%nat).
Hypothesis (Hfin : forall m, isfinite (snd (sqrtm m)) = true) (Hroot : forall m, is_matrix d m -> is_matrix d (fst (sqrtm m))).
Hypothesis (Hval : postselect = true -> forall x, length x = d -> valid x = true).

Definition clouds (l : list loc) : Prop := length l = n /\ forall x, In x l -> length x = d.
Definition root w l := fst (sqrtm (the_cov cfg d w l None)).
Definition point w l (p : nat * list R) : loc := lw_point d (c_a cfg) (c_h cfg) (est_mean d w l) (root w l) (nth (fst p) l []) (snd p).
Definition answer w l (r : list (nat * list R)) : res (list R * list loc) := Ok (uniform_weights n, map (point w l) r).

Lemma est_cov_matrix w l : is_matrix d (est_cov d w l).
Proof.
  unfold est_cov. split; [now rewrite map_length, seq_length|]. intros r Hr. apply in_map_iff in Hr as (i & <- & _). now rewrite map_length, seq_length.
Qed.
Lemma eye_matrix k : is_matrix d (eye k d).
Proof. split; [unfold eye; now rewrite map_length, seq_length|]. intros r Hr. unfold eye in Hr. apply in_map_iff in Hr as (i & <- & _). now rewrite map_length, seq_length. Qed.
Lemma the_cov_matrix w l : is_matrix d (the_cov cfg d w l None).
Proof. unfold the_cov. destruct (Reqb _ 0); [|apply est_cov_matrix]. rewrite (proj1 (est_cov_matrix w l)). apply eye_matrix. Qed.

Lemma call_value r w l : good_draws n d r -> prob_vector w -> length w = length l -> clouds l ->
  lw_rsmp valid postselect sqrtm cfg d junk r w l = answer w l (picked w r).
Proof.
  intros [R1 R2] Hp Hl [C1 C2]. unfold lw_rsmp.
  set (kernel := fun t i => match t with 0%nat => snd (nth i r (0, repeat 0 d)) | S _ => repeat 0 d end).
  assert (Hus : Forall (fun u => 0 <= u < 1) (map fst r)) by (rewrite Forall_map; revert R2; apply Forall_impl; tauto).
  assert (Hln : length (map fst r) = the_n cfg l None) by (rewrite map_length, R1; unfold the_n; destruct Hn as [->| ->]; auto).
  assert (Hk : forall t i, length (kernel t i) = d).
  { intros [|t] i; cbn; [|apply repeat_length]. destruct (Nat.lt_ge_cases i (length r)) as [Hi|Hi].
    - rewrite Forall_forall in R2. apply (R2 (nth i r (0, repeat 0 d))), nth_In, Hi.
    - rewrite nth_overflow by assumption. apply repeat_length. }
  destruct (call_first valid postselect kernel sqrtm cfg d w l None None None (map fst r) junk Hp (eq_sym Hl) Hus Hln Hfin Hmax C2 Hk) as (dist & left & calls & E1 & E2).
  { apply Hroot, the_cov_matrix. }
  { cbn. unfold est_mean, particle_mean. now rewrite map_length, seq_length. }
  destruct (call_shape valid postselect kernel sqrtm cfg d w l None None None (map fst r) junk Hp (eq_sym Hl) Hus Hln Hfin) as (locs & left' & calls' & E3 & E4 & _).
  rewrite E3 in E1. injection E1 as <- <- <-. change (match lw_call valid postselect kernel sqrtm cfg d w l None None None (map fst r) junk with
    | Ok (dist, _, _) => Ok (map finite_part (snd dist), fst dist) | Err x => Err x end = answer w l (picked w r)).
  rewrite E3. unfold answer. rewrite <- Hln, map_length, R1 in E4. do 2 f_equal.
  - cbn [snd]. rewrite map_map. unfold finite_part. rewrite map_id. f_equal. rewrite <- Hln, map_length. exact R1.
  - cbn [fst] in *. assert (Lp : length (map (point w l) (picked w r)) = n) by (unfold picked; now rewrite !map_length).
    apply (nth_ext _ _ [] []); [now rewrite Lp|]. intros i Hi. rewrite E4 in Hi.
    assert (Hi' : (i < length (map fst r))%nat) by (rewrite map_length, R1; exact Hi).
    destruct (E2 i Hi') as (j & Hj & Hs & Hpt). rewrite Hpt.
    + assert (Hu : 0 <= nth i (map fst r) 0 < 1) by (rewrite Forall_forall in Hus; apply Hus, nth_In, Hi').
      apply (sample_index_slot w _ j Hp Hu Hj) in Hs. unfold picked. rewrite map_map.
      rewrite (nth_indep (map _ r) [] (point w l (sample_index w (fst (0, repeat 0 d)), snd (0, repeat 0 d)))) by (now rewrite map_length, R1).
      rewrite (map_nth (fun p => point w l (sample_index w (fst p), snd p))). unfold point. cbn [fst snd].
      rewrite <- Hs. f_equal. f_equal. f_equal. rewrite (nth_indep _ 0 (fst (0, repeat 0 d))) by exact Hi'. apply map_nth.
    + intros Hpost. apply (Hval Hpost). unfold lw_point. now rewrite map_length, seq_length.
Qed.

Lemma answer_ok w l r : (0 < n)%nat -> length r = n -> exists w' l', answer w l r = Ok (w', l') /\ prob_vector w' /\ length w' = length l' /\ clouds l'.
Proof.
  intros H0 H1. exists (uniform_weights n), (map (point w l) r). split; [reflexivity|]. split; [now apply uniform_prob|].
  rewrite uniform_weights_length, map_length. split; [now symmetry|]. split; [now rewrite map_length|].
  intros x Hx. apply in_map_iff in Hx as (p & <- & _). unfold point, lw_point. now rewrite map_length, seq_length.
Qed.

Context {O E : Type}.
Variable c : @config O E (list (R * list R)).
Hypothesis (Hc : rsmp c = lw_rsmp valid postselect sqrtm cfg d junk).

Lemma law_of_answer w l (F : res (list R * list loc) -> R) : prob_vector w -> length w = length l -> clouds l ->
  draws Eu Ez n (fun r => F (rsmp c r w l)) = picks w Ez n (fun r => F (answer w l r)).
Proof.
  intros Hp Hl HC. apply (draws_picks d Eu Ez w HEu HEz Hp). intros r Hr. rewrite Hc. now rewrite call_value.
Qed.
Lemma lw_law : resampling_law c clouds (good_draws n d) (draws Eu Ez n).
Proof.
  constructor.
  - exact (draws_ext d Eu Ez HEu HEz n).
  - intros k. assert (P1 : prob_vector [1]) by (split; [repeat constructor; lra|rewrite rsum_cons, rsum_nil; lra]).
    rewrite (draws_picks d Eu Ez [1] HEu HEz P1 n _ (fun _ => k)) by reflexivity. apply (picks_const d Ez [1] HEz P1).
  - intros w l F G Hp Hl HC. rewrite !law_of_answer by assumption. rewrite (law_of_answer w l (fun x => F x + G x)) by assumption. apply (picks_plus d Ez w HEz).
  - intros w l k F Hp Hl HC. rewrite !law_of_answer by assumption. rewrite (law_of_answer w l (fun x => k * F x)) by assumption. apply (picks_scal d Ez w HEz).
  - intros r w l Hr Hp Hl HC. rewrite Hc, call_value by assumption. apply answer_ok.
    + destruct HC as [<- _]. rewrite <- Hl. now apply prob_vector_nonempty.
    + unfold picked. rewrite map_length. apply Hr.
Qed.
Lemma lw_positive : (forall f, (forall z, length z = d -> 0 <= f z) -> 0 <= Ez f) -> positive_law c clouds (good_draws n d) (draws Eu Ez n).
Proof.
  intros HP w l F Hp Hl HC HF. rewrite law_of_answer by assumption. apply (picks_pos d Ez w Hp n HP). intros r [R1 R2] R3.
  (* every pick of positive weight comes from some uniform number *)
  assert (X : exists r0, good_draws n d r0 /\ picked w r0 = r).
  { exists (map (fun p => (Sum (fst p) (fun i => nth i w 0), snd p)) r). split; [split; [now rewrite map_length|]|].
    - rewrite Forall_map. rewrite Forall_forall in *. intros p Hin. destruct (R2 p Hin) as [A B]. specialize (R3 p Hin). cbn. split; [split|exact B].
      + apply Sum_nonneg. intros; now apply prob_nth_nonneg.
      + apply Rlt_le_trans with (Sum (S (fst p)) (fun i => nth i w 0)); [rewrite Sum_last; lra|]. rewrite <- (prob_Sum w Hp). apply Sum_mono_len; [lia|]. intros; now apply prob_nth_nonneg.
    - unfold picked. rewrite map_map. etransitivity; [|apply map_id]. apply map_ext_in. intros p Hin. cbn. rewrite Forall_forall in R2, R3.
      destruct (R2 p Hin) as [A B]. specialize (R3 p Hin). destruct p as [j z]. cbn [fst snd] in *. f_equal. apply sample_index_slot; try assumption.
      + split; [apply Sum_nonneg; intros; now apply prob_nth_nonneg|].
        apply Rlt_le_trans with (Sum (S j) (fun i => nth i w 0)); [rewrite Sum_last; lra|]. rewrite <- (prob_Sum w Hp). apply Sum_mono_len; [lia|]. intros; now apply prob_nth_nonneg.
      + unfold in_slot. lra. }
  destruct X as (r0 & G0 & <-). rewrite <- call_value by assumption. rewrite <- Hc. now apply HF.
Qed.

(** The resampled cloud averages, on average over the draws, what one new particle averages. *)
Lemma expected_average w l g : prob_vector w -> length w = length l -> clouds l ->
  draws Eu Ez n (fun r => match rsmp c r w l with Ok (w', l') => cloud_average w' l' g | Err _ => 0 end)
  = Sum (length w) (fun j => nth j w 0 * Ez (fun z => g (point w l (j, z)))).
Proof.
  intros Hp Hl HC. rewrite (law_of_answer w l (fun x => match x with Ok (w', l') => cloud_average w' l' g | Err _ => 0 end)) by assumption.
  assert (N : (0 < n)%nat) by (destruct HC as [<- _]; rewrite <- Hl; now apply prob_vector_nonempty).
  assert (N' : 0 < INR n) by (now apply lt_0_INR).
  rewrite (picks_ext d Ez w HEz n _ (fun r => Sum n (fun i => / INR n * g (point w l (nth i r (0%nat, [])))))).
  - rewrite (picks_Sum d Ez w HEz Hp n n (fun i r => / INR n * g (point w l (nth i r (0%nat, []))))).
    rewrite (Sum_ext n _ (fun _ => / INR n * Sum (length w) (fun j => nth j w 0 * Ez (fun z => g (point w l (j, z)))))).
    + rewrite Sum_const. field. lra.
    + intros i Hi. rewrite (picks_scal d Ez w HEz). f_equal. now apply (picks_nth d Ez w HEz Hp n (fun p => g (point w l p))).
  - intros r [R1 _]. cbn [answer]. unfold answer, cloud_average. rewrite map_length, R1. apply Sum_ext. intros i Hi.
    rewrite nth_uniform by assumption. f_equal. f_equal. rewrite (nth_indep _ [] (point w l (0%nat, []))) by (now rewrite map_length, R1). apply map_nth.
Qed.

(** The product of two averages of the resampled cloud: the n draws are independent. *)
Lemma expected_product w l f g : prob_vector w -> length w = length l -> clouds l ->
  let one h := Sum (length w) (fun j => nth j w 0 * Ez (fun z => h (point w l (j, z)))) in
  draws Eu Ez n (fun r => match rsmp c r w l with Ok (w', l') => cloud_average w' l' f * cloud_average w' l' g | Err _ => 0 end)
  = / INR n * one (fun x => f x * g x) + (1 - / INR n) * (one f * one g).
Proof.
  intros Hp Hl HC one. rewrite (law_of_answer w l (fun x => match x with Ok (w', l') => cloud_average w' l' f * cloud_average w' l' g | Err _ => 0 end)) by assumption.
  assert (N : (0 < n)%nat) by (destruct HC as [<- _]; rewrite <- Hl; now apply prob_vector_nonempty).
  assert (N' : 0 < INR n) by (now apply lt_0_INR).
  set (p0 := (0%nat, []) : nat * list R). set (q := fun h (r : list (nat * list R)) i => h (point w l (nth i r p0)) : R).
  assert (A : forall r h, length r = n -> cloud_average (uniform_weights n) (map (point w l) r) h = / INR n * Sum n (q h r)).
  { intros r h Lr. unfold cloud_average. rewrite map_length, Lr, <- Sum_scal. apply Sum_ext. intros i Hi.
    rewrite nth_uniform by assumption. unfold q. f_equal. f_equal. rewrite (nth_indep _ [] (point w l p0)) by (now rewrite map_length, Lr). apply map_nth. }
  rewrite (picks_ext d Ez w HEz n _ (fun r => (/ INR n * / INR n) * Sum n (fun i => Sum n (fun k => q f r i * q g r k)))).
  2:{ intros r [R1 _]. unfold answer. rewrite !A by assumption.
      rewrite (Sum_ext n (fun i => Sum n (fun k => q f r i * q g r k)) (fun i => q f r i * Sum n (q g r))) by (intros; apply Sum_scal).
      rewrite Sum_scal_r. ring. }
  rewrite (picks_scal d Ez w HEz), (picks_Sum d Ez w HEz Hp n n (fun i r => Sum n (fun k => q f r i * q g r k))).
  rewrite (Sum_ext n _ (fun i => one (fun x => f x * g x) + (INR n - 1) * (one f * one g))).
  - rewrite Sum_const. field. lra.
  - intros i Hi. rewrite (picks_Sum d Ez w HEz Hp n n (fun k r => q f r i * q g r k)).
    rewrite (Sum_ext n _ (fun k => one f * one g + (if Nat.eqb i k then one (fun x => f x * g x) - one f * one g else 0))).
    + rewrite Sum_plus, Sum_const. rewrite (Sum_ext n (fun k => if Nat.eqb i k then _ else 0) (fun k => (one (fun x => f x * g x) - one f * one g) * (if Nat.eqb i k then 1 else 0))).
      * rewrite (Sum_delta n i (fun _ => one (fun x => f x * g x) - one f * one g)) by assumption. ring.
      * intros k _. destruct (Nat.eqb i k); ring.
    + intros k Hk. unfold q. destruct (Nat.eqb_spec i k) as [<-|Hik].
      * rewrite (picks_nth d Ez w HEz Hp n (fun p => f (point w l p) * g (point w l p)) p0 i Hi). unfold one. ring.
      * rewrite (picks_pair d Ez w HEz Hp n (fun p => f (point w l p)) (fun p => g (point w l p)) p0 i k Hi Hk Hik). unfold one. ring.
Qed.

Lemma lw_unbiased_mean j : (j < d)%nat -> unbiased c clouds (draws Eu Ez n) (crd j).
Proof.
  intros Hj w l Hp Hl HC. rewrite expected_average by assumption. unfold crd, point. cbn [fst snd].
  rewrite (mean_preserved d Ez HEz w l (c_a cfg) (c_h cfg) (root w l) j Hp (eq_sym Hl) Hj).
  unfold est_mean. exact (mean_mom d w l j Hj Hl).
Qed.

(** Second moments: a^2 C + h^2 S S^T replaces the covariance. *)
Lemma expected_second w l j k : (j < d)%nat -> (k < d)%nat -> prob_vector w -> length w = length l -> clouds l ->
  draws Eu Ez n (fun r => match rsmp c r w l with Ok (w', l') => cloud_average w' l' (crd2 j k) | Err _ => 0 end)
  = cloud_average w l (crd2 j k) + (c_a cfg ^ 2 - 1) * entry (est_cov d w l) j k + c_h cfg ^ 2 * Sum d (fun i => entry (root w l) j i * entry (root w l) k i).
Proof.
  intros Hj Hk Hp Hl HC. rewrite expected_average by assumption.
  set (m := est_mean d w l). set (mj := nth j m 0). set (mk := nth k m 0).
  pose proof (covariance_formula d Ez HEz w l (c_a cfg) (c_h cfg) (root w l) j k Hp (eq_sym Hl) Hj Hk) as C. cbv zeta in C. fold m mj mk in C.
  pose proof (mean_preserved d Ez HEz w l (c_a cfg) (c_h cfg) (root w l) j Hp (eq_sym Hl) Hj) as M1. fold m mj in M1.
  pose proof (mean_preserved d Ez HEz w l (c_a cfg) (c_h cfg) (root w l) k Hp (eq_sym Hl) Hk) as M2. fold m mk in M2.
  set (X := fun i z => nth j (lw_point d (c_a cfg) (c_h cfg) m (root w l) (nth i l []) z) 0) in *.
  set (Y := fun i z => nth k (lw_point d (c_a cfg) (c_h cfg) m (root w l) (nth i l []) z) 0) in *.
  change (Sum (length w) (fun i => nth i w 0 * Ez (fun z => X i z * Y i z)) = cloud_average w l (crd2 j k) + (c_a cfg ^ 2 - 1) * entry (est_cov d w l) j k
    + c_h cfg ^ 2 * Sum d (fun i => entry (root w l) j i * entry (root w l) k i)).
  assert (A : Sum (length w) (fun i => nth i w 0 * Ez (fun z => X i z * Y i z)) =
    Sum (length w) (fun i => nth i w 0 * Ez (fun z => (X i z - mj) * (Y i z - mk))) + mk * Sum (length w) (fun i => nth i w 0 * Ez (X i)) + mj * Sum (length w) (fun i => nth i w 0 * Ez (Y i)) - mj * mk).
  { replace (mj * mk) with (mj * mk * Sum (length w) (fun i => nth i w 0)) by (rewrite (prob_Sum w Hp); ring).
    rewrite <- !Sum_scal, <- !Sum_plus, <- Sum_minus. apply Sum_ext. intros i _.
    assert (B : Ez (fun z => X i z * Y i z) = Ez (fun z => (X i z - mj) * (Y i z - mk)) + (mk * Ez (X i) + (mj * Ez (Y i) + - (mj * mk)))).
    { rewrite <- (ez_const d Ez HEz (- (mj * mk))), <- !(ez_scal d Ez HEz), <- !(ez_plus d Ez HEz). apply (ez_ext d Ez HEz). intros z _. ring. }
    rewrite B. ring. }
  change (Sum (length w) (fun i => nth i w 0 * Ez (X i)) = mj) in M1. change (Sum (length w) (fun i => nth i w 0 * Ez (Y i)) = mk) in M2.
  change (Sum (length w) (fun i => nth i w 0 * Ez (fun z => (X i z - mj) * (Y i z - mk))) = c_a cfg ^ 2 * entry (est_cov d w l) j k + c_h cfg ^ 2 * Sum d (fun i => entry (root w l) j i * entry (root w l) k i)) in C.
  rewrite A, M1, M2, C.
  assert (D : entry (est_cov d w l) j k = cloud_average w l (crd2 j k) - mj * mk).
  { unfold entry. rewrite nth_est_cov by assumption. rewrite cov_mom by assumption. unfold mj, mk, m, est_mean. rewrite !(mean_mom d w l) by assumption. reflexivity. }
  rewrite D. ring.
Qed.

(** With the exact square root, a^2 + h^2 = 1 and compensation [c_comp]: cross moments are kept, squares grow by at most h^2 c_comp,
    and only if the cloud has no spread at all. *)
Hypothesis (Hsq : forall w l, prob_vector w -> length w = length l -> square_root d (root w l) (the_cov cfg d w l None)).
Hypothesis (Hah : c_a cfg ^ 2 + c_h cfg ^ 2 = 1).
Lemma entry_eye k p q : (p < d)%nat -> (q < d)%nat -> entry (eye k d) p q = if Nat.eqb p q then k else 0.
Proof.
  intros H1 H2. unfold entry, eye. rewrite (nth_indep _ [] (map (fun j => if Nat.eqb 0 j then k else 0) (seq 0 d))) by now rewrite map_length, seq_length.
  rewrite (map_nth (fun i => map (fun j => if Nat.eqb i j then k else 0) (seq 0 d))), seq_nth by assumption. cbn [plus].
  rewrite (nth_indep _ 0 (if Nat.eqb p 0 then k else 0)) by now rewrite map_length, seq_length.
  rewrite (map_nth (fun j => if Nat.eqb p j then k else 0)), seq_nth by assumption. reflexivity.
Qed.
Lemma second_moment w l j k : (j < d)%nat -> (k < d)%nat -> prob_vector w -> length w = length l -> clouds l ->
  draws Eu Ez n (fun r => match rsmp c r w l with Ok (w', l') => cloud_average w' l' (crd2 j k) | Err _ => 0 end)
  = cloud_average w l (crd2 j k) + (if Reqb (sqrt (fro2 (est_cov d w l))) 0 then if Nat.eqb j k then c_h cfg ^ 2 * c_comp cfg else 0 else 0).
Proof.
  intros Hj Hk Hp Hl HC. rewrite expected_second by assumption. destruct (Hsq w l Hp Hl) as [_ Hq]. rewrite (Hq j k Hj Hk). unfold the_cov.
  replace (c_a cfg ^ 2 - 1) with (- c_h cfg ^ 2) by lra.
  destruct (Reqb_spec (sqrt (fro2 (est_cov d w l))) 0) as [Z|Z]; [|ring].
  pose proof (proj1 (fro2_zero d w l Hp (eq_sym Hl)) Z) as Z'. rewrite (Z' j k Hj Hk). rewrite (proj1 (est_cov_matrix w l)).
  rewrite entry_eye by assumption. destruct (Nat.eqb j k); ring.
Qed.
(** The covariance of the resampled cloud itself is, on average, smaller by the factor 1 - 1/n: its mean fluctuates. *)
Lemma expected_cov w l j k : (j < d)%nat -> (k < d)%nat -> prob_vector w -> length w = length l -> clouds l ->
  draws Eu Ez n (fun r => match rsmp c r w l with Ok (w', l') => particle_cov w' l' j k | Err _ => 0 end)
  = (1 - / INR n) * (particle_cov w l j k + (if Reqb (sqrt (fro2 (est_cov d w l))) 0 then if Nat.eqb j k then c_h cfg ^ 2 * c_comp cfg else 0 else 0)).
Proof.
  intros Hj Hk Hp Hl HC.
  pose proof (second_moment w l j k Hj Hk Hp Hl HC) as S2. pose proof (lw_unbiased_mean j Hj w l Hp Hl HC) as M1. pose proof (lw_unbiased_mean k Hk w l Hp Hl HC) as M2.
  pose proof (expected_product w l (crd j) (crd k) Hp Hl HC) as P. cbv zeta in P. 
  pose proof (eq_trans (eq_sym (expected_average w l (crd j) Hp Hl HC)) M1) as E1. pose proof (eq_trans (eq_sym (expected_average w l (crd k) Hp Hl HC)) M2) as E2.
  pose proof (eq_trans (eq_sym (expected_average w l (crd2 j k) Hp Hl HC)) S2) as E3. unfold crd2 in E3 at 1. unfold crd in E1 at 1, E2 at 1. unfold crd in P at 3 4 5 6.
  rewrite E1, E2, E3 in P.
  set (u := if Reqb _ 0 then _ else 0) in *.
  assert (G : cloud_average w l (crd2 j k) - cloud_average w l (crd j) * cloud_average w l (crd k) = particle_cov w l j k) by (symmetry; exact (cov_mom w l j k Hl)).
  rewrite <- G.
  transitivity (draws Eu Ez n (fun r => match rsmp c r w l with Ok (w', l') => cloud_average w' l' (crd2 j k) | Err _ => 0 end)
    + -1 * draws Eu Ez n (fun r => match rsmp c r w l with Ok (w', l') => cloud_average w' l' (crd j) * cloud_average w' l' (crd k) | Err _ => 0 end)).
  - pose proof lw_law as HR.
    rewrite <- (rl_scal c clouds _ _ HR w l (-1) (fun x => match x with Ok (w', l') => cloud_average w' l' (crd j) * cloud_average w' l' (crd k) | Err _ => 0 end) Hp Hl HC).
    rewrite <- (rl_plus c clouds _ _ HR w l (fun x => match x with Ok (w', l') => cloud_average w' l' (crd2 j k) | Err _ => 0 end)
       (fun x => -1 * match x with Ok (w', l') => cloud_average w' l' (crd j) * cloud_average w' l' (crd k) | Err _ => 0 end) Hp Hl HC).
    apply (rl_ext c clouds _ _ HR). intros r Hr. destruct (rl_ok c clouds _ _ HR r w l Hr Hp Hl HC) as (w' & l' & -> & _ & Ll & _).
    etransitivity; [exact (cov_mom w' l' j k Ll)|]. change (cloud_average w' l' (crd2 j k) - cloud_average w' l' (crd j) * cloud_average w' l' (crd k) = cloud_average w' l' (crd2 j k) + -1 * (cloud_average w' l' (crd j) * cloud_average w' l' (crd k))). ring.
  - rewrite S2, P. ring.
Qed.
Lemma lw_unbiased_cross j k : (j < d)%nat -> (k < d)%nat -> j <> k \/ c_comp cfg = 0 -> unbiased c clouds (draws Eu Ez n) (crd2 j k).
Proof.
  intros Hj Hk Hx w l Hp Hl HC. rewrite second_moment by assumption. destruct (Reqb _ 0); [|ring].
  destruct (Nat.eqb_spec j k) as [->|_]; [|ring]. destruct Hx as [Hx| ->]; [congruence|ring].
Qed.
Lemma lw_drift j : (j < d)%nat -> 0 <= c_comp cfg -> bounded_drift c clouds (draws Eu Ez n) (crd2 j j) (c_h cfg ^ 2 * c_comp cfg).
Proof.
  intros Hj Hx w l Hp Hl HC. rewrite second_moment by assumption. rewrite Nat.eqb_refl.
  assert (0 <= c_h cfg ^ 2 * c_comp cfg) by (apply Rmult_le_pos; [apply pow2_ge_0|assumption]). destruct (Reqb _ 0); lra.
Qed.
End Instance.
