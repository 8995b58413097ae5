(** Proofs for C117 (mixtures). *)
From Coq Require Import String.
From Verif Require Import Base RList Ext Sums DerSpec DerProofs SmcModel LwModel DistModel DistProofs MixModel MixSpec.
From Coq Require Import List.

Lemma class_parts_list c a kw w l : forall k ns, length ns = length l ->
  (forall j f, nth_error l j = Some f -> build c a kw (k + j) = Ok f) -> class_parts c a kw w k ns = parts w k l ns.
Proof.
  induction l as [|f l IH]; intros k [|m ns] Hl HB; simpl in Hl; try lia; [reflexivity|]. cbn [class_parts parts].
  assert (HB' : forall j g, nth_error l j = Some g -> build c a kw (S k + j) = Ok g).
  { intros j g Hg. replace (S k + j)%nat with (k + S j)%nat by lia. now apply HB. }
  rewrite (IH (S k) ns ltac:(lia) HB'). pose proof (HB 0%nat f eq_refl) as H0. rewrite Nat.add_0_r in H0. rewrite H0. reflexivity.
Qed.

(** ** Labels *)
Fixpoint lab (k : nat) (ns : list nat) : list nat := match ns with [] => [] | m :: r => repeat k m ++ lab (S k) r end.

Lemma count_repeat k m x : count_occ Nat.eq_dec (repeat k m) x = if Nat.eq_dec k x then m else 0%nat.
Proof. induction m as [|m IH]; cbn [repeat count_occ]; [now destruct (Nat.eq_dec k x)|]. rewrite IH. destruct (Nat.eq_dec k x); reflexivity. Qed.
Lemma count_lab ns : forall k x, count_occ Nat.eq_dec (lab k ns) x = if Nat.leb k x then nth (x - k) ns 0%nat else 0%nat.
Proof.
  induction ns as [|m ns IH]; intros k x; cbn [lab].
  - cbn [count_occ]. destruct (Nat.leb k x); [now destruct (x - k)%nat|reflexivity].
  - rewrite count_occ_app, count_repeat, IH. destruct (Nat.eq_dec k x) as [->|D].
    + rewrite Nat.leb_refl, Nat.sub_diag. destruct (Nat.leb_spec (S x) x); [lia|]. cbn [nth]. lia.
    + destruct (Nat.leb_spec (S k) x); destruct (Nat.leb_spec k x); try lia. replace (x - k)%nat with (S (x - S k)) by lia. reflexivity.
Qed.
Lemma nth_counts k s x : nth x (DerSpec.counts k s) 0%nat = if Nat.ltb x k then count_occ Nat.eq_dec s x else 0%nat.
Proof.
  unfold DerSpec.counts. destruct (Nat.ltb_spec x k).
  - rewrite (nth_indep _ 0%nat (count_occ Nat.eq_dec s 0%nat)) by (rewrite map_length, seq_length; lia).
    rewrite (map_nth (fun i => count_occ Nat.eq_dec s i)), seq_nth by lia. reflexivity.
  - apply nth_overflow. rewrite map_length, seq_length. lia.
Qed.
Lemma lab_counts k s : Forall (fun i => (i < k)%nat) s -> Permutation (lab 0 (DerSpec.counts k s)) s.
Proof.
  intros H. apply (Permutation_count_occ Nat.eq_dec). intros x. rewrite count_lab. cbn [Nat.leb]. rewrite Nat.sub_0_r, nth_counts.
  destruct (Nat.ltb_spec x k) as [|Hx]; [reflexivity|]. symmetry. apply count_occ_not_In. intros Hin. rewrite Forall_forall in H. specialize (H x Hin). lia.
Qed.

(** ** Sampling a mixture of constants *)
Section Constants.
Variables (d : nat) (c : nat -> list R) (K : nat).
Hypothesis Hc : forall k, (k < K)%nat -> length (c k) = d.
Let row := fun k => map Fin (c k).
Lemma parts_constants w : forall m k ns, (k + m = K)%nat -> length ns = m ->
  exists ps, parts w k (map (fun k => Constant (c k)) (seq k m)) ns = Ok ps /\
    ((ps = [] /\ lab k ns = []) \/ concat0 ps = Ok (A2 d (map row (lab k ns)))).
Proof.
  induction m as [|m IH]; intros k ns Hk Hl; destruct ns as [|x ns]; simpl in Hl; try lia.
  - exists []. split; [reflexivity|]. now left.
  - destruct (IH (S k) ns ltac:(lia) ltac:(lia)) as (ps & Hp & Hps). cbn [seq map parts lab]. destruct (Nat.eqb_spec x 0) as [->|Hx].
    + exists ps. split; [exact Hp|]. exact Hps.
    + rewrite Hp. cbn [sample bind]. eexists. split; [reflexivity|]. right. rewrite Hc by lia. rewrite map_app.
      assert (Hr : map row (repeat k x) = repeat (map Fin (c k)) x) by (clear; induction x; cbn [repeat map]; f_equal; auto).
      rewrite Hr. destruct Hps as [[-> ->]|Hps]; [cbn [concat0 map]; now rewrite app_nil_r|].
      destruct ps as [|p ps]; [discriminate Hps|]. change (concat0 (A2 d (repeat (map Fin (c k)) x) :: p :: ps)) with
        (bind (concat0 (p :: ps)) (fun b => match b with A2 d' y => if Nat.eqb d d' then Ok (A2 d (repeat (map Fin (c k)) x ++ y)) else Err ValueError | A1 _ => Err ValueError end)).
      rewrite Hps. cbn [bind]. now rewrite Nat.eqb_refl.
Qed.
Definition constants : list dist := map (fun k => Constant (c k)) (seq 0 K).
Lemma lab_length ns : forall k, length (lab k ns) = fold_right Nat.add 0%nat ns.
Proof. induction ns as [|m ns IH]; intros k; [reflexivity|]. cbn [lab fold_right]. rewrite app_length, repeat_length, IH. lia. Qed.
Lemma sample_constants weights shuffle n w s o : (0 < n)%nat -> In s (strings K n) ->
  Permutation o (seq 0 n) ->
  sample (Mixture weights constants shuffle) n (source_of w K s o) =
  Ok (A2 d (map row (if shuffle then map (fun i => nth i (lab 0 (DerSpec.counts K s)) 0%nat) o else lab 0 (DerSpec.counts K s)))).
Proof.
  intros Hn Hs Ho. destruct (strings_length K n s Hs) as [Hl HF].
  assert (HP := lab_counts K s HF). assert (HL : length (lab 0 (DerSpec.counts K s)) = n) by (rewrite (Permutation_length HP); exact Hl).
  rewrite sample_mixture. unfold here at 1. cbn [source_of DistModel.counts].
  destruct (parts_constants (source_of w K s o) K 0 (DerSpec.counts K s) eq_refl) as (ps & Hp & Hps).
  { unfold DerSpec.counts. now rewrite map_length, seq_length. }
  unfold constants. rewrite Hp. cbn [bind]. destruct Hps as [[_ Hz]|Hps]; [rewrite Hz in HL; simpl in HL; lia|].
  rewrite Hps. cbn [bind]. destruct shuffle; [|reflexivity]. unfold here. cbn [source_of shuffled]. do 2 f_equal.
  unfold pick_rows. rewrite map_map. apply map_ext_in. intros i Hi.
  apply (Permutation_in _ Ho) in Hi. apply in_seq in Hi. rewrite (nth_indep _ [] (row 0%nat)) by (rewrite map_length; lia). apply map_nth.
Qed.
End Constants.

(** ** The law of the labels *)
Lemma strings_NoDup k n : NoDup (strings k n).
Proof.
  induction n as [|n IH]; cbn [strings]; [repeat constructor; auto|].
  assert (H : forall l : list nat, NoDup l -> NoDup (flat_map (fun i => map (cons i) (strings k n)) l)); [|apply H, seq_NoDup].
  induction 1 as [|x l Hx Hl IHl]; cbn [flat_map]; [constructor|].
  assert (HA : NoDup (map (cons x) (strings k n))) by (apply FinFun.Injective_map_NoDup; [intros a b E; congruence|assumption]).
  revert HA. generalize (strings k n) at 1 2. intros ss. induction ss as [|s ss IHs]; intros HA; cbn [map app]; [assumption|].
  inversion HA as [|? ? H1 H2]; subst. constructor; [|auto]. intros Hin. apply in_app_iff in Hin as [Hin|Hin]; [contradiction|].
  apply in_flat_map in Hin as (y & Hy & Hin). apply in_map_iff in Hin as (t & E & _). injection E as E1 E2. subst y. contradiction.
Qed.
Lemma in_strings k n s : length s = n -> Forall (fun i => (i < k)%nat) s -> In s (strings k n).
Proof.
  revert n. induction s as [|x s IH]; intros n Hl HF; simpl in Hl; subst n; cbn [strings]; [now left|].
  inversion HF; subst. apply in_flat_map. exists x. split; [apply in_seq; lia|]. apply in_map. now apply IH.
Qed.
Lemma record_prob_perm p s t : Permutation s t -> record_prob p s = record_prob p t.
Proof. induction 1; cbn [record_prob]; try congruence; ring. Qed.

Definition reorder (o s : list nat) : list nat := map (fun i => nth i s 0%nat) o.
Lemma reorder_perm o s : Permutation o (seq 0 (length s)) -> Permutation (reorder o s) s.
Proof.
  intros H. unfold reorder. apply (Permutation_map (fun i => nth i s 0%nat)) in H. eapply Permutation_trans; [exact H|].
  assert (map (fun i => nth i s 0%nat) (seq 0 (length s)) = s) as ->; [|apply Permutation_refl].
  clear. induction s as [|x s IH]; [reflexivity|]. cbn [length seq map nth]. rewrite <- seq_shift, map_map. f_equal. exact IH.
Qed.
Lemma nth_reorder o s j : (j < length o)%nat -> nth j (reorder o s) 0%nat = nth (nth j o 0%nat) s 0%nat.
Proof.
  intros Hj. unfold reorder. rewrite (nth_indep _ 0%nat (nth 0 s 0%nat)) by (now rewrite map_length).
  now rewrite (map_nth (fun i => nth i s 0%nat)).
Qed.
Lemma reorder_inj o s t : length s = length t -> Permutation o (seq 0 (length s)) -> reorder o s = reorder o t -> s = t.
Proof.
  intros Hl Ho E. apply (nth_ext _ _ 0%nat 0%nat); [assumption|]. intros i Hi.
  assert (In i o) as Hin by (apply (Permutation_in _ (Permutation_sym Ho)); apply in_seq; lia).
  apply (In_nth _ _ 0%nat) in Hin as (j & Hj & <-). rewrite <- !nth_reorder by assumption. now rewrite E.
Qed.
Lemma strings_reorder k n o : Permutation o (seq 0 n) -> Permutation (map (reorder o) (strings k n)) (strings k n).
Proof.
  intros Ho. apply NoDup_Permutation_bis.
  - assert (HN := strings_NoDup k n). assert (HS : forall s, In s (strings k n) -> length s = n) by (intros s Hs; now destruct (strings_length k n s Hs)).
    revert HN HS. generalize (strings k n). induction l as [|s l IH]; intros HN HS; cbn [map]; [constructor|]. inversion HN as [|? ? H1 H2]; subst.
    constructor; [|apply IH; auto; intros; apply HS; now right]. intros Hin. apply in_map_iff in Hin as (t & E & Ht). apply H1.
    assert (t = s) as <-; [|assumption]. apply (reorder_inj o); [|rewrite (HS t (or_intror Ht)); assumption|assumption].
    rewrite (HS t (or_intror Ht)). symmetry. apply HS. now left.
  - rewrite map_length. lia.
  - intros t Ht. apply in_map_iff in Ht as (s & <- & Hs). destruct (strings_length k n s Hs) as [Hl HF].
    assert (HP : Permutation (reorder o s) s) by (apply reorder_perm; now rewrite Hl). apply in_strings.
    + rewrite (Permutation_length HP). exact Hl.
    + rewrite Forall_forall in *. intros x Hx. apply HF. now apply (Permutation_in _ HP).
Qed.

Lemma us_SumL n E : uniform_shuffle n E -> forall {A} (l : list A) (g : A -> list nat -> R), E (fun o => SumL l (fun a => g a o)) = SumL l (fun a => E (g a)).
Proof.
  intros U A l g. induction l as [|a l IH].
  - replace (SumL [] (fun a => E (g a))) with (0 * E (fun _ => 1)) by (rewrite (us_one n E U), SumL_rsum; cbn [map]; rewrite rsum_nil; ring).
    rewrite <- (us_scal n E U). apply (us_ext n E U). intros o _. rewrite SumL_rsum. cbn [map]. rewrite rsum_nil. ring.
  - assert (S1 : forall h : A -> R, SumL (a :: l) h = h a + SumL l h) by (intros h; rewrite !SumL_rsum; cbn [map]; now rewrite rsum_cons).
    rewrite S1, <- IH, <- (us_plus n E U). apply (us_ext n E U). intros o _. apply S1.
Qed.
Lemma SumL_perm' {A} (f : A -> R) l m : Permutation l m -> SumL l f = SumL m f.
Proof. intros H. rewrite !SumL_rsum. apply rsum_perm. now apply Permutation_map. Qed.

Lemma shuffled_labels K n p E (G : list nat -> R) : uniform_shuffle n E ->
  SumL (strings K n) (fun s => record_prob p s * E (fun o => G (reorder o (lab 0 (DerSpec.counts K s))))) =
  SumL (strings K n) (fun v => record_prob p v * G v).
Proof.
  intros U.
  transitivity (SumL (strings K n) (fun s => E (fun o => record_prob p s * G (reorder o s)))).
  { apply SumL_ext. intros s Hs. rewrite (us_scal n E U). f_equal. destruct (strings_length K n s Hs) as [Hl HF].
    assert (HP := lab_counts K s HF).
    assert (Hseq : map (fun i => nth i s 0%nat) (seq 0 n) = s).
    { rewrite <- Hl. clear. induction s as [|x s IH]; [reflexivity|]. cbn [length seq map nth]. rewrite <- seq_shift, map_map. f_equal. exact IH. }
    rewrite <- Hseq in HP at 2. apply Permutation_map_inv in HP as (t & Et & Pt). rewrite Et.
    rewrite <- (us_relabel n E U t (fun o => G (reorder o s)) (Permutation_sym Pt)). apply (us_ext n E U). intros o Ho. f_equal.
    unfold reorder. rewrite map_map. apply map_ext_in. intros i Hi. apply (Permutation_in _ Ho) in Hi. apply in_seq in Hi.
    assert (Hlt : length t = n) by (rewrite <- (Permutation_length Pt); apply seq_length).
    rewrite (nth_indep _ 0%nat (nth 0 s 0%nat)) by (rewrite map_length; lia). now rewrite (map_nth (fun i => nth i s 0%nat)). }
  rewrite <- (us_SumL n E U).
  transitivity (E (fun _ => SumL (strings K n) (fun v => record_prob p v * G v) * 1)).
  - apply (us_ext n E U). intros o Ho. rewrite Rmult_1_r.
    rewrite <- (SumL_perm' (fun v => record_prob p v * G v) _ _ (strings_reorder K n o Ho)). rewrite SumL_map. apply SumL_ext. intros s Hs.
    destruct (strings_length K n s Hs) as [Hl HF]. rewrite (record_prob_perm p (reorder o s) s); [reflexivity|]. apply reorder_perm. now rewrite Hl.
  - rewrite (us_scal n E U), (us_one n E U). ring.
Qed.
