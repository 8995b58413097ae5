(** Proofs for C113 to C115. *)
From Coq Require Import String.
From Verif Require Import Base RList MiscModel PerfModel PerfSpec.
From Coq Require Import List.

Lemma map2_nth' {A B C} (f : A -> B -> C) l m i da db dc : (i < length l)%nat -> (i < length m)%nat ->
  nth i (map2 f l m) dc = f (nth i l da) (nth i m db).
Proof.
  revert m i. induction l as [|x l IH]; intros [|y m] [|i] H1 H2; simpl in H1, H2; try lia; [reflexivity|]. cbn [map2 nth]. apply IH; lia.
Qed.
Lemma map2_length_min {A B C} (f : A -> B -> C) l m : length (map2 f l m) = Nat.min (length l) (length m).
Proof. revert m. induction l as [|x l IH]; intros [|y m]; simpl; auto. Qed.

Lemma list_max1_ge l x : In x l -> (x <= list_max1 l)%nat.
Proof. induction l as [|y l IH]; [intros []|]. intros [->|H]; cbn [list_max1 fold_right]; [lia|]. specialize (IH H). unfold list_max1 in IH. lia. Qed.

Lemma list_min1_le l x : In x l -> (list_min1 l <= x)%nat.
Proof.
  destruct l as [|y l]; [intros []|]. intros H. unfold list_min1. revert y H. induction l as [|z l IH]; intros y [->|H]; cbn [fold_right]; try lia.
  - destruct H.
  - specialize (IH x (or_introl eq_refl)). lia.
  - destruct H as [->|H]; [lia|]. specialize (IH y (or_intror H)). lia.
Qed.
Lemma list_min1_in l : l <> [] -> In (list_min1 l) l.
Proof.
  destruct l as [|y l]; [congruence|]. intros _. unfold list_min1. induction l as [|z l IH]; cbn [fold_right]; [now left|].
  destruct (Nat.min_spec z (fold_right Nat.min y l)) as [[_ ->]|[_ ->]]; [right; now left|].
  destruct IH as [IH|IH]; [now left|right; now right].
Qed.

Lemma promote_length {A} M (a : nd A) : (length (shp a) <= M)%nat -> length (shp (promote_dims_left M a)) = M.
Proof.
  intros H. unfold promote_dims_left. destruct (Nat.ltb_spec (length (shp a)) M); cbn [shp]; [|lia].
  rewrite app_length, repeat_length. lia.
Qed.
Lemma promote_positive {A} M (a : nd A) : Forall (lt 0) (shp a) -> Forall (lt 0) (shp (promote_dims_left M a)).
Proof.
  intros H. unfold promote_dims_left. destruct (Nat.ltb_spec (length (shp a)) M); cbn [shp]; [|assumption].
  apply Forall_app. split; [|assumption]. apply Forall_forall. intros x Hx. apply repeat_spec in Hx. lia.
Qed.
Lemma rev_repeat' {A} (x : A) n : rev (repeat x n) = repeat x n.
Proof. induction n as [|n IH]; [reflexivity|]. cbn [repeat rev]. rewrite IH. symmetry. apply repeat_cons. Qed.
Lemma nth_repeat_any {A} (x : A) n i : nth i (repeat x n) x = x.
Proof. revert i. induction n as [|n IH]; intros [|i]; cbn [repeat nth]; auto. Qed.
Lemma promote_axis {A} M (a : nd A) r : axis_from_right (shp (promote_dims_left M a)) r = axis_from_right (shp a) r.
Proof.
  unfold promote_dims_left, axis_from_right. destruct (Nat.ltb_spec (length (shp a)) M) as [H|]; cbn [shp]; [|reflexivity].
  rewrite rev_app_distr, rev_repeat'. destruct (Nat.lt_ge_cases r (length (rev (shp a)))) as [Hr|Hr].
  - now rewrite app_nth1.
  - rewrite app_nth2 by assumption. rewrite nth_repeat_any. now rewrite nth_overflow.
Qed.

Lemma Forall2_len {A B} (P : A -> B -> Prop) l m : Forall2 P l m -> length l = length m.
Proof. induction 1; simpl; auto. Qed.

Section Shorten.
Context {A : Type} (args : list (nd A)).
Hypothesis Hne : args <> [].
Hypothesis Hpos : forall a, In a args -> Forall (lt 0) (shp a).
Let M := list_max1 (map (fun a => length (shp a)) args).
Let pargs := map (promote_dims_left M) args.
Let ms := map (fun axis => list_min1 (map (fun a => nth axis (shp a) 0%nat) pargs)) (seq 0 M).

Lemma shorten_eq : shorten_right_nd args = Ok (map (slice_right ms) pargs).
Proof. unfold shorten_right_nd. destruct args; [congruence|reflexivity]. Qed.
Lemma ms_length : length ms = M.
Proof. unfold ms. now rewrite map_length, seq_length. Qed.
Lemma args_dims a : In a args -> (length (shp a) <= M)%nat.
Proof. intros H. apply list_max1_ge. apply in_map_iff. now exists a. Qed.
Lemma pargs_length a : In a pargs -> length (shp a) = M.
Proof. intros H. apply in_map_iff in H as (x & <- & Hx). apply promote_length. now apply args_dims. Qed.
Lemma pargs_pos a i : In a pargs -> (i < M)%nat -> (0 < nth i (shp a) 0%nat)%nat.
Proof.
  intros H Hi. pose proof (pargs_length a H) as Hl. apply in_map_iff in H as (x & <- & Hx).
  pose proof (promote_positive M x (Hpos x Hx)) as HF. rewrite Forall_forall in HF. apply HF. apply nth_In. lia.
Qed.
Lemma ms_nth i : (i < M)%nat -> nth i ms 0%nat = list_min1 (map (fun a => nth i (shp a) 0%nat) pargs).
Proof.
  intros Hi. unfold ms. rewrite (nth_indep _ 0%nat (list_min1 (map (fun a => nth 0 (shp a) 0%nat) pargs))) by (rewrite map_length, seq_length; lia).
  rewrite (map_nth (fun axis => list_min1 (map (fun a => nth axis (shp a) 0%nat) pargs)) (seq 0 M) 0%nat). rewrite seq_nth by lia. reflexivity.
Qed.
Lemma pargs_ne : pargs <> [].
Proof. unfold pargs. destruct args; [congruence|discriminate]. Qed.
Lemma ms_bounds a i : In a pargs -> (i < M)%nat -> (0 < nth i ms 0 <= nth i (shp a) 0)%nat.
Proof.
  intros Ha Hi. rewrite ms_nth by assumption. split.
  - assert (In (list_min1 (map (fun a => nth i (shp a) 0%nat) pargs)) (map (fun a => nth i (shp a) 0%nat) pargs)) as H.
    { apply list_min1_in. pose proof pargs_ne. destruct pargs; [congruence|discriminate]. }
    apply in_map_iff in H as (x & Hx & Hin). rewrite <- Hx. now apply pargs_pos.
  - apply list_min1_le. apply in_map_iff. now exists a.
Qed.
Lemma slice_shape a : In a pargs -> shp (slice_right ms a) = ms.
Proof.
  intros Ha. cbn [slice_right shp]. pose proof (pargs_length a Ha) as Hl. pose proof ms_length as Hm.
  apply (nth_ext _ _ 0%nat 0%nat); rewrite map2_length_min; [lia|]. intros i Hi.
  rewrite (map2_nth' _ _ _ _ 0%nat 0%nat) by lia. pose proof (ms_bounds a i Ha ltac:(lia)). unfold slice_start.
  destruct (Nat.eqb_spec (nth i ms 0%nat) 0); lia.
Qed.
Lemma ms_least r : (r < M)%nat ->
  (forall a, In a args -> (axis_from_right ms r <= axis_from_right (shp a) r)%nat) /\
  (exists a, In a args /\ axis_from_right ms r = axis_from_right (shp a) r).
Proof.
  intros Hr. pose proof ms_length as Hm.
  assert (Hax : forall a, In a pargs -> axis_from_right (shp a) r = nth (M - S r) (shp a) 0%nat).
  { intros a Ha. unfold axis_from_right. pose proof (pargs_length a Ha). rewrite (nth_indep _ 1%nat 0%nat) by (rewrite rev_length; lia).
    rewrite rev_nth by lia. f_equal. lia. }
  assert (Hms : axis_from_right ms r = nth (M - S r) ms 0%nat).
  { unfold axis_from_right. rewrite (nth_indep _ 1%nat 0%nat) by (rewrite rev_length; lia). rewrite rev_nth by lia. f_equal. lia. }
  split.
  - intros a Ha. rewrite <- (promote_axis M a). assert (In (promote_dims_left M a) pargs) as Hp by (apply in_map_iff; now exists a).
    rewrite Hms, Hax by assumption. apply ms_bounds; [assumption|lia].
  - assert (In (list_min1 (map (fun a => nth (M - S r) (shp a) 0%nat) pargs)) (map (fun a => nth (M - S r) (shp a) 0%nat) pargs)) as H.
    { apply list_min1_in. pose proof pargs_ne. destruct pargs; [congruence|discriminate]. }
    apply in_map_iff in H as (x & Hx & Hin). pose proof Hin as Hin2. apply in_map_iff in Hin2 as (a & <- & Ha).
    exists a. split; [assumption|]. rewrite <- (promote_axis M a), Hms, Hax by assumption. rewrite ms_nth by lia. now symmetry.
Qed.

Lemma entry_from_right a idx : In a args -> in_range ms idx ->
  exists jdx, in_range (shp a) jdx /\ at_ (slice_right ms (promote_dims_left M a)) idx = at_ a jdx /\
    aligned_right (shp a) jdx ms idx.
Proof.
  intros Ha Hr. pose proof ms_length as Hm. pose proof (args_dims a Ha) as Hd.
  set (p := promote_dims_left M a). assert (Hp : In p pargs) by (apply in_map_iff; now exists a).
  pose proof (pargs_length p Hp) as Hpl. pose proof (Forall2_len _ _ _ Hr) as Hil.
  set (full := map2 Nat.add idx (map2 slice_start (shp p) ms)).
  assert (Hfl : length full = M) by (unfold full; rewrite !map2_length_min; lia).
  set (k := (M - length (shp a))%nat).
  assert (Hshp : skipn k (shp p) = shp a).
  { unfold p, promote_dims_left. destruct (Nat.ltb_spec (length (shp a)) M) as [H|H]; cbn [shp].
    - fold k. rewrite skipn_app, repeat_length, Nat.sub_diag. rewrite skipn_all2 by (rewrite repeat_length; lia). reflexivity.
    - assert (k = 0%nat) as -> by (unfold k; lia). reflexivity. }
  assert (Hfull : forall i, (i < M)%nat -> (nth i full 0 < nth i (shp p) 0 /\ nth i (shp p) 0 - nth i full 0 = nth i ms 0 - nth i idx 0)%nat).
  { intros i Hi. unfold full. rewrite (map2_nth' _ _ _ _ 0%nat 0%nat) by (rewrite ?map2_length_min; lia).
    rewrite (map2_nth' _ _ _ _ 0%nat 0%nat) by lia. pose proof (ms_bounds p i Hp Hi).
    assert (nth i idx 0 < nth i ms 0)%nat as Hlt.
    { clear - Hr Hi Hil Hm. assert (i < length idx)%nat as H by lia. clear Hi Hil Hm. revert i H. induction Hr as [|x y l m Hxy HF IH]; intros i H; [simpl in H; lia|].
      destruct i as [|i]; cbn [nth]; [assumption|]. apply IH. simpl in H. lia. }
    unfold slice_start. destruct (Nat.eqb_spec (nth i ms 0%nat) 0); lia. }
  assert (Hnk : forall (l : list nat) i, nth i (skipn k l) 0%nat = nth (k + i) l 0%nat).
  { clear. induction k as [|k' IH]; intros [|x l] i; cbn [skipn nth Nat.add]; auto. now destruct i. }
  exists (skipn k full).
  assert (Hskl : length (skipn k full) = length (shp a)) by (rewrite skipn_length; unfold k; lia).
  split; [|split].
  - unfold in_range. rewrite <- Hshp. assert (Hlk : length (skipn k full) = length (skipn k (shp p))) by (rewrite !skipn_length; lia).
    assert (forall i, (i < length (skipn k full))%nat -> (nth i (skipn k full) 0 < nth i (skipn k (shp p)) 0)%nat) as HN.
    { intros i Hi. rewrite !Hnk. apply Hfull. rewrite skipn_length in Hi. lia. }
    clear - Hlk HN. revert Hlk HN. generalize (skipn k full) (skipn k (shp p)). induction l as [|x l IH]; intros [|y m] Hl HN; simpl in Hl; try lia; constructor.
    + apply (HN 0%nat). simpl. lia.
    + apply IH; [lia|]. intros i Hi. apply (HN (S i)). simpl. lia.
  - cbn [slice_right at_]. fold full. unfold p, promote_dims_left.
    destruct (Nat.ltb_spec (length (shp a)) M) as [H|H]; cbn [at_]; fold p; fold full.
    + reflexivity.
    + f_equal. assert (k = 0%nat) as -> by (unfold k; lia). unfold full, p, promote_dims_left.
      destruct (Nat.ltb_spec (length (shp a)) M); [lia|reflexivity].
  - intros r H1 H2. rewrite !rev_nth by (rewrite ?Hskl; lia). rewrite Hskl.
    assert (nth (length (shp a) - S r) (shp a) 0 = nth (k + (length (shp a) - S r)) (shp p) 0)%nat as -> by now rewrite <- Hnk, Hshp.
    rewrite !Hnk.
    replace (k + (length (shp a) - S r))%nat with (M - S r)%nat by (unfold k; lia).
    replace (length ms - S r)%nat with (M - S r)%nat by lia. replace (length idx - S r)%nat with (M - S r)%nat by lia.
    apply Hfull. lia.
Qed.
End Shorten.

(** ** Record types *)
Lemma distinct_names_spec l : distinct_names l = true <-> NoDup l.
Proof.
  induction l as [|x l IH]; cbn [distinct_names]; [split; [constructor|reflexivity]|].
  rewrite andb_true_iff, negb_true_iff, IH. split.
  - intros [H1 H2]. constructor; [|assumption]. intros Hx.
    assert (existsb (String.eqb x) l = true) as E by (apply existsb_exists; exists x; split; [assumption|apply String.eqb_refl]). congruence.
  - intros H. inversion H as [|? ? H1 H2]; subst. split; [|assumption]. destruct (existsb (String.eqb x) l) eqn:E; [|reflexivity].
    apply existsb_exists in E as (y & Hy & Hxy). apply String.eqb_eq in Hxy. subst. contradiction.
Qed.

(** ** Progress bars *)
Section Bars.
Context {A P : Type} (b : bar P) (text : nat -> string).
Definition quiet : Prop :=
  (forall n p, snd (b_start b n p) = Ok tt) /\ (forall n p, snd (b_update b n p) = Ok tt) /\
  (forall p, snd (b_finished b p) = Ok tt) /\
  (match b_describe b with Some f => forall d p, snd (f d p) = Ok tt | None => True end).
Hypothesis Hq : quiet.
Lemma describe_quiet k p : snd (describe b text k p) = Ok tt.
Proof. destruct Hq as (_ & _ & _ & H). unfold describe. destruct (b_describe b); [apply H|reflexivity]. Qed.
Lemma report_quiet k p : snd (report b text k p) = Ok tt.
Proof.
  destruct Hq as (_ & H & _ & _). unfold report. specialize (H k p). destruct (b_update b k p) as [p1 r]. cbn [snd] in H. subst r.
  apply describe_quiet.
Qed.
Lemma collect_report_quiet allow (trials : list (act A)) : forall k p s, snd (collect_report b text allow k trials p s) = collect allow trials s.
Proof.
  induction trials as [|t ts IH]; intros k p s; [reflexivity|]. cbn [collect_report collect].
  destruct (t s) as [s1 [a|x]].
  - pose proof (report_quiet k p) as HR. destruct (report b text k p) as [p1 r]. cbn [snd] in HR. subst r. cbn beta iota.
    specialize (IH (S k) p1 s1). destruct (collect_report b text allow (S k) ts p1 s1) as [p2 [s2 rest]]. cbn [snd] in *. rewrite <- IH.
    now destruct rest.
  - destruct allow; [|reflexivity]. specialize (IH (S k) p s1).
    destruct (collect_report b text true (S k) ts p s1) as [p2 [s2 rest]]. cbn [snd] in *. rewrite <- IH. now destruct rest.
Qed.
Lemma bar_quiet allow (trials : list (act A)) p0 old : snd (perf_multiple_bar b text allow trials p0 old) = perf_test_multiple allow trials old.
Proof.
  pose proof Hq as (H1 & _ & H3 & _). unfold perf_multiple_bar, perf_test_multiple, numpy_err_policy.
  specialize (H1 (length trials) p0). destruct (b_start b (length trials) p0) as [p1 r]. cbn [snd] in H1. subst r.
  pose proof (describe_quiet 0 p1) as HD. destruct (describe b text 0 p1) as [p2 r]. cbn [snd] in HD. subst r.
  pose proof (collect_report_quiet allow trials 0 p2 (with_divide ERaise old)) as HC.
  destruct (collect_report b text allow 0 trials p2 (with_divide ERaise old)) as [p3 [s r]]. cbn [snd] in HC. rewrite <- HC.
  specialize (H3 p3). destruct r as [l|x]; destruct (b_finished b p3) as [p4 r4]; cbn [snd] in *; subst r4; reflexivity.
Qed.
(** What the bar has been told when all trials succeed. *)
Lemma collect_report_told allow (trials : list (act A)) : forall k p s,
  (forall t s', In t trials -> exists s'' a, t s' = (s'', Ok a)) ->
  fst (collect_report b text allow k trials p s) = fold_left (fun q i => fst (describe b text i (fst (b_update b i q)))) (seq k (length trials)) p.
Proof.
  induction trials as [|t ts IH]; intros k p s Ht; [reflexivity|]. cbn [collect_report length seq fold_left].
  destruct (Ht t s (or_introl eq_refl)) as (s1 & a & ->).
  assert (HR : report b text k p = (fst (describe b text k (fst (b_update b k p))), Ok tt)).
  { pose proof (report_quiet k p) as HR. rewrite (surjective_pairing (report b text k p)), HR. f_equal. unfold report.
    destruct Hq as (_ & H & _ & _). specialize (H k p). destruct (b_update b k p) as [p1 r]. cbn [snd fst] in *. now subst r. }
  rewrite HR. cbn beta iota. specialize (IH (S k) (fst (describe b text k (fst (b_update b k p)))) s1 (fun t' s' H => Ht t' s' (or_intror H))).
  destruct (collect_report b text allow (S k) ts _ s1) as [p2 [s2 rest]]. cbn [fst] in *. exact IH.
Qed.
Lemma bar_told allow (trials : list (act A)) p0 old :
  (forall t s', In t trials -> exists s'' a, t s' = (s'', Ok a)) ->
  fst (perf_multiple_bar b text allow trials p0 old) =
  fst (b_finished b (fold_left (fun q i => fst (describe b text i (fst (b_update b i q)))) (seq 0 (length trials))
    (fst (describe b text 0 (fst (b_start b (length trials) p0)))))).
Proof.
  intros Ht. pose proof Hq as (H1 & _ & H3 & _). unfold perf_multiple_bar.
  specialize (H1 (length trials) p0). destruct (b_start b (length trials) p0) as [p1 r]. cbn [snd fst] in *. subst r.
  pose proof (describe_quiet 0 p1) as HD. destruct (describe b text 0 p1) as [p2 r]. cbn [snd fst] in *. subst r.
  pose proof (collect_report_told allow trials 0 p2 (with_divide ERaise old) Ht) as HC.
  destruct (collect_report b text allow 0 trials p2 (with_divide ERaise old)) as [p3 [s r]]. cbn [fst] in HC. rewrite <- HC.
  specialize (H3 p3). destruct r as [l|x]; destruct (b_finished b p3) as [p4 r4]; cbn [snd fst] in *; subst r4; reflexivity.
Qed.
End Bars.

(** Whatever happens, the last thing done to the bar is [finished]. *)
Lemma bar_finished {A P} (b : bar P) text allow (trials : list (act A)) p0 old :
  exists p, fst (perf_multiple_bar b text allow trials p0 old) = fst (b_finished b p).
Proof.
  unfold perf_multiple_bar.
  destruct (b_start b (length trials) p0) as [p1 [u|x]]; [|exists p1; destruct (b_finished b p1) as [p2 [v|y]]; reflexivity].
  destruct (describe b text 0 p1) as [p2 [u2|x]]; [|exists p2; destruct (b_finished b p2) as [p3 [v|y]]; reflexivity].
  destruct (collect_report b text allow 0 trials p2 (with_divide ERaise old)) as [p3 [s [l|x]]];
    exists p3; destruct (b_finished b p3) as [p4 [v|y]]; reflexivity.
Qed.
