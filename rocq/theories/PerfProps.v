(** Theorems for properties C113 (arrays aligned at the right), C114 (performance records and timers) and C115 (progress bars). *)
From Coq Require Import String.
From Verif Require Import Base RList MiscModel PerfModel PerfSpec PerfProofs.
From Coq Require Import List.

(** C113: whatever the numbers of axes, the results have one shape: along each axis, counted from the right, the least length found
    in any argument (an axis that an argument does not have counts as one). *)
Theorem c113_one_shape {A} (args : list (nd A)) :
  args <> [] -> (forall a, In a args -> Forall (lt 0) (shp a)) ->
  exists outs common, shorten_right_nd args = Ok outs /\ length outs = length args /\ (forall o, In o outs -> shp o = common) /\
    (forall a, In a args -> (length (shp a) <= length common)%nat) /\
    forall r, (r < length common)%nat ->
      (forall a, In a args -> (axis_from_right common r <= axis_from_right (shp a) r)%nat) /\
      exists a, In a args /\ axis_from_right common r = axis_from_right (shp a) r.
Proof.
  intros Hne Hpos. rewrite shorten_eq by assumption. eexists _, _. split; [reflexivity|]. split; [now rewrite !map_length|].
  split; [intros o Ho; apply in_map_iff in Ho as (a & <- & Ha); now apply slice_shape|].
  rewrite ms_length by assumption. split; [intros a Ha; now apply args_dims|].
  intros r Hr. now apply ms_least.
Qed.
(** Every entry is the one that the argument has at the same distance from its ends. *)
Theorem c113_entries_from_the_right {A} (args outs : list (nd A)) (k : nat) a o idx :
  (forall a, In a args -> Forall (lt 0) (shp a)) -> shorten_right_nd args = Ok outs ->
  nth_error args k = Some a -> nth_error outs k = Some o -> in_range (shp o) idx ->
  exists jdx, in_range (shp a) jdx /\ at_ o idx = at_ a jdx /\ aligned_right (shp a) jdx (shp o) idx.
Proof.
  intros Hpos HR Ha Ho Hidx. assert (Hne : args <> []) by (destruct args; [discriminate|congruence]).
  rewrite shorten_eq in HR by assumption. injection HR as <-. rewrite !nth_error_map, Ha in Ho. cbn [option_map] in Ho. injection Ho as <-.
  apply nth_error_In in Ha. rewrite slice_shape in * by (assumption || (apply in_map_iff; now exists a)).
  now apply entry_from_right.
Qed.
(** An array without entries breaks this: [-0:] keeps the whole axis. *)
Theorem c113_empty_axis_refuted : exists (a b : nd R) outs,
  shorten_right_nd [a; b] = Ok outs /\ map shp outs = [[0%nat]; [3%nat]].
Proof.
  exists (Build_nd [0%nat] (fun _ => 0)), (Build_nd [3%nat] (fun _ => 1)). eexists. split; reflexivity.
Qed.
(** Two one-index arrays: what the performance loop's model uses. *)
Theorem c113_one_index (a b : list R) : a <> [] -> b <> [] ->
  exists oa ob, shorten_right_nd [Build_nd [length a] (fun idx => nth (nth 0 idx 0%nat) a 0); Build_nd [length b] (fun idx => nth (nth 0 idx 0%nat) b 0)] = Ok [oa; ob] /\
    shp oa = [length (fst (shorten_right a b))] /\ shp ob = [length (snd (shorten_right a b))] /\
    forall i, at_ oa [i] = nth i (fst (shorten_right a b)) 0 /\ at_ ob [i] = nth i (snd (shorten_right a b)) 0.
Proof.
  intros Ha Hb. eexists _, _. split; [reflexivity|].
  assert (0 < length a)%nat by (destruct a; [congruence|simpl; lia]). assert (0 < length b)%nat by (destruct b; [congruence|simpl; lia]).
  assert (Hnk : forall k (l : list R) i, nth i (skipn k l) 0 = nth (i + k) l 0).
  { clear. induction k as [|k IH]; intros l i; [now rewrite Nat.add_0_r|]. destruct l as [|x l]; [rewrite skipn_nil; rewrite !nth_overflow by (simpl; lia); reflexivity|].
    rewrite Nat.add_succ_r. cbn [skipn nth]. apply IH. }
  unfold shorten_right, lastn. cbn [fst snd slice_right shp at_ map2 nth map promote_dims_left]. rewrite !skipn_length.
  assert (Hmin : forall x y, list_min1 [x; y] = Nat.min x y) by (intros x y; unfold list_min1; cbn [fold_right]; lia).
  split; [|split]; [..|intros i; split]; cbn -[Nat.min Nat.sub skipn slice_start Nat.eqb]; unfold slice_start;
    rewrite ?Hnk; destruct (Nat.eqb_spec (Nat.min (length b) (length a)) 0); try lia.
  all: rewrite (Nat.min_comm (length b)); reflexivity.
Qed.
Example c113_example : exists outs, shorten_right_nd [Build_nd [2%nat; 3%nat] (fun i => i); Build_nd [2%nat] (fun i => i)] = Ok outs /\
  map shp outs = [[1%nat; 2%nat]; [1%nat; 2%nat]] /\ map (fun o => at_ o [0%nat; 1%nat]) outs = [[1%nat; 2%nat]; [1%nat]].
Proof. eexists. split; [reflexivity|]. split; reflexivity. Qed.

(** C114: the records have room for everything the loop stores: the true parameters, the estimate and each experiment parameter ... *)
Definition reserved : list string := ["loss"; "resample_count"; "elapsed_time"; "outcome"; "true"; "est"]%string.
Theorem c114_records_exist_iff_names_are_free n_true n_model l :
  (exists d, zeros_dtype (fst (actual_dtype n_true n_model (Fields l))) = Ok d) <->
  NoDup (map fst l) /\ forall x, In x (map fst l) -> ~ In x reserved.
Proof.
  unfold zeros_dtype. change (map fst (fst (actual_dtype n_true n_model (Fields l)))) with (reserved ++ map fst l).
  destruct (distinct_names (reserved ++ map fst l)) eqn:E.
  - apply distinct_names_spec in E. split; [intros _|eauto]. split.
    + clear - E. revert E. generalize reserved. induction l0 as [|x r IH]; cbn [app]; [auto|]. intros H. inversion H; auto.
    + intros x Hx Hr. clear - E Hx Hr. revert E Hr. generalize reserved. induction l0 as [|y r IH]; intros H Hr; [destruct Hr|].
      inversion H as [|? ? H1 H2]; subst. destruct Hr as [->|Hr]; [apply H1, in_app_iff; now right|now apply IH].
  - split; [intros [d Hd]; discriminate|]. intros [H1 H2]. exfalso.
    assert (NoDup (reserved ++ map fst l)) as HN.
    { assert (NoDup reserved) as HR by (apply distinct_names_spec; reflexivity). clear E. revert HR H2. generalize reserved.
      induction l0 as [|x r IH]; intros HR H2; [assumption|]. inversion HR as [|? ? HA HB]; subst. cbn [app]. constructor.
      - intros Hin. apply in_app_iff in Hin as [Hin|Hin]; [contradiction|]. apply (H2 x Hin). now left.
      - apply IH; [assumption|]. intros y Hy Hyr. apply (H2 y Hy). now right. }
    apply distinct_names_spec in HN. congruence.
Qed.
Theorem c114_fields n_true n_model l d : zeros_dtype (fst (actual_dtype n_true n_model (Fields l))) = Ok d ->
  In ("true"%string, n_true) d /\ In ("est"%string, n_model) d /\ In ("loss"%string, 1%nat) d /\ (forall f, In f l -> In f d).
Proof.
  unfold zeros_dtype. destruct (distinct_names _); [|discriminate]. intros H. injection H as <-. cbn. repeat split; auto 10.
Qed.
Theorem c114_single_parameter n_true n_model :
  exists d, zeros_dtype (fst (actual_dtype n_true n_model Simple)) = Ok d /\ In ("experiment"%string, 1%nat) d /\ length d = 7%nat.
Proof. eexists. split; [reflexivity|]. split; [cbn; auto 10|reflexivity]. Qed.
(** ... unless an experiment parameter has the name of one of the performance fields. *)
Theorem c114_clash_refuted n_true n_model k : zeros_dtype (fst (actual_dtype n_true n_model (Fields [("true"%string, k)]))) = Err ValueError.
Proof. reflexivity. Qed.
(** Timers: the block's duration once it has ended, the time so far before that. *)
Theorem c114_timer {A} t0 t1 (body : timer -> res A) a :
  body (new_timer t0) = Ok a -> exists t, timing t0 t1 body = (t, Ok a) /\ forall now, delta_t now t = t1 - t0.
Proof. intros H. unfold timing. rewrite H. eexists. split; [reflexivity|]. reflexivity. Qed.
Theorem c114_running_timer t0 now : delta_t now (new_timer t0) = now - t0.
Proof. reflexivity. Qed.
(** A block that fails never stops its timer. *)
Theorem c114_failed_block_refuted {A} t0 t1 (body : timer -> res A) x :
  body (new_timer t0) = Err x -> forall now, delta_t now (fst (timing t0 t1 body)) = now - t0.
Proof. intros H now. unfold timing. rewrite H. reflexivity. Qed.
Example c114_example : NoDup (map fst [("t", 1%nat); ("w_", 1%nat)]%string) /\
  exists t, timing 3 5 (fun _ => Ok tt) = (t, Ok tt) /\ delta_t 100 t = 2.
Proof. split; [repeat constructor; cbn; intuition discriminate|]. eexists. split; [reflexivity|]. cbn. lra. Qed.

(** C115: a bar that does not fail changes neither the results nor the error state left behind ... *)
Theorem c115_bar_changes_nothing {A P} (b : bar P) text allow (trials : list (act A)) p0 old :
  (forall n p, snd (b_start b n p) = Ok tt) -> (forall n p, snd (b_update b n p) = Ok tt) -> (forall p, snd (b_finished b p) = Ok tt) ->
  (match b_describe b with Some f => forall d p, snd (f d p) = Ok tt | None => True end) ->
  snd (perf_multiple_bar b text allow trials p0 old) = perf_test_multiple allow trials old.
Proof. intros. apply bar_quiet. now repeat split. Qed.
(** ... and the IPython bar never fails, however its widget misbehaves. *)
Theorem c115_ipython_bar {A W} (v : widget W) text allow (trials : list (act A)) p0 old :
  snd (perf_multiple_bar (ipy_bar v) text allow trials p0 old) = perf_test_multiple allow trials old.
Proof. apply c115_bar_changes_nothing; cbn; auto. Qed.
(** Operations on a widget that fails (after it was closed) are ignored; its description is then [None]. *)
Theorem c115_closed_widget {W} (v : widget W) (s : W) x :
  w_set_max v = (fun _ _ => Err x) -> w_set_value v = (fun _ _ => Err x) -> w_close v = (fun _ => Err x) ->
  w_set_desc v = (fun _ _ => Err x) -> w_desc v = (fun _ => Err x) ->
  (forall n, ipy_start v n s = s) /\ (forall n, ipy_update v n s = s) /\ ipy_finished v s = s /\
  (forall d, ipy_set_description v d s = s) /\ ipy_description v s = None.
Proof.
  intros H1 H2 H3 H4 H5. unfold ipy_start, ipy_update, ipy_finished, ipy_set_description, ipy_description.
  rewrite H1, H2, H3, H4, H5. now repeat split.
Qed.
(** What was done to the widget before a failure stays done: the statements of each method are performed in order up to the first that
    fails, and only those. *)
Fixpoint up_to_failure {W} (steps : list (W -> res W)) (s : W) : W :=
  match steps with [] => s | f :: rest => match f s with Ok s' => up_to_failure rest s' | Err _ => s end end.
Theorem c115_work_before_a_failure {W} (v : widget W) (s : W) :
  (forall n, ipy_start v n s = up_to_failure [w_set_max v n; w_display v] s) /\ (forall n, ipy_update v n s = up_to_failure [w_set_value v n] s) /\
  ipy_finished v s = up_to_failure [w_close v] s /\ (forall d, ipy_set_description v d s = up_to_failure [w_set_desc v d] s).
Proof.
  unfold ipy_start, ipy_update, ipy_finished, ipy_set_description. repeat split; intros; cbn [up_to_failure];
    repeat match goal with |- context [match ?f with Ok _ => _ | Err _ => _ end] => destruct f end; reflexivity.
Qed.
(** for instance, a widget that cannot be displayed has its maximum set *)
Example c115_undisplayed : ipy_start {| w_set_max := fun n _ => Ok n; w_display := fun _ => Err RuntimeError; w_set_value := fun _ _ => Err RuntimeError;
  w_close := fun _ => Err RuntimeError; w_set_desc := fun _ _ => Err RuntimeError; w_desc := fun _ => Err RuntimeError |} 10 3%nat = 10%nat.
Proof. reflexivity. Qed.
(** The bar is told that it is finished in every case, after everything else. *)
Theorem c115_finished_in_every_case {A P} (b : bar P) text allow (trials : list (act A)) p0 old :
  exists p, fst (perf_multiple_bar b text allow trials p0 old) = fst (b_finished b p).
Proof. apply bar_finished. Qed.

(** A bar that only takes notes. *)
Inductive note := Started (n : nat) | At (n : nat) | Finished.
Definition notebook : bar (list note) := {|
  b_start := fun n p => (p ++ [Started n], Ok tt); b_update := fun n p => (p ++ [At n], Ok tt); b_describe := None;
  b_finished := fun p => (p ++ [Finished], Ok tt) |}.
Theorem c115_what_is_reported {A} text allow (trials : list (act A)) old :
  (forall t s', In t trials -> exists s'' a, t s' = (s'', Ok a)) ->
  fst (perf_multiple_bar notebook text allow trials [] old) = [Started (length trials)] ++ map At (seq 0 (length trials)) ++ [Finished].
Proof.
  intros Ht. rewrite bar_told; [|now repeat split|assumption]. cbn [notebook b_finished b_start b_update b_describe describe fst app].
  rewrite app_comm_cons. f_equal.
  assert (H : forall l p, fold_left (fun (q : list note) (i : nat) => fst (describe notebook text i (q ++ [At i]))) l p = p ++ map At l).
  { induction l as [|x l IH]; intros p; cbn [fold_left map]; [now rewrite app_nil_r|]. rewrite IH. cbn. now rewrite <- app_assoc. }
  rewrite H. reflexivity.
Qed.
(** A bar with a description gets one before the first trial and one after each, the latter with the number of trials finished before. *)
Definition diary : bar (list string) := {|
  b_start := fun _ p => (p, Ok tt); b_update := fun _ p => (p, Ok tt); b_describe := Some (fun d p => (p ++ [d], Ok tt)); b_finished := fun p => (p, Ok tt) |}.
Theorem c115_descriptions {A} text allow (trials : list (act A)) old :
  (forall t s', In t trials -> exists s'' a, t s' = (s'', Ok a)) ->
  fst (perf_multiple_bar diary text allow trials [] old) = text 0%nat :: map text (seq 0 (length trials)).
Proof.
  intros Ht. rewrite bar_told; [|now repeat split|assumption]. cbn [diary b_finished b_start b_update b_describe describe fst app].
  assert (H : forall l p, fold_left (fun (q : list string) (i : nat) => fst (describe diary text i q)) l p = p ++ map text l).
  { induction l as [|x l IH]; intros p; cbn [fold_left map]; [now rewrite app_nil_r|]. rewrite IH. cbn. now rewrite <- app_assoc. }
  rewrite H. reflexivity.
Qed.
(** So the bar never gets to its maximum. *)
Theorem c115_full_bar_refuted {A} text allow (trials : list (act A)) old :
  (forall t s', In t trials -> exists s'' a, t s' = (s'', Ok a)) ->
  ~ In (At (length trials)) (fst (perf_multiple_bar notebook text allow trials [] old)).
Proof.
  intros Ht. rewrite c115_what_is_reported by assumption. cbn [app]. intros [H|H]; [discriminate|].
  apply in_app_iff in H as [H|[H|[]]]; [|discriminate]. apply in_map_iff in H as (x & Hx & Hi). injection Hx as ->. apply in_seq in Hi. lia.
Qed.
(** And a bar that fails masks the results of trials that succeeded. *)
Definition broken_bar : bar unit := {| b_start := fun _ p => (p, Ok tt); b_update := fun _ p => (p, Err RuntimeError);
  b_describe := None; b_finished := fun p => (p, Ok tt) |}.
Theorem c115_broken_bar_masks_refuted {A} text (trials : list (act A)) old :
  (forall t s', In t trials -> exists s'' a, t s' = (s'', Ok a)) ->
  snd (snd (perf_multiple_bar broken_bar text true trials tt old)) = Ok (repeat None (length trials)).
Proof.
  intros Ht. unfold perf_multiple_bar. cbn [broken_bar b_start describe b_describe].
  assert (H : forall k s, exists s', collect_report broken_bar text true k trials tt s = (tt, (s', Ok (repeat None (length trials))))).
  { induction trials as [|t ts IH]; intros k s; [eexists; reflexivity|]. cbn [collect_report].
    destruct (Ht t s (or_introl eq_refl)) as (s1 & a & ->). cbn [report broken_bar b_update]. cbn beta iota.
    destruct (IH (fun t' s' H => Ht t' s' (or_intror H)) (S k) s1) as [s2 ->]. eexists. reflexivity. }
  destruct (H 0%nat (with_divide ERaise old)) as [s' E]. unfold broken_bar in *. rewrite E. reflexivity.
Qed.
Example c115_example : let ok : act nat := fun s => (s, Ok 7%nat) in let bad : act nat := fun s => (s, Err ValueError) in
  forall old, perf_multiple_bar notebook (fun _ => ""%string) true [ok; bad; ok] [] old =
    ([Started 3; At 0; At 2; Finished], (old, Ok [Some 7%nat; None; Some 7%nat])).
Proof. reflexivity. Qed.

Print Assumptions c113_one_shape.
Print Assumptions c113_entries_from_the_right.
Print Assumptions c113_empty_axis_refuted.
Print Assumptions c113_one_index.
Print Assumptions c114_records_exist_iff_names_are_free.
Print Assumptions c114_fields.
Print Assumptions c114_single_parameter.
Print Assumptions c114_clash_refuted.
Print Assumptions c114_timer.
Print Assumptions c114_running_timer.
Print Assumptions c114_failed_block_refuted.
Print Assumptions c115_bar_changes_nothing.
Print Assumptions c115_ipython_bar.
Print Assumptions c115_closed_widget.
Print Assumptions c115_work_before_a_failure.
Print Assumptions c115_finished_in_every_case.
Print Assumptions c115_what_is_reported.
Print Assumptions c115_descriptions.
Print Assumptions c115_full_bar_refuted.
Print Assumptions c115_broken_bar_masks_refuted.
