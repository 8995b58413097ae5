(** Proofs about parallel execution. *)
From Verif Require Import Base RList Ext TwoModel ParModel.

(** ** array_split *)
Lemma total_app l m : total_nat (l ++ m) = (total_nat l + total_nat m)%nat.
Proof. unfold total_nat. induction l; cbn; lia. Qed.
Lemma total_repeat n k : total_nat (repeat n k) = (k * n)%nat.
Proof. unfold total_nat. induction k; cbn; lia. Qed.
Lemma section_total n k : (0 < k)%nat -> total_nat (section_sizes n k) = n.
Proof.
  intros Hk. unfold section_sizes. rewrite total_app, !total_repeat. pose proof (Nat.div_mod n k ltac:(lia)) as D. pose proof (Nat.mod_upper_bound n k ltac:(lia)) as U.
  replace (k - n mod k)%nat with (k - n mod k)%nat by reflexivity. remember (n / k)%nat as q. remember (n mod k)%nat as r. nia.
Qed.
Lemma section_count n k : (0 < k)%nat -> length (section_sizes n k) = k.
Proof. intros Hk. unfold section_sizes. rewrite app_length, !repeat_length. pose proof (Nat.mod_upper_bound n k ltac:(lia)). lia. Qed.
Lemma cut_length {A} sizes (l : list A) : length (cut sizes l) = length sizes.
Proof. revert l; induction sizes; intros; cbn; auto. Qed.
Lemma cut_concat {A} sizes : forall l : list A, total_nat sizes = length l -> concat (cut sizes l) = l.
Proof.
  induction sizes as [|s r IH]; intros l H; cbn in H |- *; [now destruct l|]. rewrite IH; [apply firstn_skipn|]. rewrite skipn_length. unfold total_nat in *. lia.
Qed.
Lemma cut_sizes {A} sizes : forall l : list A, total_nat sizes = length l -> map (@length A) (cut sizes l) = sizes.
Proof.
  induction sizes as [|s r IH]; intros l H; cbn in H |- *; [reflexivity|]. rewrite IH; [|rewrite skipn_length; unfold total_nat in *; lia]. rewrite firstn_length. f_equal. unfold total_nat in *. lia.
Qed.
Lemma array_split_spec {A} (l : list A) k : (0 < k)%nat -> exists chunks, array_split l k = Ok chunks /\ length chunks = k /\ concat chunks = l /\ map (@length A) chunks = section_sizes (length l) k.
Proof.
  intros Hk. exists (cut (section_sizes (length l) k) l). unfold array_split. destruct (Nat.eqb_spec k 0); [lia|]. split; [reflexivity|]. pose proof (section_total (length l) k Hk) as T.
  split; [now rewrite cut_length, section_count|]. split; [now apply cut_concat|now apply cut_sizes].
Qed.

(** ** map_sync *)
Lemma write_length {B} i (b : B) slots : length (write i b slots) = length slots.
Proof. revert i; induction slots as [|x s IH]; intros [|i]; cbn; auto. Qed.
Lemma write_nth {B} i j (b : B) slots : (i < length slots)%nat -> nth_error (write i b slots) j = if Nat.eqb j i then Some (Some b) else nth_error slots j.
Proof.
  revert i j; induction slots as [|x s IH]; intros i j H; cbn in H; [lia|]. destruct i as [|i], j as [|j]; cbn; try reflexivity. apply IH. lia.
Qed.
Lemma collect_all {B} (l : list B) : collect (map Some l) = Some l.
Proof. induction l as [|b l IH]; [reflexivity|]. cbn. now rewrite IH. Qed.
Lemma map_sync_any_order {A B} order (f : nat -> A -> B) inputs : Permutation order (seq 0 (length inputs)) -> map_sync order f inputs = Some (map2 f (seq 0 (length inputs)) inputs).
Proof.
  intros P. unfold map_sync.
  assert (G : forall done slots, (forall i, In i done -> (i < length inputs)%nat) -> length slots = length inputs ->
    let s' := fold_left (fun slots i => match nth_error inputs i with Some a => write i (f i a) slots | None => slots end) done slots in
    length s' = length inputs /\ forall j a, nth_error inputs j = Some a -> nth_error s' j = if existsb (Nat.eqb j) done then Some (Some (f j a)) else nth_error slots j).
  { induction done as [|i done IH]; intros slots Hd Hs; cbn [fold_left]; [split; [assumption|reflexivity]|]. destruct (nth_error inputs i) as [ai|] eqn:Ei; [|exfalso; apply nth_error_None in Ei; specialize (Hd i (or_introl eq_refl)); lia].
    destruct (IH (write i (f i ai) slots)) as [L G]; [intros; apply Hd; now right|now rewrite write_length|]. split; [assumption|]. intros j a Hj. rewrite (G j a Hj). cbn [existsb].
    destruct (existsb (Nat.eqb j) done) eqn:Ex; [now rewrite orb_true_r|]. rewrite orb_false_r. rewrite write_nth by (rewrite Hs; apply Hd; now left). destruct (Nat.eqb_spec j i) as [->|]; [|reflexivity]. congruence. }
  destruct (G order (repeat None (length inputs))) as [L N]; [intros i Hi; apply (Permutation_in _ P), in_seq in Hi; lia|apply repeat_length|]. cbv zeta in L, N.
  set (s' := fold_left _ order _) in *. replace s' with (map Some (map2 f (seq 0 (length inputs)) inputs)); [apply collect_all|].
  apply (nth_ext _ _ None None); [rewrite map_length, map2_length by (now rewrite seq_length); rewrite seq_length; congruence|]. intros j Hj. rewrite map_length, map2_length in Hj by (now rewrite seq_length). rewrite seq_length in Hj.
  destruct (nth_error inputs j) as [a|] eqn:Ej; [|apply nth_error_None in Ej; lia]. specialize (N j a Ej).
  assert (Ex : existsb (Nat.eqb j) order = true). { apply existsb_exists. exists j. split; [|apply Nat.eqb_refl]. apply (Permutation_in _ (Permutation_sym P)), in_seq. lia. }
  rewrite Ex in N. rewrite (nth_error_nth s' j None N).
  rewrite (nth_indep _ None (Some (f 0%nat a))) by (rewrite map_length, map2_length by (now rewrite seq_length); now rewrite seq_length). rewrite map_nth. f_equal.
  rewrite (nth_map2 _ _ _ j 0%nat a) by (rewrite ?seq_length; auto). rewrite seq_nth by assumption. rewrite (nth_error_nth inputs j a Ej). reflexivity.
Qed.
Lemma map2_const_l {A B C} (f : A -> C) (s : list B) l : length s = length l -> map2 (fun _ c => f c) s l = map f l.
Proof. revert l; induction s as [|x s IH]; intros [|y l] H; try discriminate; [reflexivity|]. cbn. f_equal. apply IH. now injection H. Qed.

(** ** The GPU buffer *)
Lemma store_length {A} i (a : A) mem : length (store i a mem) = length mem.
Proof. revert i; induction mem as [|x m IH]; intros [|i]; cbn; auto. Qed.
Lemma store_nth {A} i j (a : A) mem d : (i < length mem)%nat -> nth j (store i a mem) d = if Nat.eqb j i then a else nth j mem d.
Proof.
  revert i j; induction mem as [|x m IH]; intros i j H; cbn in H; [lia|]. destruct i as [|i], j as [|j]; cbn; try reflexivity. apply IH. lia.
Qed.
Lemma cell_bound n i j k : (i < n)%nat -> (j < k)%nat -> (i * k + j < n * k)%nat. Proof. nia. Qed.
Lemma cell_inj k i j i' j' : (j < k)%nat -> (j' < k)%nat -> (i * k + j = i' * k + j')%nat -> i = i' /\ j = j'.
Proof. intros. assert (i = i') by nia. subst. lia. Qed.
Lemma kernel_any_schedule (models expparams : list R) : forall schedule mem, length mem = (length models * length expparams)%nat ->
  (forall id, In id schedule -> (fst id < length models)%nat /\ (snd id < length expparams)%nat) ->
  let final := fold_left (work_item (length expparams) models expparams) schedule mem in
  length final = length mem /\ forall i j, (i < length models)%nat -> (j < length expparams)%nat ->
    (In (i, j) schedule -> nth (i * length expparams + j) final 0 = gpu_pr0 (nth i models 0) (nth j expparams 0)) /\ (~ In (i, j) schedule -> nth (i * length expparams + j) final 0 = nth (i * length expparams + j) mem 0).
Proof.
  induction schedule as [|[a b] sched IH]; intros mem Hm Hs; cbn [fold_left]; [split; [reflexivity|]; intros; split; [intros []|reflexivity]|].
  destruct (Hs (a, b) (or_introl eq_refl)) as [Ha Hb]. cbn in Ha, Hb. destruct (IH (work_item (length expparams) models expparams mem (a, b))) as [L G]; [unfold work_item; now rewrite store_length|intros; apply Hs; now right|].
  cbv zeta in L, G. split; [rewrite L; unfold work_item; apply store_length|]. intros i j Hi Hj. destruct (G i j Hi Hj) as [G1 G2].
  assert (Bd : (a * length expparams + b < length mem)%nat) by (rewrite Hm; now apply cell_bound).
  assert (Dec : {In (i, j) sched} + {~ In (i, j) sched}) by (apply in_dec; intros [x y] [x' y']; destruct (Nat.eq_dec x x'), (Nat.eq_dec y y'); [left; congruence|right; congruence..]).
  assert (W : nth (i * length expparams + j) (work_item (length expparams) models expparams mem (a, b)) 0 = if Nat.eqb (i * length expparams + j) (a * length expparams + b) then gpu_pr0 (nth a models 0) (nth b expparams 0) else nth (i * length expparams + j) mem 0) by (unfold work_item; cbn [fst snd]; now apply store_nth).
  split.
  - intros H. destruct Dec as [D|D]; [now apply G1|]. rewrite G2, W by assumption. destruct H as [H|H]; [|contradiction]. injection H as -> ->. now rewrite Nat.eqb_refl.
  - intros H. rewrite G2, W by (intros Hi'; apply H; now right). destruct (Nat.eqb_spec (i * length expparams + j) (a * length expparams + b)) as [Eq|]; [|reflexivity]. exfalso. apply cell_inj in Eq; try assumption. destruct Eq; subst. apply H. now left.
Qed.
