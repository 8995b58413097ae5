(** Theorems for property C117 (mixture distributions in all their forms, and their law). *)
From Coq Require Import String.
From Verif Require Import Base RList Ext Sums DerSpec DerProofs SmcModel LwModel DistModel DistProofs MixModel MixSpec MixProofs.
From Coq Require Import List.

(** A class with one row of arguments per component is sampled like the list of the distributions these rows build. *)
Theorem c117_class_form_is_list_form weights c a kw shuffle m l n w :
  mixture_init weights (Class c) a kw shuffle = Ok m -> length l = length weights ->
  (forall k f, nth_error l k = Some f -> bind (dist_arg a k) (fun x => bind (dist_kw_arg kw k) (fun y => c x y)) = Ok f) ->
  (forall n ws, length (DistModel.counts (here w) n ws) = length ws) ->
  mixture_init weights (ListOf l) None None shuffle = Ok (MList weights l shuffle) /\
  mixture_sample m n w = mixture_sample (MList weights l shuffle) n w /\
  mixture_n_rvs m = mixture_n_rvs (MList weights l shuffle).
Proof.
  intros Hm Hl HB Hc. unfold mixture_init, class_branch in Hm. destruct a as [rows|]; [|discriminate].
  destruct (Nat.eqb_spec (length weights) (length rows)) as [Hr|]; [|discriminate].
  destruct (dist_arg (Some rows) 0) as [x|] eqn:E1; [|discriminate]. cbn [bind] in Hm.
  destruct (dist_kw_arg kw 0) as [y|] eqn:E2; [|discriminate]. cbn [bind] in Hm.
  destruct (c x y) as [d|] eqn:E3; [|discriminate]. cbn [bind] in Hm. injection Hm as <-.
  assert (Hpos : (0 < length l)%nat).
  { rewrite Hl, Hr. cbn [dist_arg] in E1. unfold row_of in E1. destruct rows; [discriminate|simpl; lia]. }
  split; [|split].
  - unfold mixture_init. destruct (Nat.eqb_spec (length l) 0); [lia|]. rewrite Hl, Nat.eqb_refl. reflexivity.
  - cbn [mixture_sample]. rewrite sample_mixture. rewrite (class_parts_list c (Some rows) kw w l); [reflexivity| |].
    + now rewrite Hc.
    + intros j f Hf. now apply HB.
  - cbn [mixture_n_rvs n_rvs]. destruct l as [|f l]; [simpl in Hpos; lia|]. specialize (HB 0%nat f eq_refl). rewrite E1, E2 in HB. cbn [bind] in HB.
    rewrite E3 in HB. now injection HB as ->.
Qed.
(** The arguments themselves: component [k] is built from row [k] of the positional arguments and, under the same names and in the same order,
    row [k] of every keyword argument; a keyword table that is too short is an IndexError. *)
Theorem c117_rows_reach_the_class (c : dist_class) rows kwl k : (k < length rows)%nat ->
  build c (Some rows) (Some kwl) k =
  if forallb (fun p => Nat.ltb k (length (snd p))) kwl then c (nth k rows []) (map (fun p => (fst p, nth k (snd p) [])) kwl) else Err IndexError.
Proof.
  intros Hk. unfold build. cbn [dist_arg dist_kw_arg]. unfold row_of at 1. rewrite (nth_error_nth' rows []) by assumption. cbn [bind].
  assert (G : kw_rows kwl k = if forallb (fun p => Nat.ltb k (length (snd p))) kwl then Ok (map (fun p => (fst p, nth k (snd p) [])) kwl) else Err IndexError).
  { clear Hk. induction kwl as [|[key r] l IH]; [reflexivity|]. cbn [kw_rows forallb snd fst map]. unfold row_of. destruct (Nat.ltb_spec k (length r)) as [H|H].
    - rewrite (nth_error_nth' r []) by assumption. cbn [bind andb]. rewrite IH. destruct (forallb _ l); reflexivity.
    - rewrite (proj2 (nth_error_None r k)) by assumption. reflexivity. }
  rewrite G. destruct (forallb _ kwl); reflexivity.
Qed.
Example c117_rows_example : build (fun x y => match x, y with [a], [("scale"%string, [b])] => Ok (Constant [a; b]) | _, _ => Err TypeError end) (Some [[1]; [2]]) (Some [("scale"%string, [[3]; [4]])]) 1 = Ok (Constant [2; 4]).
Proof. reflexivity. Qed.
(** The documented [None] for classes without positional arguments never works, keyword arguments or not. *)
Theorem c117_no_positional_arguments_refuted weights c kw shuffle : mixture_init weights (Class c) None kw shuffle = Err AttributeError.
Proof. reflexivity. Qed.
(** A wrong number of argument rows is refused; so is a list of the wrong length, though not as an assertion. *)
Theorem c117_wrong_number_of_rows weights c rows kw shuffle : length rows <> length weights ->
  mixture_init weights (Class c) (Some rows) kw shuffle = Err AssertionError.
Proof. intros H. unfold mixture_init, class_branch. destruct (Nat.eqb_spec (length weights) (length rows)); [congruence|reflexivity]. Qed.
Theorem c117_wrong_list weights l a kw shuffle : length l <> length weights \/ l = [] ->
  exists e, mixture_init weights (ListOf l) a kw shuffle = Err e.
Proof.
  intros H. unfold mixture_init.
  assert (negb (Nat.eqb (length l) 0) && Nat.eqb (length weights) (length l) = false) as ->.
  { apply andb_false_iff. destruct H as [H| ->]; [right; apply Nat.eqb_neq; congruence|now left]. }
  unfold class_branch. destruct a as [rows|]; [|eauto]. destruct (Nat.eqb _ _); [|eauto].
  destruct (dist_arg (Some rows) 0); cbn [bind]; [|eauto]. destruct (dist_kw_arg kw 0); cbn [bind]; eauto.
Qed.

(** The law: over multinomial counts (the counts of independent draws of a component by the weights) and a uniform shuffle, the rows of
    a mixture of constants are distributed like independent draws, each of component [k] with probability [p k]; [F] is any function
    of the result. *)
Theorem c117_rows_are_independent_draws d c K n weights p E w (F : res arr -> R) :
  (forall k, (k < K)%nat -> length (c k) = d) -> (0 < n)%nat -> uniform_shuffle n E ->
  SumL (strings K n) (fun s => record_prob p s *
    E (fun o => F (sample (Mixture weights (map (fun k => Constant (c k)) (seq 0 K)) true) n (source_of w K s o)))) =
  SumL (strings K n) (fun v => record_prob p v * F (Ok (A2 d (map (fun k => map Fin (c k)) v)))).
Proof.
  intros Hc Hn U. rewrite <- (shuffled_labels K n p E (fun v => F (Ok (A2 d (map (fun k => map Fin (c k)) v)))) U).
  apply SumL_ext. intros s Hs. f_equal. apply (us_ext n E U). intros o Ho.
  pose proof (sample_constants d c K Hc weights true n w s o Hn Hs Ho) as H. unfold constants in H. rewrite H. reflexivity.
Qed.
(** Without the shuffle the rows come in the order of the components. *)
Theorem c117_unshuffled_in_order d c K n weights w s o :
  (forall k, (k < K)%nat -> length (c k) = d) -> (0 < n)%nat -> In s (strings K n) -> Permutation o (seq 0 n) ->
  exists labels, Permutation labels s /\ (forall i j, (i < j < n)%nat -> (nth i labels 0 <= nth j labels 0)%nat) /\
    sample (Mixture weights (map (fun k => Constant (c k)) (seq 0 K)) false) n (source_of w K s o) =
    Ok (A2 d (map (fun k => map Fin (c k)) labels)).
Proof.
  intros Hc Hn Hs Ho. destruct (strings_length K n s Hs) as [Hl HF]. exists (lab 0 (DerSpec.counts K s)).
  split; [now apply lab_counts|]. split; [|exact (sample_constants d c K Hc weights false n w s o Hn Hs Ho)].
  assert (HL : length (lab 0 (DerSpec.counts K s)) = n) by (rewrite (Permutation_length (lab_counts K s HF)); exact Hl).
  rewrite <- HL. generalize (DerSpec.counts K s). clear. intros ns.
  assert (Hge : forall ns k x, In x (lab k ns) -> (k <= x)%nat).
  { clear. induction ns as [|m ns IH]; intros k x H; [destruct H|]. cbn [lab] in H. apply in_app_iff in H as [H|H].
    - apply repeat_spec in H. lia.
    - specialize (IH _ _ H). lia. }
  assert (HM : forall ns k i j, (i < j < length (lab k ns))%nat -> (nth i (lab k ns) 0 <= nth j (lab k ns) 0)%nat); [|intros i j; apply HM].
  clear ns. induction ns as [|m ns IH]; intros k i j H; cbn [lab] in *; [simpl in H; lia|]. rewrite app_length, repeat_length in H.
  assert (Hrep : forall q, (q < m)%nat -> nth q (repeat k m) 0%nat = k).
  { intros q Hq. apply repeat_spec with (n := m). apply nth_In. now rewrite repeat_length. }
  destruct (Nat.lt_ge_cases i m) as [Hi|Hi].
  - rewrite (app_nth1 _ _ _ ) by (rewrite repeat_length; lia). rewrite Hrep by assumption.
    destruct (Nat.lt_ge_cases j m) as [Hj|Hj].
    + rewrite app_nth1 by (rewrite repeat_length; lia). now rewrite Hrep.
    + rewrite app_nth2 by (rewrite repeat_length; lia). rewrite repeat_length.
      assert (S k <= nth (j - m) (lab (S k) ns) 0)%nat; [|lia]. apply (Hge ns). apply nth_In. lia.
  - rewrite !app_nth2 by (rewrite repeat_length; lia). rewrite repeat_length. apply IH. lia.
Qed.

(** The hypotheses are met: a fair coin decides between two orders of two rows. *)
Example c117_shuffle_of_two : uniform_shuffle 2 (fun f => (f [0%nat; 1%nat] + f [1%nat; 0%nat]) / 2).
Proof.
  split; [| | | |].
  - intros f g H. rewrite (H [0%nat; 1%nat]), (H [1%nat; 0%nat]); [reflexivity|apply perm_swap|apply Permutation_refl].
  - intros. field.
  - intros. field.
  - field.
  - intros t f Ht. apply Permutation_sym, Permutation_length_2_inv in Ht as [->| ->]; cbn [map nth]; [reflexivity|]. field.
Qed.
Example c117_example :
  let cls : dist_class := fun x _ => Ok (Constant x) in
  mixture_init [1/2; 1/2] (Class cls) (Some [[1]; [2]]) None true =
    Ok (MClass [1/2; 1/2] cls (Some [[1]; [2]]) None (Constant [1]) true) /\
  In [1%nat; 0%nat] (strings 2 2) /\ record_prob (fun _ => 1/2) [1%nat; 0%nat] = 1/4.
Proof. split; [reflexivity|]. split; [cbn; auto|]. cbn. field. Qed.

Print Assumptions c117_class_form_is_list_form.
Print Assumptions c117_rows_reach_the_class.
Print Assumptions c117_no_positional_arguments_refuted.
Print Assumptions c117_wrong_number_of_rows.
Print Assumptions c117_wrong_list.
Print Assumptions c117_rows_are_independent_draws.
Print Assumptions c117_unshuffled_in_order.
