(** C117, continued: the law of mixtures of any components that draw their rows one by one. *)
From Verif Require Import Base RList Ext Sums DerSpec DerProofs SmcModel LwModel DistModel DistProofs MixModel MixSpec MixProofs MixSpec2 MixProofs2.
From Coq Require Import List.

(** Which distributions do: all documented ones but those whose rows wait for others (postselection, mixtures) or that return one index only *)
Fixpoint ordinary (f : dist) : Prop :=
  match f with
  | Uniform _ | Constant _ | Scalar _ | Slanted _ _ | Rows _ => True
  | MVNormal m root => length root = length m /\ Forall (fun r => length r = length m) root
  | ConstrainedSum f _ => ordinary f
  | Product l => l <> [] /\ fold_right (fun f p => ordinary f /\ p) True l
  | DiscreteUniform _ | Postselected _ _ _ | Mixture _ _ _ => False
  end.
Theorem c117_one_by_one : forall f, ordinary f -> exists row, one_by_one f (n_rvs f) row.
Proof.
  fix IH 1. intros f. destruct f as [rs|v|g|m root|rs wt|k|b|f valid mx|f t|l|ws l sh]; cbn [ordinary n_rvs]; intros H; try contradiction.
  - eexists; apply uniform_rows.
  - eexists; apply constant_rows.
  - eexists; apply scalar_rows.
  - destruct H. eexists; apply mvnormal_rows; assumption.
  - eexists; apply slanted_rows.
  - eexists; apply external_rows.
  - destruct (IH f H) as (row & Q). eexists; apply constrained_rows; exact Q.
  - destruct H as (N & H). enough (exists rows, length (map n_rvs l) = length rows /\ Forall2 (fun f dr => one_by_one f (fst dr) (snd dr)) l (combine (map n_rvs l) rows)) as (rows & L & Q) by (eexists; exact (product_rows l _ rows Q L N)).
    clear N. revert H. induction l as [|f l IHl]; cbn [fold_right map]; intros H; [exists []; split; [reflexivity|constructor]|]. destruct H as (H1 & H2). destruct (IH f H1) as (row & Q). destruct (IHl H2) as (rows & L & Q2).
    exists (row :: rows). cbn [combine length]. split; [now rewrite L|]. constructor; assumption.
Qed.

(** The law: the counts are those of independent draws of a component by the weights [p], every row of component [k] has law [mu k], all are independent, and the
    shuffle is uniform. Then the rows are distributed like this: draw a component for each row independently, and the row from that component. *)
Theorem c117_law d comp row K n weights p mu E (F : res arr -> R) :
  (forall k, (k < K)%nat -> one_by_one (comp k) d (row k)) -> (0 < n)%nat -> uniform_shuffle n E ->
  SumL (strings K n) (fun s => record_prob p s * independent mu (in_order 0 (DerSpec.counts K s)) (fun xs =>
    E (fun o => F (sample (Mixture weights (map comp (seq 0 K)) true) n (mixture_source K s o xs))))) =
  SumL (strings K n) (fun v => record_prob p v * independent mu v (fun xs => F (Ok (A2 d (map2 row v xs))))).
Proof.
  intros Hr Hn U. rewrite <- (shuffled_labels K n p E (fun v => independent mu v (fun xs => F (Ok (A2 d (map2 row v xs))))) U). apply SumL_ext. intros s Hs. f_equal.
  destruct (strings_length K n s Hs) as [Hl HF]. rewrite in_order_lab. set (L := lab 0 (DerSpec.counts K s)). assert (HL : length L = n) by (unfold L; rewrite (Permutation_length (lab_counts K s HF)); exact Hl).
  rewrite <- (us_independent n E mu U). apply (us_ext n E U). intros o Ho. rewrite <- (ind_reorder mu no_draws L o (fun xs => F (Ok (A2 d (map2 row (reorder o L) xs))))) by (now rewrite HL).
  apply ind_ext. intros xs Hx. rewrite (sample_components d K comp row Hr weights true n s o xs Hn Hs ltac:(congruence) Ho). reflexivity.
Qed.
(** In particular the rows are independent and all have the mixed law: the probability (or expectation) of any combination of events (functions) of single rows
    is the product of those under the law that draws a component by the weights and a row from it. *)
Definition mixed_mean (K : nat) (p : nat -> R) (mu : nat -> law row_source) (row : nat -> row_source -> list ext) (f : list ext -> R) : R :=
  Sum K (fun k => p k * mean_under (mu k) (fun x => f (row k x))).
Fixpoint each (fs : list (list ext -> R)) (rows : list (list ext)) : R := match fs, rows with f :: fs, r :: rows => f r * each fs rows | _, _ => 1 end.
Theorem c117_rows_independent d comp row K weights p mu E fs : let n := length fs in
  (forall k, (k < K)%nat -> one_by_one (comp k) d (row k)) -> (0 < n)%nat -> uniform_shuffle n E ->
  SumL (strings K n) (fun s => record_prob p s * independent mu (in_order 0 (DerSpec.counts K s)) (fun xs =>
    E (fun o => match sample (Mixture weights (map comp (seq 0 K)) true) n (mixture_source K s o xs) with Ok (A2 _ rows) => each fs rows | _ => 0 end))) =
  fold_right Rmult 1 (map (mixed_mean K p mu row) fs).
Proof.
  cbv zeta. intros Hr Hn U. rewrite (c117_law d comp row K (length fs) weights p mu E (fun r => match r with Ok (A2 _ rows) => each fs rows | _ => 0 end) Hr Hn U). cbv beta iota. clear.
  induction fs as [|f fs IH]; [cbn; unfold SumL; cbn; ring|]. cbn [length map fold_right strings]. rewrite <- IH. unfold mixed_mean. 
  rewrite Sum_rsum. rewrite <- SumL_rsum. generalize (seq 0 K). intros l. rewrite Rmult_comm. rewrite <- SumL_scal.
  induction l as [|k l IHl]; [reflexivity|]. cbn [flat_map]. rewrite SumL_app, IHl. change (SumL (k :: l) ?h) with (h k + SumL l h). f_equal. rewrite SumL_map. cbn [record_prob independent map2 each].
  rewrite (SumL_ext _ _ (fun v => (p k * mean_under (mu k) (fun x => f (row k x))) * (record_prob p v * independent mu v (fun xs => each fs (map2 row v xs))))).
  - rewrite SumL_scal. ring.
  - intros v _. assert (G : forall c L (G : list row_source -> R), independent mu L (fun xs => c * G xs) = c * independent mu L G).
    { intros c L. induction L as [|q L IHL]; intros G; cbn [independent]; [reflexivity|]. unfold mean_under. rewrite <- SumL_scal. apply SumL_ext. intros a _. rewrite IHL. ring. }
    rewrite (mean_ext _ _ (fun x => f (row k x) * independent mu v (fun xs => each fs (map2 row v xs)))) by (intros x; now rewrite G). unfold mean_under. rewrite (SumL_ext (mu k) _ (fun a => independent mu v (fun xs => each fs (map2 row v xs)) * (fst a * f (row k (snd a))))) by (intros; ring). rewrite SumL_scal. ring.
Qed.
(** Without the shuffle the rows of a component stay together: the first rows come from the first component that has any. *)
Theorem c117_unshuffled d comp row K n weights s o xs : (forall k, (k < K)%nat -> one_by_one (comp k) d (row k)) -> (0 < n)%nat -> In s (strings K n) -> length xs = n -> Permutation o (seq 0 n) ->
  sample (Mixture weights (map comp (seq 0 K)) false) n (mixture_source K s o xs) = Ok (A2 d (map2 row (in_order 0 (DerSpec.counts K s)) xs)).
Proof. intros Hr Hn Hs Hx Ho. rewrite in_order_lab. exact (sample_components d K comp row Hr weights false n s o xs Hn Hs Hx Ho). Qed.

(** A uniform and a normal component with two possible draws each *)
Example c117_law_case : exists row0 row1, one_by_one (Uniform [(0, 1)]) 1 row0 /\ one_by_one (normal_dist 3 4) 1 row1 /\
  row0 (fun _ => {| r_unif := fun _ => 1 / 2; r_gauss := fun _ => 0; r_raw := 1; r_row := fun _ => [] |}) = [Fin (0 + 1 / 2 * (1 - 0))] /\
  row1 (fun _ => {| r_unif := fun _ => 1 / 2; r_gauss := fun _ => 0; r_raw := 1; r_row := fun _ => [] |}) = [Fin (3 + sqrt 4 * 1)].
Proof. eexists _, _. split; [exact (uniform_rows [(0, 1)])|]. split; [exact (scalar_rows _)|]. split; reflexivity. Qed.
Example c117_ordinary_case : ordinary (Product [Uniform [(0, 1)]; ConstrainedSum (Rows 3) 1; MVNormal [0; 0] [[1; 0]; [0; 1]]]) /\ uniform_shuffle 1 (fun f => f [0%nat]).
Proof.
  split; [cbn; repeat split; try discriminate; repeat (constructor; [reflexivity|]); constructor|].
  split.
  - intros f g H. apply H. apply Permutation_refl.
  - reflexivity.
  - reflexivity.
  - reflexivity.
  - intros t f Ht. apply Permutation_sym in Ht. apply Permutation_length_1_inv in Ht. subst. reflexivity.
Qed.

Print Assumptions c117_one_by_one.
Print Assumptions c117_law.
Print Assumptions c117_rows_independent.
Print Assumptions c117_unshuffled.
