From Coq Require Import String Lia.
From Verif Require Import Base StackModel ExpModel ExpSpec.
Open Scope string_scope.
Open Scope list_scope.

Section P.
Context {V : Type} (dflt : V).

Lemma index_of_cell f names i row : index_of f names = Some i -> length row = length names ->
  cell i row = Ok (value_of dflt names row f).
Proof.
  revert i row. induction names as [|g names IH]; intros i row H L; [discriminate|]. cbn [index_of] in H.
  destruct row as [|v row]; [discriminate|]. injection L as L. unfold value_of. cbn [combine find fst].
  destruct (String.eqb f g) eqn:Eg.
  - injection H as <-. rewrite String.eqb_sym, Eg. reflexivity.
  - rewrite String.eqb_sym, Eg. destruct (index_of f names) as [i'|] eqn:Ei; [|discriminate]. injection H as <-. cbn [cell]. exact (IH i' row eq_refl L).
Qed.
Lemma index_of_in f names : In f names -> exists i, index_of f names = Some i.
Proof.
  induction names as [|g names IH]; intros H; [destruct H|]. cbn [index_of]. destruct (String.eqb f g) eqn:Eg; [eauto|].
  destruct H as [->|H]; [rewrite String.eqb_refl in Eg; discriminate|]. destruct (IH H) as (i & ->). cbn. eauto.
Qed.
Lemma index_of_none f names : ~ In f names -> index_of f names = None.
Proof.
  induction names as [|g names IH]; intros H; [reflexivity|]. cbn [index_of]. destruct (String.eqb f g) eqn:Eg.
  - apply String.eqb_eq in Eg. subst. destruct H; now left.
  - rewrite IH; [reflexivity|]. intros Hin. apply H. now right.
Qed.
Lemma column_values f names i rows : index_of f names = Some i -> Forall (fun r => length r = length names) rows ->
  column i rows = Ok (map (fun r => value_of dflt names r f) rows).
Proof.
  intros H F. induction F as [|row rows L F IH]; [reflexivity|]. cbn [column map]. rewrite (index_of_cell f names i row H L). cbn [bind]. rewrite IH. reflexivity.
Qed.
Lemma getfield_values f names rows : In f names -> Forall (fun r => length r = length names) rows ->
  getfield f (ARec names rows) = Ok (map (fun r => value_of dflt names r f) rows).
Proof. intros H F. destruct (index_of_in f names H) as (i & Hi). cbn [getfield]. rewrite Hi. now apply column_values. Qed.
Lemma column0 rows : Forall (fun r => length r = 1%nat) rows -> column 0 rows = Ok (map (hd dflt) rows).
Proof.
  intros F. induction F as [|row rows L F IH]; [reflexivity|]. destruct row as [|v row]; [discriminate|]. cbn [column cell bind map hd]. rewrite IH. reflexivity.
Qed.
Lemma zip2_map (g h : list V -> V) rows : zip2 (map g rows) (map h rows) = map (fun r => [g r; h r]) rows.
Proof. induction rows as [|r rows IH]; [reflexivity|]. cbn [map zip2]. now rewrite IH. Qed.
Lemma read1_values f names rows : In f names -> Forall (fun r => length r = length names) rows ->
  read1 f (ARec names rows) = Ok (map (fun r => [value_of dflt names r f]) rows).
Proof. intros H F. unfold read1. rewrite (getfield_values f names rows H F). cbn [bind]. now rewrite map_map. Qed.
Lemma read2_values f g names rows : In f names -> In g names -> Forall (fun r => length r = length names) rows ->
  read2 f g (ARec names rows) = Ok (map (fun r => [value_of dflt names r f; value_of dflt names r g]) rows).
Proof. intros H H' F. unfold read2. rewrite (getfield_values f names rows H F). cbn [bind]. rewrite (getfield_values g names rows H' F). cbn [bind]. now rewrite zip2_map. Qed.

Lemma occurs_twice_spec names : occurs_twice names = false <-> NoDup names.
Proof.
  induction names as [|f names IH]; cbn [occurs_twice]; [split; [constructor|reflexivity]|]. rewrite Bool.orb_false_iff, IH. split.
  - intros [H1 H2]. constructor; [|assumption]. intros Hin. assert (X : existsb (String.eqb f) names = true) by (apply existsb_exists; exists f; split; [assumption|apply String.eqb_refl]). congruence.
  - intros H. inversion H as [|x l H1 H2]; subst. split; [|assumption]. apply Bool.not_true_iff_false. intros X. apply existsb_exists in X. destruct X as (g & G1 & G2). apply String.eqb_eq in G2. now subst.
Qed.

Lemma row_fields_ok names keep row : incl keep names -> length row = length names ->
  row_fields names keep row = Ok (map (value_of dflt names row) keep).
Proof.
  intros H L. induction keep as [|f keep IH]; [reflexivity|]. cbn [row_fields map]. destruct (index_of_in f names) as (i & Hi); [apply H; now left|]. rewrite Hi, (index_of_cell f names i row Hi L). cbn [bind].
  rewrite IH; [reflexivity|]. intros g Hg. apply H. now right.
Qed.
Lemma rows_fields_ok names keep rows : incl keep names -> Forall (fun r => length r = length names) rows ->
  rows_fields names keep rows = Ok (map (fun row => map (value_of dflt names row) keep) rows).
Proof.
  intros H F. induction F as [|row rows L F IH]; [reflexivity|]. cbn [rows_fields map]. rewrite row_fields_ok by assumption. cbn [bind]. rewrite IH. reflexivity.
Qed.
Lemma value_of_self names row : NoDup names -> length row = length names -> map (value_of dflt names row) names = row.
Proof.
  intros N. revert row. induction N as [|f names Hf N IH]; intros row L; [destruct row; [reflexivity|discriminate]|].
  destruct row as [|v row]; [discriminate|]. injection L as L. cbn [map]. f_equal.
  - unfold value_of. cbn [combine find fst]. now rewrite String.eqb_refl.
  - transitivity (map (value_of dflt names row) names); [|now apply IH]. apply map_ext_in. intros g Hg. unfold value_of. cbn [combine find fst].
    destruct (String.eqb f g) eqn:X; [apply String.eqb_eq in X; now subst|reflexivity].
Qed.
Lemma value_of_app names row v f g : In f names -> length row = length names ->
  value_of dflt (names ++ [g]) (row ++ [v]) f = value_of dflt names row f.
Proof.
  revert row. induction names as [|h names IH]; intros row H L; [destruct H|]. destruct row as [|x row]; [discriminate|]. injection L as L.
  unfold value_of. cbn [app combine find fst]. destruct (String.eqb h f) eqn:X; [reflexivity|]. destruct H as [->|H]; [rewrite String.eqb_refl in X; discriminate|]. exact (IH row H L).
Qed.
End P.

Section S.
Context {E : Type} (nm : E -> nat).

Definition counters (m : model E) : nat := binomials m + multinomials m.
(** A stack with a counting model that does not sit under a hyperparameterized model knows no number of outcomes for None. *)
Lemma counted_no_outcomes m : (0 < counters m)%nat -> (exists e, n_outcomes nm m None = Err e) /\ True.
Proof.
  intros H. split; [|exact I]. unfold counters in H. induction m as [b|w u IH]; [cbn in H; lia|]. destruct w; cbn [n_outcomes binomials multinomials] in *; eauto.
Qed.
Lemma two_outcome_uncounted w u m : two_outcome_check nm w u = Ok m -> m = MDerived w u /\ counters u = 0%nat /\ is_n_outcomes_constant u = true.
Proof.
  unfold two_outcome_check. intros H. destruct (is_n_outcomes_constant u) eqn:C; [|discriminate]. destruct (n_outcomes nm u None) as [n|e] eqn:N; [|discriminate].
  destruct (Nat.eqb n 2) eqn:X; [|discriminate]. injection H as <-. repeat split. destruct (Nat.eq_dec (counters u) 0) as [Z|Z]; [exact Z|].
  destruct (counted_no_outcomes u) as [(e & He) _]; [lia|congruence].
Qed.
Lemma buildable_counters m : buildable nm m -> (counters m <= 1)%nat /\ ((exists d, domain_none m = Ok d) -> counters m = 0%nat).
Proof.
  intros B. induction B as [b|u B IH|u B IH|u n m B IH H|u srw diag B IH|u t B IH|u m B IH H|u d m B IH H|u m B IH H|u m B IH H]; try (cbn [domain_none]; unfold counters in *; cbn [binomials multinomials]; exact IH).
  - split; [cbn; lia|reflexivity].
  - unfold new_random_walk in H. destruct (Nat.eqb (n_modelparams u) n); [|discriminate]. injection H as <-. exact IH.
  - destruct (two_outcome_uncounted _ _ _ H) as (-> & Z & _). unfold counters in *. cbn [binomials multinomials domain_none]. split; [lia|intros (d & X); discriminate].
  - unfold new_differentiable_binomial in H. destruct d; [|discriminate]. destruct (two_outcome_uncounted _ _ _ H) as (-> & Z & _). unfold counters in *. cbn [binomials multinomials domain_none]. split; [lia|intros (d & X); discriminate].
  - destruct (two_outcome_uncounted _ _ _ H) as (-> & Z & _). unfold counters in *. cbn [binomials multinomials domain_none]. split; [lia|intros _; exact Z].
  - unfold new_multinomial in H. destruct (is_n_outcomes_constant u); [|discriminate]. destruct (domain_none u) as [d|e] eqn:D; [|discriminate]. cbn [bind] in H. injection H as <-.
    assert (Z : counters u = 0%nat) by (apply IH; eauto). unfold counters in *. cbn [binomials multinomials domain_none]. split; [lia|intros (d' & X); discriminate].
Qed.
Lemma dtype_uncounted d0 (m : model E) : counters m = 0%nat -> expparams_dtype d0 m = d0.
Proof. unfold counters. induction m as [b|w u IH]; intros H; [reflexivity|]. destruct w; cbn [expparams_dtype binomials multinomials] in *; try (apply IH; lia); lia. Qed.
Lemma dtype_counted d0 (m : model E) : counters m = 1%nat -> expparams_dtype d0 m = counting_dtype d0.
Proof.
  unfold counters. induction m as [b|w u IH]; intros H; [discriminate|]. destruct w; cbn [expparams_dtype binomials multinomials] in *; try (apply IH; lia);
    rewrite dtype_uncounted by (unfold counters; lia); reflexivity.
Qed.
Context {V : Type} (reads : earr V -> res (list (list V))).
Lemma consult_uncounted d0 (m : model E) a : counters m = 0%nat -> consult d0 reads m a = bind (reads a) (fun v => Ok (v, [])).
Proof. unfold counters. revert a. induction m as [b|w u IH]; intros a H; [reflexivity|]. destruct w; cbn [consult binomials multinomials] in *; try (apply IH; lia); lia. Qed.
Lemma consult_counted d0 (m : model E) a : counters m = 1%nat ->
  consult d0 reads m a =
  bind (match d0 with DStr _ => bind (getfield "x" a) (fun x => Ok (APlain x)) | DList _ => Ok a end) (fun a' =>
  bind (reads a') (fun v => match binomials m with O => Ok (v, []) | _ => bind (getfield "n_meas" a) (fun n => Ok (v, [n])) end)).
Proof.
  unfold counters. revert a. induction m as [b|w u IH]; intros a H; [discriminate|]. destruct w; cbn [consult binomials multinomials] in *; try (apply IH; lia).
  - unfold expparams_scalar. rewrite dtype_uncounted by (unfold counters; lia). destruct d0 as [f|fs].
    + destruct (getfield "x" a) as [x|e]; cbn [bind]; [|reflexivity]. rewrite consult_uncounted by (unfold counters; lia). destruct (reads (APlain x)) as [v|e]; reflexivity.
    + cbn [bind]. rewrite consult_uncounted by (unfold counters; lia). destruct (reads a) as [v|e]; reflexivity.
  - unfold expparams_scalar. rewrite dtype_uncounted by (unfold counters; lia). assert (Z : binomials u = 0%nat) by lia. rewrite Z. destruct d0 as [f|fs].
    + destruct (getfield "x" a) as [x|e]; cbn [bind]; [|reflexivity]. rewrite consult_uncounted by (unfold counters; lia). destruct (reads (APlain x)) as [v|e]; reflexivity.
    + cbn [bind]. rewrite consult_uncounted by (unfold counters; lia). destruct (reads a) as [v|e]; reflexivity.
Qed.
End S.
