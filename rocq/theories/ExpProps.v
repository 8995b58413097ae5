(** C132: models receive the experiments that their declared dtypes describe. *)
From Coq Require Import String Lia.
From Verif Require Import Base StackModel ExpModel ExpSpec ExpProofs.
Open Scope string_scope.
Open Scope list_scope.

(** Whatever the order of constructor calls, a stack holds at most one model that repeats measurements. *)
Theorem c132_one_counting_model {E} (nm : E -> nat) (m : model E) : buildable nm m -> (binomials m + multinomials m <= 1)%nat.
Proof. intros B. exact (proj1 (buildable_counters nm m B)). Qed.

(** The declared dtype is that of the base model, with n_meas at the end (and the base experiment named x, if it was a plain
    number) when a model repeats measurements. *)
Theorem c132_declared_dtype {E} (nm : E -> nat) (m : model E) d0 : buildable nm m ->
  expparams_dtype d0 m =
    if (binomials m + multinomials m =? 0)%nat then d0
    else DList ((match d0 with DStr f => [("x", f)] | DList fs => fs end) ++ [("n_meas", FUint)]).
Proof.
  intros B. pose proof (proj1 (buildable_counters nm m B)) as C. change (binomials m + multinomials m)%nat with (counters m).
  destruct (counters m) as [|[|n]] eqn:Z; [now apply dtype_uncounted| |lia]. rewrite dtype_counted by assumption. now destruct d0.
Qed.

(** So arrays of it can be created, if the base model's own names are distinct and not n_meas; *)
Theorem c132_arrays_exist {E V} (nm : E -> nat) (m : model E) d0 (rows : list (list V)) : buildable nm m ->
  match d0 with DStr _ => True | DList fs => NoDup (names_of fs) /\ ~ In "n_meas" (names_of fs) end ->
  Forall (fun r => length r = width (expparams_dtype d0 m)) rows ->
  exists a, new_array (expparams_dtype d0 m) rows = Ok a /\ shape0 a = length rows.
Proof.
  intros B H F. rewrite (c132_declared_dtype nm m d0 B) in *. destruct (binomials m + multinomials m =? 0)%nat.
  - destruct d0 as [f|fs]; cbn [new_array].
    + destruct rows as [|[|v r] rows]; [exists (APlain []); split; reflexivity|apply Forall_inv in F; discriminate|].
      rewrite (column0 v) by exact F. cbn [bind]. exists (APlain (map (hd v) ((v :: r) :: rows))). split; [reflexivity|]. cbn [shape0]. now rewrite map_length.
    + assert (X : occurs_twice (names_of fs) = false) by now apply occurs_twice_spec. rewrite X. eauto.
  - cbn [new_array]. assert (X : occurs_twice (names_of ((match d0 with DStr f => [("x", f)] | DList fs => fs end) ++ [("n_meas", FUint)])) = false).
    { apply occurs_twice_spec. unfold names_of. rewrite map_app. destruct d0 as [f|fs].
      - cbn. repeat constructor; cbn; intuition discriminate.
      - destruct H as [H1 H2]. cbn [map fst]. assert (A1 : Add "n_meas" (names_of fs ++ []) (names_of fs ++ ["n_meas"])) by apply Add_app. rewrite app_nil_r in A1.
        apply (NoDup_Add A1). split; assumption. }
    rewrite X. eauto.
Qed.
(** and not at all otherwise. *)
Theorem c132_clash_refuted {E V} (u : model E) w fs (rows : list (list V)) : w = Binomial \/ (exists k, w = Multinomial k) ->
  expparams_dtype (DList fs) u = DList fs -> In "n_meas" (names_of fs) ->
  new_array (expparams_dtype (DList fs) (MDerived w u)) rows = Err ValueError.
Proof.
  intros Hw Hu H. assert (X : expparams_dtype (DList fs) (MDerived w u) = DList (fs ++ [("n_meas", FUint)])).
  { destruct Hw as [->|(k & ->)]; cbn [expparams_dtype]; rewrite Hu; reflexivity. }
  rewrite X. cbn [new_array]. destruct (occurs_twice (names_of (fs ++ [("n_meas", FUint)]))) eqn:Z; [reflexivity|exfalso].
  apply occurs_twice_spec in Z. unfold names_of in Z. rewrite map_app in Z. cbn [map fst] in Z. apply NoDup_remove_2 in Z. apply Z. rewrite app_nil_r. exact H.
Qed.

(** A base model finds what it needs by name, among any other fields; *)
Theorem c132_reads_by_name {V} (dflt zero : V) k names (rows : list (list V)) : match known_dtype k with DStr _ => False | DList _ => True end ->
  Forall (fun r => length r = length names) rows -> (forall fs, known_dtype k = DList fs -> incl (names_of fs) names) ->
  known_reads zero k (ARec names rows) = Ok (map (fun row => wanted zero k (value_of dflt names row)) rows).
Proof.
  intros Hk F H. destruct k as [| | | | | |[|]|dim|dim|]; cbn [known_dtype] in Hk; try destruct Hk; specialize (H _ eq_refl); cbn [known_reads wanted];
    try (apply (read2_values dflt); [apply H; cbn; tauto|apply H; cbn; tauto|exact F]); try (apply (read1_values dflt); [apply H; cbn; tauto|exact F]);
    cbn [shape0]; clear; f_equal; (induction rows as [|r rows IH]; [reflexivity|cbn [length repeat map]; now rewrite IH]).
Qed.

(** so the library's models get their experiments through every stack: an array of the declared dtype can be created, every
    access of every likelihood on the way succeeds, and experiment [j] is seen as row [j] by the base model and the binomial model. *)
Theorem c132_experiments_arrive {E V} (nm : E -> nat) (dflt zero : V) k (m : model E) rows : buildable nm m ->
  let d := expparams_dtype (known_dtype k) m in
  Forall (fun r => length r = width d) rows ->
  exists a, new_array d rows = Ok a /\
    consult (known_dtype k) (known_reads zero k) m a =
      Ok (map (fun row => wanted zero k (experiment dflt d row)) rows,
          if (binomials m =? 0)%nat then [] else [map (fun row => experiment dflt d row "n_meas") rows]).
Proof.
  intros B d F.
  assert (G : match known_dtype k with DStr _ => True | DList fs => NoDup (names_of fs) /\ ~ In "n_meas" (names_of fs) end).
  { destruct k as [| | | | | |[|]|dim|dim|]; cbn; try exact I; (split; [repeat constructor; cbn; intuition discriminate|intuition discriminate]). }
  destruct (c132_arrays_exist nm m (known_dtype k) rows B G F) as (a & Ha & _). exists a. split; [exact Ha|]. fold d in Ha.
  pose proof (c132_declared_dtype nm m (known_dtype k) B) as Ed. fold d in Ed. pose proof (proj1 (buildable_counters nm m B)) as C.
  assert (P1 : forall k', match known_dtype k' with DStr _ => True | DList _ => False end -> forall xs : list V, known_reads zero k' (APlain xs) = Ok (map (fun x => wanted zero k' (fun _ => x)) xs)).
  { intros k' H xs. destruct k' as [| | | | | |[|]|dim|dim|]; try destruct H; cbn [known_reads wanted]; [|reflexivity]. cbn [precession_eps bind].
    rewrite (read2_values zero "t" "w_" ["t"; "w_"]); [|now left|right; now left|apply Forall_map; apply Forall_forall; reflexivity]. f_equal. rewrite map_map. apply map_ext. reflexivity. }
  destruct (binomials m + multinomials m)%nat as [|[|n]] eqn:Z.
  - cbn [Nat.eqb] in Ed. assert (Zb : binomials m = 0%nat) by lia. rewrite Zb. cbn [Nat.eqb]. rewrite consult_uncounted by exact Z. rewrite Ed in *. clearbody d. subst d.
    destruct (known_dtype k) as [f|fs] eqn:K; cbn [new_array] in Ha.
    + rewrite (column0 dflt) in Ha by exact F. injection Ha as <-. rewrite P1 by now rewrite K. cbn [bind]. rewrite map_map. reflexivity.
    + destruct (occurs_twice (names_of fs)); [discriminate|]. injection Ha as <-. rewrite (c132_reads_by_name dflt); [reflexivity|now rewrite K| |].
      * cbn [width] in F. unfold names_of. rewrite map_length. exact F.
      * intros fs' Hf. rewrite K in Hf. injection Hf as <-. apply incl_refl.
  - cbn [Nat.eqb] in Ed. rewrite consult_counted by exact Z. rewrite Ed in *. clearbody d. subst d.
    destruct (known_dtype k) as [f|fs] eqn:K; cbn [new_array] in Ha.
    + destruct (occurs_twice _); [discriminate|]. injection Ha as <-. cbn [width app length] in F. cbn [names_of app map fst].
      rewrite (getfield_values dflt "x" ["x"; "n_meas"]) by (first [now left|exact F]). cbn [bind]. rewrite P1 by now rewrite K. cbn [bind]. rewrite map_map.
      rewrite (getfield_values dflt "n_meas" ["x"; "n_meas"]) by (first [right; now left|exact F]).
      assert (W : map (fun row : list V => wanted zero k (fun _ => value_of dflt ["x"; "n_meas"] row "x")) rows = map (fun row => wanted zero k (experiment dflt (DList ([("x", f)] ++ [("n_meas", FUint)])) row)) rows).
      { apply map_ext. intros row. destruct k as [| | | | | |[|]|dim|dim|]; try discriminate K; reflexivity. }
      rewrite W. destruct (binomials m); reflexivity.
    + destruct (occurs_twice _); [discriminate|]. injection Ha as <-. cbn [width] in F. cbn [bind].
      assert (F' : Forall (fun r : list V => length r = length (names_of (fs ++ [("n_meas", FUint)]))) rows) by (unfold names_of; rewrite map_length; exact F).
      rewrite (c132_reads_by_name dflt); [|now rewrite K|exact F'|intros fs' Hf; rewrite K in Hf; injection Hf as <-; unfold names_of; rewrite map_app; apply incl_appl, incl_refl].
      cbn [bind]. rewrite (getfield_values dflt "n_meas"); [|unfold names_of; rewrite map_app; apply in_or_app; right; now left|exact F'].
      destruct (binomials m); reflexivity.
  - unfold counters in C. lia.
Qed.
(** The multinomial model's likelihood never looks at n_meas: it is the same for every array that agrees on the other fields. *)
Theorem c132_multinomial_ignores_n_meas_refuted {E V} fs (u : model E) n names rows rows' reads : multinomials u = 0%nat -> binomials u = 0%nat ->
  reads (ARec names rows) = reads (ARec names rows') ->
  consult (DList fs) reads (MDerived (Multinomial n) u) (ARec names rows) = consult (V := V) (DList fs) reads (MDerived (Multinomial n) u) (ARec names rows').
Proof.
  intros H1 H2 H. rewrite !consult_counted by (unfold counters; cbn [binomials multinomials]; lia). cbn [bind binomials]. rewrite H. destruct (reads (ARec names rows')) as [v|e]; cbn [bind]; [|reflexivity].
  rewrite H2. reflexivity.
Qed.

(** SimplePrecessionModel declares plain times but takes records with a field t as well, and no others. *)
Theorem c132_precession_takes_records {V} (dflt zero : V) names rows : Forall (fun r => length r = length names) rows ->
  (In "t" names -> known_reads zero SimplePrecession (ARec names rows) = known_reads zero SimplePrecession (APlain (map (fun r => value_of dflt names r "t") rows))) /\
  (~ In "t" names -> known_reads zero SimplePrecession (ARec names rows) = Err ValueError).
Proof.
  intros F. split; intros H; cbn [known_reads precession_eps].
  - unfold precession_eps at 1. rewrite (getfield_values dflt "t" names rows H F). reflexivity.
  - unfold precession_eps. cbn [getfield]. now rewrite index_of_none.
Qed.
(** A record array without a field that the likelihood looks up is refused; DiffusiveTomographyModel does not look up its declared time. *)
Theorem c132_missing_field {V} (zero : V) k names (rows : list (list V)) f : Forall (fun r => length r = length names) rows -> In f (used k) -> ~ In f names ->
  known_reads zero k (ARec names rows) = Err ValueError.
Proof.
  intros F H Hn.
  assert (G : forall f, ~ In f names -> getfield f (ARec names rows) = Err ValueError) by (intros g Hg; cbn [getfield]; now rewrite index_of_none).
  assert (R1 : forall f, ~ In f names -> read1 f (ARec names rows) = Err ValueError) by (intros g Hg; unfold read1; now rewrite G).
  assert (R2 : forall f g, ~ In f names \/ ~ In g names -> read2 f g (ARec names rows) = Err ValueError).
  { intros g h Hgh. unfold read2. destruct (in_dec String.string_dec g names) as [Hf|Hf]; [|now rewrite G by assumption].
    destruct rows as [|[|v r] rows].
    - destruct (index_of_in g names Hf) as (i & Hi). cbn [getfield]. rewrite Hi. cbn [column bind]. destruct Hgh as [Hg|Hg]; [contradiction|]. now rewrite index_of_none.
    - apply Forall_inv in F. destruct names; [destruct Hf|discriminate].
    - rewrite (getfield_values v g) by assumption. cbn [bind]. destruct Hgh as [Hg|Hg]; [contradiction|]. now rewrite G. }
  destruct k as [| | | | | |[|]|dim|dim|]; cbn [used] in H; try destruct H; cbn [known_reads];
    try (apply R2; destruct H as [<-|[]]; tauto); try (apply R2; subst; tauto); try (apply R1; subst; tauto); try (destruct H).
  unfold precession_eps. now rewrite G.
Qed.
Theorem c132_unused_time {V} (zero : V) dim (rows : list (list V)) : Forall (fun r => length r = 1%nat) rows ->
  exists v, known_reads zero (DiffusiveTomography dim) (ARec ["meas"] rows) = Ok v /\ diffusive_times (ARec ["meas"] rows) = Err ValueError.
Proof.
  intros F. exists rows. split; [|reflexivity]. cbn [known_reads]. unfold read1. rewrite (getfield_values zero "meas" ["meas"]) by (first [now left|exact F]). cbn [bind]. f_equal. rewrite map_map.
  clear - F. induction F as [|r rows L F IH]; [reflexivity|]. cbn [map]. rewrite IH. destruct r as [|v [|]]; try discriminate. reflexivity.
Qed.

(** rmfield keeps exactly the other fields and their values; *)
Theorem c132_rmfield {V} (dflt : V) names rows remove : NoDup names -> Forall (fun r => length r = length names) rows ->
  exists names' rows', rmfield (ARec names rows) remove = Ok (ARec names' rows') /\ NoDup names' /\ length rows' = length rows /\
    (forall f, In f names' <-> In f names /\ ~ In f remove) /\
    (forall f j, In f names' -> value_of dflt names' (nth j rows' []) f = value_of dflt names (nth j rows []) f).
Proof.
  intros N F. cbn [rmfield]. set (keep := filter (fun f => negb (existsb (String.eqb f) remove)) names).
  assert (Hk : forall f, In f keep <-> In f names /\ ~ In f remove).
  { intros f. unfold keep. rewrite filter_In. split; intros [H1 H2]; (split; [exact H1|]).
    - intros Hin. apply Bool.negb_true_iff in H2. assert (X : existsb (String.eqb f) remove = true) by (apply existsb_exists; exists f; split; [assumption|apply String.eqb_refl]). congruence.
    - apply Bool.negb_true_iff, Bool.not_true_iff_false. intros X. apply existsb_exists in X. destruct X as (g & G1 & G2). apply String.eqb_eq in G2. now subst. }
  assert (Nk : NoDup keep) by now apply NoDup_filter.
  rewrite (rows_fields_ok dflt names keep rows) by (first [exact F|intros f Hf; now apply Hk]). cbn [bind]. eexists _, _. split; [reflexivity|]. split; [exact Nk|]. split; [now rewrite map_length|]. split; [exact Hk|].
  intros f j Hf. destruct (Nat.lt_ge_cases j (length rows)) as [Hj|Hj].
  - rewrite (nth_indep _ [] ((fun row => map (value_of dflt names row) keep) [])) by now rewrite map_length. rewrite (map_nth (fun row => map (value_of dflt names row) keep)).
    clear - Hf. generalize (value_of dflt names (nth j rows [])) as g. intros g. induction keep as [|h keep IH]; [destruct Hf|]. unfold value_of. cbn [map combine find fst].
    destruct (String.eqb h f) eqn:X; [apply String.eqb_eq in X; now subst|]. destruct Hf as [->|Hf]; [rewrite String.eqb_refl in X; discriminate|]. exact (IH Hf).
  - rewrite !nth_overflow by (rewrite ?map_length; assumption). unfold value_of. now rewrite !combine_nil.
Qed.
(** removing n_meas gives back the array of the underlying model; plain arrays have no fields to remove. *)
Theorem c132_rmfield_undoes_counting {V} fs (rows : list (list V)) (ns : list V) : NoDup (names_of fs) -> ~ In "n_meas" (names_of fs) ->
  Forall (fun r => length r = length fs) rows -> length ns = length rows ->
  rmfield (ARec (names_of (fs ++ [("n_meas", FUint)])) (map (fun p => fst p ++ [snd p]) (combine rows ns))) ["n_meas"] = Ok (ARec (names_of fs) rows) /\
  forall xs : list V, rmfield (APlain xs) ["n_meas"] = Err TypeError.
Proof.
  intros N H F L. split; [|reflexivity]. cbn [rmfield]. assert (NN : names_of (fs ++ [("n_meas", FUint)]) = names_of fs ++ ["n_meas"]) by (unfold names_of; now rewrite map_app). rewrite !NN.
  assert (K : filter (fun f => negb (existsb (String.eqb f) ["n_meas"])) (names_of fs ++ ["n_meas"]) = names_of fs).
  { rewrite filter_app. cbn [filter existsb]. rewrite String.eqb_refl. cbn [orb negb]. rewrite app_nil_r. clear - H. induction (names_of fs) as [|f l IH]; [reflexivity|]. cbn [filter existsb].
    destruct (String.eqb f "n_meas") eqn:X; [apply String.eqb_eq in X; subst; destruct H; now left|]. cbn [orb negb]. f_equal. apply IH. intros Hl. apply H. now right. }
  rewrite !K. destruct rows as [|r0 rows]; [destruct ns; [reflexivity|discriminate]|]. destruct ns as [|n0 ns]; [discriminate|]. set (rr := r0 :: rows) in *. set (nn := n0 :: ns) in *.
  assert (FF : Forall (fun r => length r = length (names_of fs ++ ["n_meas"])) (map (fun p => fst p ++ [snd p]) (combine rr nn))).
  { apply Forall_map. apply Forall_forall. intros [r n] Hin. apply in_combine_l in Hin. rewrite Forall_forall in F. cbn [fst snd]. rewrite !app_length. unfold names_of. rewrite map_length, (F r Hin). reflexivity. }
  rewrite (rows_fields_ok n0 _ _ _) by (first [exact FF|apply incl_appl, incl_refl]). cbn [bind]. do 2 f_equal. rewrite map_map. clear FF K. clearbody nn rr. clear rows ns r0. revert nn L. induction F as [|r l Fr F IH]; intros nn L; [destruct nn; [reflexivity|discriminate]|].
  destruct nn as [|n nn]; [discriminate|]. injection L as L. cbn [combine map fst snd]. f_equal; [|now apply IH].
  transitivity (map (value_of n0 (names_of fs) r) (names_of fs)).
  - apply map_ext_in. intros f Hf. apply value_of_app; [exact Hf|]. unfold names_of. now rewrite map_length.
  - apply value_of_self; [exact N|]. unfold names_of. now rewrite map_length.
Qed.

(** ** Examples *)
Definition two : base nat := {| b_tag := 0; b_n_modelparams := 1; b_names := [0%nat]; b_constant := true; b_n_outcomes := fun _ => 2%nat; b_valid := fun _ => true; b_counts := true |}.
Definition stack : model nat := MDerived Poisoned (MDerived Binomial (MDerived RandomWalk (MBase two))).
Example stack_buildable : buildable (fun n => n) stack.
Proof.
  apply bl_poisoned. apply (bl_binomial _ (MDerived RandomWalk (MBase two))); [|reflexivity]. apply (bl_walk _ (MBase two) 1%nat); [apply bl_base|reflexivity].
Qed.
Example stack_counts : binomials stack = 1%nat. Proof. reflexivity. Qed.
Example stack_dtype : expparams_dtype (known_dtype SimplePrecession) stack = DList [("x", FFloat); ("n_meas", FUint)]. Proof. reflexivity. Qed.
Example stack_reads : exists a, new_array (expparams_dtype (known_dtype (RB true)) stack) [[3; 1; 50]; [7; 0; 20]]%nat = Ok a /\
  consult (known_dtype (RB true)) (known_reads 0%nat (RB true)) stack a = Ok ([[1; 3]; [0; 7]], [[50; 20]])%nat.
Proof. eexists. split; reflexivity. Qed.
Example stack_twice_fails : new_binomial (fun n => n) stack = Err TypeError /\ new_multinomial stack = Err TypeError. Proof. split; reflexivity. Qed.
Example clash : new_array (expparams_dtype (DList [("n_meas", FInt)]) (MDerived Binomial (MBase two))) [[1; 2]]%nat = Err ValueError. Proof. reflexivity. Qed.
Example removed : rmfield (ARec ["t"; "w_"; "n_meas"] [[1; 2; 3]; [4; 5; 6]]%nat) ["w_"] = Ok (ARec ["t"; "n_meas"] [[1; 3]; [4; 6]]%nat). Proof. reflexivity. Qed.
Example precession_record : known_reads 0%nat SimplePrecession (ARec ["n_meas"; "t"] [[5; 9]]%nat) = Ok [[9; 0]]%nat. Proof. reflexivity. Qed.

Print Assumptions c132_one_counting_model.
Print Assumptions c132_declared_dtype.
Print Assumptions c132_arrays_exist.
Print Assumptions c132_clash_refuted.
Print Assumptions c132_reads_by_name.
Print Assumptions c132_experiments_arrive.
Print Assumptions c132_multinomial_ignores_n_meas_refuted.
Print Assumptions c132_precession_takes_records.
Print Assumptions c132_missing_field.
Print Assumptions c132_unused_time.
Print Assumptions c132_rmfield.
Print Assumptions c132_rmfield_undoes_counting.
