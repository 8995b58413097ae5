(** C140: enumerations number their names. *)
From Coq Require Import String List Bool Arith ZArith Lia.
From Verif Require Import Base DesModel EnuModel.
Import ListNotations.
Close Scope R_scope.
Open Scope string_scope.
Open Scope list_scope.

(** ** Dictionaries *)
Section Dict.
  Context {K V : Type} (eqb : K -> K -> bool) (eqb_spec : forall a b, reflect (a = b) (eqb a b)).
  Notation find_key := (@find_key K V eqb).
  Lemma find_cons k' v' (r : dict K V) k : find_key ((k', v') :: r) k = if eqb k' k then Some v' else find_key r k.
  Proof using Type. unfold EnuModel.find_key. cbn. now destruct (eqb k' k). Qed.
  Lemma find_put (d : dict K V) k v j : find_key (put eqb d k v) j = if eqb k j then Some v else find_key d j.
  Proof using eqb_spec.
    induction d as [|[k' v'] r IH]; cbn [put].
    - now rewrite find_cons.
    - destruct (eqb_spec k' k) as [->|N]; rewrite !find_cons.
      + now destruct (eqb k j).
      + rewrite IH. destruct (eqb_spec k' j) as [->|]; [|reflexivity]. destruct (eqb_spec k j) as [->|]; [contradiction|reflexivity].
  Qed.
  Lemma find_puts items : forall (d : dict K V) j, find_key (fold_left (fun d p => put eqb d (fst p) (snd p)) items d) j =
    match find (fun p => eqb (fst p) j) (rev items) with Some p => Some (snd p) | None => find_key d j end.
  Proof using eqb_spec.
    induction items as [|[k v] r IH]; intros d j; [reflexivity|]. cbn [fold_left fst snd rev]. rewrite IH, find_put.
    assert (X : forall l : list (K * V), find (fun p => eqb (fst p) j) (l ++ [(k, v)]) = match find (fun p => eqb (fst p) j) l with Some p => Some p | None => if eqb k j then Some (k, v) else None end).
    { induction l as [|a l H]; cbn; [now destruct (eqb k j)|]. destruct (eqb (fst a) j); [reflexivity|apply H]. }
    rewrite X. destruct (find _ (rev r)); [reflexivity|]. now destruct (eqb k j).
  Qed.
  Lemma find_dict_of items j : find_key (dict_of eqb items) j = option_map snd (find (fun p => eqb (fst p) j) (rev items)).
  Proof using eqb_spec. unfold dict_of. rewrite find_puts. now destruct (find _ _). Qed.
  Lemma find_In (l : list (K * V)) j : match find (fun p => eqb (fst p) j) l with Some p => In p l /\ fst p = j | None => forall v, ~ In (j, v) l end.
  Proof using eqb_spec.
    induction l as [|[k v] r IH]; cbn; [tauto|]. destruct (eqb_spec k j) as [->|N]; [auto|]. destruct (find _ r) as [p|]; [tauto|].
    intros u [H|H]; [congruence|]. now apply (IH u).
  Qed.
  (** Keys are not repeated. *)
  Lemma put_keys (d : dict K V) k v : NoDup (map fst d) -> NoDup (map fst (put eqb d k v)).
  Proof using eqb_spec.
    induction d as [|[k' v'] r IH]; cbn [put map fst]; intros N; [repeat constructor; tauto|]. inversion N as [|? ? H1 H2]; subst. destruct (eqb_spec k' k) as [->|Q]; [exact N|].
    cbn [map fst]. constructor; [|auto]. intros I. apply H1. apply in_map_iff in I as ([a b] & <- & I). clear - I Q. cbn [fst] in *.
    induction r as [|[c e] r IH]; cbn [put] in I; [destruct I as [I|[]]; injection I as -> ->; contradiction|].
    destruct (eqb c k) eqn:W; destruct I as [I|I]; try (injection I as -> ->; now left); try (right; apply in_map_iff; exists (a, b); auto; fail); right; auto.
  Qed.
  Lemma puts_keys items : forall d : dict K V, NoDup (map fst d) -> NoDup (map fst (fold_left (fun d p => put eqb d (fst p) (snd p)) items d)).
  Proof using eqb_spec. induction items as [|p r IH]; intros d N; [assumption|]. cbn [fold_left]. apply IH, put_keys, N. Qed.
  Lemma find_unique (d : dict K V) k v : NoDup (map fst d) -> (find_key d k = Some v <-> In (k, v) d).
  Proof using eqb_spec.
    induction d as [|[k' v'] r IH]; intros N; [cbn; split; [discriminate|tauto]|]. rewrite find_cons. inversion N as [|? ? H1 H2]; subst. cbn [In].
    destruct (eqb_spec k' k) as [->|Q].
    - split; [intros [= ->]; auto|]. intros [[= ->]|I]; [reflexivity|]. exfalso. apply H1. apply in_map_iff. exists (k, v). auto.
    - rewrite IH by assumption. split; [auto|]. intros [H|H]; [congruence|assumption].
  Qed.
End Dict.

Lemma combine_last {A B} (l : list A) (m : list B) a b : length l = length m -> combine (l ++ [a]) (m ++ [b]) = combine l m ++ [(a, b)].
Proof. revert m. induction l as [|x l IH]; intros [|y m] H; try discriminate; [reflexivity|]. cbn. f_equal. apply IH. now injection H. Qed.
Section Enumerations.
  Context {V : Type} (eqv : V -> V -> bool) (eqv_spec : forall a b, reflect (a = b) (eqv a b)) (ordinal : nat -> V).
  (** What a name stands for: the last value given by keyword, otherwise its last place among the names. *)
  Definition last_place (l : list string) (x : string) (i : nat) : Prop := nth_error l i = Some x /\ forall j, nth_error l j = Some x -> j <= i.
  Inductive means (l : list string) (named : list (string * V)) (x : string) : V -> Prop :=
  | by_place i : (forall v, ~ In (x, v) named) -> last_place l x i -> means l named x (ordinal i)
  | by_name before v after : named = before ++ (x, v) :: after -> (forall u, ~ In (x, u) after) -> means l named x v.

  Definition members (l : list string) (named : list (string * V)) : dict string V :=
    fold_left (fun d p => put String.eqb d (fst p) (snd p)) named (dict_of String.eqb (combine l (map ordinal (seq 0 (length l))))).
  Lemma last_found (l : list (string * V)) x p : find (fun p => String.eqb (fst p) x) (rev l) = Some p -> exists before after, l = before ++ p :: after /\ fst p = x /\ forall u, ~ In (x, u) after.
  Proof using Type.
    induction l as [|q r IH] using rev_ind; [discriminate|]. rewrite rev_app_distr. cbn [rev app find]. destruct (String.eqb_spec (fst q) x) as [E|N].
    - intros [= ->]. exists r, []. split; [reflexivity|]. split; [assumption|]. intros u [].
    - intros H. destruct (IH H) as (b & a & -> & E & Q). exists b, (a ++ [q]). split; [now rewrite <- app_assoc|]. split; [assumption|]. intros u I. apply in_app_or in I as [I|[I|[]]]; [now apply (Q u)|]. subst q. contradiction.
  Qed.
  Lemma numbered_nth (l : list string) x v : forall s, In (x, v) (combine l (map ordinal (seq s (length l)))) <-> exists i, nth_error l i = Some x /\ v = ordinal (s + i).
  Proof using Type.
    induction l as [|y l IH]; intros s; cbn [length seq map combine].
    - split; [intros []|]. intros (i & H & _). destruct i; discriminate.
    - cbn [In]. rewrite IH. split.
      + intros [[= -> <-]|(i & H & ->)]; [exists 0; split; [reflexivity|f_equal; lia]|]. exists (S i). split; [assumption|f_equal; lia].
      + intros ([|i] & H & ->); [left; injection H as ->; do 2 f_equal; lia|right]. exists i. split; [assumption|f_equal; lia].
  Qed.
  Lemma numbered_last (l : list string) x : match find (fun p => String.eqb (fst p) x) (rev (combine l (map ordinal (seq 0 (length l))))) with
    | Some p => exists i, last_place l x i /\ snd p = ordinal i | None => ~ In x l end.
  Proof using Type.
    induction l as [|y l IH] using rev_ind; [cbn; tauto|].
    rewrite app_length, seq_app, map_app. cbn [length seq map]. rewrite combine_last by (now rewrite map_length, seq_length). rewrite rev_app_distr. cbn [rev app find fst Nat.add].
    destruct (String.eqb_spec y x) as [->|N].
    - exists (length l). split; [|reflexivity]. split; [rewrite nth_error_app2, Nat.sub_diag by lia; reflexivity|]. intros j H. assert (j < length (l ++ [x])) by (apply nth_error_Some; congruence). rewrite app_length in *. cbn in *. lia.
    - destruct (find _ _) as [p|].
      + destruct IH as (i & (H & M) & E). exists i. split; [|assumption]. assert (i < length l) by (apply nth_error_Some; congruence). split; [now rewrite nth_error_app1|].
        intros j Hj. destruct (lt_dec j (length l)); [rewrite nth_error_app1 in Hj by assumption; auto|]. rewrite nth_error_app2 in Hj by lia. destruct (j - length l) as [|[|k]]; cbn in Hj; congruence.
      + intros I. apply in_app_or in I as [I|[I|[]]]; auto.
  Qed.

  Lemma last_unique (l : list string) x i j : last_place l x i -> last_place l x j -> i = j.
  Proof using Type. intros (H1 & H2) (H3 & H4). apply Nat.le_antisymm; auto. Qed.
  Lemma means_unique l named x v u : means l named x v -> means l named x u -> v = u.
  Proof using Type.
    intros [i N L|b v' a E N] M; destruct M as [j N' L'|b' v'' a' E' N'].
    - f_equal. eapply last_unique; eassumption.
    - exfalso. apply (N v''). rewrite E'. apply in_elt.
    - exfalso. apply (N' v'). rewrite E. apply in_elt.
    - rewrite E in E'. clear E. revert b' E'. induction b as [|q b IH]; intros [|q' b'] E'.
      + now injection E'.
      + injection E' as <- ->. exfalso. apply (N v''). apply in_elt.
      + injection E' as -> <-. exfalso. apply (N' v'). apply in_elt.
      + injection E' as _ E'. eauto.
  Qed.
  Lemma members_means l named x v : find_key String.eqb (members l named) x = Some v <-> means l named x v.
  Proof using Type.
    assert (F : forall v, find_key String.eqb (members l named) x = Some v -> means l named x v).
    { intros u. unfold members. rewrite (find_puts String.eqb String.eqb_spec). destruct (find _ (rev named)) as [p|] eqn:Fn.
      - intros [= <-]. destruct (last_found _ _ _ Fn) as (b & a & E & <- & N). apply (by_name _ _ _ b (snd p) a); [now destruct p|assumption].
      - rewrite (find_dict_of String.eqb String.eqb_spec). pose proof (numbered_last l x) as Q. destruct (find (fun p => String.eqb (fst p) x) (rev (combine l (map ordinal (seq 0 (length l)))))) as [p|]; [|cbn; discriminate]. destruct Q as (i & Li & E). cbn [option_map]. intros X. injection X as <-. rewrite E.
        apply by_place; [|assumption]. pose proof (find_In String.eqb String.eqb_spec (rev named) x) as W. rewrite Fn in W. intros w I. apply (W w). now apply in_rev in I. }
    split; [apply F|]. intros M. destruct (find_key String.eqb (members l named) x) as [u|] eqn:E.
    - f_equal. eapply means_unique; [apply F; reflexivity|exact M].
    - exfalso. unfold members in E. rewrite (find_puts String.eqb String.eqb_spec) in E. destruct (find _ (rev named)) eqn:Fn; [discriminate|].
      rewrite (find_dict_of String.eqb String.eqb_spec) in E. pose proof (numbered_last l x) as Q. destruct (find _ (rev (combine _ _))); [discriminate|].
      pose proof (find_In String.eqb String.eqb_spec (rev named) x) as W. rewrite Fn in W. destruct M as [i _ (L & _)|b w a -> _].
      + apply Q. eapply nth_error_In, L.
      + apply (W w). rewrite <- in_rev. apply in_elt.
  Qed.
  Lemma attribute_find l named x : get_attribute (enum eqv ordinal l named) x = if String.eqb "reverse_mapping" x then Some (Reverse (dict_of eqv (map (fun p => (snd p, fst p)) (members l named))))
    else option_map Value (find_key String.eqb (members l named) x).
  Proof using Type.
    unfold get_attribute, enum. fold (members l named). rewrite (find_put String.eqb String.eqb_spec). destruct (String.eqb _ x); [reflexivity|].
    generalize (members l named) as d. induction d as [|[k v] r IH]; [reflexivity|]. cbn [map fst snd]. rewrite !find_cons. destruct (String.eqb k x); [reflexivity|apply IH].
  Qed.

  (** Every name other than reverse_mapping is an attribute exactly if it was given, and holds what it stands for. *)
  Theorem c140_values l named x a : x <> "reverse_mapping" -> (get_attribute (enum eqv ordinal l named) x = Some a <-> exists v, a = Value v /\ means l named x v).
  Proof using Type.
    intros N. rewrite attribute_find. destruct (String.eqb_spec "reverse_mapping" x) as [E|_]; [now subst|]. split.
    - destruct (find_key _ _ x) as [v|] eqn:F; [|discriminate]. intros [= <-]. exists v. split; [reflexivity|]. now apply members_means.
    - intros (v & -> & M). apply members_means in M. now rewrite M.
  Qed.
  (** Without repetitions and keywords: names are numbered from zero. *)
  Theorem c140_numbered l i x : NoDup l -> x <> "reverse_mapping" -> nth_error l i = Some x -> get_attribute (enum eqv ordinal l []) x = Some (Value (ordinal i)).
  Proof using Type.
    intros N Nx H. apply c140_values; [assumption|]. exists (ordinal i). split; [reflexivity|]. apply by_place; [intros v []|]. split; [assumption|]. intros j Hj.
    assert (j = i); [|lia]. pose proof (proj1 (NoDup_nth_error l) N j i). apply H0; [apply nth_error_Some; congruence|congruence].
  Qed.
  (** A value is in the reverse mapping exactly if a name stands for it; the name found there stands for it. *)
  Theorem c140_reverse l named v : (exists x, name_of_value eqv (enum eqv ordinal l named) v = Some x) <-> exists x, means l named x v.
  Proof using eqv_spec.
    unfold name_of_value. rewrite attribute_find. rewrite String.eqb_refl. rewrite (find_dict_of eqv eqv_spec).
    pose proof (find_In eqv eqv_spec (rev (map (fun p => (snd p, fst p)) (members l named))) v) as Q.
    assert (ND : NoDup (map fst (members l named))) by (unfold members, dict_of; apply (puts_keys String.eqb String.eqb_spec), (puts_keys String.eqb String.eqb_spec); constructor).
    destruct (find _ _) as [[u x]|].
    - destruct Q as (I & E). cbn in E. subst u. split; [|intros _; cbn; eauto]. intros _. exists x. apply members_means. apply (find_unique String.eqb String.eqb_spec); [assumption|].
      apply in_rev, in_map_iff in I as ([y w] & [= -> ->] & I). exact I.
    - split; [intros (x & H); discriminate|]. intros (x & M). exfalso. apply members_means in M. apply (find_unique String.eqb String.eqb_spec) in M; [|assumption]. apply (Q x). apply -> in_rev. apply in_map_iff. exists (x, v). auto.
  Qed.
  Theorem c140_reverse_name l named v x : name_of_value eqv (enum eqv ordinal l named) v = Some x -> means l named x v.
  Proof using eqv_spec.
    unfold name_of_value. rewrite attribute_find. rewrite String.eqb_refl. rewrite (find_dict_of eqv eqv_spec).
    pose proof (find_In eqv eqv_spec (rev (map (fun p => (snd p, fst p)) (members l named))) v) as Q.
    assert (ND : NoDup (map fst (members l named))) by (unfold members, dict_of; apply (puts_keys String.eqb String.eqb_spec), (puts_keys String.eqb String.eqb_spec); constructor).
    destruct (find _ _) as [[u y]|]; [|discriminate]. intros [= <-]. destruct Q as (I & E). cbn in E. subst u. apply members_means. apply (find_unique String.eqb String.eqb_spec); [assumption|].
    apply in_rev, in_map_iff in I as ([z w] & [= -> ->] & I). exact I.
  Qed.
  (** If no two names stand for the same value, the reverse mapping inverts the attributes. *)
  Theorem c140_inverse l named v x : (forall y z u, means l named y u -> means l named z u -> y = z) ->
    (name_of_value eqv (enum eqv ordinal l named) v = Some x <-> means l named x v).
  Proof using eqv_spec.
    intros U. split; [apply c140_reverse_name|]. intros M. destruct (proj2 (c140_reverse l named v) (ex_intro _ x M)) as (y & H). rewrite H. f_equal. apply (U y x v); [now apply c140_reverse_name|assumption].
  Qed.
  Theorem c140_inverse_numbered l i x : (forall i j, ordinal i = ordinal j -> i = j) -> nth_error l i = Some x -> NoDup l -> name_of_value eqv (enum eqv ordinal l []) (ordinal i) = Some x.
  Proof using eqv_spec.
    intros Inj H N. apply c140_inverse.
    - assert (Q : forall y u, means l [] y u -> exists i, nth_error l i = Some y /\ u = ordinal i).
      { intros y u [j _ (A & _)|b w a E _]; [eauto|]. destruct b; discriminate. }
      intros y z u M1 M2. destruct (Q _ _ M1) as (j & A & ->), (Q _ _ M2) as (k & B & E). apply Inj in E. congruence.
    - apply by_place; [intros v []|]. split; [assumption|]. intros j Hj. assert (j = i); [|lia]. apply (proj1 (NoDup_nth_error l) N); [apply nth_error_Some; congruence|congruence].
  Qed.
  (** Exceptions: a repeated name keeps its last number only, so that the first number belongs to no name; a name given by keyword as well loses its number; a
      name equal to reverse_mapping is lost. *)
  Theorem c140_repeated_refuted : (forall i j, ordinal i = ordinal j -> i = j) -> get_attribute (enum eqv ordinal ["A"; "A"] []) "A" = Some (Value (ordinal 1)) /\
    name_of_value eqv (enum eqv ordinal ["A"; "A"] []) (ordinal 0) = None.
  Proof using eqv_spec.
    intros Inj. split; [reflexivity|]. destruct (name_of_value _ _ _) as [x|] eqn:E; [|reflexivity]. exfalso. apply c140_reverse_name in E. inversion E as [i N (L & M) Q|b v a Q N]; [|destruct b; discriminate].
    apply Inj in Q. subst i. cbn in L. injection L as <-. specialize (M 1 eq_refl). lia.
  Qed.
  Theorem c140_keyword_refuted v : get_attribute (enum eqv ordinal ["A"] [("A", v)]) "A" = Some (Value v) /\
    (v = ordinal 0 -> name_of_value eqv (enum eqv ordinal ["A"] [("B", v)]) (ordinal 0) = Some "B").
  Proof using eqv_spec.
    split; [reflexivity|]. intros ->. unfold name_of_value, get_attribute, enum, find_key, dict_of. cbn. destruct (eqv_spec (ordinal 0) (ordinal 0)) as [_|N]; [cbn|congruence].
    destruct (eqv_spec (ordinal 0) (ordinal 0)) as [_|N]; [reflexivity|congruence].
  Qed.
  Theorem c140_reserved_refuted l named : exists d, get_attribute (enum eqv ordinal l named) "reverse_mapping" = Some (Reverse d).
  Proof using Type. rewrite attribute_find. eexists. reflexivity. Qed.
End Enumerations.

(** ** The enumerations of the library *)
Theorem c140_library x a : (get_attribute PoisonModes x = Some (Value a) <-> (x, a) = ("ALE", 0%Z) \/ (x, a) = ("MLE", 1%Z)) /\
  (get_attribute OptimizationAlgorithms x = Some (Value a) <-> In (x, a) [("NULL", 0%Z); ("CG", 1%Z); ("NCG", 2%Z); ("NELDER_MEAD", 3%Z)]).
Proof.
  let e := eval vm_compute in PoisonModes in change PoisonModes with e. let e := eval vm_compute in OptimizationAlgorithms in change OptimizationAlgorithms with e.
  split; unfold get_attribute, find_key; cbn [find fst snd In]; repeat match goal with |- context [if String.eqb ?y x then _ else _] => destruct (String.eqb_spec y x) as [<-|] end; cbn [option_map snd];
    (split; [intros H; try discriminate; injection H as <-; tauto|]); intros H; repeat destruct H as [H|H]; try contradiction; injection H; intros; subst; try congruence; try reflexivity.
Qed.
(** ExperimentDesigner accepts a code exactly if it is in the reverse mapping, and the algorithm is the one of that name. *)
Theorem c140_designer code : match algo_of code with
  | Err e => e = ValueError /\ name_of_value Z.eqb OptimizationAlgorithms code = None
  | Ok a => name_of_value Z.eqb OptimizationAlgorithms code = Some match a with NULL => "NULL" | CG => "CG" | NCG => "NCG" | NELDER_MEAD => "NELDER_MEAD" end
  end.
Proof.
  unfold algo_of, name_of_value, get_attribute, find_key. cbn [OptimizationAlgorithms]. 
  destruct (Z.eqb_spec code 0) as [->|N0]; [reflexivity|]. destruct (Z.eqb_spec code 1) as [->|N1]; [reflexivity|]. destruct (Z.eqb_spec code 2) as [->|N2]; [reflexivity|]. destruct (Z.eqb_spec code 3) as [->|N3]; [reflexivity|].
  split; [reflexivity|]. cbn. destruct code as [|p|p]; try congruence; [|reflexivity]. cbn. destruct (Pos.eqb_spec 1 p) as [<-|]; [congruence|]. destruct (Pos.eqb_spec 2 p) as [<-|]; [congruence|]. destruct (Pos.eqb_spec 3 p) as [<-|]; [congruence|]. reflexivity.
Qed.
Example c140_mixed : let e := enum Z.eqb Z.of_nat ["A"; "B"] [("C", 7%Z)] in
  get_attribute e "B" = Some (Value 1%Z) /\ get_attribute e "C" = Some (Value 7%Z) /\ get_attribute e "D" = None /\ name_of_value Z.eqb e 7%Z = Some "C" /\ name_of_value Z.eqb e 2%Z = None.
Proof. repeat split; reflexivity. Qed.

Print Assumptions c140_values.
Print Assumptions c140_numbered.
Print Assumptions c140_reverse.
Print Assumptions c140_reverse_name.
Print Assumptions c140_inverse.
Print Assumptions c140_inverse_numbered.
Print Assumptions c140_repeated_refuted.
Print Assumptions c140_keyword_refuted.
Print Assumptions c140_reserved_refuted.
Print Assumptions c140_library.
Print Assumptions c140_designer.
