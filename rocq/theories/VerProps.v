(** C134: QuTiP is used if it is there in a sufficient version. *)
From Coq Require Import String Ascii NArith Decimal DecimalString.
From Verif Require Import Base VerModel VerSpec VerProofs.
Open Scope string_scope.
Open Scope list_scope.

Section Props.
Context {M : Type}.
Implicit Types (w : world M) (m : M).

(** Version numbers are compared component by component as numbers: the module is returned exactly if its version is not before the
    required one, [None] exactly if it is. *)
Theorem c134_sufficient_version w m s v s' r : qutip w = Imported m (Ok s) -> has_distutils w = true -> dotted s v -> dotted s' r ->
  (get_qutip_module w s' = Ok (Some m) <-> ~ before v r) /\ (get_qutip_module w s' = Ok None <-> before v r).
Proof.
  intros Q D Hs Hr. unfold get_qutip_module. rewrite Q, D. cbn [bind]. unfold loose_lt. rewrite (dotted_nonempty s v Hs), (dotted_nonempty s' r Hr). cbn [orb]. rewrite (parse_dotted_all s v Hs), (parse_dotted_all s' r Hr).
  destruct (list_lt_num v r) as [[E B]|[E B]]; rewrite E; cbn [bind]; split; split; intros H; try discriminate; try contradiction; try reflexivity; try assumption.
Qed.
(** The order is total, so that the requirement can be relaxed: what suffices for one version suffices for all earlier ones. *)
Theorem c134_order a b c : (before a b -> before b c -> before a c) /\ ~ before a a /\ (before a b \/ a = b \/ before b a).
Proof. split; [apply before_trans|]. split; [apply before_irrefl|apply before_total]. Qed.
Theorem c134_weaker_requirements w m s v s' r s'' r' : qutip w = Imported m (Ok s) -> has_distutils w = true -> dotted s v -> dotted s' r -> dotted s'' r' -> ~ before r r' ->
  check_qutip_version w s' = true -> check_qutip_version w s'' = true.
Proof.
  intros Q D Hs Hr Hr' Hb. unfold check_qutip_version. destruct (c134_sufficient_version w m s v s' r Q D Hs Hr) as [A B]. destruct (c134_sufficient_version w m s v s'' r' Q D Hs Hr') as [A' B'].
  destruct (list_lt_num v r) as [[_ X]|[_ X]]; [rewrite (proj2 B X); discriminate|]. intros _. rewrite (proj2 A'); [reflexivity|]. intros Y.
  destruct (before_total r r') as [Z|[->|Z]]; [contradiction|contradiction|]. apply X. now apply before_trans with r'.
Qed.
(** The default requirement. *)
Theorem c134_default_requirement w m s v : qutip w = Imported m (Ok s) -> has_distutils w = true -> dotted s v ->
  check_qutip_version w "3.2" = true <-> (3 < hd 0%N v)%N \/ (hd 0%N v = 3%N /\ 2 <= hd 0%N (tl v) /\ (2 <= length v)%nat)%N.
Proof.
  intros Q D Hs. assert (Hr : dotted "3.2" [3%N; 2%N]).
  { split; [discriminate|]. exists ["3"; "2"]. split; [|reflexivity]. constructor; [exists (D3 Nil); repeat split; discriminate|]. constructor; [exists (D2 Nil); repeat split; discriminate|constructor]. }
  destruct (c134_sufficient_version w m s v "3.2" _ Q D Hs Hr) as [A B]. unfold check_qutip_version.
  assert (X : ~ before v [3%N; 2%N] <-> (3 < hd 0%N v)%N \/ (hd 0%N v = 3%N /\ 2 <= hd 0%N (tl v) /\ (2 <= length v)%nat)%N).
  { destruct Hs as [Hne _]. destruct v as [|x v]; [now destruct Hne|]. cbn [hd tl length]. split.
    - intros H. destruct (N.lt_trichotomy x 3) as [L|[->|L]]; [exfalso; apply H; now constructor| |now left]. right. split; [reflexivity|]. destruct v as [|y v]; [exfalso; apply H; apply before_later; constructor|].
      cbn [hd length]. split; [|lia]. destruct (N.lt_ge_cases y 2); [|assumption]. exfalso. apply H. apply before_later. now constructor.
    - intros [L|(-> & L & K)] H; inversion H as [| |? ? ? H']; subst; try lia. destruct v as [|y v]; [cbn in K; lia|]. cbn [hd] in L. inversion H' as [| |? ? ? H'']; subst; [lia|]. inversion H''. }
  rewrite <- X, <- A. destruct (list_lt_num v [3%N; 2%N]) as [[_ Y]|[_ Y]].
  - rewrite (proj2 B Y). split; discriminate.
  - rewrite (proj2 A Y). now split.
Qed.
(** check_qutip_version answers, and answers true only if get_qutip_module finds the module, whatever happens while looking; *)
Theorem c134_check_agrees w required : check_qutip_version w required = true <-> exists m, get_qutip_module w required = Ok (Some m).
Proof.
  unfold check_qutip_version. destruct (get_qutip_module w required) as [[m|]|x]; split; try discriminate; try (intros [m' H]; discriminate); [eauto|reflexivity].
Qed.
Theorem c134_absent w required : qutip w = Missing -> get_qutip_module w required = Ok None /\ check_qutip_version w required = false.
Proof. intros Q. unfold check_qutip_version, get_qutip_module. now rewrite Q. Qed.
(** and nothing but the installed module is ever returned. *)
Theorem c134_the_module w required m : get_qutip_module w required = Ok (Some m) -> exists v, qutip w = Imported m v.
Proof.
  unfold get_qutip_module. destruct (qutip w) as [|x|m' v]; try discriminate. destruct (has_distutils w); [|discriminate]. destruct v as [v|]; [|discriminate]. cbn [bind]. destruct (loose_lt v required) as [[]|]; try discriminate. cbn [bind]. intros H. injection H as <-. eauto.
Qed.

(** ** Where the description fails *)
(** A version followed by anything that is not a digit passes, even if it announces a version to come; *)
Theorem c134_suffix_passes w m s r t : qutip w = Imported m (Ok (s ++ t)%string) -> has_distutils w = true -> dotted s r -> no_digit_first t -> check_qutip_version w s = true.
Proof.
  intros Q D Hr Ht. unfold check_qutip_version, get_qutip_module. rewrite Q, D. cbn [bind]. unfold loose_lt.
  rewrite (dotted_nonempty s r Hr). assert (E : String.eqb (s ++ t)%string "" = false). { pose proof (dotted_nonempty s r Hr) as X. apply String.eqb_neq in X. apply String.eqb_neq. destruct s; [now destruct X|discriminate]. }
  rewrite E. cbn [orb]. rewrite (parse_dotted s r t Hr Ht), (parse_dotted_all s r Hr), list_lt_prefix. reflexivity.
Qed.
End Props.
(** so a release candidate counts as the release. *)
Theorem c134_candidate_refuted : check_qutip_version {| qutip := Imported tt (Ok "3.2rc1"); has_distutils := true |} "3.2" = true.
Proof. reflexivity. Qed.
(** The same version written with more zeros is a later one. *)
Theorem c134_trailing_zero_refuted : check_qutip_version {| qutip := Imported tt (Ok "3.2"); has_distutils := true |} "3.2.0" = false.
Proof. reflexivity. Qed.
(** get_qutip_module is not silent if numbers and letters have to be compared, nor if the import fails for other reasons; every module
    of qinfer.tomography calls it when imported. *)
Theorem c134_silent_refuted : get_qutip_module {| qutip := Imported tt (Ok "4.dev"); has_distutils := true |} "4.0" = Err TypeError /\
  check_qutip_version {| qutip := Imported tt (Ok "4.dev"); has_distutils := true |} "4.0" = false /\
  (forall x, require_qutip {| qutip := @Broken unit x; has_distutils := true |} = Err x).
Proof. repeat split. Qed.
(** Without distutils no version suffices. *)
Theorem c134_no_distutils_refuted {M} (m : M) v required : get_qutip_module {| qutip := Imported m v; has_distutils := false |} required = Ok None.
Proof. reflexivity. Qed.
(** The message of require_qutip names 3.1.0, with which it fails. *)
Theorem c134_message_refuted {M} (m : M) : require_qutip {| qutip := Imported m (Ok "3.1.0"); has_distutils := true |} = Ok (None, true).
Proof. reflexivity. Qed.
(** heisenberg_weyl_operators of tomography/models.py works for no dimension, with or without QuTiP. *)
Theorem c134_models_copy_refuted d : exists x, models_heisenberg_weyl_operators d = Err x.
Proof. destruct d; eexists; reflexivity. Qed.

(** 3.10.1 suffices for 3.2, 3.02 is 3.2 and 2.9 is not enough. *)
Example c134_example : dotted "3.10.1" [3; 10; 1]%N /\ ~ before [3; 10; 1]%N [3; 2]%N /\ before [2; 9]%N [3; 2]%N /\ dotted "3.02" [3; 2]%N /\
  check_qutip_version {| qutip := Imported tt (Ok "3.10.1"); has_distutils := true |} "3.2" = true.
Proof.
  split; [|split; [|split; [|split]]].
  - split; [discriminate|]. exists ["3"; "10"; "1"]. split; [|reflexivity]. constructor; [exists (D3 Nil); repeat split; discriminate|]. constructor; [exists (D1 (D0 Nil)); repeat split; discriminate|]. constructor; [exists (D1 Nil); repeat split; discriminate|constructor].
  - intros H. inversion H as [| |? ? ? H']; subst; [lia|]. inversion H' as [| |]; subst; lia.
  - constructor. lia.
  - split; [discriminate|]. exists ["3"; "02"]. split; [|reflexivity]. constructor; [exists (D3 Nil); repeat split; discriminate|]. constructor; [exists (D0 (D2 Nil)); repeat split; discriminate|constructor].
  - reflexivity.
Qed.

Print Assumptions c134_sufficient_version.
Print Assumptions c134_order.
Print Assumptions c134_weaker_requirements.
Print Assumptions c134_default_requirement.
Print Assumptions c134_check_agrees.
Print Assumptions c134_absent.
Print Assumptions c134_the_module.
Print Assumptions c134_suffix_passes.
Print Assumptions c134_candidate_refuted.
Print Assumptions c134_trailing_zero_refuted.
Print Assumptions c134_silent_refuted.
Print Assumptions c134_no_distutils_refuted.
Print Assumptions c134_message_refuted.
Print Assumptions c134_models_copy_refuted.
