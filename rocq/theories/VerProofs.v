From Coq Require Import String Ascii NArith Decimal DecimalString.
From Verif Require Import Base VerModel VerSpec.
Open Scope string_scope.
Open Scope list_scope.

(** ** Strings of digits *)
Fixpoint all_digits (s : string) : Prop := match s with EmptyString => True | String c r => class c = Digit /\ all_digits r end.
Definition no_digit_first (r : string) : Prop := match r with EmptyString => True | String c _ => class c <> Digit end.
Lemma string_digits d : all_digits (NilEmpty.string_of_uint d).
Proof. induction d; cbn; auto. Qed.
Lemma pieces_first c r : exists t rest, pieces (String c r) = (class c, t) :: rest.
Proof.
  revert c. induction r as [|c' r IH]; intros c; [cbn; eauto|]. change (pieces (String c (String c' r))) with (match pieces (String c' r) with
      | (k, t) :: rest => if cls_eqb (class c) k && negb (cls_eqb k Dot) then (k, String c t) :: rest else (class c, String c "") :: (k, t) :: rest
      | [] => [(class c, String c "")] end).
  destruct (IH c') as (t & rest & ->). destruct (cls_eqb (class c) (class c')) eqn:E; cbn [andb]; [|eauto]. assert (class c = class c') as <- by (destruct (class c), (class c'); now try discriminate).
  destruct (negb (cls_eqb (class c) Dot)); eauto.
Qed.
Lemma pieces_digits s r : s <> "" -> all_digits s -> no_digit_first r -> pieces (s ++ r) = (Digit, s) :: pieces r.
Proof.
  induction s as [|c s IH]; intros Hs Hd Hr; [now destruct Hs|]. destruct Hd as [Hc Hd]. destruct s as [|c' s].
  - cbn [append]. destruct r as [|b r]; [cbn; now rewrite Hc|]. destruct (pieces_first b r) as (t & rest & E). cbn [no_digit_first] in Hr.
    change (pieces (String c (String b r))) with (match pieces (String b r) with
      | (k, t) :: rest => if cls_eqb (class c) k && negb (cls_eqb k Dot) then (k, String c t) :: rest else (class c, String c "") :: (k, t) :: rest
      | [] => [(class c, String c "")] end). rewrite E, Hc. destruct (class b); try reflexivity. now destruct Hr.
  - specialize (IH ltac:(discriminate) Hd Hr). change (String c (String c' s) ++ r)%string with (String c (String c' s ++ r))%string.
    cbn [pieces]. change (pieces (String c' s ++ r)) with (pieces (String c' s ++ r)%string) in *. rewrite IH. now rewrite Hc.
Qed.
Lemma writes_facts s n : writes s n -> s <> "" /\ all_digits s /\ component (Digit, s) = CNum n /\ String.eqb s "." = false.
Proof.
  intros (d & Hd & -> & <-). pose proof (string_digits d) as A. assert (N : NilEmpty.string_of_uint d <> "") by (destruct d; [now destruct Hd|discriminate..]).
  split; [exact N|]. split; [exact A|]. split.
  - unfold component. cbn [snd]. pose proof (NilEmpty.usu d) as U. destruct (NilEmpty.string_of_uint d); [now destruct N|]. now rewrite U.
  - destruct (NilEmpty.string_of_uint d) as [|c s]; [reflexivity|]. destruct A as [A _]. apply String.eqb_neq. intros X. injection X as -> _. discriminate.
Qed.
(** ** Parsing *)
Lemma parse_digits s n r : writes s n -> no_digit_first r -> parse (s ++ r) = CNum n :: parse r.
Proof.
  intros W Hr. destruct (writes_facts s n W) as (H1 & H2 & H3 & H4). unfold parse. rewrite pieces_digits by assumption. cbn [filter map snd]. rewrite H4. cbn [negb map]. now rewrite H3.
Qed.
Lemma parse_dot r : parse (String "." r) = parse r.
Proof.
  unfold parse. cbn [pieces]. destruct (pieces r) as [|[k t] rest] eqn:E; [reflexivity|]. change (class ".") with Dot. destruct k; reflexivity.
Qed.
Lemma parse_dotted s v r : dotted s v -> no_digit_first r -> parse (s ++ r) = map CNum v ++ parse r.
Proof.
  intros [Hv (ss & HF & ->)] Hr. induction HF as [|s n ss v W HF IH]; [now destruct Hv|]. destruct ss as [|s' ss].
  - inversion HF; subst. cbn [join map app]. now apply parse_digits.
  - assert (v <> []) by (inversion HF; discriminate). specialize (IH ltac:(assumption)). change (join (s :: s' :: ss)) with (s ++ "." ++ join (s' :: ss))%string.
    assert (AS : forall a b c : string, ((a ++ b) ++ c = a ++ (b ++ c))%string) by (induction a; intros; cbn; congruence). rewrite AS. rewrite (parse_digits s n) by (try assumption; cbn; discriminate).
    change (("." ++ join (s' :: ss)) ++ r)%string with (String "." (join (s' :: ss) ++ r)). rewrite parse_dot, IH. reflexivity.
Qed.
Lemma parse_dotted_all s v : dotted s v -> parse s = map CNum v.
Proof.
  intros H. assert (E : forall a : string, (a ++ "" = a)%string) by (induction a; cbn; congruence). rewrite <- (E s). rewrite (parse_dotted s v "") by (try assumption; exact I). cbn. now rewrite app_nil_r.
Qed.
Lemma dotted_nonempty s v : dotted s v -> String.eqb s "" = false.
Proof.
  intros [Hv (ss & HF & ->)]. destruct HF as [|s n ss v W HF]; [now destruct Hv|]. destruct (writes_facts s n W) as (H1 & _). apply String.eqb_neq.
  destruct ss; [exact H1|]. destruct s; [now destruct H1|discriminate].
Qed.
(** ** Order *)
Lemma list_lt_num v r : list_lt (map CNum v) (map CNum r) = Ok true /\ before v r \/ list_lt (map CNum v) (map CNum r) = Ok false /\ ~ before v r.
Proof.
  revert r. induction v as [|x v IH]; intros [|y r].
  - right. split; [reflexivity|]. intros H. inversion H.
  - left. split; [reflexivity|]. constructor.
  - right. split; [reflexivity|]. intros H. inversion H.
  - cbn [map list_lt comp_eqb]. destruct (N.eqb_spec x y) as [->|N].
    + destruct (IH r) as [[E B]|[E B]]; [left; split; [exact E|now apply before_later]|right; split; [exact E|]]. intros X. apply B. inversion X; subst; [lia|assumption].
    + cbn [comp_lt]. destruct (N.ltb_spec x y); [left; split; [reflexivity|now constructor]|right; split; [reflexivity|]]. intros X. inversion X; subst; [lia|congruence].
Qed.
Lemma before_trans a b c : before a b -> before b c -> before a c.
Proof.
  intros H. revert c. induction H as [y b|x y a b L|x a b H IH]; intros c H2; inversion H2; subst.
  - constructor. - constructor. - constructor. lia. - now constructor. - now constructor. - apply before_later. now apply IH.
Qed.
Lemma before_irrefl a : ~ before a a.
Proof. induction a as [|x a IH]; intros H; inversion H; subst; [lia|contradiction]. Qed.
Lemma before_total a b : before a b \/ a = b \/ before b a.
Proof.
  revert b. induction a as [|x a IH]; intros [|y b]; [auto|left; constructor|right; right; constructor|]. destruct (N.lt_trichotomy x y) as [L|[->|L]]; [left; now constructor| |right; right; now constructor].
  destruct (IH b) as [H|[->|H]]; [left; now apply before_later|auto|right; right; now apply before_later].
Qed.
Lemma list_lt_prefix v rest : list_lt (map CNum v ++ rest) (map CNum v) = Ok false.
Proof. induction v as [|x v IH]; [destruct rest; reflexivity|]. cbn [map app list_lt comp_eqb]. rewrite N.eqb_refl. exact IH. Qed.
