(** C159: how notebooks display an updater and a model. *)
From Coq Require Import String Ascii NArith ZArith Lia Lra.
From Verif Require Import Base RList Ext Sums SmcModel PartModel PartSpec PartProofs PartProps UtilModel UtilSpec UtilProofs SimpleModel FmtModel FmtSpec FmtProofs FmtProps LtxModel LtxProofs DispModel DispSpec DispProofs.
From Coq Require Import List.
Close Scope string_scope.
Open Scope list_scope.
Open Scope R_scope.

(** The numbers that a cell must show for a parameter of posterior mean [mu] and standard deviation [sd]: six decimals of an exactly known
    value; otherwise two decimals that are close on the scale of the deviation, within half of it for large deviations and for values of
    several digits, and within five of it for values that vanish or exceed a tenth. *)
Definition cell_shows (s : string) (mu sd : R) : Prop :=
  (sd = 0 -> exists v, read_number s = Some v /\ Rabs (v - mu) <= / 2 * / 10 ^ 6) /\
  (sd <> 0 -> exists v u, read_source s = Some (v, u) /\
     (1 <= sd \/ 10 <= Rabs mu < 100000 -> Rabs (v - mu) <= sd / 2 /\ Rabs (u - sd) <= sd / 2 /\ u <> 0) /\
     (mu = 0 \/ 1 / 10 < Rabs mu -> Rabs (v - mu) < 5 * sd /\ Rabs (u - sd) < 5 * sd)).

Lemma value_shows mu sd : 0 <= sd -> exists s, format_uncertainty mu sd 4 = Ok s /\ cell_shows s mu sd.
Proof.
  intros P. destruct (Req_dec sd 0) as [->|N].
  - destruct (c101_zero_uncertainty mu 4) as (s & v & F & G & A & _). exists s. split; [exact F|]. split; [|intros H; now destruct H].
    intros _. exists v. auto.
  - destruct (format_uncertainty_reads mu sd 4 N) as (s & v & u & F & G & _). exists s. split; [exact F|]. split; [intros H; contradiction|].
    intros _. exists v, u. split; [exact G|]. split; intros H.
    + destruct (c101_within_half_the_uncertainty mu sd 4 N) as (s' & v' & u' & F' & G' & A & B & C).
      * rewrite (Rabs_pos_eq sd P) in *. destruct H as [H|H]; [now left|]. right. left. change (4 + 1)%Z with 5%Z. unfold powerRZ. change (Pos.to_nat 5) with 5%nat. lra.
      * rewrite F in F'. injection F' as <-. rewrite G in G'. injection G' as <- <-. rewrite (Rabs_pos_eq sd P) in *. auto.
    + destruct (c101_within_five_uncertainties mu sd 4 N H) as (s' & v' & u' & F' & G' & A & B).
      rewrite F in F'. injection F' as <-. rewrite G in G'. injection G' as <- <-. rewrite (Rabs_pos_eq sd P) in *. auto.
Qed.
Lemma cells_exist mus vars : length mus = length vars -> Forall (fun v => 0 <= v) vars ->
  exists texts, map_ok (fun p => value_cell (fst p) (snd p)) (combine mus vars) = Ok (map td_cell texts) /\ length texts = length mus /\
    forallb plain texts = true /\ forall k, (k < length mus)%nat -> cell_shows (nth k texts EmptyString) (nth k mus 0) (sqrt (nth k vars 0)).
Proof.
  revert vars. induction mus as [|m mus IH]; intros [|v vars] L F; try discriminate L.
  - exists []. repeat split; try reflexivity; intros; cbn in *; lia.
  - inversion F as [|? ? Hv Hr]; subst. destruct (IH vars (Nat.succ_inj _ _ L) Hr) as (texts & E1 & Len & P & S).
    destruct (value_shows m (sqrt v) (sqrt_pos v)) as (s & Fs & Cs). exists (s :: texts). split; [|split; [cbn; now rewrite Len|split]].
    + cbn [combine map_ok fst snd]. unfold value_cell at 1. rewrite Rltb_false by lra. rewrite Fs. cbn [bind]. rewrite E1. reflexivity.
    + cbn [forallb]. now rewrite (format_plain _ _ _ _ Fs).
    + intros [|k] Hk; [exact Cs|]. apply S. cbn in Hk. lia.
Qed.

Lemma var_nonneg w l k : prob_vector w -> length w = length l -> 0 <= particle_cov w l k k.
Proof.
  intros P L. rewrite cov_covar by (assumption || apply P). unfold covar. apply Sum_nonneg. intros i Hi.
  apply Rmult_le_pos; [|apply Rle_0_sqr]. destruct P as [P _]. rewrite Forall_forall in P. apply P, nth_In, Hi.
Qed.

(** C159.  An updater with normalised weights can be displayed.  The page has one table.  Its first row shows the parameter names, its second
    row the posterior mean and standard deviation of each parameter.  The bold words are the class of the updater, that of its model and
    those of the models below it, with an empty one at the end if there are any.  The number after the label is the resample count. *)
Theorem c159_updater cls model chain names d w l count :
  prob_vector w -> length w = length l -> plain cls = true -> plain model = true -> forallb plain chain = true -> forallb plain names = true ->
  exists s texts, updater_html cls model chain names d w l count = Ok s /\
    table_rows s = [map formula names; map formula texts] /\ length texts = d /\
    (forall k, (k < d)%nat -> let p i := nth i w 0 in
       cell_shows (nth k texts EmptyString) (expect (length w) p (coord l k)) (sqrt (covar (length w) p (coord l k) (coord l k)))) /\
    bold_words s = cls :: model :: chain ++ (match chain with [] => [] | _ => [EmptyString] end) /\
    option_bind (labelled "Resample count:" (tokens s)) read_count = Some (Z.of_nat count).
Proof.
  intros P L C M H N. set (mus := est_mean d w l). set (vars := map (fun k => particle_cov w l k k) (seq 0 d)).
  assert (Lm : length mus = d) by (unfold mus, est_mean, particle_mean; now rewrite map_length, seq_length).
  assert (Lv : length vars = d) by (unfold vars; now rewrite map_length, seq_length).
  destruct (cells_exist mus vars) as (texts & E & Lt & T & S).
  { congruence. }
  { apply Forall_forall. intros v Hv. unfold vars in Hv. apply in_map_iff in Hv as (k & <- & _). now apply var_nonneg. }
  unfold updater_html. fold mus vars. rewrite E. cbn [bind]. eexists. exists texts. split; [reflexivity|].
  match goal with |- context [table_rows ?s] => set (page := s) end.
  assert (K : exists a1 a2 a3 a4 a5 a6 a7 a8 a9 a10 a11 a12 a13 a14 a15 a16 a17 z, tokens page =
    [Text a1; Tag "strong"; Text cls; Tag "/strong"; Text a2; Tag "strong"] ++ title_tokens model chain ++
    Text (title_last model chain) :: Tag "/strong" :: [Text a3; Tag "table"; Text a4; Tag "caption"; Text a5; Tag "/caption"; Text a6; Tag "thead"; Text a7; Tag "tr"] ++
    (cell_tokens a8 names ++ [Text a9]) ++ [Tag "/tr"; Text a10; Tag "/thead"; Text a11; Tag "tbody"; Text a12; Tag "tr"] ++
    (cell_tokens a13 texts ++ [Text a14]) ++ [Tag "/tr"; Text a15; Tag "/tbody"; Text a16; Tag "/table"; Text a17; Tag "em"; Text "Resample count:"; Tag "/em"; Text (" " ++ show_int (Z.of_nat count) ++ String "010" z)]).
  { unfold tokens, page.
    Ltac literal := match goal with |- context [scan ?a ?b (?x ++ ?y)] => rewrite (scan_step a b x y _ _ _ (eq_refl (scan a b x))) end; cbn [negb].
    literal. rewrite (scan_step _ _ _ _ _ _ _ (scan_plain cls _ C)). literal.
    change (scan "" false) with (scan EmptyString false). rewrite (scan_step _ _ _ _ _ _ _ (scan_title model chain M H)). literal.
    rewrite (scan_step _ _ _ _ _ _ _ (scan_cells names _ N)). literal.
    rewrite (scan_step _ _ _ _ _ _ _ (scan_cells texts _ T)). literal.
    rewrite (scan_step _ _ _ _ _ _ _ (scan_plain (show_int _) _ (show_int_plain _))).
    match goal with |- context [scan ?a ?b ?x] => rewrite (scan_plain x a) by reflexivity end.
    do 18 eexists. repeat rewrite <- app_assoc. cbn [app]. rewrite !sappA. cbn [append]. reflexivity. }
  destruct K as (a1 & a2 & a3 & a4 & a5 & a6 & a7 & a8 & a9 & a10 & a11 & a12 & a13 & a14 & a15 & a16 & a17 & z & K).
  assert (CT : forall acc xs t z', In (Tag t) (cell_tokens acc xs ++ [Text z']) -> t = "td"%string \/ t = "/td"%string).
  { intros acc xs t z' I. apply in_app_iff in I as [I|[I|[]]]; [now apply cell_tags in I|discriminate I]. }
  assert (TT : forall t, In (Tag t) (title_tokens model chain) -> t = "strong"%string \/ t = "/strong"%string).
  { assert (CH : forall r c t, In (Tag t) (chain_tokens c r) -> t = "strong"%string \/ t = "/strong"%string).
    { induction r as [|x r IH]; intros c t; [intros []|]. cbn [chain_tokens]. intros [I|[I|[I|[I|I]]]]; try discriminate I; [injection I as <-; now right|injection I as <-; now left|eauto]. }
    intros t. unfold title_tokens. destruct chain as [|c r]; [intros []|]. intros I. apply in_app_iff in I as [I|I].
    - repeat (destruct I as [I|I]; [try discriminate I; injection I as <-; auto|]). destruct I.
    - apply in_app_iff in I as [I|I]; [eauto|]. repeat (destruct I as [I|I]; [try discriminate I; injection I as <-; auto|]). destruct I. }
  assert (Row : forall acc xs z', map text_of (element "td" (cell_tokens acc xs ++ [Text z'])) = map formula xs).
  { intros acc xs z'. unfold element. change ("/" ++ "td")%string with "/td"%string. rewrite cells_between. cbn [between]. rewrite app_nil_r, map_map. apply map_ext. intros x. cbn [text_of]. apply app_empty. }
  split; [|split; [|split; [|split]]].
  - unfold table_rows, element at 2. rewrite K. change ("/" ++ "tr")%string with "/tr"%string.
    rewrite between_none by (intros t I; repeat (destruct I as [I|I]; [try discriminate I; injection I as <-; discriminate|]); destruct I).
    rewrite between_none by (intros t I; destruct (TT t I) as [-> | ->]; discriminate).
    cbn [app between String.eqb Ascii.eqb Bool.eqb]. rewrite between_some by (intros t I; destruct (CT _ _ _ _ I) as [-> | ->]; discriminate).
    cbn [app between String.eqb Ascii.eqb Bool.eqb]. rewrite between_some by (intros t I; destruct (CT _ _ _ _ I) as [-> | ->]; discriminate).
    cbn [app between String.eqb Ascii.eqb Bool.eqb map]. now rewrite !Row.
  - congruence.
  - intros k Hk. set (p := fun i => nth i w 0). replace (expect (length w) p (coord l k)) with (nth k mus 0) by (now apply c17_mean_is_weighted_average).
    replace (covar (length w) p (coord l k) (coord l k)) with (nth k vars 0).
    + apply S. congruence.
    + unfold vars. rewrite (nth_indep _ _ ((fun k => particle_cov w l k k) 0%nat)) by (now rewrite map_length, seq_length).
      rewrite (map_nth (fun k => particle_cov w l k k)), seq_nth by assumption. cbn [Nat.add]. apply cov_covar; [assumption|apply P].
  - unfold bold_words, element. rewrite K. change ("/" ++ "strong")%string with "/strong"%string. cbn [app between String.eqb Ascii.eqb Bool.eqb].
    rewrite title_between. cbn [app between String.eqb Ascii.eqb Bool.eqb].
    rewrite between_none by (intros t I; destruct (CT _ _ _ _ I) as [-> | ->]; discriminate). cbn [app between String.eqb Ascii.eqb Bool.eqb].
    rewrite between_none by (intros t I; destruct (CT _ _ _ _ I) as [-> | ->]; discriminate). cbn [app between String.eqb Ascii.eqb Bool.eqb].
    rewrite app_nil_r. cbn [map]. rewrite map_map. cbn [text_of]. rewrite !app_empty. do 2 f_equal. rewrite <- map_id. apply map_ext. intros x. apply app_empty.
  - rewrite K.
    rewrite labelled_skip by (intros t I; repeat (destruct I as [I|I]; [try discriminate I; injection I as <-; discriminate|]); destruct I).
    rewrite labelled_skip by (intros t I; destruct (TT t I) as [-> | ->]; discriminate).
    match goal with |- context [labelled _ (?x :: ?y :: ?m ++ ?r)] => change (x :: y :: m ++ r) with ((x :: y :: m) ++ r) end.
    rewrite labelled_skip by (intros t I; repeat (destruct I as [I|I]; [try discriminate I; injection I as <-; discriminate|]); destruct I).
    rewrite labelled_skip by (intros t I; destruct (CT _ _ _ _ I) as [-> | ->]; discriminate).
    rewrite labelled_skip by (intros t I; repeat (destruct I as [I|I]; [try discriminate I; injection I as <-; discriminate|]); destruct I).
    rewrite labelled_skip by (intros t I; destruct (CT _ _ _ _ I) as [-> | ->]; discriminate).
    cbn [labelled String.eqb Ascii.eqb Bool.eqb andb option_bind]. unfold read_count. cbn [append strip Ascii.eqb Bool.eqb option_bind].
    assert (Q : prints (show_int (Z.of_nat count)) (Z.to_N (Z.of_nat count))) by (apply show_int_prints; lia).
    destruct (prints_span _ _ (String "010" z) Q eq_refl) as [Q1 Q2]. rewrite Q1. cbn [fst]. rewrite Q2. cbn [option_map]. f_equal. lia.
Qed.

(** The names are inserted as they are: one with a less-than sign is read as markup, and the table loses its cell. *)
Theorem c159_escape_refuted : exists s, updater_html "SMCUpdater" "M" [] ["x<y"%string] 0 [1] [[]] 0 = Ok s /\
  table_rows s <> [[formula "x<y"]; []].
Proof.
  eexists. split; [reflexivity|]. intros H. vm_compute in H. discriminate H.
Qed.

(** ** Models *)
Definition shown_ok (m : shown) : Prop := plain (sh_name m) = true /\ hexadecimal (sh_addr m) = true.
Definition line_rest (m : shown) : string :=
  (" at 0x" ++ sh_addr m ++ ": " ++ show_int (Z.of_nat (sh_params m)) ++ " model parameter" ++ (if Nat.eqb (sh_params m) 1 then "" else "s") ++ "
        ")%string.
Definition line_head : string := "
            ".
Lemma hex_plain s : hexadecimal s = true -> plain s = true.
Proof.
  induction s as [|c s IH]; [reflexivity|]. cbn [hexadecimal plain]. intros H. apply andb_prop in H as [H1 H2]. rewrite (IH H2), andb_true_r.
  destruct (Ascii.eqb_spec c "<") as [->|]; [discriminate H1|reflexivity].
Qed.
Lemma rest_plain m : shown_ok m -> plain (line_rest m) = true.
Proof.
  intros [_ A]. unfold line_rest. rewrite !plain_app, (hex_plain _ A), show_int_plain. now destruct (Nat.eqb (sh_params m) 1).
Qed.
Lemma scan_line acc m : shown_ok m ->
  scan acc false (model_line m) = ([Text (acc ++ line_head); Tag "strong"; Text (sh_name m); Tag "/strong"], line_rest m, false).
Proof.
  intros H. pose proof (rest_plain m H) as Rp. destruct H as [H A]. unfold model_line.
  match goal with |- context [scan ?a ?b (?x ++ ?y)] => rewrite (scan_step a b x y _ _ _ (eq_refl (scan a b x))) end. cbn [negb].
  rewrite (scan_step _ _ _ _ _ _ _ (scan_plain (sh_name m) _ H)).
  match goal with |- context [scan ?a ?b (?x ++ ?y)] => rewrite (scan_step a b x y _ _ _ (eq_refl (scan a b x))) end. cbn [negb].
  rewrite scan_plain.
  - cbn [app]. rewrite !sappA. reflexivity.
  - unfold line_rest in Rp. rewrite plain_app in Rp. apply andb_prop in Rp as [_ Rp]. exact Rp.
Qed.
Lemma until_colon_hex s t : forall acc, hexadecimal s = true -> until_colon acc (s ++ String ":" t) = Some ((acc ++ s)%string, t).
Proof.
  induction s as [|c s IH]; intros acc H; [cbn; now rewrite app_empty|]. cbn [hexadecimal] in H. apply andb_prop in H as [H1 H2]. cbn [append until_colon].
  destruct (Ascii.eqb_spec c ":") as [->|_]; [discriminate H1|]. rewrite IH by assumption. rewrite sappA. reflexivity.
Qed.
Lemma read_rest m : shown_ok m -> read_params (line_rest m) = Some (sh_addr m, Z.of_nat (sh_params m)).
Proof.
  intros [_ A]. unfold read_params, line_rest. cbn [append strip Ascii.eqb Bool.eqb option_bind]. rewrite until_colon_hex by assumption.
  cbn [option_bind snd append strip Ascii.eqb Bool.eqb fst].
  assert (Q : prints (show_int (Z.of_nat (sh_params m))) (Z.to_N (Z.of_nat (sh_params m)))) by (apply show_int_prints; lia).
  match goal with |- context [span_digits (show_int _ ++ ?t)] => destruct (prints_span _ _ t Q eq_refl) as [Q1 Q2]; rewrite Q1 end.
  rewrite Q2. cbn [option_bind append strip Ascii.eqb Bool.eqb].
  destruct (Nat.eqb_spec (sh_params m) 1) as [E|E].
  - rewrite E. reflexivity.
  - destruct (N.eqb_spec (Z.to_N (Z.of_nat (sh_params m))) 1) as [E'|_]; [lia|]. cbn. f_equal. f_equal. lia.
Qed.

(** A model by itself, or with the models below suppressed: its class, address and number of parameters. *)
Theorem c159_model m chain : shown_ok m -> read_model (firstn 5 (tokens (model_html m chain false))) = Some (sh_name m, sh_addr m, Z.of_nat (sh_params m)) /\
  read_model (tokens (model_html m chain true)) = Some (sh_name m, sh_addr m, Z.of_nat (sh_params m)).
Proof.
  intros H. split.
  - unfold model_html. cbn [negb andb]. destruct (negb (Nat.eqb (List.length chain) 0)); unfold tokens.
    + rewrite (scan_step _ _ _ _ _ _ _ (scan_line EmptyString m H)).
      match goal with |- context [scan ?a ?b (?x ++ ?y)] => rewrite (scan_step a b x y _ _ _ (eq_refl (scan a b x))) end. cbn [negb].
      match goal with |- context [scan ?a ?b ?x] => destruct (scan a b x) as [[l x1] x2] end. cbn [app firstn read_model String.eqb Ascii.eqb Bool.eqb andb].
      now rewrite read_rest.
    + rewrite scan_line by assumption. cbn [app firstn read_model String.eqb Ascii.eqb Bool.eqb andb]. now rewrite read_rest.
  - unfold model_html. cbn [negb andb]. unfold tokens. rewrite scan_line by assumption. cbn [app read_model String.eqb Ascii.eqb Bool.eqb andb]. now rewrite read_rest.
Qed.

Definition item (c : shown) : list token := [Text line_head; Tag "strong"; Text (sh_name c); Tag "/strong"; Text (line_rest c)].
Fixpoint item_tokens (acc : string) (cs : list shown) : list token :=
  match cs with [] => [] | c :: r => Text acc :: Tag "li" :: item c ++ Tag "/li" :: item_tokens "\n" r end.
Lemma scan_items cs : forall acc, Forall shown_ok cs ->
  scan acc false (join "\n" (map li_item cs)) = (item_tokens acc cs, match cs with [] => acc | _ => EmptyString end, false).
Proof.
  induction cs as [|c r IH]; intros acc H; [reflexivity|]. inversion H as [|? ? H1 H2]; subst. cbn [map]. rewrite join_cons.
  assert (S1 : scan acc false (li_item c) = (Text acc :: Tag "li" :: item c ++ [Tag "/li"], EmptyString, false)).
  { unfold li_item. rewrite (scan_step acc false "<li>" _ [Text acc; Tag "li"] EmptyString false) by reflexivity.
    rewrite (scan_step _ _ _ _ _ _ _ (scan_line EmptyString c H1)). reflexivity. }
  rewrite (scan_step _ _ _ _ _ _ _ S1). destruct r as [|d r]; [reflexivity|]. cbn [map].
  rewrite (scan_step EmptyString false "\n" _ [] "\n" false) by reflexivity.
  change (li_item d :: map li_item r) with (map li_item (d :: r)).
  rewrite (IH "\n"%string H2). cbn [item_tokens app]. rewrite <- app_assoc. reflexivity.
Qed.
Lemma items_between R cs : forall acc, between "li" "/li" None (item_tokens acc cs ++ R) = map item cs ++ between "li" "/li" None R.
Proof. induction cs as [|c r IH]; intros acc; [reflexivity|]. cbn [item_tokens item app between String.eqb Ascii.eqb Bool.eqb map]. now rewrite IH. Qed.

Lemma chain_page m chain : shown_ok m -> Forall shown_ok chain -> chain <> [] -> exists a z,
  tokens (model_html m chain false) = [Text line_head; Tag "strong"; Text (sh_name m); Tag "/strong"; Text (line_rest m); Tag "br"; Text a; Tag "p"; Text "Model chain:"; Tag "/p"; Text a; Tag "ul"] ++
    item_tokens EmptyString (rev chain) ++ [Text a; Tag "/ul"; Text z].
Proof.
  intros H F N. unfold model_html. cbn [negb andb]. destruct (Nat.eqb_spec (List.length chain) 0) as [E|_]; [now destruct chain|]. cbn [negb]. unfold tokens.
  rewrite (scan_step _ _ _ _ _ _ _ (scan_line EmptyString m H)).
  match goal with |- context [scan ?a ?b (?x ++ ?y)] => rewrite (scan_step a b x y _ _ _ (eq_refl (scan a b x))) end. cbn [negb].
  assert (F' : Forall shown_ok (rev chain)) by (apply Forall_rev; assumption).
  assert (N' : rev chain <> []) by (intros E; apply N; rewrite <- (rev_involutive chain), E; reflexivity).
  change (scan "" false) with (scan EmptyString false). rewrite (scan_step _ _ _ _ _ _ _ (scan_items (rev chain) EmptyString F')).
  destruct (rev chain) as [|c r]; [now destruct N'|].
  match goal with |- context [scan ?a ?b ?x] => let y := eval vm_compute in (scan a b x) in change (scan a b x) with y end.
  eexists. eexists. repeat rewrite <- app_assoc. cbn [app]. reflexivity.
Qed.

(** With the models below: one list item for each, the innermost first. *)
Theorem c159_chain m chain : shown_ok m -> Forall shown_ok chain ->
  map read_model (list_items (model_html m chain false)) = map (fun c => Some (sh_name c, sh_addr c, Z.of_nat (sh_params c))) (rev chain).
Proof.
  intros H F. destruct chain as [|c0 r0] eqn:Ec.
  - unfold list_items, tokens, model_html. cbn [negb andb Nat.eqb List.length]. rewrite scan_line by assumption. reflexivity.
  - rewrite <- Ec in *. assert (N : chain <> []) by (rewrite Ec; discriminate). destruct (chain_page m chain H F N) as (a & z & K).
    unfold list_items, element. rewrite K. change ("/" ++ "li")%string with "/li"%string.
    cbn [app between String.eqb Ascii.eqb Bool.eqb]. rewrite items_between. cbn [between String.eqb Ascii.eqb Bool.eqb]. rewrite app_nil_r, map_map.
    apply map_ext_in. intros c Hc. unfold item. cbn [read_model String.eqb Ascii.eqb Bool.eqb andb]. rewrite read_rest; [reflexivity|].
    apply in_rev in Hc. rewrite Forall_forall in F. now apply F.
Qed.
(** The intended line breaks between the items are a backslash and an n on the page. *)
Theorem c159_separator_refuted m chain : shown_ok m -> Forall shown_ok chain -> (2 <= length chain)%nat -> In (Text "\n") (tokens (model_html m chain false)).
Proof.
  intros H F L. destruct (chain_page m chain H F) as (a & z & ->); [intros ->; cbn in L; lia|]. rewrite <- rev_length in L.
  destruct (rev chain) as [|c [|d r]]; cbn in L; try lia. apply in_app_iff. right. apply in_app_iff. left. cbn [item_tokens item app]. do 8 right. left. reflexivity.
Qed.

(** A particle cloud with one exactly known parameter, a two-level model chain. *)
Example c159_case : exists s t0 t1, updater_html "SMCUpdater" "BinomialModel" ["SimplePrecessionModel"%string] ["\omega"%string; "x"%string] 2 [1/2; 1/2] [[10; 3]; [20; 3]] 7 = Ok s /\
  table_rows s = [[formula "\omega"; formula "x"]; [formula t0; formula t1]] /\ bold_words s = ["SMCUpdater"%string; "BinomialModel"%string; "SimplePrecessionModel"%string; EmptyString] /\
  (exists v u, read_source t0 = Some (v, u) /\ Rabs (v - 15) <= 5 / 2 /\ Rabs (u - 5) <= 5 / 2) /\ (exists v, read_number t1 = Some v /\ Rabs (v - 3) <= / 2 * / 10 ^ 6).
Proof.
  destruct (c159_updater "SMCUpdater" "BinomialModel" ["SimplePrecessionModel"%string] ["\omega"%string; "x"%string] 2 [1/2; 1/2] [[10; 3]; [20; 3]] 7) as (s & texts & E & T & L & S & B & _); try reflexivity.
  - split; [repeat constructor; lra|unfold rsum; cbn; lra].
  - destruct texts as [|t0 [|t1 [|? ?]]]; try discriminate L. exists s, t0, t1. split; [exact E|]. split; [exact T|]. split; [exact B|].
    pose proof (S 0%nat ltac:(lia)) as S0. pose proof (S 1%nat ltac:(lia)) as S1. cbv zeta in S0, S1. cbn [nth] in S0, S1.
    unfold covar, expect, coord, Sum in S0, S1. cbn in S0, S1. split.
    + match type of S0 with cell_shows _ ?m (sqrt ?v) => assert (Em : m = 15) by lra; assert (Ev : v = 5 * 5) by lra; rewrite Ev, Em in S0 end.
      rewrite sqrt_square in S0 by lra. destruct S0 as [_ S0]. destruct (S0 ltac:(lra)) as (v & u & G & H & _). exists v, u. split; [exact G|]. destruct (H ltac:(left; lra)) as (? & ? & _). auto.
    + match type of S1 with cell_shows _ ?m (sqrt ?v) => assert (Em : m = 3) by lra; assert (Ev : v = 0) by lra; rewrite Ev, Em in S1 end.
      destruct S1 as [S1 _]. apply S1. apply sqrt_0.
Qed.
Example c159_chain_case : let m := {| sh_name := "BinomialModel"; sh_addr := "7f3c"; sh_params := 1 |} in
  let c := {| sh_name := "CoinModel"; sh_addr := "0a"; sh_params := 2 |} in
  shown_ok m /\ map read_model (list_items (model_html m [c] false)) = [Some ("CoinModel"%string, "0a"%string, 2%Z)].
Proof. intros m c. split; [split; reflexivity|]. exact (c159_chain m [c] (conj eq_refl eq_refl) (Forall_cons c (conj eq_refl eq_refl) (Forall_nil _))). Qed.

Print Assumptions c159_updater.
Print Assumptions c159_escape_refuted.
Print Assumptions c159_model.
Print Assumptions c159_chain.
Print Assumptions c159_separator_refuted.
