(** Proofs about displayed pages. *)
From Coq Require Import String Ascii NArith ZArith Lia Lra.
From Verif Require Import Base RList Ext Sums SmcModel PartModel PartSpec PartProofs UtilModel UtilSpec UtilProofs SimpleModel FmtModel FmtSpec FmtProofs LtxModel LtxProofs DispModel DispSpec.
From Coq Require Import List.
Close Scope string_scope.
Open Scope list_scope.

Lemma scan_app a1 : forall acc tag b, scan acc tag (a1 ++ b) = let '(l1, x, t) := scan acc tag a1 in let '(l2, y, u) := scan x t b in (l1 ++ l2, y, u).
Proof.
  induction a1 as [|c s IH]; intros acc tag b; cbn [append scan]; [now destruct (scan acc tag b) as [[? ?] ?]|].
  destruct (Ascii.eqb c (if tag then ">" else "<")); [|apply IH]. rewrite IH. destruct (scan EmptyString (negb tag) s) as [[l1 x] t].
  destruct (scan x t b) as [[l2 y] u]. reflexivity.
Qed.
Lemma scan_step acc tag a b l x t : scan acc tag a = (l, x, t) -> scan acc tag (a ++ b) = let '(m, y, u) := scan x t b in (l ++ m, y, u).
Proof. intros H. now rewrite scan_app, H. Qed.
Lemma scan_plain s : forall acc, plain s = true -> scan acc false s = ([], (acc ++ s)%string, false).
Proof.
  induction s as [|c s IH]; intros acc H; cbn [scan]; [now rewrite app_empty|]. cbn [plain] in H. apply andb_prop in H as [H1 H2].
  destruct (Ascii.eqb c "<"); [discriminate|]. rewrite IH by assumption. rewrite sappA. reflexivity.
Qed.
Lemma plain_app a b : plain (a ++ b) = (plain a && plain b)%bool.
Proof. induction a as [|c a IH]; [reflexivity|]. cbn [append plain]. rewrite IH. now destruct (Ascii.eqb c "<"). Qed.
Lemma digits_plain s : all_digits s = true -> plain s = true.
Proof.
  induction s as [|c s IH]; [reflexivity|]. cbn [all_digits plain]. intros H. apply andb_prop in H as [H1 H2].
  rewrite (is_digit_neq c "<"), (IH H2) by (assumption || reflexivity). reflexivity.
Qed.
Lemma show_fixed_plain n x : plain (show_fixed n x) = true.
Proof.
  unfold show_fixed. cbv zeta. rewrite !plain_app. rewrite (digits_plain (show _)) by apply show_all.
  replace (plain (if Rltb x 0 then "-" else "")) with true by (now destruct (Rltb x 0)). cbn [andb].
  destruct (Nat.eqb n 0); [reflexivity|]. rewrite plain_app. cbn [plain andb]. now rewrite (digits_plain (digits _ _ _)) by (apply digits_all; reflexivity).
Qed.
Lemma show_int_plain z : plain (show_int z) = true.
Proof. unfold show_int. rewrite plain_app, (digits_plain (show _)) by apply show_all. now destruct (Z.ltb z 0). Qed.
Lemma format_plain v u b s : format_uncertainty v u b = Ok s -> plain s = true.
Proof.
  destruct (Req_dec u 0) as [->|U].
  - unfold format_uncertainty. destruct (Reqb_spec 0 0); [|contradiction]. rewrite format_six. intros [= <-]. apply show_fixed_plain.
  - rewrite (format_uncertainty_text v u b U). cbv zeta. intros H.
    apply (f_equal (fun r => match r with Ok x => x | Err _ => EmptyString end)) in H. cbv beta iota in H. subst s.
    destruct (expo v u b) as [e|]; repeat (rewrite plain_app); rewrite !show_fixed_plain, ?show_int_plain; reflexivity.
Qed.

Lemma join_cons sep a r : join sep (a :: r) = (a ++ match r with [] => EmptyString | _ => sep ++ join sep r end)%string.
Proof. destruct r; cbn [join]; [now rewrite app_empty|reflexivity]. Qed.

(** Cells. *)
Fixpoint cell_tokens (acc : string) (xs : list string) : list token :=
  match xs with [] => [] | x :: r => Text acc :: Tag "td" :: Text (formula x) :: Tag "/td" :: cell_tokens newline r end.
Definition cell_end (acc : string) (xs : list string) : string := match xs with [] => acc | _ => EmptyString end.
Lemma scan_cell acc x : plain x = true -> scan acc false (td_cell x) = ([Text acc; Tag "td"; Text (formula x); Tag "/td"], EmptyString, false).
Proof.
  intros H. unfold td_cell. rewrite (scan_step acc false "<td>$" _ [Text acc; Tag "td"] "$" false) by reflexivity.
  rewrite (scan_step "$" false x _ [] ("$" ++ x) false) by (now rewrite scan_plain).
  cbn -[append]. cbn [append]. unfold formula. reflexivity.
Qed.
Lemma scan_cells xs : forall acc, forallb plain xs = true -> scan acc false (join newline (map td_cell xs)) = (cell_tokens acc xs, cell_end acc xs, false).
Proof.
  induction xs as [|x r IH]; intros acc H; [reflexivity|]. cbn [forallb] in H. apply andb_prop in H as [H1 H2]. cbn [map]. rewrite join_cons.
  rewrite (scan_step _ _ _ _ _ _ _ (scan_cell acc x H1)). destruct r as [|y r]; [reflexivity|].
  cbn [map]. rewrite (scan_step EmptyString false newline _ [] newline false) by reflexivity.
  change (td_cell y :: map td_cell r) with (map td_cell (y :: r)). rewrite IH by assumption. reflexivity.
Qed.
Lemma cell_tags acc xs t : In (Tag t) (cell_tokens acc xs) -> t = "td"%string \/ t = "/td"%string.
Proof.
  revert acc. induction xs as [|x r IH]; intros acc; [intros []|]. cbn [cell_tokens]. intros [H|[H|[H|[H|H]]]]; try discriminate H.
  - injection H as <-. now left.
  - injection H as <-. now right.
  - eauto.
Qed.
Lemma cells_between R xs : forall acc, between "td" "/td" None (cell_tokens acc xs ++ R) = map (fun x => [Text (formula x)]) xs ++ between "td" "/td" None R.
Proof. induction xs as [|x r IH]; intros acc; [reflexivity|]. cbn [cell_tokens app between map String.eqb]. cbn -[cell_tokens between]. now rewrite IH. Qed.

(** Skipping what does not matter. *)
Lemma between_none o c l R : (forall t, In (Tag t) l -> t <> o) -> between o c None (l ++ R) = between o c None R.
Proof.
  induction l as [|k l IH]; intros H; [reflexivity|]. cbn [app between]. destruct k as [t|t].
  - destruct (String.eqb_spec t o) as [->|]; [exfalso; apply (H o); [now left|reflexivity]|]. apply IH. intros u Hu. apply H. now right.
  - apply IH. intros u Hu. apply H. now right.
Qed.
Lemma between_some o c l R : forall acc, (forall t, In (Tag t) l -> t <> c) -> between o c (Some acc) (l ++ R) = between o c (Some (acc ++ l)) R.
Proof.
  induction l as [|k l IH]; intros acc H; [now rewrite app_nil_r|]. cbn [app between]. destruct k as [t|t].
  - destruct (String.eqb_spec t c) as [->|]; [exfalso; apply (H c); [now left|reflexivity]|]. rewrite IH by (intros u Hu; apply H; now right).
    now rewrite <- app_assoc.
  - rewrite IH by (intros u Hu; apply H; now right). now rewrite <- app_assoc.
Qed.
Lemma labelled_skip name l R : (forall t, In (Tag t) l -> t <> "em"%string) -> labelled name (l ++ R) = labelled name R.
Proof.
  induction l as [|k l IH]; intros H; [reflexivity|]. cbn [app]. rewrite <- IH by (intros u Hu; apply H; now right). cbn [labelled]. destruct k as [t|t]; [|reflexivity].
  assert (N : String.eqb t "em" = false) by (apply String.eqb_neq; apply H; now left). rewrite N. cbn [andb].
  destruct (l ++ R) as [|[|] [|[|] [|[|] ?]]]; reflexivity.
Qed.

(** Titles. *)
Fixpoint chain_tokens (c : string) (r : list string) : list token :=
  match r with [] => [] | d :: r' => Text c :: Tag "/strong" :: Text ", " :: Tag "strong" :: chain_tokens d r' end.
Fixpoint chain_last (c : string) (r : list string) : string := match r with [] => c | d :: r' => chain_last d r' end.
Lemma scan_chain r : forall c, plain c = true -> forallb plain r = true ->
  scan EmptyString false (join "</strong>, <strong>" (c :: r)) = (chain_tokens c r, chain_last c r, false).
Proof.
  induction r as [|d r IH]; intros c C H; [cbn [join]; now rewrite scan_plain|]. cbn [forallb] in H. apply andb_prop in H as [H1 H2].
  rewrite join_cons. rewrite (scan_step EmptyString false c _ [] c false) by (now rewrite scan_plain).
  rewrite (scan_step c false "</strong>, <strong>" _ [Text c; Tag "/strong"; Text ", "; Tag "strong"] EmptyString false) by reflexivity.
  rewrite IH by assumption. reflexivity.
Qed.
Lemma chain_between R r : forall c, between "strong" "/strong" (Some []) (chain_tokens c r ++ Text (chain_last c r) :: Tag "/strong" :: R) =
  map (fun x => [Text x]) (c :: r) ++ between "strong" "/strong" None R.
Proof. induction r as [|d r IH]; intros c; [reflexivity|]. cbn [chain_tokens chain_last app between]. cbn -[chain_tokens chain_last between]. f_equal. apply IH. Qed.
Definition title_tokens (m : string) (chain : list string) : list token :=
  match chain with
  | [] => []
  | c :: r => [Text m; Tag "/strong"; Text " (based on "; Tag "strong"] ++ chain_tokens c r ++ [Text (chain_last c r); Tag "/strong"; Text ")"; Tag "strong"]
  end.
Definition title_last (m : string) (chain : list string) : string := match chain with [] => m | _ => EmptyString end.
Lemma scan_title m chain : plain m = true -> forallb plain chain = true -> scan EmptyString false (model_title m chain) = (title_tokens m chain, title_last m chain, false).
Proof.
  intros M H. destruct chain as [|c r]; cbn [model_title title_tokens title_last]; [now rewrite scan_plain|].
  cbn [forallb] in H. apply andb_prop in H as [H1 H2].
  rewrite (scan_step EmptyString false m _ [] m false) by (now rewrite scan_plain).
  rewrite (scan_step m false "</strong> (based on <strong>" _ [Text m; Tag "/strong"; Text " (based on "; Tag "strong"] EmptyString false) by reflexivity.
  rewrite (scan_step _ _ _ _ _ _ _ (scan_chain r c H1 H2)). reflexivity.
Qed.
Lemma title_between R m chain : between "strong" "/strong" (Some []) (title_tokens m chain ++ Text (title_last m chain) :: Tag "/strong" :: R) =
  map (fun x => [Text x]) (m :: chain ++ match chain with [] => [] | _ => [EmptyString] end) ++ between "strong" "/strong" None R.
Proof.
  destruct chain as [|c r]; [reflexivity|]. cbn [title_tokens title_last]. rewrite <- !app_assoc. cbn [app between]. cbn -[chain_tokens chain_last between].
  f_equal. rewrite chain_between. cbn [map app]. f_equal. rewrite map_app, <- app_assoc. f_equal.
Qed.
