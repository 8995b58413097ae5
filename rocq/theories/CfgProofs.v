(** Proofs about the configuration file (CfgModel). *)
From Coq Require Import String Ascii.
From Verif Require Import Base CfgModel.
Open Scope string_scope.
Open Scope list_scope.

(** ** Names written backwards *)
Lemma sola_app a b : string_of_list_ascii (a ++ b) = (string_of_list_ascii a ++ string_of_list_ascii b)%string.
Proof. induction a as [|c a IH]; [reflexivity|]. cbn. now rewrite IH. Qed.
Lemma laos_app s t : list_ascii_of_string (s ++ t)%string = list_ascii_of_string s ++ list_ascii_of_string t.
Proof. induction s as [|c s IH]; [reflexivity|]. cbn. now rewrite IH. Qed.
Lemma forth_app a b : forth (a ++ b) = (forth b ++ forth a)%string.
Proof. unfold forth. now rewrite rev_app_distr, sola_app. Qed.
Lemma back_app s t : back (s ++ t)%string = back t ++ back s.
Proof. unfold back. now rewrite laos_app, rev_app_distr. Qed.
Lemma forth_back s : forth (back s) = s.
Proof. unfold forth, back. rewrite rev_involutive. apply string_of_list_ascii_of_string. Qed.
Lemma back_forth l : back (forth l) = l.
Proof. unfold forth, back. rewrite list_ascii_of_string_of_list_ascii. apply rev_involutive. Qed.
Lemma back_length s : length (back s) = String.length s.
Proof. unfold back. rewrite rev_length. induction s; cbn; congruence. Qed.
Lemma forth_nil l : forth l = "" -> l = [].
Proof. intros H. rewrite <- (back_forth l), H. reflexivity. Qed.
Lemma back_nil s : back s = [] -> s = "".
Proof. intros H. rewrite <- (forth_back s), H. reflexivity. Qed.

Definition tail_of (a b : list ascii) : Prop := exists x, b = x ++ a.
Lemma tail_of_refl a : tail_of a a. Proof. now exists []. Qed.
Lemma tail_of_trans a b c : tail_of a b -> tail_of b c -> tail_of a c.
Proof. intros [x ->] [y ->]. exists (y ++ x). now rewrite app_assoc. Qed.
Lemma drop_tail f l : tail_of (drop_while f l) l.
Proof. induction l as [|c l IH]; [now exists []|]. cbn. destruct (f c); [|now exists []]. destruct IH as [x E]. exists (c :: x). cbn. now rewrite <- E. Qed.
Lemma take_drop f l : l = take_while f l ++ drop_while f l.
Proof. induction l as [|c l IH]; [reflexivity|]. cbn. destruct (f c); [cbn; now rewrite <- IH|reflexivity]. Qed.
Lemma rstrip_tail win l : tail_of (rstrip win l) l.
Proof. unfold rstrip. pose proof (drop_tail (seps win) l) as H. destruct (drop_while (seps win) l); [apply tail_of_refl|assumption]. Qed.
Lemma split_tail win l : tail_of (fst (split_back win l)) l.
Proof. unfold split_back. cbn [fst]. eapply tail_of_trans; [apply rstrip_tail|apply drop_tail]. Qed.
Lemma tail_length a b : tail_of a b -> (length a <= length b)%nat.
Proof. intros [x ->]. rewrite app_length. lia. Qed.
Lemma split_shorter win l c t : snd (split_back win l) = c :: t -> (length (fst (split_back win l)) < length l)%nat.
Proof.
  unfold split_back. cbn [fst snd]. intros H. pose proof (tail_length _ _ (rstrip_tail win (drop_while (fun c => negb (seps win c)) l))) as X.
  pose proof (take_drop (fun c => negb (seps win c)) l) as Y. rewrite H in Y. apply (f_equal (@length _)) in Y. rewrite app_length in Y. cbn [length] in Y. lia.
Qed.
Lemma drop_head f l : match drop_while f l with [] => True | c :: _ => f c = false end.
Proof. induction l as [|c l IH]; [exact I|]. cbn. destruct (f c) eqn:E; [exact IH|exact E]. Qed.
Lemma drop_all f l : drop_while f l = [] <-> forallb f l = true.
Proof. induction l as [|c l IH]; cbn; [tauto|]. destruct (f c); cbn; [exact IH|split; discriminate]. Qed.
(** Heads have no separator at the end, unless they consist of separators *)
Definition clean (win : bool) (l : list ascii) : Prop := match l with [] => True | c :: _ => seps win c = false end.
Lemma rstrip_clean win l : clean win (rstrip win l) \/ forallb (seps win) (rstrip win l) = true.
Proof.
  unfold rstrip. pose proof (drop_head (seps win) l) as H. destruct (drop_while (seps win) l) as [|c l'] eqn:E; [right; now apply drop_all|left; exact H].
Qed.

(** ** The file system *)
Definition grows (w w' : fs) : Prop := files w' = files w /\ forall q, is_dir w q = true -> is_dir w' q = true.
Lemma grows_refl w : grows w w. Proof. now split. Qed.
Lemma grows_trans a b c : grows a b -> grows b c -> grows a c.
Proof. intros [A B] [C D]. split; [congruence|auto]. Qed.
Lemma is_dir_cons p w q : is_dir {| dirs := p :: dirs w; files := files w |} q = String.eqb q p || is_dir w q.
Proof. reflexivity. Qed.
Lemma mkdir_grows e w p q r w' : mkdir e w p q = (r, w') -> grows w w' /\ (forall d, is_dir w' d = true -> is_dir w d = true \/ d = p) /\ (forall u, r = Done u -> is_dir w' p = true).
Proof.
  unfold mkdir. intros H.
  assert (N : forall x, (Raised x, w) = (r, w') -> grows w w' /\ (forall d, is_dir w' d = true -> is_dir w d = true \/ d = p) /\ (forall u, r = Done u -> is_dir w' p = true)).
  { intros x E. injection E as <- <-. split; [apply grows_refl|]. split; [auto|]. discriminate. }
  destruct (String.eqb p ""); [eauto|]. destruct (path_exists w p); [eauto|]. destruct (_ && _)%bool; [eauto|]. destruct (is_file w q); [eauto|]. destruct (negb _); [eauto|].
  injection H as <- <-. split; [split; [reflexivity|]|].
  - intros d Hd. rewrite is_dir_cons, Hd. apply Bool.orb_true_r.
  - split.
    + intros d. rewrite is_dir_cons. destruct (String.eqb d p) eqn:E; [apply String.eqb_eq in E; auto|]. cbn. auto.
    + intros _ _. rewrite is_dir_cons, String.eqb_refl. reflexivity.
Qed.

Definition head_of (win : bool) (l : list ascii) : list ascii * list ascii :=
  let (h0, t0) := split_back win l in match t0 with [] => split_back win h0 | _ => (h0, t0) end.
Lemma head_tail win l : tail_of (fst (head_of win l)) l.
Proof.
  unfold head_of. pose proof (split_tail win l) as H. destruct (split_back win l) as [h0 t0]. cbn [fst] in H. destruct t0; [|exact H].
  eapply tail_of_trans; [apply split_tail|exact H].
Qed.
Lemma head_shorter win l c t : snd (head_of win l) = c :: t -> (length (fst (head_of win l)) < length l)%nat.
Proof.
  unfold head_of. pose proof (split_shorter win l) as H. pose proof (split_tail win l) as T. destruct (split_back win l) as [h0 t0]. cbn [fst snd] in *. destruct t0 as [|c0 t0].
  - intros X. apply split_shorter in X. apply tail_length in T. lia.
  - intros _. now apply (H c0 t0).
Qed.
Lemma head_of_clean win l c l' : l = c :: l' -> seps win c = false -> head_of win l = split_back win l /\ exists t, snd (split_back win l) = c :: t.
Proof.
  intros -> H. unfold head_of, split_back. cbn [take_while]. rewrite H. cbn. split; [reflexivity|]. eauto.
Qed.

Lemma makedirs_S k e w l : makedirs_go (S k) e w l =
  (let (h, t) := head_of (is_windows e) l in
   let (r, w1) := match h, t with _ :: _, _ :: _ => if path_exists w (forth h) then (Done tt, w) else makedirs_go k e w h | _, _ => (Done tt, w) end in
   match r with Raised FileExistsError | Done _ => mkdir e w1 (forth l) (forth h) | Raised x => (Raised x, w1) end).
Proof. cbn [makedirs_go]. unfold head_of. destruct (split_back (is_windows e) l) as [h0 t0]. destruct t0; [destruct (split_back (is_windows e) h0)|]; reflexivity. Qed.

Lemma makedirs_grows k : forall e w l r w', makedirs_go k e w l = (r, w') ->
  grows w w' /\ (forall d, is_dir w' d = true -> is_dir w d = true \/ exists x, tail_of x l /\ d = forth x) /\ (forall u, r = Done u -> is_dir w' (forth l) = true).
Proof.
  induction k as [|k IH]; intros e w l r w' H.
  - injection H as <- <-. split; [apply grows_refl|]. split; [auto|discriminate].
  - rewrite makedirs_S in H. pose proof (head_tail (is_windows e) l) as T. destruct (head_of (is_windows e) l) as [h t]. cbn [fst] in T.
    set (m := match h, t with _ :: _, _ :: _ => if path_exists w (forth h) then (Done tt, w) else makedirs_go k e w h | _, _ => (Done tt, w) end) in H.
    assert (M : grows w (snd m) /\ (forall d, is_dir (snd m) d = true -> is_dir w d = true \/ exists x, tail_of x l /\ d = forth x)).
    { assert (B : grows w w /\ (forall d, is_dir w d = true -> is_dir w d = true \/ exists x, tail_of x l /\ d = forth x)) by (split; [apply grows_refl|auto]).
      subst m. destruct h as [|h0 h]; [exact B|]. destruct t as [|t0 t]; [exact B|]. destruct (path_exists w _); [exact B|].
      destruct (makedirs_go k e w (h0 :: h)) as [r1 w1] eqn:E. destruct (IH _ _ _ _ _ E) as (G & D & _). cbn [snd]. split; [exact G|].
      intros d Hd. destruct (D d Hd) as [Hd'|(x & Hx & ->)]; [auto|]. right. exists x. split; [|reflexivity]. now apply tail_of_trans with (h0 :: h). }
    destruct m as [r1 w1]. cbn [snd] in M. destruct M as [G D].
    assert (K : mkdir e w1 (forth l) (forth h) = (r, w') ->
      grows w w' /\ (forall d, is_dir w' d = true -> is_dir w d = true \/ exists x, tail_of x l /\ d = forth x) /\ (forall u, r = Done u -> is_dir w' (forth l) = true)).
    { intros E. destruct (mkdir_grows _ _ _ _ _ _ E) as (G' & D' & F). split; [now apply grows_trans with w1|]. split; [|exact F].
      intros d Hd. destruct (D' d Hd) as [X| ->]; [auto|]. right. exists l. split; [apply tail_of_refl|reflexivity]. }
    destruct r1 as [u|x]; [now apply K|]. destruct x; try (injection H as <- <-; split; [exact G|split; [exact D|discriminate]]). now apply K.
Qed.

(** Directories are made if nothing stands in the way *)
Lemma split_head_clean win l : let h := fst (split_back win l) in clean win h \/ forallb (seps win) h = true.
Proof. unfold split_back. cbn [fst]. apply rstrip_clean. Qed.
Lemma exists_grows w w' p : grows w w' -> path_exists w p = true -> path_exists w' p = true.
Proof.
  intros [F D] H. unfold path_exists, is_file in *. rewrite F. apply Bool.orb_true_iff in H. destruct H as [H|H]; [rewrite (D p H); reflexivity|rewrite H; apply Bool.orb_true_r].
Qed.
Lemma makedirs_done k : forall e w c l, (length (c :: l) < k)%nat -> seps (is_windows e) c = false -> path_exists w (forth (c :: l)) = false ->
  (forall x, tail_of x (c :: l) -> is_file w (forth x) = false /\ may_make e (forth x) = true) ->
  (forall x, tail_of x (c :: l) -> x <> [] -> forallb (seps (is_windows e)) x = true -> path_exists w (forth x) = true) ->
  exists w', makedirs_go k e w (c :: l) = (Done tt, w').
Proof.
  induction k as [|k IH]; intros e w c l L Hc Hn Hf Hr; [lia|]. rewrite makedirs_S.
  destruct (head_of_clean (is_windows e) (c :: l) c l eq_refl Hc) as [Eh [t Et]]. rewrite Eh.
  pose proof (split_tail (is_windows e) (c :: l)) as T. pose proof (split_shorter (is_windows e) (c :: l) c t Et) as Sh. pose proof (split_head_clean (is_windows e) (c :: l)) as Cl. cbn zeta in Cl.
  destruct (split_back (is_windows e) (c :: l)) as [h t']. cbn [fst snd] in *. subst t'.
  assert (Q : exists w1, match h with _ :: _ => if path_exists w (forth h) then (Done tt, w) else makedirs_go k e w h | [] => (Done tt, w) end = (Done tt, w1) /\
     grows w w1 /\ path_exists w1 (forth (c :: l)) = false /\ (h = [] \/ path_exists w1 (forth h) = true)).
  { destruct h as [|h0 h]; [exists w; repeat split; auto|]. destruct (path_exists w (forth (h0 :: h))) eqn:Ex; [exists w; repeat split; auto|].
    assert (Hh : seps (is_windows e) h0 = false). { destruct Cl as [Cl|Cl]; [exact Cl|]. rewrite (Hr _ T) in Ex; [discriminate|discriminate|exact Cl]. }
    destruct (IH e w h0 h) as [w1 E1]; [lia|exact Hh|exact Ex|intros x Hx; apply Hf; now apply tail_of_trans with (h0 :: h)|intros x Hx; apply Hr; now apply tail_of_trans with (h0 :: h)|].
    exists w1. destruct (makedirs_grows _ _ _ _ _ _ E1) as (G & D & F). repeat split; try assumption; try apply G.
    - destruct (path_exists w1 (forth (c :: l))) eqn:X; [exfalso|reflexivity]. unfold path_exists in X, Hn. apply Bool.orb_false_iff in Hn. destruct Hn as [N1 N2]. apply Bool.orb_true_iff in X. destruct X as [X|X].
      + destruct (D _ X) as [X'|(x & Hx & X')]; [congruence|]. apply (f_equal back) in X'. rewrite !back_forth in X'. rewrite <- X' in Hx. apply tail_length in Hx. lia.
      + unfold is_file in X, N2. rewrite (proj1 G) in X. congruence.
    - right. unfold path_exists. now rewrite (F tt eq_refl). }
  destruct Q as (w1 & E1 & G & N & P). replace (match h, c :: t with _ :: _, _ :: _ => if path_exists w (forth h) then (Done tt, w) else makedirs_go k e w h | _, _ => (Done tt, w) end) with (@Done unit tt, w1) by (rewrite <- E1; destruct h; reflexivity).
  unfold mkdir. destruct (String.eqb (forth (c :: l)) "") eqn:Z; [apply String.eqb_eq in Z; apply forth_nil in Z; discriminate|]. rewrite N.
  assert (B : (negb (String.eqb (forth h) "") && negb (path_exists w1 (forth h)))%bool = false). { destruct P as [-> |P]; [reflexivity|]. rewrite P. apply Bool.andb_false_r. }
  rewrite B. assert (F : is_file w1 (forth h) = false). { unfold is_file. rewrite (proj1 G). apply (Hf h T). } rewrite F, (proj2 (Hf (c :: l) (tail_of_refl _))). cbn. eauto.
Qed.

(** ** The name of the file *)
Lemma rev_no_sep win (name : list ascii) d : forallb (fun c => negb (seps win c)) name = true ->
  drop_while (fun c => negb (seps win c)) (name ++ d) = drop_while (fun c => negb (seps win c)) d.
Proof. induction name as [|c n IH]; [reflexivity|]. cbn. intros H. apply andb_prop in H as [H1 H2]. rewrite H1. now apply IH. Qed.
Lemma dirname_unix e h : is_windows e = false -> dirname (is_windows e) (h ++ "/.config/qinfer.conf") = (h ++ "/.config")%string.
Proof.
  intros ->. unfold dirname. rewrite back_app. set (b := back h). change (back "/.config/qinfer.conf") with (list_ascii_of_string "fnoc.refniq/gifnoc./").
  transitivity (forth (list_ascii_of_string "gifnoc./" ++ b)); [reflexivity|]. rewrite forth_app. subst b. now rewrite forth_back.
Qed.
Lemma dirname_join d : dirname true (join_windows d "qinfer.conf") = forth (rstrip true (back d)).
Proof.
  unfold dirname, join_windows. destruct (back d) as [|c b] eqn:E; [apply back_nil in E; subst; reflexivity|].
  destruct (seps true c) eqn:Hc.
  - rewrite back_app, E. unfold split_back. cbn [fst]. rewrite rev_no_sep by reflexivity. cbn [drop_while]. rewrite Hc. reflexivity.
  - rewrite !back_app, E. unfold split_back. cbn [fst]. rewrite <- app_assoc, rev_no_sep by reflexivity. change (back "\") with ["\"%char]. cbn [app drop_while]. cbn [seps Ascii.eqb Bool.eqb orb andb negb].
    change (negb (seps true "\")) with false. cbn [negb]. unfold rstrip. cbn [drop_while]. change (seps true "\") with true. cbn iota. rewrite Hc. reflexivity.
Qed.
