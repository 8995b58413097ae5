(** C137: The configuration file: one place per platform, and what is saved there is read again. *)
From Coq Require Import String Ascii.
From Verif Require Import Base CfgModel CfgProofs.
Open Scope string_scope.
Open Scope list_scope.

(** [q] is an initial part of the name [f] *)
Definition begins (q f : string) : Prop := exists r, f = (q ++ r)%string.

Lemma unixy_not_windows e : unixy (platform e) = true -> is_windows e = false.
Proof.
  unfold unixy, is_windows. destruct (platform e) as [|c s]; [reflexivity|]. cbn [prefix]. intros H. destruct (ascii_dec "w" c) as [<-|]; [|reflexivity]. cbn in H. discriminate.
Qed.
Lemma tail_begins x l : tail_of x l -> begins (forth x) (forth l).
Proof. intros [y ->]. exists (forth y). apply forth_app. Qed.
Lemma drop_slashes h c : seps false c = false -> forall n, drop_while (seps false) (repeat "/"%char n ++ back (h ++ String c "")) = back (h ++ String c "").
Proof. intros H n. induction n as [|n IH]; [|exact IH]. cbn [repeat app]. rewrite back_app. cbn. cbn in H. now rewrite H. Qed.
Lemma back_slashes n : back (string_of_list_ascii (repeat "/"%char n)) = repeat "/"%char n.
Proof.
  unfold back. rewrite list_ascii_of_string_of_list_ascii. induction n as [|n IH]; [reflexivity|]. cbn [repeat rev]. rewrite IH. clear. induction n as [|n IH]; [reflexivity|]. cbn. now rewrite IH.
Qed.
Lemma strip_home e h c n : home e = (h ++ String c "" ++ string_of_list_ascii (repeat "/"%char n))%string -> seps false c = false ->
  expanduser e = (h ++ String c "" ++ "/.config/qinfer.conf")%string.
Proof.
  intros Eh Hc. unfold expanduser. rewrite Eh. assert (A : forall a b d : string, ((a ++ b) ++ d)%string = (a ++ b ++ d)%string) by (induction a as [|x a IH]; intros b d; [reflexivity|cbn; now rewrite IH]).
  rewrite <- A, (back_app (h ++ String c "")), back_slashes, drop_slashes by exact Hc. rewrite forth_back. now rewrite A.
Qed.

(** ** Where the file is *)
(** On Linux, macOS and Cygwin it is .config/qinfer.conf in the home directory, however many separators the latter ends with; on Windows
    qinfer.conf in the directory of application data; *)
Theorem c137_unix_name e w h c n f w' : unixy (platform e) = true -> home e = (h ++ String c "" ++ string_of_list_ascii (repeat "/"%char n))%string -> c <> "/"%char ->
  preffilename e w = (Done f, w') -> f = Some (h ++ String c "" ++ "/.config/qinfer.conf")%string.
Proof.
  intros U Eh Hc. unfold preffilename. rewrite U, (strip_home e h c n Eh). 2: { unfold seps. destruct (Ascii.eqb c "/") eqn:X; [apply Ascii.eqb_eq in X; contradiction|reflexivity]. }
  destruct (ensuredir _ _ _) as [[|] ?]; intros H; now inversion H.
Qed.
Theorem c137_windows_name e w d c f w' : String.prefix "win" (platform e) = true -> appdata e = Some (d ++ String c "")%string ->
  preffilename e w = (Done f, w') -> f = Some (if seps true c then d ++ String c "" ++ "qinfer.conf" else d ++ String c "" ++ "\qinfer.conf")%string.
Proof.
  intros W Ea. unfold preffilename. replace (unixy (platform e)) with false. 2: { destruct (unixy (platform e)) eqn:U; [|reflexivity]. apply unixy_not_windows in U. unfold is_windows in U. congruence. }
  rewrite W. unfold expandvars. rewrite Ea. unfold join_windows. rewrite back_app. change (back (String c "")) with [c]. cbn [app].
  assert (A : forall a b d : string, ((a ++ b) ++ d)%string = (a ++ b ++ d)%string) by (induction a as [|x a IH]; intros b k; [reflexivity|cbn; now rewrite IH]).
  destruct (seps true c); rewrite A; destruct (ensuredir _ _ _) as [[|] ?]; intros H; now inversion H.
Qed.
(** elsewhere there is none, and neither reading nor saving works. *)
Theorem c137_elsewhere {P} (blank : P) load (dump : P -> io string) e w p : unixy (platform e) = false -> String.prefix "win" (platform e) = false -> has_safe e = true ->
  read_config blank load e w = (Raised TypeErr, w) /\ save_config dump e w p = (Raised TypeErr, w).
Proof. intros U W S. unfold read_config, save_config, preffilename. now rewrite U, W, S. Qed.
(** No platform is both. *)
Theorem c137_one_platform e : ~ (unixy (platform e) = true /\ String.prefix "win" (platform e) = true).
Proof. intros [U W]. apply unixy_not_windows in U. unfold is_windows in U. congruence. Qed.

(** ** The directory *)
Lemma ensuredir_grows e w f r w' : ensuredir e w f = (r, w') -> grows w w' /\ (forall q, is_dir w' q = true -> is_dir w q = true \/ begins q f) /\
  (r = Done tt -> path_exists w' (dirname (is_windows e) f) = true) /\ (path_exists w (dirname (is_windows e) f) = true -> r = Done tt /\ w' = w).
Proof.
  unfold ensuredir. intros H. destruct (path_exists w (dirname (is_windows e) f)) eqn:X; cbn [negb] in H.
  - injection H as <- <-. repeat split; auto.
  - unfold makedirs in H. destruct (makedirs_grows _ _ _ _ _ _ H) as (G & D & F). split; [exact G|]. split.
    + intros q Hq. destruct (D q Hq) as [Hq'|(x & Hx & ->)]; [auto|]. right. apply tail_begins in Hx. rewrite forth_back in Hx.
      assert (Y : begins (dirname (is_windows e) f) f). { rewrite <- (forth_back f) at 2. unfold dirname. apply tail_begins, split_tail. }
      destruct Hx as [r1 E1], Y as [r2 E2]. exists (r1 ++ r2)%string. rewrite E2 at 1. rewrite E1. clear. induction (forth x) as [|c s IH]; [reflexivity|]. cbn. now rewrite IH.
    + split; [|discriminate]. intros ->. unfold path_exists. rewrite forth_back in F. now rewrite (F tt eq_refl).
Qed.
Lemma pref_cases e w f w' : preffilename e w = (Done (Some f), w') -> ensuredir e w f = (Done tt, w') /\
  ((unixy (platform e) = true /\ f = expanduser e) \/ (unixy (platform e) = false /\ String.prefix "win" (platform e) = true /\ f = join_windows (expandvars e) "qinfer.conf")).
Proof.
  unfold preffilename. destruct (unixy (platform e)).
  - destruct (ensuredir e w (expanduser e)) as [[[]|] w1] eqn:E; intros H; inversion H; subst. auto.
  - destruct (String.prefix "win" (platform e)); [|discriminate]. destruct (ensuredir e w _) as [[[]|] w1] eqn:E; intros H; inversion H; subst. auto 6.
Qed.
Lemma pref_again e w w' f w'' : preffilename e w = (Done (Some f), w') -> path_exists w'' (dirname (is_windows e) f) = true -> preffilename e w'' = (Done (Some f), w'').
Proof.
  intros H X. destruct (pref_cases _ _ _ _ H) as [_ C]. assert (Y : ensuredir e w'' f = (Done tt, w'')) by (unfold ensuredir; now rewrite X).
  unfold preffilename. destruct C as [[-> ->]|(-> & -> & ->)]; now rewrite Y.
Qed.
Lemma pref_grows e w r w' : preffilename e w = (r, w') -> grows w w' /\ (r = Done None -> w' = w).
Proof.
  unfold preffilename. destruct (unixy (platform e)); [|destruct (String.prefix "win" (platform e))]; try (intros H; injection H as <- <-; split; [apply grows_refl|auto]);
  destruct (ensuredir _ _ _) as [[[]|] w1] eqn:E; intros H; injection H as <- <-; apply ensuredir_grows in E as (G & _); (split; [exact G|discriminate]).
Qed.
(** Asking for the name makes the directories that lead to it, no others, and leaves every file alone. *)
Theorem c137_only_directories e w f w' : preffilename e w = (Done (Some f), w') ->
  files w' = files w /\ (forall q, is_dir w q = true -> is_dir w' q = true) /\ (forall q, is_dir w' q = true -> is_dir w q = true \/ begins q f) /\ path_exists w' (dirname (is_windows e) f) = true.
Proof.
  intros H. destruct (pref_cases _ _ _ _ H) as [E _]. destruct (ensuredir_grows _ _ _ _ _ E) as ([G1 G2] & D & F & _). repeat split; auto.
Qed.
(** It succeeds if the root is there and nothing on the way is a file or may not be made; *)
Theorem c137_directory_made e w f : (unixy (platform e) = true /\ f = expanduser e) \/ (String.prefix "win" (platform e) = true /\ f = join_windows (expandvars e) "qinfer.conf" /\ appdata e <> Some "") ->
  (forall q, begins q f -> is_file w q = false /\ may_make e q = true) ->
  (forall q, begins q f -> q <> "" -> Forall (fun c => seps (is_windows e) c = true) (list_ascii_of_string q) -> is_dir w q = true) ->
  exists w', preffilename e w = (Done (Some f), w').
Proof.
  intros C Hf Hr.
  assert (X : exists w', ensuredir e w f = (Done tt, w')).
  { unfold ensuredir. destruct (path_exists w (dirname (is_windows e) f)) eqn:Ex; [cbn; eauto|]. cbn [negb]. unfold makedirs.
    assert (Bd : forall x, tail_of x (back (dirname (is_windows e) f)) -> begins (forth x) f).
    { intros x Hx. rewrite <- (forth_back f). apply tail_begins. unfold dirname in Hx. rewrite back_forth in Hx. eapply tail_of_trans; [exact Hx|apply split_tail]. }
    assert (K : exists c l, back (dirname (is_windows e) f) = c :: l /\ (seps (is_windows e) c = false \/ forallb (seps (is_windows e)) (c :: l) = true)).
    { destruct C as [[U ->]|(W & -> & Ne)].
      - unfold expanduser. rewrite dirname_unix, back_app by now apply unixy_not_windows. rewrite (unixy_not_windows e U). cbn. eauto.
      - assert (Ew : is_windows e = true) by exact W. rewrite Ew. rewrite dirname_join, back_forth. pose proof (rstrip_clean true (back (expandvars e))) as Cl.
        assert (N : back (expandvars e) <> []). { intros Z. apply back_nil in Z. unfold expandvars in Z. destruct (appdata e) as [v|]; [subst; now apply Ne|discriminate]. }
        unfold rstrip in *. destruct (drop_while (seps true) (back (expandvars e))) as [|c l]; [destruct (back (expandvars e)) as [|c l]; [now destruct N|]|]; exists c, l; (split; [reflexivity|]); (destruct Cl; [left; assumption|right; assumption]). }
    destruct K as (c & l & Ek & Hs). rewrite <- back_length, Ek. rewrite Ek in Bd.
    assert (Ed : dirname (is_windows e) f = forth (c :: l)) by (rewrite <- Ek; now rewrite forth_back). rewrite Ed in Ex.
    assert (R : forall x, tail_of x (c :: l) -> x <> [] -> forallb (seps (is_windows e)) x = true -> path_exists w (forth x) = true).
    { intros x Hx Hn Ha. unfold path_exists. rewrite Hr; [reflexivity|now apply Bd|intros Z; apply forth_nil in Z; contradiction|].
      unfold forth. rewrite list_ascii_of_string_of_list_ascii. rewrite forallb_forall in Ha. apply Forall_forall. intros y Hy. apply Ha, in_rev, Hy. }
    apply makedirs_done; [cbn; lia| |exact Ex|intros x Hx; apply Hf, Bd, Hx|exact R].
    destruct Hs as [Hs|Hs]; [exact Hs|]. exfalso. rewrite (R (c :: l) (tail_of_refl _)) in Ex; [discriminate|discriminate|exact Hs]. }
  destruct X as [w' X]. exists w'. unfold preffilename. destruct C as [[U ->]|(W & -> & _)].
  - now rewrite U, X.
  - replace (unixy (platform e)) with false; [now rewrite W, X|]. destruct (unixy (platform e)) eqn:U; [|reflexivity]. apply unixy_not_windows in U. unfold is_windows in U. congruence.
Qed.
(** but never if the variable APPDATA is there and empty. *)
Theorem c137_empty_appdata e w : String.prefix "win" (platform e) = true -> appdata e = Some "" -> is_dir w "" = false -> is_file w "" = false -> preffilename e w = (Raised FileNotFoundError, w).
Proof.
  intros W E D F. unfold preffilename. replace (unixy (platform e)) with false. 2: { destruct (unixy (platform e)) eqn:U; [|reflexivity]. apply unixy_not_windows in U. unfold is_windows in U. congruence. }
  rewrite W. unfold expandvars. rewrite E. unfold ensuredir. assert (Ew : is_windows e = true) by exact W. rewrite Ew. change (dirname true (join_windows "" "qinfer.conf")) with "". unfold path_exists. rewrite D, F. cbn [orb negb]. unfold makedirs. cbn. reflexivity.
Qed.

(** ** Saving and reading *)
Section Parser.
Context {P : Type} (blank : P) (load : string -> P -> io P) (dump : P -> io string).
Notation read := (read_config blank load).
Notation save := (save_config dump).

Lemma lookup_set w f t : lookup f (files (set_file w f t)) = Some t.
Proof. cbn. now rewrite String.eqb_refl. Qed.
Lemma lookup_other w f t q : q <> f -> lookup q (files (set_file w f t)) = lookup q (files w).
Proof. intros N. cbn. destruct (String.eqb q f) eqn:X; [apply String.eqb_eq in X; contradiction|reflexivity]. Qed.
Lemma save_shape e w p u w' : save e w p = (Done u, w') -> exists f w1 t, preffilename e w = (Done (Some f), w1) /\ dump p = Done t /\
  w' = set_file (set_file w1 f "") f t /\ path_exists w1 (dirname (is_windows e) f) = true.
Proof.
  unfold save_config. destruct (preffilename e w) as [[f|] w1] eqn:E; [|discriminate]. destruct f as [f|]; [|discriminate].
  pose proof (c137_only_directories _ _ _ _ E) as (_ & _ & _ & X). unfold open_w.
  destruct (is_dir w1 f); [discriminate|]. destruct (is_file w1 _); [discriminate|]. destruct (_ && _)%bool; [discriminate|]. destruct (negb _); [discriminate|].
  destruct (dump p) as [t|] eqn:Ed; [|discriminate]. intros H. injection H as <- <-. exists f, w1, t. auto.
Qed.
Lemma read_after e w0 w1 w f t : preffilename e w0 = (Done (Some f), w1) -> has_safe e = true -> may_read e f = true -> path_exists w (dirname (is_windows e) f) = true -> lookup f (files w) = Some t ->
  read e w = (load t blank, w).
Proof. intros E S R X L. unfold read_config. rewrite S, (pref_again _ _ _ _ _ E X). unfold parser_read. now rewrite L, R. Qed.

(** What was saved is what is read, as often as one reads, and reading changes nothing any more. *)
Theorem c137_saved_is_read e w p u w' n : save e w p = (Done u, w') -> (forall t, dump p = Done t -> load t blank = Done p) -> has_safe e = true -> (forall f, may_read e f = true) ->
  run blank load dump e w' (repeat Read n) = w' /\ read e w' = (Done p, w').
Proof.
  intros H L S R. destruct (save_shape _ _ _ _ _ H) as (f & w1 & t & E & Ed & -> & X).
  assert (Q : read e (set_file (set_file w1 f "") f t) = (Done p, set_file (set_file w1 f "") f t)).
  { rewrite (read_after e w w1 _ f t E S (R f)); [now rewrite (L t Ed)| |apply lookup_set]. unfold path_exists, is_file, is_dir in *. cbn [set_file dirs files lookup]. destruct (existsb _ (dirs w1)); [reflexivity|]. cbn [orb] in *. destruct (String.eqb _ f); [reflexivity|exact X]. }
  split; [|exact Q]. unfold run. induction n as [|n IH]; [reflexivity|]. cbn [repeat fold_left step]. rewrite Q. exact IH.
Qed.
(** The last of several saves counts, whatever happened before. *)
Theorem c137_last_save_counts e w l p u w' n : save e (run blank load dump e w l) p = (Done u, w') -> (forall t, dump p = Done t -> load t blank = Done p) -> has_safe e = true -> (forall f, may_read e f = true) ->
  read e (run blank load dump e w (l ++ Save p :: repeat Read n)) = (Done p, w').
Proof.
  intros H L S R. unfold run in *. rewrite fold_left_app. cbn [fold_left step]. rewrite H. cbn [snd].
  destruct (c137_saved_is_read e _ p u w' n H L S R) as [A B]. unfold run in A. rewrite A. exact B.
Qed.
(** Other files are never touched, directories only added, whatever is called and however it ends; *)
Theorem c137_other_files_kept e l : forall w q, (forall w0 w1 f, preffilename e w0 = (Done (Some f), w1) -> q <> f) ->
  lookup q (files (run blank load dump e w l)) = lookup q (files w).
Proof.
  induction l as [|c l IH]; intros w q N; [reflexivity|]. cbn [run fold_left]. change (fold_left (step blank load dump e) l ?x) with (run blank load dump e x l). rewrite IH by exact N. destruct c as [|p]; cbn [step].
  - unfold read_config. destruct (has_safe e); [|reflexivity]. destruct (preffilename e w) as [[f|] w1] eqn:E; destruct (pref_grows _ _ _ _ E) as [[G _] _]; cbn [snd]; now rewrite G.
  - unfold save_config. destruct (preffilename e w) as [[f|] w1] eqn:E; destruct (pref_grows _ _ _ _ E) as [[G _] _]; [|cbn [snd]; now rewrite G]. destruct f as [f|]; [|cbn; now rewrite G].
    unfold open_w. destruct (is_dir w1 f); [cbn; now rewrite G|]. destruct (is_file w1 _); [cbn; now rewrite G|]. destruct (_ && _)%bool; [cbn; now rewrite G|]. destruct (negb _); [cbn; now rewrite G|].
    specialize (N _ _ _ E). destruct (dump p); cbn [snd]; rewrite ?lookup_other by exact N; now rewrite G.
Qed.
Theorem c137_directories_kept e l : forall w q, is_dir w q = true -> is_dir (run blank load dump e w l) q = true.
Proof.
  induction l as [|c l IH]; intros w q H; [exact H|]. cbn [run fold_left]. apply IH. destruct c as [|p]; cbn [step].
  - unfold read_config. destruct (has_safe e); [|exact H]. destruct (preffilename e w) as [[f|] w1] eqn:E; destruct (pref_grows _ _ _ _ E) as [[_ G] _]; cbn [snd]; now apply G.
  - unfold save_config. destruct (preffilename e w) as [[f|] w1] eqn:E; destruct (pref_grows _ _ _ _ E) as [[_ G] _]; [|now apply G]. destruct f as [f|]; [|now apply G].
    unfold open_w. destruct (is_dir w1 f); [now apply G|]. destruct (is_file w1 _); [now apply G|]. destruct (_ && _)%bool; [now apply G|]. destruct (negb _); [now apply G|]. destruct (dump p); now apply G.
Qed.
(** and reading touches no file at all; without a file it gives an empty configuration. *)
Theorem c137_reading_keeps_files e w : files (snd (read e w)) = files w.
Proof. unfold read_config. destruct (has_safe e); [|reflexivity]. destruct (preffilename e w) as [[f|] w1] eqn:E; destruct (pref_grows _ _ _ _ E) as [[G _] _]; exact G. Qed.
Theorem c137_no_file e w f w' : preffilename e w = (Done (Some f), w') -> has_safe e = true -> lookup f (files w) = None -> read e w = (Done blank, w').
Proof. intros E S L. unfold read_config. rewrite S, E. cbn. destruct (pref_grows _ _ _ _ E) as [[G _] _]. now rewrite G, L. Qed.

(** ** Where the description fails *)
(** Since Python 3.12 nothing can be read; *)
Theorem c137_modern_python_refuted e w : has_safe e = false -> read e w = (Raised AttributeErr, w).
Proof. intros H. unfold read_config. now rewrite H. Qed.
(** a file that may not be read counts as empty; *)
Theorem c137_unreadable_refuted e w f w' : preffilename e w = (Done (Some f), w') -> has_safe e = true -> may_read e f = false -> read e w = (Done blank, w').
Proof. intros E S R. unfold read_config. rewrite S, E. cbn. rewrite R. now destruct (lookup f (files w')). Qed.
(** and a failure while writing has already emptied the file. *)
Theorem c137_failed_save_refuted e w p f w1 x : preffilename e w = (Done (Some f), w1) -> is_dir w1 f = false -> is_dir w1 (dirname (is_windows e) f) = true -> is_file w1 (dirname (is_windows e) f) = false -> may_write e f = true -> dump p = Raised x ->
  exists w', save e w p = (Raised x, w') /\ lookup f (files w') = Some "".
Proof.
  intros E D D' F M X. unfold save_config, open_w. rewrite E, D, F, D', M, X. cbn [negb]. rewrite Bool.andb_false_r. eexists. split; [reflexivity|apply lookup_set].
Qed.
End Parser.

(** A Linux machine with a home directory and nothing else; a parser of one number, that refuses to write zero *)
Definition ex_env : env := {| platform := "linux"; has_safe := true; home := "/home/u/"; appdata := None; may_make := fun _ => true; may_write := fun _ => true; may_read := fun _ => true |}.
Definition ex_fs : fs := {| dirs := ["/home/u"; "/home"; "/"]; files := [] |}.
Definition ex_load (t : string) (n : nat) : io nat := Done (n + String.length t)%nat.
Definition ex_dump (n : nat) : io string := match n with O => Raised AttributeErr | _ => Done (string_of_list_ascii (repeat "x"%char n)) end.
Example ex_save : exists w', save_config ex_dump ex_env ex_fs 3%nat = (Done tt, w') /\ read_config O ex_load ex_env w' = (Done 3%nat, w') /\
  dirs w' = ["/home/u/.config"; "/home/u"; "/home"; "/"] /\ lookup "/home/u/.config/qinfer.conf" (files w') = Some "xxx".
Proof. eexists. repeat split; vm_compute; reflexivity. Qed.
Example ex_made : exists w', preffilename ex_env ex_fs = (Done (Some "/home/u/.config/qinfer.conf"), w').
Proof. eexists. vm_compute. reflexivity. Qed.
Example ex_hyp : (forall q, begins q (expanduser ex_env) -> is_file ex_fs q = false /\ may_make ex_env q = true) /\
  (forall q, begins q (expanduser ex_env) -> q <> "" -> Forall (fun c => seps (is_windows ex_env) c = true) (list_ascii_of_string q) -> is_dir ex_fs q = true).
Proof.
  split; [now split|]. intros q [r Hr] Hn Ha. change (expanduser ex_env) with "/home/u/.config/qinfer.conf" in Hr. destruct q as [|c [|c' q]]; [now destruct Hn| |].
  - cbn in Hr. injection Hr as <- _. reflexivity.
  - cbn in Hr. injection Hr as <- <- _. inversion Ha as [|? ? _ H]. inversion H as [|? ? K _]. discriminate.
Qed.
(** Reading is not without effect: on a fresh account it makes a directory. *)
Theorem c137_reading_makes_directory_refuted : exists w', read_config O ex_load ex_env ex_fs = (Done O, w') /\ is_dir ex_fs "/home/u/.config" = false /\ is_dir w' "/home/u/.config" = true.
Proof. eexists. repeat split; vm_compute; reflexivity. Qed.
(** If .config is a file, reading finds nothing and saving fails. *)
Theorem c137_file_in_the_way_refuted : let w := {| dirs := ["/home/u"; "/home"; "/"]; files := [("/home/u/.config", "")] |} in
  read_config O ex_load ex_env w = (Done O, w) /\ save_config ex_dump ex_env w 3%nat = (Raised NotADirectoryError, w).
Proof. repeat split; vm_compute; reflexivity. Qed.
(** Without APPDATA the file ends up in a directory of that literal name below the current one. *)
Theorem c137_no_appdata_refuted : let e := {| platform := "win32"; has_safe := true; home := ""; appdata := None; may_make := fun _ => true; may_write := fun _ => true; may_read := fun _ => true |} in
  exists w', preffilename e {| dirs := []; files := [] |} = (Done (Some "%APPDATA%\qinfer.conf"), w') /\ dirs w' = ["%APPDATA%"].
Proof. eexists. repeat split; vm_compute; reflexivity. Qed.
(** A failed save: the earlier configuration is gone. *)
Example ex_lost : exists w', save_config ex_dump ex_env (snd (save_config ex_dump ex_env ex_fs 3%nat)) O = (Raised AttributeErr, w') /\ read_config O ex_load ex_env w' = (Done O, w').
Proof. eexists. repeat split; vm_compute; reflexivity. Qed.
(** Windows *)
Example ex_windows : let e := {| platform := "win32"; has_safe := true; home := ""; appdata := Some "C:\Users\u\AppData"; may_make := fun _ => true; may_write := fun _ => true; may_read := fun _ => true |} in
  exists w', preffilename e {| dirs := ["C:"]; files := [] |} = (Done (Some "C:\Users\u\AppData\qinfer.conf"), w') /\ dirs w' = ["C:\Users\u\AppData"; "C:\Users\u"; "C:\Users"; "C:"].
Proof. eexists. repeat split; vm_compute; reflexivity. Qed.

Print Assumptions c137_unix_name.
Print Assumptions c137_windows_name.
Print Assumptions c137_elsewhere.
Print Assumptions c137_one_platform.
Print Assumptions c137_only_directories.
Print Assumptions c137_directory_made.
Print Assumptions c137_empty_appdata.
Print Assumptions c137_saved_is_read.
Print Assumptions c137_last_save_counts.
Print Assumptions c137_other_files_kept.
Print Assumptions c137_directories_kept.
Print Assumptions c137_reading_keeps_files.
Print Assumptions c137_no_file.
Print Assumptions c137_modern_python_refuted.
Print Assumptions c137_unreadable_refuted.
Print Assumptions c137_failed_save_refuted.
Print Assumptions c137_reading_makes_directory_refuted.
Print Assumptions c137_file_in_the_way_refuted.
Print Assumptions c137_no_appdata_refuted.
