From Coq Require Import String Ascii NArith ZArith Decimal DecimalString Lia Lra.
From Verif Require Import Base Cplx UtilModel UtilSpec UtilProofs FmtModel FmtSpec FmtProofs TomoModel TomoSpec TomoProofs TomoProofs2 LtxModel LtxProofs LabModel LabSpec.
From Coq Require Import List.
Close Scope string_scope.
Open Scope list_scope.

(** ** Formatting *)
Lemma no_brace_plain s : no_brace s -> plain s = true.
Proof.
  induction s as [|c s IH]; intros [A B]; [reflexivity|]. cbn [plain]. rewrite IH.
  - destruct (Ascii.eqb_spec c "{") as [->|]; [destruct (A EmptyString s); reflexivity|]. destruct (Ascii.eqb_spec c "}") as [->|]; [destruct (B EmptyString s); reflexivity|]. reflexivity.
  - split; intros u v E; [apply (A (String c u) v)|apply (B (String c u) v)]; cbn; now rewrite E.
Qed.
Lemma format1_plain arg used s t : plain s = true -> format1_go arg used None (s ++ t) = bind (format1_go arg used None t) (fun b => Ok (s ++ b)%string).
Proof.
  induction s as [|c s IH]; intros H.
  - change ("" ++ t)%string with t. destruct (format1_go arg used None t); reflexivity.
  - cbn [plain] in H. apply andb_prop in H as [H H2]. apply andb_prop in H as [H0 H1]. apply negb_true_iff in H0, H1. cbn [append format1_go]. rewrite H0, H1, (IH H2).
    destruct (format1_go arg used None t); reflexivity.
Qed.
Lemma format1_prefix s : format1 "{}_{{}}" s = Ok (s ++ "_{}")%string.
Proof. reflexivity. Qed.
Lemma format1_label s a : plain s = true -> format1 (s ++ "_{}") a = Ok (s ++ "_" ++ a)%string.
Proof. intros H. unfold format1. rewrite format1_plain by assumption. cbn. now rewrite app_empty. Qed.
Lemma map_ok_map {A B} (f : A -> res B) (g : A -> B) l : (forall a, In a l -> f a = Ok (g a)) -> map_ok f l = Ok (map g l).
Proof. induction l as [|a l IH]; intros H; [reflexivity|]. cbn [map_ok map]. rewrite (H a) by now left. rewrite IH by (intros; apply H; now right). reflexivity. Qed.
Lemma labels_of_prefix s n : plain s = true -> init_labels (LStr s) n = Ok (map (fun i => s ++ "_" ++ show (N.of_nat i))%string (seq 0 n)).
Proof.
  intros H. unfold init_labels. rewrite format1_prefix. cbn [bind]. unfold range_text. rewrite (map_ok_map _ (fun a => s ++ "_" ++ a)%string); [now rewrite map_map|].
  intros a _. now apply format1_label.
Qed.
Lemma labels_default n : init_labels LNone n = init_labels (LStr "B") n.
Proof. reflexivity. Qed.
Lemma show_inj a b : show a = show b -> a = b.
Proof. intros E. destruct (prints_span _ _ EmptyString (prints_show a) eq_refl) as [_ A]. destruct (prints_span _ _ EmptyString (prints_show b) eq_refl) as [_ B]. rewrite E in A. congruence. Qed.
Lemma app_inj_l a b c : (a ++ b = a ++ c)%string -> b = c.
Proof. induction a as [|x a IH]; [trivial|]. cbn. intros E. injection E as E. now apply IH. Qed.
Lemma prefix_labels_nodup s n : NoDup (map (fun i => s ++ "_" ++ show (N.of_nat i))%string (seq 0 n)).
Proof. apply FinFun.Injective_map_NoDup; [|apply seq_NoDup]. intros i j E. apply app_inj_l in E. apply app_inj_l in E. apply show_inj in E. lia. Qed.
Lemma format1_name acc name t arg used : plain name = true -> (acc ++ name)%string <> EmptyString -> format1_go arg used (Some acc) (name ++ String "}" t) = Err KeyError.
Proof.
  intros H N. revert acc N. induction name as [|c name IH]; intros acc N.
  - rewrite app_empty in N. cbn. destruct (String.eqb_spec acc ""); [contradiction|reflexivity].
  - cbn [plain] in H. apply andb_prop in H as [H H2]. apply andb_prop in H as [H0 H1]. apply negb_true_iff in H0, H1. cbn [append format1_go]. rewrite H1. apply (IH H2).
    rewrite sappA. exact N.
Qed.
Lemma format1_braced s name t arg : plain s = true -> plain name = true -> name <> EmptyString -> format1 (s ++ "{" ++ name ++ "}" ++ t) arg = Err KeyError.
Proof.
  intros Hs Hn N. unfold format1. rewrite format1_plain by assumption. destruct name as [|c name]; [congruence|].
  assert (E : format1_go arg false None ("{" ++ String c name ++ "}" ++ t) = format1_go arg false (Some EmptyString) (String c name ++ "}" ++ t)).
  { pose proof Hn as K. cbn [plain] in K. apply andb_prop in K as [K _]. apply andb_prop in K as [K _]. apply negb_true_iff in K. cbn [append format1_go]. change (Ascii.eqb "{" "{") with true. cbv iota. rewrite K. reflexivity. }
  rewrite E. change ("}" ++ t)%string with (String "}" t). rewrite (format1_name EmptyString (String c name) t arg false Hn); [reflexivity|discriminate].
Qed.

(** ** Products *)
Lemma length_it_product {A} (ls : list (list A)) : length (it_product ls) = fold_right Nat.mul 1%nat (map (@length A) ls).
Proof.
  induction ls as [|l ls IH]; [reflexivity|]. cbn [it_product map fold_right]. rewrite <- IH. clear IH. induction l as [|x l IHl]; [reflexivity|]. cbn [flat_map length]. rewrite app_length, map_length, IHl. lia.
Qed.
Lemma nth_error_flat {A B} (f : A -> list B) m : forall l i k a, (forall x, length (f x) = m) -> nth_error l i = Some a -> (k < m)%nat -> nth_error (flat_map f l) (i * m + k) = nth_error (f a) k.
Proof.
  induction l as [|x l IH]; intros i k a F E K; [destruct i; discriminate|]. destruct i as [|i]; cbn [flat_map].
  - injection E as ->. cbn. apply nth_error_app1. now rewrite F.
  - rewrite nth_error_app2 by (rewrite F; lia). rewrite F. replace (S i * m + k - m)%nat with (i * m + k)%nat by lia. now apply (IH i k a).
Qed.
Lemma pos_lt ns is : Forall2 (fun i n => i < n)%nat is ns -> (pos ns is < fold_right Nat.mul 1 ns)%nat.
Proof. induction 1 as [|i n is ns H F IH]; cbn [pos fold_right]; [lia|]. nia. Qed.
Lemma nth_it_product {A} (d : A) (ls : list (list A)) : forall is, Forall2 (fun i l => i < length l)%nat is ls ->
  nth_error (it_product ls) (pos (map (@length A) ls) is) = Some (map (fun q => nth (fst q) (snd q) d) (combine is ls)).
Proof.
  induction ls as [|l ls IH]; intros is H; inversion H as [|i ? is' ? Hi Hr]; subst; [reflexivity|]. cbn [it_product map pos combine fst snd].
  assert (K : (pos (map (@length A) ls) is' < fold_right Nat.mul 1 (map (@length A) ls))%nat).
  { apply pos_lt. clear - Hr. induction Hr; constructor; auto. }
  rewrite (nth_error_flat _ (fold_right Nat.mul 1%nat (map (@length A) ls)) l i _ (nth i l d)); [|intros x; now rewrite map_length, length_it_product|now apply nth_error_nth'|exact K].
  rewrite nth_error_map, IH by assumption. reflexivity.
Qed.
Lemma tensor2_len b c : length (bdata (tensor2 b c)) = (length (bdata b) * length (bdata c))%nat.
Proof. cbn. induction (bdata b) as [|x l IH]; [reflexivity|]. cbn. rewrite app_length, map_length, IH. lia. Qed.
Lemma fold_entries bs : forall b0 i0 r0 k0 is rs cs, (i0 < length (bdata b0))%nat -> (r0 < bdim b0)%nat -> (k0 < bdim b0)%nat ->
  Forall2 (fun i b => i < length (bdata b))%nat is bs -> Forall2 (fun r b => r < bdim b)%nat rs bs -> Forall2 (fun c b => c < bdim b)%nat cs bs ->
  bnth (fold_left tensor2 bs b0) (pos (length (bdata b0) :: map (fun b => length (bdata b)) bs) (i0 :: is)) (pos (bdim b0 :: map bdim bs) (r0 :: rs)) (pos (bdim b0 :: map bdim bs) (k0 :: cs))
  = entry_product (b0 :: bs) (i0 :: is) (r0 :: rs) (k0 :: cs).
Proof.
  induction bs as [|c bs IH]; intros b0 i0 r0 k0 is rs cs Hi Hr Hk Fi Fr Fc; inversion Fi as [|i1 ? is' ? Hi1 Fi']; inversion Fr as [|r1 ? rs' ? Hr1 Fr']; inversion Fc as [|k1 ? cs' ? Hk1 Fc']; subst.
  - cbn. rewrite !Nat.mul_1_r, !Nat.add_0_r. ring.
  - cbn [fold_left]. assert (Hi2 : (i0 * length (bdata c) + i1 < length (bdata (tensor2 b0 c)))%nat) by (rewrite tensor2_len; nia).
    assert (Hr2 : (r0 * bdim c + r1 < bdim (tensor2 b0 c))%nat) by (cbn; nia). assert (Hk2 : (k0 * bdim c + k1 < bdim (tensor2 b0 c))%nat) by (cbn; nia).
    specialize (IH (tensor2 b0 c) _ _ _ is' rs' cs' Hi2 Hr2 Hk2 Fi' Fr' Fc').
    assert (P : forall n0 n1 ns x0 x1 xs, pos (n0 :: n1 :: ns) (x0 :: x1 :: xs) = pos ((n0 * n1)%nat :: ns) ((x0 * n1 + x1)%nat :: xs)) by (intros; cbn [pos fold_right]; nia).
    cbn [map]. rewrite !P. rewrite tensor2_len in IH. change (bdim (tensor2 b0 c)) with (bdim b0 * bdim c)%nat in IH. rewrite IH.
    cbn [entry_product]. rewrite tensor2_nth by assumption. unfold kron. destruct (divmod_pair (bdim c) r0 r1 Hr1) as [-> ->]. destruct (divmod_pair (bdim c) k0 k1 Hk1) as [-> ->]. ring.
Qed.

(** ** Joined labels *)
Lemma app_split (a b c d : string) : (a ++ b = c ++ d)%string -> (exists w, c = (a ++ w)%string /\ b = (w ++ d)%string) \/ (exists w, a = (c ++ w)%string /\ d = (w ++ b)%string).
Proof.
  revert c. induction a as [|x a IH]; intros c E; [left; exists c; auto|]. destruct c as [|y c]; [right; exists (String x a); auto|].
  cbn in E. injection E as -> E. destruct (IH c E) as [(w & -> & ->)|(w & -> & ->)]; [left|right]; exists w; auto.
Qed.
Lemma otimes_overlap w r s : w <> EmptyString -> ("\otimes" ++ r = w ++ "\otimes" ++ s)%string -> exists v, w = ("\otimes" ++ v)%string.
Proof.
  intros N E. destruct w as [|c0 w]; [congruence|]. cbn in E. injection E as <- E.
  do 6 (destruct w as [|? w]; [discriminate|]; cbn [append] in E; injection E as <- E). exists w. reflexivity.
Qed.
Lemma otimes_cut a a' r r' : lacks "\otimes" a -> lacks "\otimes" a' -> (a ++ "\otimes" ++ r = a' ++ "\otimes" ++ r')%string -> a = a' /\ r = r'.
Proof.
  assert (Q : forall a w r r', lacks "\otimes" (a ++ w) -> ("\otimes" ++ r = w ++ "\otimes" ++ r')%string -> w = EmptyString).
  { intros b w u u' L E. destruct (string_dec w EmptyString) as [|N]; [assumption|]. destruct (otimes_overlap w u u' N E) as [v ->]. destruct (L b v). reflexivity. }
  intros L L' E. destruct (app_split _ _ _ _ E) as [(w & -> & F)|(w & -> & F)].
  - assert (W := Q a w r r' L' F). subst w. rewrite app_empty. split; [reflexivity|]. now apply (app_inj_l "\otimes").
  - assert (W := Q a' w r' r L F). subst w. rewrite app_empty. split; [reflexivity|]. symmetry. now apply (app_inj_l "\otimes").
Qed.
Lemma join_inj l : forall l', length l = length l' -> Forall (lacks "\otimes") l -> Forall (lacks "\otimes") l' -> join "\otimes" l = join "\otimes" l' -> l = l'.
Proof.
  induction l as [|a l IH]; intros [|a' l'] Len F F' E; try discriminate; [reflexivity|]. inversion F as [|? ? Fa Fl]; inversion F' as [|? ? Fa' Fl']; subst.
  destruct l as [|b l], l' as [|b' l']; try discriminate; [cbn in E; now subst|].
  change (join "\otimes" (a :: b :: l)) with (a ++ "\otimes" ++ join "\otimes" (b :: l))%string in E. change (join "\otimes" (a' :: b' :: l')) with (a' ++ "\otimes" ++ join "\otimes" (b' :: l'))%string in E.
  destruct (otimes_cut _ _ _ _ Fa Fa' E) as [-> E2]. f_equal. apply IH; auto.
Qed.
Lemma it_product_in {A} (ls : list (list A)) t : In t (it_product ls) -> Forall2 (fun x l => In x l) t ls.
Proof.
  revert t. induction ls as [|l ls IH]; intros t H; cbn in H; [destruct H as [<-|[]]; constructor|]. apply in_flat_map in H as (x & Hx & H). apply in_map_iff in H as (u & <- & Hu). constructor; auto.
Qed.
Lemma NoDup_app' {A} (l1 l2 : list A) : NoDup l1 -> NoDup l2 -> (forall x, In x l1 -> ~ In x l2) -> NoDup (l1 ++ l2).
Proof. induction l1 as [|a l1 IH]; intros H1 H2 D; [assumption|]. inversion H1; subst. cbn. constructor; [rewrite in_app_iff; intros [K|K]; [contradiction|apply (D a); [now left|assumption]]|apply IH; auto]. intros x Hx. apply D. now right. Qed.
Lemma it_product_nodup {A} (ls : list (list A)) : Forall (@NoDup A) ls -> NoDup (it_product ls).
Proof.
  induction 1 as [|l ls H F IH]; cbn [it_product]; [repeat constructor; auto|]. induction H as [|x l Hx H IHl]; cbn [flat_map]; [constructor|].
  apply NoDup_app'; [apply FinFun.Injective_map_NoDup; [intros u v E; now injection E|exact IH]|exact IHl|]. intros t T1 T2. apply in_map_iff in T1 as (u & <- & _).
  apply in_flat_map in T2 as (y & Hy & T2). apply in_map_iff in T2 as (v & E & _). injection E as E _. subst. contradiction.
Qed.
Lemma NoDup_map_in {A B} (f : A -> B) l : (forall x y, In x l -> In y l -> f x = f y -> x = y) -> NoDup l -> NoDup (map f l).
Proof.
  intros I. induction 1 as [|x l Hx H IH]; cbn; [constructor|]. constructor; [|apply IH; intros; apply I; cbn; auto]. intros K. apply in_map_iff in K as (y & E & Hy). apply Hx. rewrite (I x y); cbn; auto.
Qed.
Lemma joined_nodup ls : Forall (@NoDup string) ls -> Forall (Forall (lacks "\otimes")) ls -> NoDup (map (join "\otimes") (it_product ls)).
Proof.
  intros N F. apply NoDup_map_in; [|now apply it_product_nodup]. intros x y Hx Hy E. apply it_product_in in Hx, Hy.
  assert (G : forall t ls', Forall2 (fun x l => In x l) t ls' -> Forall (Forall (lacks "\otimes")) ls' -> length t = length ls' /\ Forall (lacks "\otimes") t).
  { clear. induction 1 as [|a l t ls' H F IH]; intros K; [split; constructor|]. inversion K as [|? ? K1 K2]; subst. destruct (IH K2) as [L1 L2]. split; [cbn; congruence|].
    constructor; [|assumption]. rewrite Forall_forall in K1. now apply K1. }
  destruct (G x ls Hx F) as [L1 G1], (G y ls Hy F) as [L2 G2]. apply join_inj; auto. congruence.
Qed.
(** ** Texts without a tensor sign *)
Fixpoint occurs (w s : string) : bool := String.prefix w s || match s with EmptyString => false | String _ t => occurs w t end.
Lemma prefix_app w v : String.prefix w (w ++ v) = true.
Proof. induction w as [|c w IH]; [now destruct v|]. cbn. destruct (ascii_dec c c); [assumption|congruence]. Qed.
Lemma occurs_lacks w s : occurs w s = false -> lacks w s.
Proof.
  induction s as [|c s IH]; intros H u v E.
  - destruct u; [|discriminate]. cbn [append] in E. rewrite E in H. destruct w; [|discriminate]. destruct v; [|discriminate]. discriminate.
  - cbn [occurs] in H. apply orb_false_elim in H as [H1 H2]. destruct u as [|d u].
    + change ("" ++ w ++ v)%string with (w ++ v)%string in E. rewrite E, prefix_app in H1. discriminate.
    + cbn [append] in E. injection E as _ E. now apply (IH H2 u v).
Qed.
Lemma occurs_digits s : all_digits s = true -> occurs "\otimes" s = false.
Proof.
  induction s as [|c s IH]; intros H; [reflexivity|]. cbn [all_digits] in H. apply andb_prop in H as [H1 H2]. cbn [occurs String.prefix]. rewrite (IH H2), orb_false_r.
  destruct (ascii_dec "\" c) as [<-|]; [discriminate|reflexivity].
Qed.
Lemma gamma_lacks k : lacks "\otimes" ("\gamma" ++ "_" ++ show k).
Proof. apply occurs_lacks. cbn [append occurs]. rewrite (occurs_digits _ (show_all k)). cbn. destruct (show k); reflexivity. Qed.
