(** C136: labels of tomographic bases. *)
From Coq Require Import String Ascii NArith ZArith Lia Lra.
From Verif Require Import Base Cplx UtilModel UtilSpec UtilProofs FmtModel FmtSpec FmtProofs TomoModel TomoSpec TomoProofs TomoProofs2 TomoProps LtxModel LtxProofs LabModel LabSpec LabProofs.
From Coq Require Import List.
Close Scope string_scope.
Open Scope list_scope.

(** A label given as one text without braces becomes one label per element, numbered by subscripts, all different; no label stands
    for the letter B. *)
Theorem c136_numbered b dims s name : no_brace s -> exists t, new_basis b dims (LStr s) name = Ok t /\ lb t = b /\ lb_dims t = dims /\
  length (lb_labels t) = (dim_of dims ^ 2)%nat /\ NoDup (lb_labels t) /\ forall i, (i < dim_of dims ^ 2)%nat -> nth_error (lb_labels t) i = Some (s ++ "_" ++ show (N.of_nat i))%string.
Proof.
  intros H. unfold new_basis. rewrite labels_of_prefix by now apply no_brace_plain. cbn [bind]. eexists. split; [reflexivity|]. cbn [lb lb_dims lb_labels]. split; [reflexivity|]. split; [reflexivity|].
  rewrite map_length, seq_length. split; [reflexivity|]. split; [apply prefix_labels_nodup|]. intros i Hi. rewrite nth_error_map, (nth_error_nth' _ 0%nat) by now rewrite seq_length.
  rewrite seq_nth by assumption. reflexivity.
Qed.
Theorem c136_no_label b dims name : new_basis b dims LNone name = new_basis b dims (LStr "B") name.
Proof. reflexivity. Qed.
(** The text is documented as LaTeX, but one with a braced name makes the constructor fail: the braces are taken for a replacement field. *)
Theorem c136_braces_refuted b dims u w v name : no_brace u -> no_brace w -> w <> EmptyString -> (0 < dim_of dims)%nat ->
  new_basis b dims (LStr (u ++ "{" ++ w ++ "}" ++ v)%string) name = Err KeyError.
Proof.
  intros U W N D. unfold new_basis, init_labels. rewrite format1_prefix. cbn [bind].
  assert (P : exists n, (dim_of dims ^ 2 = S n)%nat) by (exists (dim_of dims ^ 2 - 1)%nat; assert (dim_of dims ^ 2 <> 0)%nat by (apply Nat.pow_nonzero; lia); lia).
  destruct P as [n ->]. unfold range_text. cbn [seq map map_ok]. rewrite !sappA. rewrite format1_braced by (assumption || now apply no_brace_plain). reflexivity.
Qed.
Example mathrm_fails b : new_basis b [2%nat] (LStr "\mathrm{B}") None = Err KeyError.
Proof.
  assert (Q : forall s, plain s = true -> no_brace s).
  { intros s H. split; intros u v ->; induction u as [|c u IH]; cbn [append plain] in H; try discriminate H; apply andb_prop in H as [_ H]; auto. }
  apply (c136_braces_refuted b [2%nat] "\mathrm" "B" "" None); [apply Q; reflexivity..|discriminate|cbn; lia].
Qed.

(** The Gell-Mann basis has one label per element, and no two alike. *)
Theorem c136_gell_mann d : (0 < d)%nat -> exists t, gell_mann_labelled d = Ok t /\ tomographic (lb t) /\ bdim (lb t) = d /\ lb_dims t = [d] /\
  length (lb_labels t) = length (bdata (lb t)) /\ NoDup (lb_labels t) /\ Forall (lacks "\otimes") (lb_labels t) /\
  forall i, (i < d ^ 2)%nat -> nth_error (lb_labels t) i = Some ("\gamma_" ++ show (N.of_nat i))%string.
Proof.
  intros D. unfold gell_mann_labelled. destruct (gell_mann_basis d) as [b|] eqn:E; [|unfold gell_mann_basis in E; destruct (Nat.eqb_spec d 0); [lia|discriminate]].
  destruct (gell_mann_tomographic d b E) as [Hb Ht]. cbn [bind]. unfold new_basis. rewrite labels_of_prefix by reflexivity. cbn [bind]. eexists. split; [reflexivity|]. cbn [lb lb_dims lb_labels].
  assert (Dm : dim_of [d] = d) by (cbn; lia). rewrite Dm, map_length, seq_length, (tg_len b Ht), Hb. repeat (split; [first [assumption|reflexivity]|]). split; [apply prefix_labels_nodup|].
  split; [apply Forall_forall; intros s Hs; apply in_map_iff in Hs as (i & <- & _); apply gamma_lacks|].
  intros i Hi. rewrite nth_error_map, (nth_error_nth' _ 0%nat) by now rewrite seq_length. rewrite seq_nth by assumption. reflexivity.
Qed.
(** Typeset, a subscript without braces is one character: only the first ten labels show their number. *)
Theorem c136_subscript_refuted i : tex_exponent (show (N.of_nat i)) = Some (Z.of_nat i) <-> (i < 10)%nat.
Proof.
  assert (E : show (N.of_nat i) = show_int (Z.of_nat i)). { unfold show_int. rewrite (proj2 (Z.ltb_ge (Z.of_nat i) 0)) by lia. cbn [append]. f_equal. lia. }
  rewrite E, tex_int. destruct (Z.leb_spec 0 (Z.of_nat i)), (Z.ltb_spec (Z.of_nat i) 10); cbn [andb]; split; try lia; try discriminate. reflexivity.
Qed.

(** In a tensor product label and element are made of the same factors: at the position whose digits are [is] stands the label joined
    from the labels number [is] of the factors, and the element whose entries are the products of the entries of their elements
    number [is].  The dimensions are those of the factors, in order. *)
Theorem c136_tensor fs : fs <> [] -> Forall (fun f => tomographic (lb f) /\ length (lb_labels f) = length (bdata (lb f))) fs ->
  exists t, tensor_labelled fs = Ok t /\ lb_dims t = concat (map lb_dims fs) /\ length (lb_labels t) = length (bdata (lb t)) /\
  forall is, Forall2 (fun i f => i < length (lb_labels f))%nat is fs ->
    let k := pos (map (fun f => length (lb_labels f)) fs) is in
    nth_error (lb_labels t) k = Some (join "\otimes" (map (fun q => nth (fst q) (lb_labels (snd q)) ""%string) (combine is fs))) /\
    forall rs cs, Forall2 (fun r f => r < bdim (lb f))%nat rs fs -> Forall2 (fun c f => c < bdim (lb f))%nat cs fs ->
      bnth (lb t) k (pos (map (fun f => bdim (lb f)) fs) rs) (pos (map (fun f => bdim (lb f)) fs) cs) = entry_product (map lb fs) is rs cs.
Proof.
  intros N F. destruct fs as [|f0 fs]; [congruence|]. inversion F as [|? ? [T0 L0] Fr]; subst.
  assert (Ft : Forall tomographic (map lb fs)) by (apply Forall_map; eapply Forall_impl; [|exact Fr]; now intros f []).
  unfold tensor_labelled. change (map lb (f0 :: fs)) with (lb f0 :: map lb fs) at 1. rewrite (tensor_product_fold (lb f0) (map lb fs) T0 Ft). cbn [bind new_basis init_labels]. eexists. split; [reflexivity|]. cbn [lb lb_dims lb_labels]. split; [reflexivity|].
  assert (EL : map (fun f => length (lb_labels f)) (f0 :: fs) = map (fun b => length (bdata b)) (map lb (f0 :: fs))).
  { rewrite map_map. apply map_ext_in. intros f Hf. rewrite Forall_forall in F. now apply F. }
  split.
  - rewrite map_length. rewrite length_it_product, map_map, EL, <- tp_planes_fold.
    rewrite tp_planes_fold. clear -T0. cbn [map fold_right]. generalize (lb f0) as b0. induction (map lb fs) as [|c bs IH]; intros b0; cbn [map fold_right fold_left]; [lia|].
    rewrite <- IH, tensor2_len. lia.
  - intros is Fi. cbv zeta. split.
    + rewrite nth_error_map. pose proof (nth_it_product ""%string (map lb_labels (f0 :: fs)) is) as Q. rewrite map_map in Q.
      transitivity (option_map (join "\otimes") (Some (map (fun q => nth (fst q) (snd q) ""%string) (combine is (map lb_labels (f0 :: fs)))))).
      * apply (f_equal (option_map (join "\otimes"))). apply Q. clear -Fi. induction Fi; constructor; auto.
      * cbn [option_map]. f_equal. f_equal. clear. generalize (f0 :: fs). induction is as [|i is IH]; intros [|f l]; cbn; [reflexivity..|]. f_equal. apply IH.
    + intros rs cs Hr Hc. inversion Fi as [|i0 ? is' ? Hi0 Fi']; inversion Hr as [|r0 ? rs' ? Hr0 Hr']; inversion Hc as [|k0 ? cs' ? Hk0 Hc']; subst.
      rewrite EL. rewrite <- !(map_map lb bdim). cbn [map]. apply fold_entries; [now rewrite <- L0|assumption..| | |].
      * clear -Fi' Fr. induction Fi' as [|i f is' fs H Q IH]; cbn; [constructor|]. inversion Fr as [|? ? [_ G] Fr']; subst. constructor; [now rewrite <- G|auto].
      * clear -Hr'. induction Hr'; cbn; constructor; auto.
      * clear -Hc'. induction Hc'; cbn; constructor; auto.
Qed.
(** Labels of a tensor product are all different if those of each factor are and contain no tensor sign themselves. *)
Theorem c136_tensor_distinct fs t : Forall (fun f => NoDup (lb_labels f) /\ Forall (lacks "\otimes") (lb_labels f)) fs -> tensor_labelled fs = Ok t -> NoDup (lb_labels t).
Proof.
  intros F. unfold tensor_labelled. destruct (tensor_product_basis (map lb fs)) as [b|]; [|discriminate]. cbn [bind new_basis init_labels]. intros H. injection H as <-. cbn [lb_labels].
  apply joined_nodup; apply Forall_map; eapply Forall_impl; try exact F; now intros f [].
Qed.
(** Otherwise they need not be: *)
Theorem c136_tensor_distinct_refuted : exists fs t, Forall (fun f => NoDup (lb_labels f)) fs /\ tensor_labelled fs = Ok t /\ ~ NoDup (lb_labels t).
Proof.
  destruct (gell_mann_basis 2) as [b|] eqn:E; [|discriminate]. destruct (gell_mann_tomographic 2 b E) as [_ T].
  set (f l := {| lb := b; lb_dims := [2%nat]; lb_labels := l; lb_name := "" |}).
  exists [f ["A"; "A\otimesB"; "C"; "D"]%string; f ["B\otimesA"; "A"; "C"; "D"]%string]. unfold tensor_labelled. cbn [map lb f].
  rewrite (tensor_product_fold b [b] T) by (repeat constructor; apply T). cbn [bind new_basis init_labels]. eexists. split; [|split; [reflexivity|]].
  - repeat constructor; cbn; intuition discriminate.
  - cbn [lb_labels]. intros N. cbn in N. inversion N as [|? ? H _]; subst. apply H. cbn. tauto.
Qed.
(** The Pauli basis: [4 ^ nq] different labels, each the tensor product of the symbols of the matrices its element is made of. *)
Theorem c136_pauli nq : (0 < nq)%nat -> exists p t, pauli_basis 1 = Ok p /\ pauli_labelled nq = Ok t /\ pauli_basis nq = Ok (lb t) /\ lb_dims t = repeat 2%nat nq /\ NoDup (lb_labels t) /\ length (lb_labels t) = (4 ^ nq)%nat /\
  forall is, length is = nq -> Forall (fun i => i < 4)%nat is ->
    nth_error (lb_labels t) (pos (repeat 4%nat nq) is) = Some (join "\otimes" (map (fun i => nth i ["𝟙"; "\sigma_x"; "\sigma_y"; "\sigma_z"]%string ""%string) is)) /\
    forall rs cs, length rs = nq -> length cs = nq -> Forall (fun r => r < 2)%nat rs -> Forall (fun c => c < 2)%nat cs ->
      bnth (lb t) (pos (repeat 4%nat nq) is) (pos (repeat 2%nat nq) rs) (pos (repeat 2%nat nq) cs) = entry_product (repeat p nq) is rs cs.
Proof.
  intros Hn. destruct pauli_factor as [p|] eqn:E; [|discriminate]. destruct (pauli_factor_tomographic p E) as [Hd Ht]. assert (Hl : length (bdata p) = 4%nat) by (rewrite (tg_len p Ht), Hd; reflexivity).
  exists p. unfold pauli_labelled, pauli_factor_labelled. rewrite E. cbn [bind new_basis init_labels]. set (f := {| lb := p; lb_dims := [2%nat]; lb_labels := pauli_labels; lb_name := "(unnamed)" |}).
  assert (Ff : Forall (fun g => tomographic (lb g) /\ length (lb_labels g) = length (bdata (lb g))) (repeat f nq)).
  { apply Forall_forall. intros g Hg. apply repeat_spec in Hg. subst g. split; [assumption|cbn; now rewrite Hl]. }
  destruct (c136_tensor (repeat f nq)) as (t & Et & Dt & Lt & Q); [destruct nq; [lia|discriminate]|assumption|]. rewrite Et. cbn [bind]. eexists. split; [|split; [reflexivity|]].
  { unfold pauli_basis. rewrite E. cbn [bind repeat]. apply (tensor_product_fold p [] Ht). constructor. }
  cbn [lb lb_dims lb_labels]. assert (RM : forall A B (g : A -> B) (x : A) n, map g (repeat x n) = repeat (g x) n) by (intros A B g x n; induction n; cbn; congruence).
  assert (Eb : pauli_basis nq = Ok (lb t)).
  { unfold pauli_basis. rewrite E. cbn [bind]. revert Et. unfold tensor_labelled. rewrite RM. cbn [lb f]. destruct (tensor_product_basis (repeat p nq)) as [b|]; [|discriminate]. cbn [bind new_basis init_labels]. intros K. injection K as <-. reflexivity. }
  split; [exact Eb|]. split; [rewrite Dt, RM; cbn [lb_dims f]; clear; induction nq; cbn; congruence|]. split; [|split].
  - eapply c136_tensor_distinct; [|exact Et]. apply Forall_forall. intros g Hg. apply repeat_spec in Hg. subst g. cbn [lb_labels f]. split; [unfold pauli_labels; repeat constructor; cbn; intuition discriminate|].
    unfold pauli_labels. repeat constructor; apply occurs_lacks; reflexivity.
  - rewrite Lt. destruct (c61_pauli nq Hn) as (b & Eb' & _ & _ & Lb). assert (b = lb t) by congruence. now subst b.
  - intros is Li Fi. specialize (Q is). rewrite !RM in Q. cbn [lb lb_labels f bdim] in Q. change (length pauli_labels) with 4%nat in Q. rewrite Hd in Q.
    assert (G : forall (P : nat -> Prop) xs m, length xs = m -> Forall P xs -> Forall2 (fun i (_ : lbasis) => P i) xs (repeat f m)).
    { clear. intros P xs m <- F. induction F; cbn; constructor; auto. }
    assert (G2 : forall (P : nat -> lbasis -> Prop) xs m, length xs = m -> Forall (fun i => P i f) xs -> Forall2 P xs (repeat f m)).
    { clear. intros P xs m <- F. induction F; cbn; constructor; auto. }
    destruct Q as [Q1 Q2]; [apply G2; [assumption|exact Fi]|]. split.
    + rewrite Q1. f_equal. f_equal. rewrite <- Li. clear. induction is as [|i is IH]; cbn; [reflexivity|]. f_equal. exact IH.
    + intros rs cs Lr Lc Fr Fc. apply Q2; apply G2; auto; cbn [lb f]; now rewrite Hd.
Qed.
(** The label says the Pauli matrix, the element is the matrix divided by the square root of two. *)
Theorem c136_scale_refuted : exists t, pauli_labelled 1 = Ok t /\ nth_error (lb_labels t) 1%nat = Some "\sigma_x"%string /\ bnth (lb t) 1%nat 0%nat 1%nat = rc (1 / sqrt 2) /\ bnth (lb t) 1%nat 0%nat 1%nat <> c1.
Proof.
  destruct (c136_pauli 1 ltac:(lia)) as (p & t & Ep & Et & Eb & _ & _ & _ & Q). exists t. split; [exact Et|]. destruct (Q [1%nat] eq_refl ltac:(repeat constructor)) as [Q1 _]. split; [exact Q1|].
  destruct c61_pauli_one as (b & Eb' & _ & X & _). assert (b = lb t) by congruence. subst b. specialize (X 0%nat 1%nat ltac:(lia) ltac:(lia)). cbn [Nat.eqb] in X. rewrite X.
  assert (C : cmul (rc (1 / sqrt 2)) c1 = rc (1 / sqrt 2)) by ring. rewrite C. split; [reflexivity|]. intros K. assert (K2 : re (rc (1 / sqrt 2)) = re c1) by now rewrite K. cbn in K2.
  pose proof (sqrt_lt_R0 2 ltac:(lra)) as S0. pose proof (sqrt_sqrt 2 ltac:(lra)) as S1. assert (sqrt 2 = 1) by (apply (f_equal (fun z => z * sqrt 2)) in K2; unfold Rdiv in K2; rewrite Rmult_1_l, Rinv_l in K2 by lra; lra). rewrite H in S1. lra.
Qed.

(** A basis iterates over its elements in order, and indexing takes integers from either end and nested lists of them. *)
Theorem c136_iterate b : length (bdata (lb b)) = (dim_of (lb_dims b) ^ 2)%nat -> iterate b = Ok (map One (bdata (lb b))).
Proof.
  intros H. unfold iterate. rewrite <- H. rewrite (map_ok_map _ (fun i => One (nth i (bdata (lb b)) mzero))).
  - f_equal. assert (Q : forall l : list mat, map (fun i => One (nth i l mzero)) (seq 0 (length l)) = map One l).
    { induction l as [|x l IH]; [reflexivity|]. cbn [length seq map nth]. f_equal. rewrite <- seq_shift, map_map. exact IH. }
    apply Q.
  - intros i Hi. apply in_seq in Hi. cbn [getitem]. unfold plane. rewrite (proj2 (Z.ltb_ge (Z.of_nat i) _)) by lia. rewrite (proj2 (Z.leb_gt _ (Z.of_nat i))) by lia. cbn [orb bind].
    rewrite (proj2 (Z.ltb_ge (Z.of_nat i) 0)) by lia. now rewrite Nat2Z.id.
Qed.
Theorem c136_iterate_short b : (length (bdata (lb b)) < dim_of (lb_dims b) ^ 2)%nat -> iterate b = Err IndexError.
Proof.
  intros H. unfold iterate. remember (dim_of (lb_dims b) ^ 2)%nat as n. clear Heqn.
  assert (Q : forall m k, (k <= length (bdata (lb b)) < k + m)%nat -> map_ok (fun i => getitem (bdata (lb b)) (IxInt (Z.of_nat i))) (seq k m) = Err IndexError).
  { induction m as [|m IH]; intros k K; [lia|]. cbn [seq map_ok getitem]. unfold plane at 1. rewrite (proj2 (Z.ltb_ge (Z.of_nat k) _)) by lia. cbn [orb].
    destruct (Z.leb_spec (Z.of_nat (length (bdata (lb b)))) (Z.of_nat k)) as [L|L]; [reflexivity|]. cbn [bind]. rewrite IH by lia. reflexivity. }
  apply Q. lia.
Qed.
Theorem c136_index data z : (forall m, getitem data (IxInt z) = Ok (One m) <-> (0 <= z /\ nth_error data (Z.to_nat z) = Some m \/ z < 0 /\ - Z.of_nat (length data) <= z /\ nth_error data (Z.to_nat (z + Z.of_nat (length data))) = Some m)%Z)
  /\ (getitem data (IxInt z) = Err IndexError <-> (z < - Z.of_nat (length data) \/ Z.of_nat (length data) <= z)%Z).
Proof.
  assert (NE : forall k m, (k < length data)%nat -> (Ok (One (nth k data mzero)) = Ok (One m) <-> nth_error data k = Some m)).
  { intros k m K. rewrite (nth_error_nth' data mzero K). split; intros E; injection E as ->; reflexivity. }
  cbn [getitem]. unfold plane. destruct (Z.ltb_spec z (- Z.of_nat (length data))) as [A|A], (Z.leb_spec (Z.of_nat (length data)) z) as [B|B]; cbn [orb bind]; split; try (intros m); split; try discriminate; try (intros; lia); try reflexivity.
  all: try (intros [[K E]|(K & K2 & E)]; [assert (nth_error data (Z.to_nat z) <> None) as G by congruence; apply nth_error_Some in G; lia|lia]).
  - intros E. destruct (Z.ltb_spec z 0) as [C|C].
    + right. split; [lia|]. split; [lia|]. now apply NE; [lia|].
    + left. split; [lia|]. now apply NE; [lia|].
  - intros [[K E]|(K & K2 & E)].
    + rewrite (proj2 (Z.ltb_ge z 0)) by lia. apply NE; [lia|assumption].
    + rewrite (proj2 (Z.ltb_lt z 0)) by lia. apply NE; [lia|assumption].
Qed.
Theorem c136_index_list data l xs : getitem data (IxList l) = Ok (Many xs) <-> Forall2 (fun i x => getitem data i = Ok x) l xs.
Proof.
  cbn [getitem]. set (go := fix all (l : list index) : res (list item) := match l with [] => Ok [] | i :: r => bind (getitem data i) (fun x => bind (all r) (fun xs => Ok (x :: xs))) end).
  assert (Q : forall l xs, go l = Ok xs <-> Forall2 (fun i x => getitem data i = Ok x) l xs).
  { clear. induction l as [|i l IH]; intros xs; cbn [go].
    - split; intros H; [injection H as <-; constructor|now inversion H].
    - split; intros H.
      + destruct (getitem data i) as [x|] eqn:E; [|discriminate]. cbn [bind] in H. fold go in H. destruct (go l) as [ys|] eqn:G; [|discriminate]. cbn [bind] in H. injection H as <-. constructor; [assumption|]. now apply IH.
      + inversion H as [|? x ? ys Hx Hr]; subst. rewrite Hx. cbn [bind]. fold go. apply IH in Hr. now rewrite Hr. }
  rewrite <- Q. destruct (go l); cbn [bind]; split; intros H; try discriminate; injection H as ->; reflexivity.
Qed.

(** Every tomographic parameter has a name that quotes its label; different labels give different names; the diffusive model adds one. *)
Theorem c136_names labels : exists names, modelparam_names labels = Ok names /\ length names = length labels /\
  (forall i l, nth_error labels i = Some l -> nth_error names i = Some ("\langle\!\langle" ++ l ++ " | \rho\rangle\!\rangle")%string) /\
  (NoDup names <-> NoDup labels) /\ diffusive_names labels = Ok (names ++ ["\epsilon"%string]) /\ (NoDup (names ++ ["\epsilon"%string]) <-> NoDup labels).
Proof.
  assert (T : forall l, format1 name_template l = Ok ("\langle\!\langle" ++ l ++ " | \rho\rangle\!\rangle")%string) by reflexivity.
  set (g l := ("\langle\!\langle" ++ l ++ " | \rho\rangle\!\rangle")%string). exists (map g labels).
  assert (M : modelparam_names labels = Ok (map g labels)) by (unfold modelparam_names; apply map_ok_map; intros; apply T).
  assert (I : forall a b, g a = g b -> a = b).
  { intros a b Hab. unfold g in Hab. apply app_inj_l in Hab. revert b Hab. induction a as [|c a IH]; intros [|d b] H.
    - reflexivity.
    - exfalso. apply (f_equal String.length) in H. cbn in H. assert (LA : forall u v : string, String.length (u ++ v) = (String.length u + String.length v)%nat) by (clear; intros u v; induction u; cbn; congruence). rewrite LA in H. cbn in H. lia.
    - exfalso. apply (f_equal String.length) in H. cbn in H. assert (LA : forall u v : string, String.length (u ++ v) = (String.length u + String.length v)%nat) by (clear; intros u v; induction u; cbn; congruence). rewrite LA in H. cbn in H. lia.
    - cbn [append] in H. injection H as -> H. f_equal. now apply IH. }
  assert (N : NoDup (map g labels) <-> NoDup labels) by (split; [apply NoDup_map_inv|intros H; apply FinFun.Injective_map_NoDup; [exact I|assumption]]).
  split; [exact M|]. split; [apply map_length|]. split; [intros i l H; exact (map_nth_error g i labels H)|]. split; [exact N|]. split; [unfold diffusive_names; rewrite M; reflexivity|].
  rewrite <- N. split; intros H.
  - apply NoDup_remove_1 in H. now rewrite app_nil_r in H.
  - apply NoDup_app'; [assumption|repeat constructor; intros []|]. intros x Hx [<-|[]]. apply in_map_iff in Hx as (l & K & _). unfold g in K. cbn in K. discriminate.
Qed.
(** The default axes of a rebit plot, decorated with the Pauli basis, are labelled with the first two Pauli matrices and not with the
    first and the third. *)
Theorem c136_rebit_axes_refuted : exists t, pauli_labelled 1 = Ok t /\
  axis_labels (lb_labels t) (1, 2)%nat = Ok ("$\langle\!\langle \sigma_x | \rho \rangle\!\rangle$", "$\langle\!\langle \sigma_y | \rho \rangle\!\rangle$")%string.
Proof.
  destruct (c136_pauli 1 ltac:(lia)) as (p & t & Ep & Et & Eb & _ & _ & _ & Q). exists t. split; [exact Et|].
  destruct (Q [1%nat] eq_refl ltac:(repeat constructor)) as [Q1 _]. destruct (Q [2%nat] eq_refl ltac:(repeat constructor)) as [Q2 _]. unfold axis_labels. cbn [fst snd].
  change (pos (repeat 4%nat 1) [1%nat]) with 1%nat in Q1. change (pos (repeat 4%nat 1) [2%nat]) with 2%nat in Q2. rewrite Q1, Q2. reflexivity.
Qed.

(** ** Two qubits *)
Example two_qubits : exists t, pauli_labelled 2 = Ok t /\ nth_error (lb_labels t) 7 = Some "\sigma_x\otimes\sigma_z"%string.
Proof.
  destruct (c136_pauli 2 ltac:(lia)) as (p & t & _ & Et & _ & _ & _ & _ & Q). exists t. split; [exact Et|]. destruct (Q [1%nat; 3%nat] eq_refl ltac:(repeat constructor)) as [Q1 _]. exact Q1.
Qed.
Example gell_mann_twelve : exists t, gell_mann_labelled 4 = Ok t /\ nth_error (lb_labels t) 12 = Some "\gamma_12"%string /\ tex_exponent "12" = None.
Proof. destruct (c136_gell_mann 4 ltac:(lia)) as (t & Et & _ & _ & _ & _ & _ & _ & Q). exists t. split; [exact Et|]. split; [apply (Q 12%nat); cbn; lia|reflexivity]. Qed.
Example qutrit_qubit : exists g3 g2 t, gell_mann_labelled 3 = Ok g3 /\ gell_mann_labelled 2 = Ok g2 /\ tensor_labelled [g3; g2] = Ok t /\ lb_dims t = [3; 2]%nat /\ NoDup (lb_labels t).
Proof.
  destruct (c136_gell_mann 3 ltac:(lia)) as (g3 & E3 & T3 & _ & D3 & L3 & N3 & F3 & _). destruct (c136_gell_mann 2 ltac:(lia)) as (g2 & E2 & T2 & _ & D2 & L2 & N2 & F2 & _).
  destruct (c136_tensor [g3; g2]) as (t & Et & Dt & _); [discriminate|constructor; [split; assumption|constructor; [split; assumption|constructor]]|]. exists g3, g2, t. repeat (split; [assumption|]). split; [rewrite Dt; cbn; now rewrite D3, D2|].
  eapply c136_tensor_distinct; [|exact Et]. constructor; [split; assumption|constructor; [split; assumption|constructor]].
Qed.

Print Assumptions c136_numbered.
Print Assumptions c136_no_label.
Print Assumptions c136_braces_refuted.
Print Assumptions c136_gell_mann.
Print Assumptions c136_subscript_refuted.
Print Assumptions c136_tensor.
Print Assumptions c136_tensor_distinct.
Print Assumptions c136_tensor_distinct_refuted.
Print Assumptions c136_pauli.
Print Assumptions c136_scale_refuted.
Print Assumptions c136_iterate.
Print Assumptions c136_iterate_short.
Print Assumptions c136_index.
Print Assumptions c136_index_list.
Print Assumptions c136_names.
Print Assumptions c136_rebit_axes_refuted.
