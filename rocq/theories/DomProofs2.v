(** Proofs about structured arrays and product domains. *)
From Verif Require Import Base RList Ext DomModel DomSpec DomProofs.

Section Bytes.
Context {B : Type}.
Implicit Types (a : arr B) (sizes : list nat).

Lemma firstn_app_len {A} (x y : list A) n : length x = n -> firstn n (x ++ y) = x.
Proof. intros <-. rewrite firstn_app, Nat.sub_diag, firstn_O, app_nil_r. apply firstn_all. Qed.
Lemma skipn_app_len {A} (x y : list A) n : length x = n -> skipn n (x ++ y) = y.
Proof. intros <-. rewrite skipn_app, Nat.sub_diag, skipn_all. reflexivity. Qed.
Lemma skipn_skipn {A} x y (l : list A) : skipn x (skipn y l) = skipn (y + x) l.
Proof. revert l; induction y as [|y IH]; intros l; [reflexivity|]. destruct l as [|h l]; [now rewrite !skipn_nil|]. cbn. apply IH. Qed.
Lemma concat_length_const {A} (ls : list (list A)) s : Forall (fun e => length e = s) ls -> length (concat ls) = (length ls * s)%nat.
Proof. induction 1 as [|x r Hx Hr IH]; [reflexivity|]. cbn [concat length]. rewrite app_length, IH, Hx. lia. Qed.

Lemma chunks_concat s (ls : list (list B)) : Forall (fun e => length e = s) ls -> chunks s (length ls) (concat ls) = ls.
Proof.
  induction 1 as [|x r Hx Hr IH]; [reflexivity|]. cbn [concat length chunks]. rewrite firstn_app_len, skipn_app_len by assumption. now rewrite IH.
Qed.
Lemma view_concat s (ls : list (list B)) : (0 < s)%nat -> Forall (fun e => length e = s) ls ->
  view s (concat ls) = Ok {| a_item := s; a_data := ls |}.
Proof.
  intros Hs H. unfold view. rewrite (concat_length_const ls s H).
  destruct (Nat.eqb_spec s 0); [lia|]. rewrite Nat.mod_mul by lia. cbn [Nat.eqb]. rewrite Nat.div_mul by lia. now rewrite chunks_concat.
Qed.

(** Cutting an element at the cumulative sizes. *)
Fixpoint cut (sizes : list nat) (e : list B) : list (list B) :=
  match sizes with [] => [] | s :: r => firstn s e :: cut r (skipn s e) end.
Lemma cut_length sizes : forall e : list B, length (cut sizes e) = length sizes.
Proof. induction sizes as [|s r IH]; intros e; cbn; auto. Qed.
Lemma cut_sizes sizes : forall e : list B, length e = nsum sizes -> map (@length B) (cut sizes e) = sizes.
Proof.
  induction sizes as [|s r IH]; intros e He; [reflexivity|]. cbn in *. f_equal; [rewrite firstn_length; lia|].
  apply IH. rewrite skipn_length. unfold nsum. lia.
Qed.
Lemma cut_concat sizes : forall e : list B, length e = nsum sizes -> concat (cut sizes e) = e.
Proof.
  induction sizes as [|s r IH]; intros e He; cbn in *; [destruct e; [reflexivity|discriminate]|].
  rewrite IH; [apply firstn_skipn|]. rewrite skipn_length. unfold nsum. lia.
Qed.
Lemma concat_cut (es : list (list B)) : cut (map (@length B) es) (concat es) = es.
Proof.
  induction es as [|x r IH]; [reflexivity|]. cbn. rewrite firstn_app_len, skipn_app_len by reflexivity. now rewrite IH.
Qed.

Lemma mapM_ok {X Y} (f : X -> res Y) (g : X -> Y) l : (forall x, In x l -> f x = Ok (g x)) -> mapM f l = Ok (map g l).
Proof.
  induction l as [|x r IH]; intros H; [reflexivity|]. cbn [mapM map]. rewrite (H x) by now left. cbn [bind].
  rewrite IH by (intros; apply H; now right). reflexivity.
Qed.

Lemma nth_cut_slice sizes : forall o (e : list B) k, (k < length sizes)%nat ->
  forall p, nth k (offsets_from o sizes) p = ((o + nsum (firstn k sizes))%nat, (o + nsum (firstn k sizes) + nth k sizes 0%nat)%nat, nth k sizes 0%nat).
Proof.
  induction sizes as [|s r IH]; intros o e k Hk p; [simpl in Hk; lia|]. destruct k as [|k]; cbn [offsets_from nth firstn nsum fold_right].
  - rewrite Nat.add_0_r. reflexivity.
  - rewrite (IH (o + s)%nat e k) by (simpl in Hk; lia). unfold nsum. rewrite !Nat.add_assoc. reflexivity.
Qed.

(** The k-th result of separate is made of the k-th piece of every element. *)
Lemma separate_aux (d : list (list B)) : forall sizes o, Forall (fun s => (0 < s)%nat) sizes ->
  (forall e, In e d -> length e = (o + nsum sizes)%nat) ->
  mapM (fun p => let '(lo, hi, s) := p in view s (concat (map (slice lo hi) d))) (offsets_from o sizes)
  = Ok (map (fun k => {| a_item := nth k sizes 0%nat; a_data := map (fun e => nth k (cut sizes (skipn o e)) []) d |}) (seq 0 (length sizes))).
Proof.
  induction sizes as [|s r IH]; intros o Hs Hd; [reflexivity|]. cbn [offsets_from mapM].
  inversion Hs as [|? ? Hs1 Hs2]; subst.
  assert (E : view s (concat (map (slice o (o + s)) d)) = Ok {| a_item := s; a_data := map (slice o (o + s)) d |}).
  { apply view_concat; [assumption|]. apply Forall_forall. intros e He. apply in_map_iff in He as (e' & <- & He').
    unfold slice. rewrite firstn_length, skipn_length. rewrite (Hd e' He'). cbn. lia. }
  rewrite E. cbn [bind]. rewrite (IH (o + s)%nat Hs2) by (intros e He; rewrite (Hd e He); cbn; unfold nsum; lia).
  cbn [bind length seq map]. f_equal. f_equal.
  - cbn [nth cut]. f_equal. apply map_ext. intros e. unfold slice. f_equal. lia.
  - rewrite <- seq_shift, map_map. apply map_ext. intros k. cbn [nth]. f_equal. apply map_ext. intros e. cbn [cut nth].
    now rewrite skipn_skipn.
Qed.
Lemma separate_ok a sizes : a_data a <> [] -> Forall (fun s => (0 < s)%nat) sizes -> wf_arr a -> a_item a = nsum sizes ->
  separate_struct_array a sizes = Ok (map (fun k => {| a_item := nth k sizes 0%nat; a_data := map (fun e => nth k (cut sizes e) []) (a_data a) |}) (seq 0 (length sizes))).
Proof.
  intros Hne Hs Hw Hi. unfold separate_struct_array. destruct (a_data a) as [|e0 d0] eqn:Ed; [congruence|]. rewrite <- Ed in *.
  rewrite (separate_aux (a_data a) sizes 0 Hs); [reflexivity|]. intros e He. cbn. unfold wf_arr in Hw. rewrite Forall_forall in Hw. rewrite <- Hi. auto.
Qed.
Lemma separate_empty a sizes : a_data a = [] -> separate_struct_array a sizes = Err ValueError.
Proof. intros H. unfold separate_struct_array. now rewrite H. Qed.

(** Joining arrays of the same length. *)
Definition same_len (n : nat) (arrays : list (arr B)) : Prop := Forall (fun a => arr_len a = n) arrays.
Definition joined (n : nat) (arrays : list (arr B)) : arr B :=
  {| a_item := nsum (map a_item arrays);
     a_data := map (fun i => concat (map (fun a => nth i (a_data a) []) arrays)) (seq 0 n) |}.
Lemma join_ok n arrays : arrays <> [] -> same_len n arrays -> join_struct_arrays arrays = Ok (joined n arrays).
Proof.
  intros Hne H. unfold join_struct_arrays. destruct arrays as [|a0 r]; [congruence|].
  assert (E : length (a_data a0) = n) by (inversion H; assumption). rewrite E.
  assert (F : forallb (fun a => Nat.eqb (length (a_data a)) n) (a0 :: r) = true).
  { apply forallb_forall. intros a Ha. unfold same_len in H. rewrite Forall_forall in H. apply Nat.eqb_eq. now apply H. }
  rewrite F. reflexivity.
Qed.
Lemma join_mismatch a0 r : (exists a, In a r /\ arr_len a <> arr_len a0) -> join_struct_arrays (a0 :: r) = Err ValueError.
Proof.
  intros (a & Ha & Hn). unfold join_struct_arrays.
  destruct (forallb _ (a0 :: r)) eqn:F; [|reflexivity]. exfalso. rewrite forallb_forall in F. specialize (F a ltac:(now right)).
  apply Nat.eqb_eq in F. contradiction.
Qed.

Lemma wf_nth a i : wf_arr a -> (i < arr_len a)%nat -> length (nth i (a_data a) []) = a_item a.
Proof. intros H Hi. unfold wf_arr in H. rewrite Forall_forall in H. apply H, nth_In, Hi. Qed.

Lemma row_lengths n arrays i : same_len n arrays -> Forall wf_arr arrays -> (i < n)%nat ->
  map (@length B) (map (fun a => nth i (a_data a) []) arrays) = map a_item arrays.
Proof.
  intros Hl Hw Hi. rewrite map_map. apply map_ext_in. intros a Ha. unfold same_len in Hl. rewrite Forall_forall in Hl, Hw.
  apply wf_nth; [now apply Hw|]. now rewrite (Hl a Ha).
Qed.
Lemma nsum_concat (es : list (list B)) : length (concat es) = nsum (map (@length B) es).
Proof. induction es as [|x r IH]; [reflexivity|]. cbn. now rewrite app_length, IH. Qed.
Lemma joined_wf n arrays : same_len n arrays -> Forall wf_arr arrays -> wf_arr (joined n arrays).
Proof.
  intros Hl Hw. unfold wf_arr, joined. cbn [a_data a_item]. apply Forall_forall. intros e He. apply in_map_iff in He as (i & <- & Hi).
  apply in_seq in Hi. rewrite nsum_concat, (row_lengths n) by (assumption || lia). reflexivity.
Qed.

Lemma map_nth_self {A} (l : list A) d : map (fun k => nth k l d) (seq 0 (length l)) = l.
Proof.
  induction l as [|x l IH]; [reflexivity|]. cbn [length seq map nth]. f_equal. rewrite <- seq_shift, map_map. exact IH.
Qed.

(** C43, first direction *)
Lemma join_separate n arrays : arrays <> [] -> (0 < n)%nat -> same_len n arrays -> Forall wf_arr arrays -> Forall (fun a => (0 < a_item a)%nat) arrays ->
  bind (join_struct_arrays arrays) (fun j => separate_struct_array j (map a_item arrays)) = Ok arrays.
Proof.
  intros Hne Hn Hl Hw Hp. rewrite (join_ok n) by assumption. cbn [bind]. rewrite separate_ok.
  - f_equal. rewrite map_length. transitivity (map (fun k => nth k arrays {| a_item := 0; a_data := [] |}) (seq 0 (length arrays))); [|apply map_nth_self].
    apply map_ext_in. intros k Hk. apply in_seq in Hk. set (d0 := {| a_item := 0%nat; a_data := [] |}).
    assert (Hin : In (nth k arrays d0) arrays) by (apply nth_In; lia).
    destruct (nth k arrays d0) as [it da] eqn:E. f_equal.
    + change 0%nat with (a_item d0). rewrite map_nth, E. reflexivity.
    + unfold joined. cbn [a_data]. rewrite map_map. unfold same_len in Hl. pose proof Hl as Hl'. rewrite Forall_forall in Hl'.
      specialize (Hl' _ Hin). unfold arr_len in Hl'. cbn in Hl'. transitivity (map (fun i => nth i da []) (seq 0 n)); [|rewrite <- Hl'; apply map_nth_self].
      apply map_ext_in. intros i Hi. apply in_seq in Hi. rewrite <- (row_lengths n arrays i) by (assumption || lia). rewrite concat_cut.
      rewrite (nth_indep _ [] ((fun a => nth i (a_data a) []) d0)) by (rewrite map_length; lia). rewrite (map_nth (fun a => nth i (a_data a) [])), E. reflexivity.
  - unfold joined. cbn [a_data]. destruct n; [lia|discriminate].
  - apply Forall_map. exact Hp.
  - now apply joined_wf.
  - reflexivity.
Qed.

(** C43, second direction *)
Lemma separate_join a sizes : sizes <> [] -> a_data a <> [] -> Forall (fun s => (0 < s)%nat) sizes -> wf_arr a -> a_item a = nsum sizes ->
  bind (separate_struct_array a sizes) join_struct_arrays = Ok a.
Proof.
  intros Hz Hne Hs Hw Hi. rewrite separate_ok by assumption. cbn [bind]. rewrite (join_ok (arr_len a)).
  - f_equal. destruct a as [it da]. cbn [a_item a_data] in *. unfold joined. f_equal.
    + rewrite map_map. cbn [a_item]. rewrite Hi. f_equal. apply map_nth_self.
    + unfold arr_len. cbn [a_data]. transitivity (map (fun i => nth i da []) (seq 0 (length da))); [|apply map_nth_self].
      apply map_ext_in. intros i Hi'. apply in_seq in Hi'. rewrite map_map. cbn [a_data].
      assert (Hlen : length (nth i da []) = nsum sizes) by (rewrite <- Hi; unfold wf_arr in Hw; rewrite Forall_forall in Hw; apply Hw, nth_In; simpl; lia).
      transitivity (concat (cut sizes (nth i da []))); [f_equal|now apply cut_concat].
      transitivity (map (fun k => nth k (cut sizes (nth i da [])) []) (seq 0 (length sizes))).
      * apply map_ext_in. intros k Hk. rewrite (nth_indep _ [] ((fun e => nth k (cut sizes e) []) [])) by (rewrite map_length; lia).
        apply (map_nth (fun e => nth k (cut sizes e) [])).
      * rewrite <- (cut_length sizes (nth i da [])). apply map_nth_self.
  - destruct sizes; [congruence|discriminate].
  - unfold same_len. apply Forall_forall. intros x Hx. apply in_map_iff in Hx as (k & <- & _). unfold arr_len. cbn [a_data]. now rewrite map_length.
Qed.

(** ** Product domains *)
Lemma as_domains_ok ds : as_domains (map ADom ds) = @Ok (list (domain B)) ds.
Proof. induction ds as [|d ds IH]; [reflexivity|]. cbn. now rewrite IH. Qed.

Lemma product_new_ok ds : ds <> [] -> product_new (map ADom ds) = Ok (ds, joined 1 (map (@example_array B) ds)).
Proof.
  intros H. unfold product_new. rewrite as_domains_ok. cbn [bind]. rewrite (join_ok 1).
  - reflexivity.
  - destruct ds; [congruence|discriminate].
  - unfold same_len. rewrite Forall_map. apply Forall_forall. reflexivity.
Qed.
Lemma product_new_list (ds : list (domain B)) : product_new [AList ds] = Err AttributeError.
Proof. reflexivity. Qed.

Lemma Forall2_len {A C} (P : A -> C -> Prop) l m : Forall2 P l m -> length l = length m.
Proof. induction 1; cbn; congruence. Qed.
Lemma cart_In {A} (ls : list (list A)) t : In t (cart ls) <-> Forall2 (fun x l => In x l) t ls.
Proof.
  revert t; induction ls as [|l ls IH]; intros t; cbn [cart].
  - cbn. split; [intros [<-|[]]; constructor|]. intros H. inversion H. now left.
  - rewrite in_flat_map. split.
    + intros (x & Hx & Ht). apply in_map_iff in Ht as (t' & <- & Ht'). constructor; [assumption|]. now apply IH.
    + intros H. inversion H as [|x ? t' ? Hx Ht']; subst. exists x. split; [assumption|]. apply in_map. now apply IH.
Qed.
Lemma NoDup_app' {A} (u v : list A) : NoDup u -> NoDup v -> (forall z, In z u -> ~ In z v) -> NoDup (u ++ v).
Proof.
  induction 1 as [|z u Hz Hu IHu]; intros Hv Hd; [assumption|]. cbn. constructor.
  - rewrite in_app_iff. intros [H|H]; [contradiction|]. apply (Hd z); [now left|assumption].
  - apply IHu; [assumption|]. intros y Hy. apply Hd. now right.
Qed.
Lemma cart_NoDup {A} (ls : list (list A)) : Forall (@NoDup A) ls -> NoDup (cart ls).
Proof.
  induction 1 as [|l ls Hl Hls IH]; cbn; [repeat constructor; simpl; tauto|].
  induction Hl as [|x l Hx Hl IHl]; [constructor|]. cbn. apply NoDup_app'.
  - apply FinFun.Injective_map_NoDup; [intros p q E; now injection E|assumption].
  - assumption.
  - intros z Hz Hz'. apply in_map_iff in Hz as (t & <- & _). apply in_flat_map in Hz' as (y & Hy & Ht).
    apply in_map_iff in Ht as (t' & E & _). injection E as E _. subst. contradiction.
Qed.
Lemma cart_length {A} (ls : list (list A)) : Z.of_nat (length (cart ls)) = fold_right Z.mul 1%Z (map (fun l => Z.of_nat (length l)) ls).
Proof.
  induction ls as [|l ls IH]; [reflexivity|]. cbn [cart map fold_right]. rewrite <- IH.
  induction l as [|x l IHl]; [reflexivity|]. cbn [flat_map]. rewrite app_length, map_length, Nat2Z.inj_add, IHl. cbn [length]. lia.
Qed.
Lemma fold_left_mul l : forall z, fold_left Z.mul l z = (z * fold_right Z.mul 1%Z l)%Z.
Proof. induction l as [|x l IH]; intros z; cbn; [lia|]. rewrite IH. ring. Qed.

(** The bytes of a tuple of factor values. *)
Lemma tuple_sizes (ds : list (domain B)) t : Forall good_factor ds -> Forall2 (fun x l => In x l) t (map d_values ds) -> map (@length B) t = map d_item ds.
Proof.
  intros H. revert t. induction H as [|d ds Hd Hds IH]; intros t Ht; inversion Ht as [|x ? t' ? Hx Ht']; subst; [reflexivity|].
  cbn. f_equal; [apply Hd; assumption|now apply IH].
Qed.
Lemma tuple_inj (t t' : list (list B)) : map (@length B) t = map (@length B) t' -> concat t = concat t' -> t = t'.
Proof. intros H E. rewrite <- (concat_cut t), <- (concat_cut t'). now rewrite H, E. Qed.

Lemma join_tuple (ds : list (domain B)) (t : list (list B)) : ds <> [] -> length t = length ds ->
  join_struct_arrays (map2 (fun d v => {| a_item := @d_item B d; a_data := [v] |}) ds t) = Ok {| a_item := nsum (map d_item ds); a_data := [concat t] |}.
Proof.
  intros Hne Hl. rewrite (join_ok 1).
  - f_equal. unfold joined. cbn [seq map]. f_equal.
    + f_equal. revert t Hl. induction ds as [|d ds IH]; intros [|v t] Hl; try discriminate; [reflexivity|]. cbn. f_equal.
      destruct ds as [|d' ds]; [destruct t; [reflexivity|discriminate]|]. apply IH; [discriminate|now injection Hl].
    + f_equal. f_equal. clear Hne. revert t Hl. induction ds as [|d ds IH]; intros [|v t] Hl; try discriminate; [reflexivity|]. cbn. f_equal.
      apply IH. now injection Hl.
  - destruct ds; [congruence|]. destruct t; [discriminate|]. discriminate.
  - clear. revert t. unfold same_len. induction ds as [|d ds IH]; intros [|v t]; constructor; [reflexivity|apply IH].
Qed.

Lemma prod_values_ok (ds : list (domain B)) : ds <> [] -> Forall good_factor ds -> (forall d, In d ds -> d_values d <> []) ->
  prod_values ds = Ok (map (@concat B) (cart (map d_values ds))).
Proof.
  intros Hne Hg Hv. unfold prod_values.
  rewrite (mapM_ok _ (fun t => {| a_item := nsum (map d_item ds); a_data := [concat t] |})).
  2:{ intros t Ht. apply join_tuple; [assumption|]. apply cart_In in Ht. apply Forall2_len in Ht. now rewrite map_length in Ht. }
  cbn [bind]. set (c := cart (map d_values ds)).
  assert (Hc : c <> []).
  { unfold c. clear - Hv. induction ds as [|d ds IH]; [discriminate|]. cbn [map cart]. specialize (IH (fun x Hx => Hv x (or_intror Hx))).
    destruct (d_values d) as [|v vs] eqn:E; [exfalso; apply (Hv d); [now left|assumption]|]. cbn. destruct (cart _); [congruence|discriminate]. }
  destruct c as [|t0 c0]; [congruence|]. cbn [map]. f_equal. cbn [a_data concat app]. f_equal. clear. induction c0 as [|t c IH]; [reflexivity|]. cbn. now rewrite IH.
Qed.
Lemma prod_values_empty (ds : list (domain B)) d : In d ds -> d_values d = [] -> prod_values ds = Err (A := list (list B)) ValueError.
Proof.
  intros Hd Hv. unfold prod_values. assert (E : cart (map d_values ds) = []).
  { induction ds as [|d' ds IH]; [destruct Hd|]. cbn [map cart]. destruct Hd as [->|Hd].
    - now rewrite Hv.
    - rewrite (IH Hd). clear. induction (d_values d') as [|v l IH]; [reflexivity|]. exact IH. }
  now rewrite E.
Qed.

Lemma in_product_tuple (ls : list (list (list B))) p : in_product ls p <-> exists t, Forall2 (fun x l => In x l) t ls /\ p = concat t.
Proof.
  split.
  - induction 1 as [|x p l ls Hx Hp IH]; [exists []; split; [constructor|reflexivity]|]. destruct IH as (t & Ht & ->).
    exists (x :: t). split; [now constructor|reflexivity].
  - intros (t & Ht & ->). induction Ht; [constructor|]. cbn. now constructor.
Qed.

Lemma prod_values_spec (ds : list (domain B)) vals : ds <> [] -> Forall good_factor ds -> (forall d, In d ds -> d_values d <> []) -> prod_values ds = Ok vals ->
  NoDup vals /\ (forall p, In p vals <-> in_product (map d_values ds) p) /\ prod_n_members ds = Some (Z.of_nat (length vals)).
Proof.
  intros Hne Hg Hv E. rewrite prod_values_ok in E by assumption. injection E as <-. split; [|split].
  - apply NoDup_map_in; [|apply cart_NoDup; rewrite Forall_map; eapply Forall_impl; [|exact Hg]; intros d Hd; apply Hd].
    intros x y Hx Hy. apply tuple_inj. apply cart_In in Hx, Hy. rewrite (tuple_sizes ds x), (tuple_sizes ds y) by assumption. reflexivity.
  - intros p. rewrite in_product_tuple, in_map_iff. split.
    + intros (t & <- & Ht). exists t. split; [now apply cart_In|reflexivity].
    + intros (t & Ht & ->). exists t. split; [reflexivity|now apply cart_In].
  - unfold prod_n_members.
    assert (F : prod_finite ds = true).
    { apply forallb_forall. intros d Hd. rewrite Forall_forall in Hg. apply (Hg d Hd). }
    rewrite F. f_equal. rewrite fold_left_mul, map_length, cart_length, map_map, Z.mul_1_l. f_equal. apply map_ext_in. intros d Hd.
    rewrite Forall_forall in Hg. apply (Hg d Hd).
Qed.

(** Membership *)
Lemma forallb_map2 {X Y} (f : X -> Y -> bool) l m : length l = length m ->
  (forallb (fun p => p) (map2 f l m) = true <-> forall k dx dy, (k < length l)%nat -> f (nth k l dx) (nth k m dy) = true).
Proof.
  revert m; induction l as [|x l IH]; intros [|y m] H; try discriminate; cbn [map2 forallb length].
  - split; [intros _ k dx dy Hk; lia|reflexivity].
  - rewrite andb_true_iff, IH by now injection H. split.
    + intros [H1 H2] [|k] dx dy Hk; [exact H1|]. apply H2. lia.
    + intros Hall. split; [apply (Hall 0%nat x y); lia|]. intros k dx dy Hk. apply (Hall (S k) dx dy). lia.
Qed.

Lemma prod_in_domain_ok (ds : list (domain B)) (in1 : nat -> list B -> bool) points : Forall (fun d => (0 < d_item d)%nat) ds ->
  (forall k d0, (k < length ds)%nat -> forall a, d_in (nth k ds d0) a = forallb (in1 k) (a_data a)) ->
  a_data points <> [] -> wf_arr points -> a_item points = nsum (map d_item ds) ->
  exists b, prod_in_domain ds points = Ok b /\
    (b = true <-> forall e, In e (a_data points) -> exists t, e = concat t /\ map (@length B) t = map d_item ds /\
       forall k, (k < length ds)%nat -> in1 k (nth k t []) = true).
Proof.
  intros Hp Hin Hne Hw Hi. unfold prod_in_domain. rewrite separate_ok.
  2: assumption. 2: now rewrite Forall_map. 2: assumption. 2: assumption.
  cbn [bind]. eexists. split; [reflexivity|]. rewrite map_length. set (sizes := map d_item ds) in *.
  set (f := fun k : nat => {| a_item := nth k sizes 0%nat; a_data := map (fun e => nth k (cut sizes e) []) (a_data points) |}).
  rewrite forallb_map2 by now rewrite map_length, seq_length.
  assert (Hcut : forall e, In e (a_data points) -> length e = nsum sizes).
  { intros e He. rewrite <- Hi. unfold wf_arr in Hw. rewrite Forall_forall in Hw. now apply Hw. }
  assert (Hf : forall k, (k < length ds)%nat -> forall dy, nth k (map f (seq 0 (length ds))) dy = f k).
  { intros k Hk dy. rewrite (nth_indep _ dy (f 0%nat)) by now rewrite map_length, seq_length. now rewrite map_nth, seq_nth. }
  split.
  - intros H e He. exists (cut sizes e). split; [symmetry; apply cut_concat; auto|]. split; [apply cut_sizes; auto|].
    intros k Hk. destruct ds as [|d0 ds0] eqn:Eds; [simpl in Hk; lia|]. rewrite <- Eds in *.
    specialize (H k d0 (f 0%nat) Hk). rewrite Hf, Hin in H by assumption. rewrite forallb_forall in H. apply H. unfold f. cbn [a_data].
    apply in_map_iff. now exists e.
  - intros H k dx dy Hk. rewrite Hf, Hin by assumption. apply forallb_forall. intros x Hx. unfold f in Hx. cbn [a_data] in Hx.
    apply in_map_iff in Hx as (e & <- & He). destruct (H e He) as (t & -> & Ht & Hall).
    rewrite <- Ht, concat_cut. now apply Hall.
Qed.

(** Conversions *)
Lemma nth_error_cut1 s (e : list B) : length e = s -> cut [s] e = [e].
Proof. intros <-. cbn. now rewrite firstn_all. Qed.
Lemma mytype_ok (ds : list (domain B)) a : (0 < nsum (map d_item ds))%nat -> a_data a <> [] -> wf_arr a -> a_item a = nsum (map d_item ds) -> mytype ds a = Ok a.
Proof.
  intros Hp Hne Hw Hi. unfold mytype, separate_single. destruct (Nat.eqb_spec (length (a_data a) * nsum (map d_item ds)) 0) as [E|E].
  - exfalso. destruct (a_data a) as [|x l]; [congruence|]. cbn [length] in E. nia.
  - rewrite Hi, Nat.div_same by lia. cbn [repeat]. rewrite separate_ok; [|assumption|repeat constructor; assumption|assumption|cbn; unfold nsum in *; lia].
    cbn [bind length seq map nth]. f_equal. destruct a as [it da]. cbn [a_item a_data] in *. subst it. f_equal.
    transitivity (map (fun e => e) da); [|apply map_id]. apply map_ext_in. intros e He. cbn. rewrite firstn_all2; [reflexivity|].
    unfold wf_arr in Hw. cbn in Hw. rewrite Forall_forall in Hw. rewrite (Hw e He). lia.
Qed.
Lemma nsum_pos l : l <> [] -> Forall (fun s => (0 < s)%nat) l -> (0 < nsum l)%nat.
Proof. intros Hne H. destruct H as [|x l Hx Hl]; [congruence|]. cbn. lia. Qed.

Lemma to_from (ds : list (domain B)) a : ds <> [] -> Forall (fun d => (0 < d_item d)%nat) ds -> a_data a <> [] -> wf_arr a -> a_item a = nsum (map d_item ds) ->
  exists l, to_regular_arrays ds a = Ok l /\ length l = length ds /\ from_regular_arrays ds l = Ok a.
Proof.
  intros Hne Hp Hd Hw Hi.
  assert (Hpos : (0 < nsum (map d_item ds))%nat) by (apply nsum_pos; [destruct ds; [congruence|discriminate]|now rewrite Forall_map]).
  unfold to_regular_arrays. rewrite mytype_ok by assumption. cbn [bind].
  pose proof (separate_join a (map d_item ds) ltac:(destruct ds; [congruence|discriminate]) Hd ltac:(now rewrite Forall_map) Hw Hi) as E.
  assert (Hs : Forall (fun s => (0 < s)%nat) (map d_item ds)) by now rewrite Forall_map.
  rewrite separate_ok in * by assumption. cbn [bind] in E. eexists. split; [reflexivity|]. rewrite map_length, seq_length, map_length. split; [reflexivity|].
  unfold from_regular_arrays.
  assert (G : forall (l : list (arr B)), length l = length ds -> map2 (fun _ x => x) ds l = l).
  { clear. induction ds as [|d ds IH]; intros [|x l] H; try discriminate; [reflexivity|]. cbn. f_equal. apply IH. now injection H. }
  rewrite G by (rewrite ?map_length, ?seq_length, ?map_length; reflexivity). rewrite ?map_length in E. rewrite ?map_length. rewrite E. cbn [bind]. now apply mytype_ok.
Qed.

Lemma from_to (ds : list (domain B)) n l : ds <> [] -> (0 < n)%nat -> same_len n l -> Forall wf_arr l -> map a_item l = map d_item ds -> Forall (fun d => (0 < d_item d)%nat) ds ->
  exists a, from_regular_arrays ds l = Ok a /\ arr_len a = n /\ to_regular_arrays ds a = Ok l.
Proof.
  intros Hne Hn Hl Hw Hi Hp.
  assert (Hlen : length l = length ds) by (rewrite <- (map_length a_item l), Hi; apply map_length).
  assert (Hpos : (0 < nsum (map d_item ds))%nat) by (apply nsum_pos; [destruct ds; [congruence|discriminate]|now rewrite Forall_map]).
  assert (Hlne : l <> []) by (destruct l; [destruct ds; [congruence|discriminate]|discriminate]).
  assert (G : forall (l : list (arr B)), length l = length ds -> map2 (fun _ x => x) ds l = l).
  { clear. induction ds as [|d ds IH]; intros [|x l] H; try discriminate; [reflexivity|]. cbn. f_equal. apply IH. now injection H. }
  assert (Hj : a_data (joined n l) <> []) by (unfold joined; cbn [a_data]; destruct n; [lia|discriminate]).
  assert (Hji : a_item (joined n l) = nsum (map d_item ds)) by (unfold joined; cbn [a_item]; now rewrite Hi).
  unfold from_regular_arrays. rewrite G by assumption. rewrite (join_ok n) by assumption. cbn [bind].
  exists (joined n l). rewrite mytype_ok by (assumption || now apply joined_wf). split; [reflexivity|]. split; [unfold arr_len, joined; cbn [a_data]; now rewrite map_length, seq_length|].
  unfold to_regular_arrays. rewrite mytype_ok by (assumption || now apply joined_wf). cbn [bind].
  pose proof (join_separate n l Hlne Hn Hl Hw) as E. rewrite (join_ok n) in E by assumption. cbn [bind] in E. rewrite <- Hi. apply E.
  apply Forall_forall. intros x Hx. assert (Hin : In (a_item x) (map d_item ds)) by (rewrite <- Hi; now apply in_map).
  apply in_map_iff in Hin as (d & <- & Hd). rewrite Forall_forall in Hp. now apply Hp.
Qed.
End Bytes.
