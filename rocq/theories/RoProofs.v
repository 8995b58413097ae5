(** Proofs for the read-out properties. *)
From Verif Require Import Base RList Ext Sums SmcModel PartModel LinProofs RoModel RoSpec.

(** ** Distances *)
Lemma dist_value d l Q q i j : (forall k, (k < d)%nat -> 0 <= nth k Q 0) ->
  rescaled_distance d (Updater l Q) q i j = wdist d (fun k => nth k Q 0) (nth i l []) (nth j (side_locs q) []).
Proof.
  intro HQ. unfold rescaled_distance, wdist. f_equal. rewrite Sum_rsum. f_equal. apply map_ext_in. intros k Hk. apply in_seq in Hk.
  cbn [side_Q side_locs]. set (x := nth k (nth i l []) 0 - nth k (nth j (side_locs q) []) 0).
  replace (sqrt (nth k Q 0) * x * (sqrt (nth k Q 0) * x)) with (sqrt (nth k Q 0) * sqrt (nth k Q 0) * (x * x)) by ring.
  rewrite sqrt_sqrt by (apply HQ; lia). reflexivity.
Qed.
Lemma dist_noupd d p q i j : (forall l Q, p <> Updater l Q) ->
  rescaled_distance d p q i j = wdist d (fun _ => 1) (nth i (side_locs p) []) (nth j (side_locs q) []).
Proof.
  intro H. unfold rescaled_distance, wdist. f_equal. rewrite Sum_rsum. f_equal. apply map_ext_in. intros k Hk.
  destruct p as [l|l|l Q]; [| |exfalso; now apply (H l Q)]; cbn [side_Q]; rewrite sqrt_1; ring.
Qed.
Lemma wdist_sym d Q x y : wdist d Q x y = wdist d Q y x.
Proof. unfold wdist. f_equal. apply Sum_ext. intros; ring. Qed.
Lemma Sum_zero_all n f : (forall i, (i < n)%nat -> 0 <= f i) -> Sum n f = 0 -> forall i, (i < n)%nat -> f i = 0.
Proof. intros H H0 i Hi. pose proof (Sum_ge_term n f i Hi H). specialize (H i Hi). lra. Qed.
Lemma wdist_zero d Q x y : (forall k, (k < d)%nat -> 0 < Q k) ->
  (wdist d Q x y = 0 <-> forall k, (k < d)%nat -> nth k x 0 = nth k y 0).
Proof.
  intro HQ. unfold wdist.
  assert (Hn : forall k, (k < d)%nat -> 0 <= Q k * ((nth k x 0 - nth k y 0) * (nth k x 0 - nth k y 0))).
  { intros k Hk. apply Rmult_le_pos; [left; now apply HQ|apply (Rle_0_sqr (nth k x 0 - nth k y 0))]. }
  split; intro H.
  - apply sqrt_eq_0 in H; [|now apply Sum_nonneg]. intros k Hk.
    pose proof (Sum_zero_all d _ Hn H k Hk) as E. cbv beta in E. apply Rmult_integral in E. specialize (HQ k Hk). destruct E as [E|E]; [lra|].
    apply Rmult_integral in E. lra.
  - rewrite Sum_zero; [apply sqrt_0|]. intros k Hk. rewrite H by assumption. ring.
Qed.
Lemma wdist_triangle d Q x y z : (forall k, (k < d)%nat -> 0 <= Q k) -> wdist d Q x z <= wdist d Q x y + wdist d Q y z.
Proof.
  intro HQ. unfold wdist. set (a := fun k => nth k x 0 - nth k y 0). set (b := fun k => nth k y 0 - nth k z 0).
  set (A2 := Sum d (fun k => Q k * (a k * a k))). set (B2 := Sum d (fun k => Q k * (b k * b k))). set (AB := Sum d (fun k => Q k * (a k * b k))).
  replace (Sum d (fun k => Q k * ((nth k x 0 - nth k z 0) * (nth k x 0 - nth k z 0)))) with (A2 + 2 * AB + B2).
  2:{ unfold A2, AB, B2. rewrite <- Sum_scal, <- !Sum_plus. apply Sum_ext. intros k Hk. unfold a, b. ring. }
  change (sqrt (A2 + 2 * AB + B2) <= sqrt A2 + sqrt B2).
  assert (HA : 0 <= A2) by (apply Sum_nonneg; intros; apply Rmult_le_pos; [now apply HQ|apply (Rle_0_sqr (a i))]).
  assert (HB : 0 <= B2) by (apply Sum_nonneg; intros; apply Rmult_le_pos; [now apply HQ|apply (Rle_0_sqr (b i))]).
  assert (HC : AB * AB <= A2 * B2).
  { unfold AB, A2, B2. rewrite !Sum_rsum. pose proof (cauchy_schwarz Q a b (seq 0 d)) as H.
    assert (H0 : forall k, In k (seq 0 d) -> 0 <= Q k) by (intros k Hk; apply in_seq in Hk; apply HQ; lia). specialize (H H0).
    exact H. }
  assert (HAB : AB <= sqrt A2 * sqrt B2).
  { rewrite <- sqrt_mult by assumption. apply Rle_trans with (Rabs AB); [apply Rle_abs|]. rewrite <- sqrt_Rsqr_abs. apply sqrt_le_1_alt. exact HC. }
  pose proof (sqrt_pos A2). pose proof (sqrt_pos B2).
  apply Rsqr_incr_0_var; [|lra]. unfold Rsqr. rewrite sqrt_sqrt.
  - pose proof (sqrt_sqrt A2 HA). pose proof (sqrt_sqrt B2 HB). nra.
  - assert (0 <= Sum d (fun k => Q k * ((a k + b k) * (a k + b k)))) by (apply Sum_nonneg; intros; apply Rmult_le_pos; [now apply HQ|apply (Rle_0_sqr (a i + b i))]).
    replace (A2 + 2 * AB + B2) with (Sum d (fun k => Q k * ((a k + b k) * (a k + b k)))); [assumption|].
    unfold A2, AB, B2. rewrite <- Sum_scal, <- !Sum_plus. apply Sum_ext. intros; ring.
Qed.

(** ** Interpolation *)
Definition mono (xs : list R) : Prop := forall a b, (a <= b < length xs)%nat -> nth a xs 0 <= nth b xs 0.

Lemma ss_le xs x : (searchsorted_right xs x <= length xs)%nat.
Proof. induction xs as [|y xs IH]; cbn; [lia|]. destruct (Rltb x y); lia. Qed.
Lemma ss_below xs x k : (k < searchsorted_right xs x)%nat -> nth k xs 0 <= x.
Proof.
  revert k; induction xs as [|y xs IH]; intros k Hk; cbn in *; [lia|]. destruct (Rltb_spec x y); [lia|]. destruct k; [lra|]. apply IH. lia.
Qed.
Lemma ss_above xs x : (searchsorted_right xs x < length xs)%nat -> x < nth (searchsorted_right xs x) xs 0.
Proof. induction xs as [|y xs IH]; cbn; [lia|]. destruct (Rltb_spec x y); [auto|]. intro. apply IH. lia. Qed.

Lemma last_nth (xs : list R) : last xs 0 = nth (length xs - 1) xs 0.
Proof. induction xs as [|x xs IH]; [reflexivity|]. destruct xs as [|y xs]; [reflexivity|]. change (last (x :: y :: xs) 0) with (last (y :: xs) 0). rewrite IH. cbn [length]. replace (S (S (length xs)) - 1)%nat with (S (S (length xs) - 1)) by lia. reflexivity. Qed.
Lemma hd_nth (xs : list R) : hd 0 xs = nth 0 xs 0. Proof. destruct xs; reflexivity. Qed.

Section Interp.
  Variables (xs ys : list R).
  Hypothesis Hlen : length ys = length xs.
  Hypothesis Hne : (0 < length xs)%nat.
  Hypothesis Hx : mono xs.
  Hypothesis Hy : mono ys.
  Hypothesis Hy0 : 0 <= nth 0 ys 0.
  Let n := length xs.
  Let F := interp1d xs ys.

  Lemma interp_char x : hd 0 xs <= x <= last xs 0 -> exists j,
    j = (searchsorted_right xs x - 1)%nat /\ (j < n)%nat /\ nth j xs 0 <= x /\ nth j ys 0 <= F x /\
    (j = (n - 1)%nat -> F x = nth j ys 0) /\
    ((j < n - 1)%nat -> x < nth (S j) xs 0 /\ F x <= nth (S j) ys 0 /\
        F x = (nth (S j) ys 0 - nth j ys 0) / (nth (S j) xs 0 - nth j xs 0) * (x - nth j xs 0) + nth j ys 0).
  Proof.
    intros [H1 H2]. exists (searchsorted_right xs x - 1)%nat. split; [reflexivity|].
    set (m := searchsorted_right xs x). pose proof (ss_le xs x) as Hm. fold m n in Hm.
    assert (Hm1 : (0 < m)%nat).
    { destruct (Nat.eq_dec m 0) as [E|]; [|lia]. pose proof (ss_above xs x) as H. fold m in H. rewrite E in H. specialize (H Hne). rewrite hd_nth in H1. lra. }
    assert (Hj : (m - 1 < n)%nat) by lia. split; [assumption|].
    assert (Hb : nth (m - 1) xs 0 <= x) by (apply ss_below; fold m; lia). split; [assumption|].
    unfold F, interp1d. rewrite (Rltb_false x) by assumption. rewrite (Rltb_false _ x) by assumption. cbn [orb]. fold m n.
    destruct (Nat.eqb_spec (m - 1) (n - 1)) as [E|E]; [split; [lra|split; [reflexivity|lia]]|].
    assert (Hlt : (m - 1 < n - 1)%nat) by lia.
    assert (Ha : x < nth (S (m - 1)) xs 0). { replace (S (m - 1)) with m by lia. apply ss_above. fold m n. lia. }
    assert (Hys : nth (m - 1) ys 0 <= nth (S (m - 1)) ys 0) by (apply Hy; rewrite Hlen; fold n; lia).
    set (x0 := nth (m - 1) xs 0) in *. set (x1 := nth (S (m - 1)) xs 0) in *. set (y0 := nth (m - 1) ys 0) in *. set (y1 := nth (S (m - 1)) ys 0) in *.
    clearbody x0 x1 y0 y1.
    assert (Hs : 0 <= (y1 - y0) / (x1 - x0)) by (apply Rmult_le_pos; [lra|left; apply Rinv_0_lt_compat; lra]).
    split; [|split; [intro; lia|intros _; split; [assumption|split; [|reflexivity]]]].
    - assert (0 <= (y1 - y0) / (x1 - x0) * (x - x0)) by (apply Rmult_le_pos; lra). lra.
    - assert ((y1 - y0) / (x1 - x0) * (x - x0) <= (y1 - y0) / (x1 - x0) * (x1 - x0)) by (apply Rmult_le_compat_l; lra).
      replace ((y1 - y0) / (x1 - x0) * (x1 - x0)) with (y1 - y0) in H by (field; lra). lra.
  Qed.

  Lemma interp_nonneg x : x <= last xs 0 -> 0 <= F x.
  Proof.
    intro H. destruct (Rle_dec (hd 0 xs) x) as [Hh|Hh].
    - destruct (interp_char x (conj Hh H)) as (j & _ & Hj & _ & Hl & _).
      assert (nth 0 ys 0 <= nth j ys 0) by (apply Hy; rewrite Hlen; fold n; lia). lra.
    - unfold F, interp1d. rewrite Rltb_true by lra. cbn [orb]. lra.
  Qed.
  Lemma interp_mono x y : x <= y -> y <= last xs 0 -> F x <= F y.
  Proof.
    intros Hxy Hyl. destruct (Rle_dec (hd 0 xs) x) as [Hh|Hh].
    2:{ unfold F at 1, interp1d. rewrite Rltb_true by lra. cbn [orb]. now apply interp_nonneg. }
    destruct (interp_char x ltac:(lra)) as (j & Ej & Hj & Hjx & Hjl & Hje & Hju).
    destruct (interp_char y ltac:(lra)) as (k & Ek & Hk & Hky & Hkl & Hke & Hku).
    assert (Hjk : (j <= k)%nat).
    { destruct (le_lt_dec j k) as [|Hlt]; [assumption|exfalso]. assert (Hk1 : (k < n - 1)%nat) by lia. destruct (Hku Hk1) as (Ha & _).
      assert (nth (S k) xs 0 <= nth j xs 0) by (apply Hx; fold n; lia). lra. }
    destruct (Nat.eq_dec j k) as [E|Hne'].
    - subst k. rewrite <- E in *. destruct (Nat.eq_dec j (n - 1)) as [E1|E1]; [rewrite Hje, Hke by assumption; lra|].
      destruct (Hju ltac:(lia)) as (Ha & _ & ->). destruct (Hku ltac:(lia)) as (_ & _ & ->).
      assert (Hys : nth j ys 0 <= nth (S j) ys 0) by (apply Hy; rewrite Hlen; fold n; lia).
      assert (Hs : 0 <= (nth (S j) ys 0 - nth j ys 0) / (nth (S j) xs 0 - nth j xs 0)) by (apply Rmult_le_pos; [lra|left; apply Rinv_0_lt_compat; lra]).
      apply Rplus_le_compat_r. apply Rmult_le_compat_l; lra.
    - destruct (Hju ltac:(lia)) as (_ & Hu & _). assert (nth (S j) ys 0 <= nth k ys 0) by (apply Hy; rewrite Hlen; fold n; lia). lra.
  Qed.
  (** At a knot the interpolant is the ordinate of the last equal knot *)
  Lemma interp_knot x : (exists j, (j < n)%nat /\ nth j xs 0 = x) -> F x = nth (searchsorted_right xs x - 1) ys 0.
  Proof.
    intros (i & Hi & Ei).
    assert (H1 : hd 0 xs <= x) by (rewrite hd_nth, <- Ei; apply Hx; fold n; lia).
    assert (H2 : x <= last xs 0) by (rewrite last_nth, <- Ei; apply Hx; fold n; lia).
    destruct (interp_char x (conj H1 H2)) as (j & Ej & Hj & Hjx & Hjl & Hje & Hju). rewrite <- Ej.
    destruct (Nat.eq_dec j (n - 1)) as [E|E]; [now apply Hje|].
    destruct (Hju ltac:(lia)) as (Ha & _ & ->).
    assert (nth j xs 0 = x).
    { apply Rle_antisym; [assumption|]. rewrite <- Ei. apply Hx. fold n. split; [|assumption].
      destruct (le_lt_dec i j); [assumption|]. assert (nth (S j) xs 0 <= nth i xs 0) by (apply Hx; fold n; lia). lra. }
    rewrite H. ring.
  Qed.
End Interp.

(** ** Marginal *)
Lemma ss_app xs e x : x < e -> searchsorted_right (xs ++ [e]) x = searchsorted_right xs x.
Proof. intro H. induction xs as [|y xs IH]; cbn; [now rewrite Rltb_true|]. destruct (Rltb x y); [reflexivity|now rewrite IH]. Qed.
Lemma ss_all xs x : (forall y, In y xs -> y <= x) -> searchsorted_right xs x = length xs.
Proof. intro H. induction xs as [|y xs IH]; cbn; [reflexivity|]. rewrite Rltb_false by (apply H; now left). rewrite IH; [reflexivity|]. intros; apply H; now right. Qed.
Lemma ss_pos xs x y : In y xs -> y <= x -> (forall z, In z xs -> hd 0 xs <= z) -> (0 < searchsorted_right xs x)%nat.
Proof. intros Hy Hx Hh. destruct xs as [|z xs]; [contradiction|]. cbn. specialize (Hh y Hy). cbn in Hh. rewrite Rltb_false by lra. lia. Qed.
Lemma mono_tl y xs : mono (y :: xs) -> mono xs.
Proof. intros H a b Hab. apply (H (S a) (S b)). cbn. lia. Qed.
Lemma mono_hd y xs z : mono (y :: xs) -> In z xs -> y <= z.
Proof. intros H Hz. apply (In_nth _ _ 0) in Hz. destruct Hz as (k & Hk & <-). apply (H 0%nat (S k)). cbn. lia. Qed.
Lemma ss_mass (f g : nat -> R) z x : mono (map f z) ->
  rsum (firstn (searchsorted_right (map f z) x) (map g z)) = rsum (map (fun i => if Rleb (f i) x then g i else 0) z).
Proof.
  induction z as [|i z IH]; intro H; [reflexivity|]. cbn [map searchsorted_right]. destruct (Rltb_spec x (f i)) as [Hlt|Hge].
  - cbn [firstn]. rewrite rsum_cons, Rleb_false by lra.
    assert (E : map (fun i0 => if Rleb (f i0) x then g i0 else 0) z = map (fun _ => 0) z).
    { apply map_ext_in. intros k Hk. rewrite Rleb_false; [reflexivity|]. cbn [map] in H. pose proof (mono_hd _ _ (f k) H (in_map f z k Hk)). lra. }
    rewrite E. assert (rsum (map (fun _ : nat => 0) z) = 0) as ->; [|change (rsum []) with 0; lra].
    clear. induction z; [reflexivity|]. cbn [map]. rewrite rsum_cons. lra.
  - cbn [firstn]. rewrite !rsum_cons, Rleb_true by lra. rewrite IH; [reflexivity|]. cbn [map] in H. now apply mono_tl in H.
Qed.

Lemma fold_Rmin_le l : forall x, fold_left Rmin l x <= x /\ forall y, In y l -> fold_left Rmin l x <= y.
Proof.
  induction l as [|a l IH]; intro x; cbn; [split; [lra|tauto]|]. destruct (IH (Rmin x a)) as [H1 H2].
  pose proof (Rmin_l x a). pose proof (Rmin_r x a). split; [lra|]. intros y [->|Hy]; [lra|auto].
Qed.
Lemma fold_Rmin_in l : forall x, fold_left Rmin l x = x \/ In (fold_left Rmin l x) l.
Proof.
  induction l as [|a l IH]; intro x; cbn; [now left|]. destruct (IH (Rmin x a)) as [H|H]; [|now right; right].
  rewrite H. unfold Rmin. destruct (Rle_dec x a); [now left|right; now left].
Qed.
Lemma fold_Rmax_ge l : forall x, x <= fold_left Rmax l x /\ forall y, In y l -> y <= fold_left Rmax l x.
Proof.
  induction l as [|a l IH]; intro x; cbn; [split; [lra|tauto]|]. destruct (IH (Rmax x a)) as [H1 H2].
  pose proof (Rmax_l x a). pose proof (Rmax_r x a). split; [lra|]. intros y [->|Hy]; [lra|auto].
Qed.
Lemma fold_Rmax_in l : forall x, fold_left Rmax l x = x \/ In (fold_left Rmax l x) l.
Proof.
  induction l as [|a l IH]; intro x; cbn; [now left|]. destruct (IH (Rmax x a)) as [H|H]; [|now right; right].
  rewrite H. unfold Rmax. destruct (Rle_dec x a); [right; now left|now left].
Qed.
Lemma lmin1_ok l : l <> [] -> In (lmin1 l) l /\ forall y, In y l -> lmin1 l <= y.
Proof.
  destruct l as [|x l]; [congruence|]. intros _. cbn [lmin1]. destruct (fold_Rmin_le l x) as [H1 H2]. split.
  - destruct (fold_Rmin_in l x) as [->|H]; [now left|now right].
  - intros y [<-|Hy]; auto.
Qed.
Lemma lmax1_ok l : l <> [] -> In (lmax1 l) l /\ forall y, In y l -> y <= lmax1 l.
Proof.
  destruct l as [|x l]; [congruence|]. intros _. cbn [lmax1]. destruct (fold_Rmax_ge l x) as [H1 H2]. split.
  - destruct (fold_Rmax_in l x) as [->|H]; [now left|now right].
  - intros y [<-|Hy]; auto.
Qed.

Lemma linspace_nth a b n i : (i < n)%nat -> (2 <= n)%nat -> nth i (linspace a b n) 0 = a + INR i * ((b - a) / INR (n - 1)).
Proof.
  intros Hi Hn. unfold linspace. rewrite nth_indep with (d' := (fun i => if Nat.eqb n 1 then a else a + INR i * ((b - a) / INR (n - 1))) 0%nat) by (rewrite map_length, seq_length; assumption).
  rewrite (map_nth (fun i => if Nat.eqb n 1 then a else a + INR i * ((b - a) / INR (n - 1)))). rewrite seq_nth by assumption. destruct (Nat.eqb_spec n 1); [lia|reflexivity].
Qed.
Lemma linspace_length a b n : length (linspace a b n) = n.
Proof. unfold linspace. now rewrite map_length, seq_length. Qed.

(** gradient over a positive step, as plain numbers *)
Definition rgrad (f : list R) (h : R) (i : nat) : R :=
  let n := length f in
  if Nat.eqb i 0 then (nth 1 f 0 - nth 0 f 0) / h
  else if Nat.eqb i (n - 1) then (nth (n - 1) f 0 - nth (n - 2) f 0) / h
  else (nth (i + 1) f 0 - nth (i - 1) f 0) / (2 * h).
Lemma gradient_fin f h : h <> 0 -> gradient f h = map Fin (map (rgrad f h) (seq 0 (length f))).
Proof.
  intro Hh. unfold gradient. rewrite map_map. apply map_ext. intro i. unfold rgrad.
  destruct (Nat.eqb i 0); [|destruct (Nat.eqb i (length f - 1))]; rewrite xdiv_Fin by (try assumption; lra); reflexivity.
Qed.
Lemma trapz_sum n (h : R) (g : nat -> R) : Sum (S n) (fun i => h * (g i + g (S i)) / 2) = h * (g 0%nat + g (S n)) / 2 + Sum n (fun i => h * g (S i)).
Proof.
  induction n as [|n IH]; [rewrite Sum_S; cbn [Sum]; unfold Sum; cbn; lra|]. rewrite Sum_last, IH, (Sum_last n). lra.
Qed.
Lemma Sum_telescope2 n (f : nat -> R) : Sum n (fun i => (f (S (S i)) - f i) / 2) = (f (S n) + f n - f 1%nat - f 0%nat) / 2.
Proof. induction n as [|n IH]; [unfold Sum; cbn; lra|]. rewrite Sum_last, IH. lra. Qed.
Lemma trapz_grad f h : h <> 0 -> (2 <= length f)%nat ->
  trapz h (map (rgrad f h) (seq 0 (length f))) = nth (length f - 1) f 0 - nth 0 f 0.
Proof.
  intros Hh Hn. unfold trapz. rewrite map_length, seq_length.
  destruct (length f) as [|[|n]] eqn:E; [lia|lia|]. replace (S (S n) - 1)%nat with (S n) by lia.
  assert (Hg : forall i, (i < S (S n))%nat -> nth i (map (rgrad f h) (seq 0 (S (S n)))) 0 = rgrad f h i).
  { intros i Hi. rewrite nth_indep with (d' := rgrad f h 0%nat) by (rewrite map_length, seq_length; assumption). rewrite map_nth, seq_nth by assumption. reflexivity. }
  rewrite (Sum_ext _ _ (fun i => h * (rgrad f h i + rgrad f h (S i)) / 2)) by (intros i Hi; rewrite !Hg by lia; reflexivity).
  rewrite trapz_sum.
  rewrite (Sum_ext n (fun i => h * rgrad f h (S i)) (fun i => (nth (S (S i)) f 0 - nth i f 0) / 2)).
  2:{ intros i Hi. unfold rgrad. rewrite E. replace (S (S n) - 1)%nat with (S n) by lia. destruct (Nat.eqb_spec (S i) 0); [lia|]. destruct (Nat.eqb_spec (S i) (S n)); [lia|].
      replace (S i + 1)%nat with (S (S i)) by lia. replace (S i - 1)%nat with i by lia. field. assumption. }
  rewrite (Sum_telescope2 n (fun k => nth k f 0)).
  assert (E1 : rgrad f h (S n) = (nth (S n) f 0 - nth n f 0) / h).
  { unfold rgrad. rewrite E. replace (S (S n) - 1)%nat with (S n) by lia. destruct (Nat.eqb_spec (S n) 0); [lia|]. rewrite Nat.eqb_refl. replace (S (S n) - 2)%nat with n by lia. reflexivity. }
  rewrite E1. unfold rgrad at 1. cbn [Nat.eqb]. field. assumption.
Qed.

Section Marginal.
  Variables (w : list R) (l : list (list R)) (idx : nat) (s : list nat) (e : R).
  Let f i := nth idx (nth i l []) 0.
  Hypothesis Hw : prob_vector w.
  Hypothesis Hs : Permutation s (seq 0 (length w)).
  Hypothesis Hsort : mono (map f s).
  Hypothesis He : forall i, (i < length w)%nat -> f i <= e.
  Let xs := map f s ++ [e].
  Let ys := cumsum (map (fun i => nth i w 0) s) ++ [1].
  Definition Fm := interp1d xs ys.

  Lemma m_ns : length s = length w. Proof. apply Permutation_length in Hs. now rewrite seq_length in Hs. Qed.
  Lemma m_wnn i : 0 <= nth i w 0.
  Proof.
    destruct Hw as [H _]. destruct (le_lt_dec (length w) i); [rewrite nth_overflow by assumption; lra|]. rewrite Forall_forall in H. apply H. now apply nth_In.
  Qed.
  Lemma m_tot : rsum (map (fun i => nth i w 0) s) = 1.
  Proof.
    rewrite (rsum_perm _ (map (fun i => nth i w 0) (seq 0 (length w)))) by now apply Permutation_map.
    destruct Hw as [_ <-]. f_equal. clear. apply nth_ext with (d := 0) (d' := 0); [now rewrite map_length, seq_length|].
    intros i Hi. rewrite map_length, seq_length in Hi.
    rewrite nth_indep with (d' := (fun i => nth i w 0) 0%nat) by (rewrite map_length, seq_length; assumption).
    rewrite (map_nth (fun i => nth i w 0)), seq_nth by assumption. reflexivity.
  Qed.
  Lemma m_in i : In i s <-> (i < length w)%nat.
  Proof.
    split; intro H.
    - apply (Permutation_in _ Hs) in H. apply in_seq in H. lia.
    - apply Permutation_sym in Hs. apply (Permutation_in _ Hs). apply in_seq. lia.
  Qed.
  Lemma m_len : length ys = length xs.
  Proof. unfold xs, ys. rewrite !app_length, cumsum_length, !map_length. reflexivity. Qed.
  Lemma m_pos : (0 < length xs)%nat. Proof. unfold xs. rewrite app_length. cbn. lia. Qed.
  Lemma m_e y : In y (map f s) -> y <= e.
  Proof. intro H. apply in_map_iff in H. destruct H as (i & <- & Hi). apply He. now apply m_in. Qed.
  Lemma m_xs : mono xs.
  Proof.
    intros a b Hab. unfold xs in *. rewrite app_length in Hab. cbn [length] in Hab.
    destruct (le_lt_dec (length (map f s)) b) as [Hb|Hb].
    - rewrite (app_nth2 _ _ _ Hb). replace (b - length (map f s))%nat with 0%nat by lia. cbn [nth].
      destruct (le_lt_dec (length (map f s)) a) as [Ha|Ha].
      + rewrite (app_nth2 _ _ _ Ha). replace (a - length (map f s))%nat with 0%nat by lia. cbn. lra.
      + rewrite app_nth1 by assumption. apply m_e. now apply nth_In.
    - rewrite !app_nth1 by lia. apply Hsort. lia.
  Qed.
  Lemma m_cum_mono a b : (a <= b)%nat -> rsum (firstn a (map (fun i => nth i w 0) s)) <= rsum (firstn b (map (fun i => nth i w 0) s)).
  Proof. intro H. apply rsum_firstn_mono; [|assumption]. apply Forall_forall. intros x Hx. apply in_map_iff in Hx. destruct Hx as (i & <- & _). apply m_wnn. Qed.
  Lemma m_ynth k : nth k ys 0 = if Nat.ltb k (length w) then rsum (firstn (S k) (map (fun i => nth i w 0) s)) else if Nat.eqb k (length w) then 1 else 0.
  Proof.
    unfold ys. destruct (Nat.ltb_spec k (length w)).
    - rewrite app_nth1 by (rewrite cumsum_length, map_length, m_ns; assumption). apply cumsum_nth. now rewrite map_length, m_ns.
    - rewrite app_nth2 by (rewrite cumsum_length, map_length, m_ns; assumption). rewrite cumsum_length, map_length, m_ns.
      destruct (Nat.eqb_spec k (length w)) as [->|]; [rewrite Nat.sub_diag; reflexivity|]. destruct (k - length w)%nat as [|[|?]] eqn:E; [lia|reflexivity|reflexivity].
  Qed.
  Lemma m_le1 k : rsum (firstn k (map (fun i => nth i w 0) s)) <= 1.
  Proof.
    rewrite <- m_tot. rewrite <- (firstn_all (map (fun i => nth i w 0) s)) at 2. destruct (le_lt_dec k (length (map (fun i => nth i w 0) s))); [now apply m_cum_mono|].
    rewrite firstn_all2 by lia. rewrite firstn_all. lra.
  Qed.
  Lemma m_ys : mono ys.
  Proof.
    intros a b Hab. rewrite m_len in Hab. unfold xs in Hab. rewrite app_length, map_length, m_ns in Hab. cbn in Hab. rewrite !m_ynth.
    destruct (Nat.ltb_spec a (length w)), (Nat.ltb_spec b (length w)); try lia.
    - apply m_cum_mono. lia.
    - destruct (Nat.eqb_spec b (length w)); [|lia]. apply m_le1.
    - destruct (Nat.eqb_spec b (length w)), (Nat.eqb_spec a (length w)); try lia. lra.
  Qed.
  Lemma m_y0 : 0 <= nth 0 ys 0.
  Proof.
    rewrite m_ynth. destruct (Nat.ltb 0 (length w)); [|destruct (Nat.eqb 0 (length w)); lra].
    pose proof (m_cum_mono 0 1 ltac:(lia)) as H. change (rsum (firstn 0 _)) with 0 in H. exact H.
  Qed.
  Lemma m_last : last xs 0 = e. Proof. unfold xs. apply last_last. Qed.

  Lemma m_cdf x : cdf w l idx x = rsum (firstn (searchsorted_right (map f s) x) (map (fun i => nth i w 0) s)).
  Proof.
    rewrite (ss_mass f (fun i => nth i w 0) s x Hsort). unfold cdf. rewrite Sum_rsum. apply rsum_perm. apply Permutation_map. now apply Permutation_sym.
  Qed.
  Lemma Fm_mono x y : x <= y -> y <= e -> Fm x <= Fm y.
  Proof. intros H1 H2. apply (interp_mono xs ys m_len m_pos m_xs m_ys m_y0); [assumption|now rewrite m_last]. Qed.
  Lemma m_ne : (0 < length w)%nat.
  Proof. destruct Hw as [_ H]. destruct w; [unfold rsum in H; cbn in H; lra|cbn; lia]. Qed.
  Lemma m_hd : In (hd 0 xs) (map f s).
  Proof. pose proof m_ne. pose proof m_ns. unfold xs. destruct s as [|i s']; [cbn in *; lia|]. cbn. now left. Qed.
  Lemma m_hd_le y : In y (map f s) -> hd 0 xs <= y.
  Proof.
    intro H. assert (H' : In y xs) by (unfold xs; apply in_or_app; now left). apply (In_nth _ _ 0) in H'. destruct H' as (k & Hk & <-). rewrite hd_nth. apply m_xs. lia.
  Qed.
  Lemma m_hd_le' y : In y (map f s) -> hd 0 (map f s) <= y.
  Proof. intro H. pose proof (m_hd_le y H) as H'. unfold xs in H'. destruct (map f s); [contradiction|exact H']. Qed.
  Lemma Fm_zero x : (forall i, (i < length w)%nat -> x < f i) -> Fm x = 0.
  Proof.
    intro H. unfold Fm, interp1d. rewrite Rltb_true; [reflexivity|]. pose proof m_hd as Hh. apply in_map_iff in Hh. destruct Hh as (i & <- & Hi). apply H. now apply m_in.
  Qed.
  Lemma Fm_ge x : hd 0 xs <= x -> x <= e -> cdf w l idx x <= Fm x.
  Proof.
    intros H1 H2. destruct (interp_char xs ys m_len m_pos m_ys x) as (j & Ej & Hj & _ & Hl & _); [rewrite m_last; lra|].
    apply Rle_trans with (nth j ys 0); [|exact Hl]. rewrite m_cdf, m_ynth.
    destruct (Rlt_dec x e) as [Hlt|Hge].
    - unfold xs in Ej. rewrite ss_app in Ej by assumption. pose proof (ss_le (map f s) x) as Hm. rewrite map_length, m_ns in Hm.
      destruct (Nat.ltb_spec j (length w)).
      + apply m_cum_mono. lia.
      + pose proof m_ne. lia.
    - assert (Em : searchsorted_right xs x = length xs).
      { apply ss_all. intros y Hy. unfold xs in Hy. apply in_app_or in Hy. destruct Hy as [Hy|[<-|[]]]; [apply m_e in Hy; lra|lra]. }
      unfold xs in Em at 2. rewrite app_length, map_length, m_ns in Em. cbn in Em.
      destruct (Nat.ltb_spec j (length w)); [lia|]. destruct (Nat.eqb_spec j (length w)); [|lia]. apply m_le1.
  Qed.
  Lemma Fm_le1 x : x <= e -> Fm x <= 1.
  Proof.
    intro H. apply Rle_trans with (Fm e); [now apply Fm_mono; [|lra]|].
    assert (Hh : hd 0 xs <= e) by (rewrite <- m_last, hd_nth, last_nth; apply m_xs; pose proof m_pos; lia).
    destruct (interp_char xs ys m_len m_pos m_ys e) as (j & Ej & Hj & Hx & Hl & He1 & He2); [rewrite m_last; lra|].
    assert (Em : searchsorted_right xs e = length xs).
    { apply ss_all. intros y Hy. unfold xs in Hy. apply in_app_or in Hy. destruct Hy as [Hy|[<-|[]]]; [apply m_e in Hy; lra|lra]. }
    unfold Fm. rewrite He1 by lia. rewrite m_ynth. rewrite Ej, Em. unfold xs. rewrite app_length, map_length, m_ns. cbn [length].
    replace (length w + 1 - 1)%nat with (length w) by lia. rewrite Nat.ltb_irrefl, Nat.eqb_refl. lra.
  Qed.
  Lemma Fm_knot i : (i < length w)%nat -> Fm (f i) = cdf w l idx (f i).
  Proof.
    intro Hi. assert (Hin : In (f i) (map f s)) by (apply in_map; now apply m_in).
    pose proof (m_e _ Hin) as Hie. apply Rle_antisym; [|apply Fm_ge; [now apply m_hd_le|assumption]].
    unfold Fm. rewrite (interp_knot xs ys m_len m_pos m_xs m_ys).
    2:{ assert (H' : In (f i) xs) by (unfold xs; apply in_or_app; now left). apply (In_nth _ _ 0) in H'. destruct H' as (k & Hk & E). exists k. split; assumption. }
    rewrite m_cdf, m_ynth. destruct (Rlt_dec (f i) e) as [Hlt|Hge].
    - unfold xs. rewrite ss_app by assumption. set (m := searchsorted_right (map f s) (f i)).
      assert (Hm : (m <= length w)%nat) by (pose proof (ss_le (map f s) (f i)) as H; rewrite map_length, m_ns in H; exact H).
      assert (Hm1 : (0 < m)%nat).
      { unfold m. apply (ss_pos _ _ (f i)); [assumption|lra|]. intros y Hy. now apply m_hd_le'. }
      destruct (Nat.ltb_spec (m - 1) (length w)); [|lia]. replace (S (m - 1)) with m by lia. lra.
    - assert (Ha : searchsorted_right (map f s) (f i) = length (map f s)) by (apply ss_all; intros y Hy; apply m_e in Hy; lra).
      rewrite Ha. rewrite map_length, <- (map_length (fun i => nth i w 0) s), firstn_all, m_tot.
      destruct (Nat.ltb _ _); [apply m_le1|]. destruct (Nat.eqb _ _); lra.
  Qed.
  Lemma Fm_one x : (forall i, (i < length w)%nat -> f i <= x) -> x <= e -> Fm x = 1.
  Proof.
    intros H Hx. apply Rle_antisym; [now apply Fm_le1|].
    assert (Hc : cdf w l idx x = 1).
    { unfold cdf. destruct Hw as [_ <-]. rewrite (Sum_ext _ _ (fun i => nth i w 0)). 2:{ intros i Hi. rewrite Rleb_true; [reflexivity|]. now apply H. }
      rewrite Sum_rsum. f_equal. clear. apply nth_ext with (d := 0) (d' := 0); [now rewrite map_length, seq_length|].
      intros i Hi. rewrite map_length, seq_length in Hi.
      rewrite nth_indep with (d' := (fun i => nth i w 0) 0%nat) by (rewrite map_length, seq_length; assumption).
      rewrite (map_nth (fun i => nth i w 0)), seq_nth by assumption. reflexivity. }
    rewrite <- Hc. apply Fm_ge; [|assumption]. pose proof m_hd as Hh. apply in_map_iff in Hh. destruct Hh as (i & <- & Hi). apply H. now apply m_in.
  Qed.
End Marginal.
