(** Facts about sums and lists of reals. *)
From Verif Require Import Base.

Lemma eps_pos : 0 < eps.
Proof. unfold eps. apply Rinv_0_lt_compat, pow_lt; lra. Qed.

Lemma eps_small : eps < 1.
Proof.
  unfold eps. rewrite <- Rinv_1. apply Rinv_lt_contravar.
  - rewrite Rmult_1_l. apply pow_lt; lra.
  - apply Rlt_pow_R1; [lra|lia].
Qed.

Lemma rsum_nil : rsum [] = 0. Proof. reflexivity. Qed.
Lemma rsum_cons x l : rsum (x :: l) = x + rsum l. Proof. reflexivity. Qed.
Lemma rsum_app l m : rsum (l ++ m) = rsum l + rsum m.
Proof. induction l as [|x l IH]; simpl; [unfold rsum at 2; simpl; lra|]. rewrite !rsum_cons, IH; lra. Qed.

Lemma rprod_cons x l : rprod (x :: l) = x * rprod l. Proof. reflexivity. Qed.
Lemma rprod_app l m : rprod (l ++ m) = rprod l * rprod m.
Proof. induction l as [|x l IH]; simpl; [unfold rprod at 2; simpl; lra|]. rewrite !rprod_cons, IH; lra. Qed.

Lemma rsum_map_ext {A} (f g : A -> R) l :
  (forall x, In x l -> f x = g x) -> rsum (map f l) = rsum (map g l).
Proof.
  induction l as [|x l IH]; intros H; [reflexivity|].
  simpl; rewrite !rsum_cons, IH, (H x); [reflexivity|now left|].
  intros y Hy; apply H; now right.
Qed.

Lemma rsum_scal c l : rsum (map (fun x => c * x) l) = c * rsum l.
Proof. induction l as [|x l IH]; simpl; [unfold rsum; simpl; lra|]. rewrite !rsum_cons, IH; lra. Qed.

Lemma rsum_map_scal {A} c (f : A -> R) l : rsum (map (fun x => c * f x) l) = c * rsum (map f l).
Proof. induction l as [|x l IH]; simpl; [unfold rsum; simpl; lra|]. rewrite !rsum_cons, IH; lra. Qed.

Lemma rsum_map_scal_r {A} c (f : A -> R) l : rsum (map (fun x => f x * c) l) = rsum (map f l) * c.
Proof. induction l as [|x l IH]; simpl; [unfold rsum; simpl; lra|]. rewrite !rsum_cons, IH; lra. Qed.

Lemma rsum_map_plus {A} (f g : A -> R) l :
  rsum (map (fun x => f x + g x) l) = rsum (map f l) + rsum (map g l).
Proof. induction l as [|x l IH]; simpl; [unfold rsum; simpl; lra|]. rewrite !rsum_cons, IH; lra. Qed.

Lemma rsum_map_minus {A} (f g : A -> R) l :
  rsum (map (fun x => f x - g x) l) = rsum (map f l) - rsum (map g l).
Proof. induction l as [|x l IH]; simpl; [unfold rsum; simpl; lra|]. rewrite !rsum_cons, IH; lra. Qed.

Lemma rsum_map_const {A} c (l : list A) : rsum (map (fun _ => c) l) = INR (length l) * c.
Proof.
  induction l as [|x l IH]; [simpl; unfold rsum; simpl; lra|].
  cbn [map length]. rewrite rsum_cons, IH, S_INR. lra.
Qed.

Lemma rsum_map_zero {A} (l : list A) : rsum (map (fun _ => 0) l) = 0.
Proof. rewrite rsum_map_const; lra. Qed.

Lemma rsum_repeat c n : rsum (repeat c n) = INR n * c.
Proof. induction n as [|n IH]; [simpl; unfold rsum; simpl; lra|]. cbn [repeat]. rewrite rsum_cons, IH, S_INR. lra. Qed.

Lemma rsum_nonneg l : Forall (fun x => 0 <= x) l -> 0 <= rsum l.
Proof. induction 1; [unfold rsum; simpl; lra|]. rewrite rsum_cons; lra. Qed.

Lemma rsum_map_nonneg {A} (f : A -> R) l : (forall x, In x l -> 0 <= f x) -> 0 <= rsum (map f l).
Proof. intros H. apply rsum_nonneg. rewrite Forall_map, Forall_forall. exact H. Qed.

Lemma rsum_le {A} (f g : A -> R) l : (forall x, In x l -> f x <= g x) -> rsum (map f l) <= rsum (map g l).
Proof.
  induction l as [|x l IH]; intros H; [simpl; lra|].
  simpl; rewrite !rsum_cons. pose proof (H x (or_introl eq_refl)).
  assert (forall y, In y l -> f y <= g y) by (intros y Hy; apply H; now right).
  specialize (IH H1); lra.
Qed.

Lemma rsum_nonneg_zero l : Forall (fun x => 0 <= x) l -> rsum l = 0 -> Forall (fun x => x = 0) l.
Proof.
  induction 1 as [|x l Hx Hl IH]; intros Hs; constructor.
  - rewrite rsum_cons in Hs. pose proof (rsum_nonneg l Hl). lra.
  - apply IH. rewrite rsum_cons in Hs. pose proof (rsum_nonneg l Hl). lra.
Qed.

Lemma rsum_zero l : Forall (fun x => x = 0) l -> rsum l = 0.
Proof. induction 1 as [|x l Hx Hl IH]; [reflexivity|]. rewrite rsum_cons, IH, Hx; lra. Qed.

Lemma In_le_rsum l x : Forall (fun x => 0 <= x) l -> In x l -> x <= rsum l.
Proof.
  induction 1 as [|y l Hy Hl IH]; intros Hin; [destruct Hin|].
  rewrite rsum_cons; pose proof (rsum_nonneg l Hl). destruct Hin as [->|Hin].
  - lra.
  - specialize (IH Hin); lra.
Qed.

Lemma rsum_perm l m : Permutation l m -> rsum l = rsum m.
Proof. induction 1; rewrite ?rsum_cons in *; lra. Qed.

Lemma rprod_perm l m : Permutation l m -> rprod l = rprod m.
Proof. induction 1; rewrite ?rprod_cons in *; nra. Qed.

Lemma rsum_swap {A B} (f : A -> B -> R) la lb :
  rsum (map (fun a => rsum (map (fun b => f a b) lb)) la) =
  rsum (map (fun b => rsum (map (fun a => f a b) la)) lb).
Proof.
  induction la as [|a la IH]; simpl.
  - rewrite rsum_nil. symmetry. apply rsum_map_zero.
  - rewrite rsum_cons, IH. rewrite <- rsum_map_plus. apply rsum_map_ext. intros b _. now rewrite rsum_cons.
Qed.

Lemma rprod_nonneg l : Forall (fun x => 0 <= x) l -> 0 <= rprod l.
Proof. induction 1; [unfold rprod; simpl; lra|]. rewrite rprod_cons; nra. Qed.
Lemma rprod_pos l : Forall (fun x => 0 < x) l -> 0 < rprod l.
Proof. induction 1; [unfold rprod; simpl; lra|]. rewrite rprod_cons; nra. Qed.

(** [map2] *)
Lemma map2_length {A B C} (f : A -> B -> C) l m : length l = length m -> length (map2 f l m) = length l.
Proof. revert m; induction l as [|x l IH]; intros [|y m] H; simpl in *; try congruence. f_equal; apply IH; congruence. Qed.

Lemma map2_map_r {A B C D} (f : A -> C -> D) (g : B -> C) l m : map2 f l (map g m) = map2 (fun a b => f a (g b)) l m.
Proof. revert m; induction l as [|x l IH]; intros [|y m]; simpl; try reflexivity. now rewrite IH. Qed.
Lemma map2_map_l {A B C D} (f : C -> B -> D) (g : A -> C) l m : map2 f (map g l) m = map2 (fun a b => f (g a) b) l m.
Proof. revert m; induction l as [|x l IH]; intros [|y m]; simpl; try reflexivity. now rewrite IH. Qed.
Lemma map_map2 {A B C D} (g : C -> D) (f : A -> B -> C) l m : map g (map2 f l m) = map2 (fun a b => g (f a b)) l m.
Proof. revert m; induction l as [|x l IH]; intros [|y m]; simpl; try reflexivity. now rewrite IH. Qed.
Lemma map2_ext {A B C} (f g : A -> B -> C) l m : (forall a b, f a b = g a b) -> map2 f l m = map2 g l m.
Proof. intros H; revert m; induction l as [|x l IH]; intros [|y m]; simpl; try reflexivity. now rewrite IH, H. Qed.
Lemma map2_combine {A B C} (f : A -> B -> C) l m : map2 f l m = map (fun p => f (fst p) (snd p)) (combine l m).
Proof. revert m; induction l as [|x l IH]; intros [|y m]; simpl; try reflexivity. now rewrite IH. Qed.
Lemma map2_same {A C} (f : A -> A -> C) l : map2 f l l = map (fun a => f a a) l.
Proof. induction l as [|x l IH]; simpl; [reflexivity|]. now rewrite IH. Qed.
Lemma map2_fst {A B} (l : list A) (m : list B) : length l = length m -> map2 (fun a _ => a) l m = l.
Proof. revert m; induction l as [|x l IH]; intros [|y m] H; simpl in *; try congruence. f_equal; apply IH; congruence. Qed.
Lemma map2_snd {A B} (l : list A) (m : list B) : length l = length m -> map2 (fun _ b => b) l m = m.
Proof. revert m; induction l as [|x l IH]; intros [|y m] H; simpl in *; try congruence. f_equal; apply IH; congruence. Qed.
Lemma map2_map2_r {A B C D} (f : A -> C -> D) (g : A -> B -> C) l m :
  map2 f l (map2 g l m) = map2 (fun a b => f a (g a b)) l m.
Proof. revert m; induction l as [|x l IH]; intros [|y m]; simpl; try reflexivity. now rewrite IH. Qed.
Lemma map2_map2_l {A B C D} (f : C -> B -> D) (g : A -> B -> C) l m :
  map2 f (map2 g l m) m = map2 (fun a b => f (g a b) b) l m.
Proof. revert m; induction l as [|x l IH]; intros [|y m]; simpl; try reflexivity. now rewrite IH. Qed.
Lemma map2_comm {A B C} (f : A -> B -> C) l m : map2 f l m = map2 (fun b a => f a b) m l.
Proof. revert m; induction l as [|x l IH]; intros [|y m]; simpl; try reflexivity. now rewrite IH. Qed.
Lemma map2_app {A B C} (f : A -> B -> C) l1 l2 m1 m2 :
  length l1 = length m1 -> map2 f (l1 ++ l2) (m1 ++ m2) = map2 f l1 m1 ++ map2 f l2 m2.
Proof. revert m1; induction l1 as [|x l IH]; intros [|y m] H; simpl in *; try congruence. now rewrite IH by congruence. Qed.

Lemma Forall_map2 {A B C} (P : C -> Prop) (f : A -> B -> C) l m :
  (forall a b, In a l -> In b m -> P (f a b)) -> Forall P (map2 f l m).
Proof.
  revert m; induction l as [|x l IH]; intros [|y m] H; simpl; constructor.
  - apply H; now left.
  - apply IH. intros a b Ha Hb; apply H; now right.
Qed.

Lemma nth_map2 {A B C} (f : A -> B -> C) l m i da db dc :
  (i < length l)%nat -> length l = length m -> nth i (map2 f l m) dc = f (nth i l da) (nth i m db).
Proof.
  revert m i; induction l as [|x l IH]; intros [|y m] i Hi H; simpl in *; try lia.
  destruct i as [|i]; [reflexivity|]. apply IH; lia.
Qed.

Lemma combine_map_pair {A B C} (f : A -> B) (g : A -> C) l : combine (map f l) (map g l) = map (fun a => (f a, g a)) l.
Proof. induction l as [|a l IH]; simpl; [reflexivity|]. now rewrite IH. Qed.

(** dot products *)
Lemma rdot_nil_l m : rdot [] m = 0. Proof. reflexivity. Qed.
Lemma rdot_nil_r l : rdot l [] = 0. Proof. destruct l; reflexivity. Qed.
Lemma rdot_cons x l y m : rdot (x :: l) (y :: m) = x * y + rdot l m. Proof. reflexivity. Qed.
Lemma rdot_map {A} (w : list R) (f : A -> R) l : rdot w (map f l) = rsum (map2 (fun a b => a * f b) w l).
Proof. unfold rdot. now rewrite map2_map_r. Qed.
Lemma rdot_comm l m : rdot l m = rdot m l.
Proof. revert m; induction l as [|x l IH]; intros [|y m]; try reflexivity. rewrite !rdot_cons, IH; lra. Qed.
Lemma rdot_combine (l m : list R) : rdot l m = rsum (map (fun p => fst p * snd p) (combine l m)).
Proof. unfold rdot. now rewrite map2_combine. Qed.
Lemma rdot_nonneg l m : Forall (fun x => 0 <= x) l -> Forall (fun x => 0 <= x) m -> 0 <= rdot l m.
Proof.
  intros H; revert m; induction H as [|x l Hx Hl IH]; intros m Hm; [rewrite rdot_nil_l; lra|].
  destruct Hm as [|y m Hy Hm]; [rewrite rdot_nil_r; lra|]. rewrite rdot_cons. specialize (IH m Hm). nra.
Qed.

Lemma rsum_map2_plus {A B} (f g : A -> B -> R) l m :
  rsum (map2 (fun a b => f a b + g a b) l m) = rsum (map2 f l m) + rsum (map2 g l m).
Proof. revert m; induction l as [|x l IH]; intros [|y m]; simpl; try (unfold rsum; simpl; lra). rewrite !rsum_cons, IH; lra. Qed.
Lemma rsum_map2_scal {A B} c (f : A -> B -> R) l m :
  rsum (map2 (fun a b => c * f a b) l m) = c * rsum (map2 f l m).
Proof. revert m; induction l as [|x l IH]; intros [|y m]; simpl; try (unfold rsum; simpl; lra). rewrite !rsum_cons, IH; lra. Qed.

(** uniform weights *)
Lemma uniform_weights_length n : length (uniform_weights n) = n.
Proof. unfold uniform_weights; apply repeat_length. Qed.
Lemma uniform_weights_sum n : (0 < n)%nat -> rsum (uniform_weights n) = 1.
Proof. intros H. unfold uniform_weights. rewrite rsum_repeat. apply Rinv_r. apply not_0_INR; lia. Qed.
Lemma uniform_weights_nonneg n : Forall (fun x => 0 <= x) (uniform_weights n).
Proof.
  unfold uniform_weights. apply Forall_forall. intros x Hx. apply repeat_spec in Hx. subst.
  destruct n as [|n]; [simpl; rewrite Rinv_0; lra|].
  left; apply Rinv_0_lt_compat, lt_0_INR; lia.
Qed.

(** cumulative sums *)
Lemma cumsum_from_length acc l : length (cumsum_from acc l) = length l.
Proof. revert acc; induction l as [|x l IH]; intros acc; simpl; [reflexivity|]. now rewrite IH. Qed.
Lemma cumsum_length l : length (cumsum l) = length l.
Proof. apply cumsum_from_length. Qed.

Lemma cumsum_from_nth acc l i d : (i < length l)%nat ->
  nth i (cumsum_from acc l) d = acc + rsum (firstn (S i) l).
Proof.
  revert acc i; induction l as [|x l IH]; intros acc i Hi; simpl in Hi; [lia|].
  destruct i as [|i].
  - cbn. unfold rsum; simpl; lra.
  - cbn [cumsum_from nth]. rewrite IH by lia.
    change (firstn (S (S i)) (x :: l)) with (x :: firstn (S i) l). rewrite (rsum_cons x). lra.
Qed.
Lemma cumsum_nth l i d : (i < length l)%nat -> nth i (cumsum l) d = rsum (firstn (S i) l).
Proof. intros H. unfold cumsum. rewrite cumsum_from_nth by assumption. lra. Qed.

Lemma rsum_firstn_skipn n l : rsum (firstn n l) + rsum (skipn n l) = rsum l.
Proof. rewrite <- rsum_app, firstn_skipn. reflexivity. Qed.

Lemma Forall_firstn {A} (P : A -> Prop) n l : Forall P l -> Forall P (firstn n l).
Proof. intros H; revert n; induction H; intros [|n]; simpl; constructor; auto. Qed.
Lemma Forall_skipn {A} (P : A -> Prop) n l : Forall P l -> Forall P (skipn n l).
Proof. intros H; revert n; induction H; intros [|n]; simpl; auto. Qed.

Lemma rsum_firstn_mono l i j : Forall (fun x => 0 <= x) l -> (i <= j)%nat -> rsum (firstn i l) <= rsum (firstn j l).
Proof.
  intros H; revert i j; induction H as [|x l Hx Hl IH]; intros i j Hij.
  - rewrite !firstn_nil; lra.
  - destruct i as [|i]; destruct j as [|j]; try lia; cbn [firstn].
    + lra.
    + rewrite rsum_cons. pose proof (rsum_nonneg _ (Forall_firstn _ j _ Hl)). unfold rsum at 1; simpl; lra.
    + rewrite !rsum_cons. assert (i <= j)%nat by lia. specialize (IH i j H). lra.
Qed.

Lemma firstn_S_nth (l : list R) i : (i < length l)%nat -> firstn (S i) l = firstn i l ++ [nth i l 0].
Proof.
  revert i; induction l as [|x l IH]; intros i Hi; simpl in Hi; [lia|].
  destruct i as [|i]; [reflexivity|]. cbn [firstn app nth]. f_equal. apply IH; lia.
Qed.

(** [searchsorted_right] on a cumulative sum picks the interval containing [u] *)
Lemma searchsorted_from_spec acc l u :
  Forall (fun x => 0 <= x) l ->
  forall i, searchsorted_right (cumsum_from acc l) u = i ->
  (i < length l)%nat ->
  u < acc + rsum (firstn (S i) l) /\ (acc <= u -> acc + rsum (firstn i l) <= u).
Proof.
  intros H; revert acc; induction H as [|x l Hx Hl IH]; intros acc i Hi Hlen; simpl in Hlen; [lia|].
  cbn [cumsum_from searchsorted_right] in Hi. destruct (Rltb_spec u (acc + x)) as [Hlt|Hge].
  - subst i. cbn [firstn]. unfold rsum; simpl. split; [lra|intros; lra].
  - destruct i as [|i]; [discriminate|]. injection Hi as Hi.
    specialize (IH (acc + x) i Hi ltac:(lia)). destruct IH as [IH1 IH2].
    cbn [firstn] in *. rewrite !rsum_cons in *. split; [lra|]. intros _.
    assert (acc + x <= u) by lra. specialize (IH2 H). lra.
Qed.

Lemma searchsorted_from_lt acc l u :
  u < acc + rsum l -> (0 < length l)%nat -> (searchsorted_right (cumsum_from acc l) u < length l)%nat.
Proof.
  revert acc; induction l as [|x l IH]; intros acc Hu Hl; simpl in *; [lia|].
  rewrite rsum_cons in Hu. destruct (Rltb_spec u (acc + x)) as [Hlt|Hge]; [lia|].
  destruct l as [|y l]; [rewrite rsum_nil in Hu; lra|].
  assert (searchsorted_right (cumsum_from (acc + x) (y :: l)) u < length (y :: l))%nat.
  { apply IH; [lra|simpl; lia]. } simpl in *; lia.
Qed.

Lemma searchsorted_unique l u i :
  Forall (fun x => 0 <= x) l -> (i < length l)%nat ->
  rsum (firstn i l) <= u < rsum (firstn (S i) l) ->
  searchsorted_right (cumsum l) u = i.
Proof.
  unfold cumsum. intros H Hi Hu.
  assert (forall acc, acc + rsum (firstn i l) <= u < acc + rsum (firstn (S i) l) ->
    searchsorted_right (cumsum_from acc l) u = i) as Hgen.
  { clear Hu. revert i Hi; induction H as [|x l Hx Hl IH]; intros i Hi acc Hu; simpl in Hi; [lia|].
    cbn [cumsum_from searchsorted_right]. destruct i as [|i].
    - cbn [firstn] in Hu. unfold rsum in Hu; simpl in Hu. rewrite Rltb_true by lra. reflexivity.
    - cbn [firstn] in Hu. rewrite !rsum_cons in Hu.
      pose proof (rsum_nonneg _ (Forall_firstn _ i _ Hl)).
      rewrite Rltb_false by lra. f_equal. apply IH; [lia|]. cbn [firstn]. lra. }
  apply Hgen. lra.
Qed.

(** clip *)
Lemma clip_bounds lo hi x : lo <= hi -> lo <= clip lo hi x <= hi.
Proof. intros H. unfold clip, Rmin, Rmax. repeat destruct Rle_dec; lra. Qed.
Lemma clip_id lo hi x : lo <= x <= hi -> clip lo hi x = x.
Proof. intros H. unfold clip, Rmin, Rmax. repeat destruct Rle_dec; lra. Qed.

(** mask selection *)
Lemma select_map {A} (p : A -> bool) l : select (map p l) l = filter p l.
Proof. induction l as [|x l IH]; simpl; [reflexivity|]. destruct (p x); now rewrite IH. Qed.

(** Cauchy-Schwarz *)
Lemma rsum_sq_nonneg {A} (f : A -> R) l : 0 <= rsum (map (fun x => f x * f x) l).
Proof. apply rsum_map_nonneg. intros; nra. Qed.

Lemma cauchy_schwarz {A} (w f g : A -> R) l : (forall x, In x l -> 0 <= w x) ->
  rsum (map (fun x => w x * (f x * g x)) l) * rsum (map (fun x => w x * (f x * g x)) l)
  <= rsum (map (fun x => w x * (f x * f x)) l) * rsum (map (fun x => w x * (g x * g x)) l).
Proof.
  intros Hw.
  set (a := rsum (map (fun x => w x * (f x * f x)) l)).
  set (b := rsum (map (fun x => w x * (f x * g x)) l)).
  set (c := rsum (map (fun x => w x * (g x * g x)) l)).
  assert (Hq : forall s t, 0 <= s * s * a + 2 * s * t * b + t * t * c).
  { intros s t.
    assert (E : s * s * a + 2 * s * t * b + t * t * c =
      rsum (map (fun x => w x * ((s * f x + t * g x) * (s * f x + t * g x))) l)).
    { unfold a, b, c. rewrite <- !rsum_map_scal. rewrite <- !rsum_map_plus.
      apply rsum_map_ext; intros; ring. }
    rewrite E. apply rsum_map_nonneg. intros x Hx. apply Rmult_le_pos; [auto|apply Rle_0_sqr]. }
  assert (Ha : 0 <= a) by (unfold a; apply rsum_map_nonneg; intros x Hx; apply Rmult_le_pos; [auto|apply Rle_0_sqr]).
  assert (Hc : 0 <= c) by (unfold c; apply rsum_map_nonneg; intros x Hx; apply Rmult_le_pos; [auto|apply Rle_0_sqr]).
  destruct (Req_dec a 0) as [E|E].
  - assert (b = 0).
    { destruct (Req_dec b 0) as [|Hb]; [assumption|exfalso].
      specialize (Hq (- (c + 1) / (2 * b)) 1). rewrite E in Hq.
      replace (- (c + 1) / (2 * b) * (- (c + 1) / (2 * b)) * 0 + 2 * (- (c + 1) / (2 * b)) * 1 * b + 1 * 1 * c)
        with (-1) in Hq by (field; assumption). lra. }
    rewrite E, H. lra.
  - specialize (Hq b (- a)). nra.
Qed.
