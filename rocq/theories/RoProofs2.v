(** Proofs for the read-out properties, continued. *)
From Verif Require Import Base RList Ext Sums SmcModel PartModel PartSpec PartProofs MiscProofs2 LinProofs RoModel RoSpec RoProofs.

Lemma nth_map_seq' {A} (f : nat -> A) n p d : (p < n)%nat -> nth p (map f (seq 0 n)) d = f p.
Proof.
  intro H. rewrite nth_indep with (d' := f 0%nat) by (rewrite map_length, seq_length; assumption). rewrite map_nth, seq_nth by assumption. reflexivity.
Qed.
Lemma col_nth j (l : list loc) i : nth i (col j l) 0 = coord l j i.
Proof.
  unfold col, coord. destruct (le_lt_dec (length l) i) as [H|H].
  - rewrite (nth_overflow l) by assumption. rewrite nth_overflow by now rewrite map_length. now destruct j.
  - rewrite nth_indep with (d' := (fun x : loc => nth j x 0) []) by now rewrite map_length. now rewrite (map_nth (fun x : loc => nth j x 0)).
Qed.

Lemma is_min_unique (s : list nat) n f a : Permutation s (seq 0 n) -> is_min n f a -> lmin1 (map f s) = a.
Proof.
  intros Hp [(i & Hi & E) Hm].
  assert (Hin : In (f i) (map f s)) by (apply in_map; apply Permutation_sym in Hp; apply (Permutation_in _ Hp); apply in_seq; lia).
  destruct (lmin1_ok (map f s)) as [H1 H2]; [intro H0; rewrite H0 in Hin; contradiction|].
  apply Rle_antisym; [rewrite <- E; now apply H2|]. apply in_map_iff in H1. destruct H1 as (k & <- & Hk). apply Hm. apply (Permutation_in _ Hp) in Hk. apply in_seq in Hk. lia.
Qed.
Lemma is_max_unique (s : list nat) n f a : Permutation s (seq 0 n) -> is_max n f a -> lmax1 (map f s) = a.
Proof.
  intros Hp [(i & Hi & E) Hm].
  assert (Hin : In (f i) (map f s)) by (apply in_map; apply Permutation_sym in Hp; apply (Permutation_in _ Hp); apply in_seq; lia).
  destruct (lmax1_ok (map f s)) as [H1 H2]; [intro H0; rewrite H0 in Hin; contradiction|].
  apply Rle_antisym; [|rewrite <- E; now apply H2]. apply in_map_iff in H1. destruct H1 as (k & <- & Hk). apply Hm. apply (Permutation_in _ Hp) in Hk. apply in_seq in Hk. lia.
Qed.

Lemma argsorts_mono s (w : list R) (l : list loc) idx : length l = length w -> argsorts s (col idx l) ->
  Permutation s (seq 0 (length w)) /\ mono (map (fun i => nth idx (nth i l []) 0) s).
Proof.
  intros Hl [Hp Hm]. assert (Hc : length (col idx l) = length w) by (unfold col; now rewrite map_length). rewrite Hc in *.
  split; [assumption|]. intros a b Hab. rewrite map_length in Hab.
  assert (Hs : length s = length w) by (apply Permutation_length in Hp; now rewrite seq_length in Hp).
  assert (G : forall k, (k < length s)%nat -> nth k (map (fun i => nth idx (nth i l []) 0) s) 0 = coord l idx (nth k s 0%nat)).
  { intros k Hk. rewrite nth_indep with (d' := (fun i => nth idx (nth i l []) 0) 0%nat) by (rewrite map_length; lia). now rewrite (map_nth (fun i => nth idx (nth i l []) 0)). }
  rewrite !G by lia. specialize (Hm a b ltac:(lia)). rewrite !col_nth in Hm. exact Hm.
Qed.

Lemma marginal s w (l : list loc) idx n rmin rmax a b :
  prob_vector w -> length l = length w -> argsorts s (col idx l) -> (2 <= n)%nat ->
  endpoint rmin (is_min (length w) (coord l idx)) a -> endpoint rmax (is_max (length w) (coord l idx)) b -> a < b ->
  (forall i, (i < length w)%nat -> coord l idx i <= b + (b - a)) ->
  exists ps pr F, posterior_marginal s w l idx n rmin rmax = Ok (ps, map Fin pr) /\ length ps = n /\ length pr = n /\
    (forall i, (i < n)%nat -> nth i ps 0 = a + INR i * ((b - a) / INR (n - 1))) /\
    (forall i, (i < n)%nat -> 0 <= nth i pr 0) /\
    trapz ((b - a) / INR (n - 1)) pr = F b - F a /\
    (forall x y, x <= y <= b -> F x <= F y) /\
    (forall i, (i < length w)%nat -> coord l idx i <= b -> F (coord l idx i) = cdf w l idx (coord l idx i)) /\
    (forall x, (forall i, (i < length w)%nat -> x < coord l idx i) -> F x = 0) /\
    (forall x, (forall i, (i < length w)%nat -> coord l idx i <= x) -> x <= b -> F x = 1).
Proof.
  intros Hw Hl Hs Hn Ha Hb Hab He. destruct (argsorts_mono s w l idx Hl Hs) as [Hp Hm].
  set (e := b + Rabs (b - a)). assert (Ee : e = b + (b - a)) by (unfold e; rewrite Rabs_pos_eq by lra; reflexivity).
  assert (He' : forall i, (i < length w)%nat -> nth idx (nth i l []) 0 <= e) by (intros i Hi; rewrite Ee; now apply He).
  set (F := Fm w l idx s e). set (ps := linspace a b n). set (h := (b - a) / INR (n - 1)).
  assert (Hnr : 0 < INR (n - 1)) by (apply lt_0_INR; lia).
  assert (Hh : 0 < h) by (unfold h; apply Rmult_lt_0_compat; [lra|now apply Rinv_0_lt_compat]).
  assert (Hps : forall i, (i < n)%nat -> nth i ps 0 = a + INR i * h) by (intros i Hi; unfold ps, h; now apply linspace_nth).
  assert (Hlen : length (map F ps) = n) by (rewrite map_length; apply linspace_length).
  assert (HF : forall i, (i < n)%nat -> nth i (map F ps) 0 = F (a + INR i * h)).
  { intros i Hi. rewrite nth_indep with (d' := F 0) by (rewrite Hlen; assumption). rewrite map_nth, Hps by assumption. reflexivity. }
  assert (Eb : a + INR (n - 1) * h = b) by (unfold h; field; lra).
  assert (Hle : forall i, (i < n)%nat -> a + INR i * h <= b).
  { intros i Hi. rewrite <- Eb. apply Rplus_le_compat_l. apply Rmult_le_compat_r; [lra|]. apply le_INR. lia. }
  assert (Hmono : forall x y, x <= y -> y <= b -> F x <= F y) by (intros x y H1 H2; apply Fm_mono; [assumption|assumption|assumption|assumption|assumption|lra]).
  assert (Hstep : forall i k, (i <= k)%nat -> (k < n)%nat -> nth i (map F ps) 0 <= nth k (map F ps) 0).
  { intros i k Hik Hk. rewrite !HF by lia. apply Hmono; [|now apply Hle]. apply Rplus_le_compat_l, Rmult_le_compat_r; [lra|apply le_INR; lia]. }
  exists ps, (map (rgrad (map F ps) h) (seq 0 n)), F.
  assert (E : posterior_marginal s w l idx n rmin rmax = Ok (ps, map Fin (map (rgrad (map F ps) h) (seq 0 n)))).
  { unfold posterior_marginal. set (locs := map (fun i => nth idx (nth i l []) 0) s) in *.
    assert (Hlne : locs <> []).
    { intro H0. unfold locs in H0. apply map_eq_nil in H0. subst s. apply Permutation_length in Hp. rewrite seq_length in Hp. cbn in Hp. destruct Hw as [_ H1]. destruct w; [unfold rsum in H1; cbn in H1; lra|discriminate]. }
    assert (E1 : match rmin with None => lmin1 locs | Some r => r end = a).
    { destruct rmin as [r|]; cbn in Ha; [now symmetry|]. exact (is_min_unique s (length w) (coord l idx) a Hp Ha). }
    assert (E2 : match rmax with None => lmax1 locs | Some r => r end = b).
    { destruct rmax as [r|]; cbn in Hb; [now symmetry|]. exact (is_max_unique s (length w) (coord l idx) b Hp Hb). }
    destruct locs as [|x0 lo] eqn:El; [congruence|]. rewrite <- El in *. rewrite E1, E2. destruct (Nat.ltb_spec n 2); [lia|].
    fold ps. change (map (interp1d (locs ++ [b + Rabs (b - a)]) (cumsum (map (fun i => nth i w 0) s) ++ [1])) ps) with (map F ps).
    assert (nth 1 ps 0 - nth 0 ps 0 = h) as -> by (rewrite !Hps by lia; cbn [INR]; ring).
    rewrite gradient_fin by lra. rewrite Hlen. reflexivity. }
  refine (conj E (conj _ (conj _ (conj Hps (conj _ (conj _ (conj _ (conj _ (conj _ _))))))))).
  - apply linspace_length.
  - now rewrite map_length, seq_length.
  - intros i Hi. rewrite nth_map_seq' by assumption. unfold rgrad. rewrite Hlen.
    destruct (Nat.eqb_spec i 0); [|destruct (Nat.eqb_spec i (n - 1))]; (apply Rmult_le_pos; [|left; apply Rinv_0_lt_compat; lra]);
    apply Rge_le, Rge_minus, Rle_ge, Hstep; lia.
  - pose proof (trapz_grad (map F ps) h) as T. rewrite Hlen in T. rewrite T by (lra || lia). rewrite !HF by lia. rewrite Eb. cbn [INR]. f_equal. f_equal. ring.
  - intros x y [H1 H2]. now apply Hmono.
  - intros i Hi _. apply (Fm_knot w l idx s e Hw Hp Hm He' i Hi).
  - intros x H. now apply (Fm_zero w l idx s e).
  - intros x H H2. apply (Fm_one w l idx s e); try assumption; lra.
Qed.

Lemma marginal_nan s (w : list R) (l : list loc) idx n c : (0 < length w)%nat -> length l = length w -> argsorts s (col idx l) -> (2 <= n)%nat ->
  (forall i, (i < length w)%nat -> coord l idx i = c) ->
  exists ps pr, posterior_marginal s w l idx n None None = Ok (ps, pr) /\ Forall (eq NaN) pr /\ length pr = n.
Proof.
  intros Hw Hl Hs Hn Hc. destruct (argsorts_mono s w l idx Hl Hs) as [Hp Hm].
  unfold posterior_marginal. set (locs := map (fun i => nth idx (nth i l []) 0) s) in *.
  assert (Hmin : lmin1 locs = c).
  { apply (is_min_unique s (length w) (coord l idx)); [assumption|]. split; [exists 0%nat; split; [assumption|now apply Hc]|]. intros i Hi. rewrite Hc by assumption. lra. }
  assert (Hmax : lmax1 locs = c).
  { apply (is_max_unique s (length w) (coord l idx)); [assumption|]. split; [exists 0%nat; split; [assumption|now apply Hc]|]. intros i Hi. rewrite Hc by assumption. lra. }
  assert (Hlne : locs <> []).
  { intro H0. unfold locs in H0. apply map_eq_nil in H0. subst s. apply Permutation_length in Hp. rewrite seq_length in Hp. cbn in Hp. lia. }
  destruct locs as [|x0 lo] eqn:El; [congruence|]. rewrite <- El in *. rewrite Hmin, Hmax. destruct (Nat.ltb_spec n 2); [lia|].
  set (ps := linspace c c n). set (g := interp1d _ _).
  assert (Hps : forall i, (i < n)%nat -> nth i ps 0 = c).
  { intros i Hi. unfold ps. rewrite linspace_nth by assumption. unfold Rdiv. ring. }
  exists ps, (gradient (map g ps) (nth 1 ps 0 - nth 0 ps 0)). split; [reflexivity|].
  rewrite !Hps by lia. replace (c - c) with 0 by ring.
  assert (Hlen : length (map g ps) = n) by (rewrite map_length; apply linspace_length).
  assert (HF : forall i, (i < n)%nat -> nth i (map g ps) 0 = g c).
  { intros i Hi. rewrite nth_indep with (d' := g 0) by (rewrite Hlen; assumption). rewrite map_nth, Hps by assumption. reflexivity. }
  unfold gradient. split; [|now rewrite map_length, seq_length]. apply Forall_forall. intros y Hy. apply in_map_iff in Hy. destruct Hy as (i & <- & Hi). apply in_seq in Hi. rewrite Hlen in *.
  destruct (Nat.eqb_spec i 0); [|destruct (Nat.eqb_spec i (n - 1))]; rewrite !HF by lia; replace (g c - g c) with 0 by ring; replace (2 * 0) with 0 by ring; now rewrite xdiv_00.
Qed.

(** ** Divergence *)
Lemma xsum_ninf (f : nat -> ext) l : (forall i, In i l -> f i = NInf \/ exists r, f i = Fin r) -> (exists i, In i l /\ f i = NInf) -> xsum (map f l) = NInf.
Proof.
  induction l as [|k l IH]; intros H (i & Hi & E); [contradiction|]. cbn [map]. rewrite xsum_cons.
  destruct (H k (or_introl eq_refl)) as [Ek|(r & Ek)].
  - rewrite Ek. assert (Hr : xsum (map f l) = NInf \/ exists r, xsum (map f l) = Fin r).
    { assert (H' : forall i, In i l -> f i = NInf \/ (exists r, f i = Fin r)) by (intros; apply H; now right). clear -H'. induction l as [|k l IH]; [right; exists 0; reflexivity|].
      cbn [map]. rewrite xsum_cons. destruct IH as [->|(r & ->)]; [intros; apply H'; now right| |]; (destruct (H' k (or_introl eq_refl)) as [->|(r' & ->)]); cbn; eauto. }
    destruct Hr as [->|(r & ->)]; reflexivity.
  - rewrite Ek. destruct Hi as [<-|Hi]; [congruence|]. rewrite IH; [reflexivity|intros; apply H; now right|now exists i].
Qed.
Lemma entropy_pos w : Forall (fun x => 0 < x) w -> - est_entropy w = Sum (length w) (fun i => nth i w 0 * ln (nth i w 0)).
Proof.
  intro H. rewrite entropy_terms. rewrite Ropp_involutive.
  assert (E : filter (fun x => Rltb 0 x) w = w).
  { clear -H. induction H as [|x l Hx _ IH]; [reflexivity|]. cbn [filter]. rewrite Rltb_true by assumption. now rewrite IH. }
  rewrite E. rewrite Sum_rsum. rewrite <- (map_nth_seq 0 w) at 1. rewrite map_map. reflexivity.
Qed.
Lemma xmul_ninf a : 0 < a -> xmul (Fin a) NInf = NInf.
Proof. intro H. unfold xmul, inf_times. rewrite Rltb_true by assumption. reflexivity. Qed.
Section KL.
  Variables (d : nat) (K : R -> R) (delta : R) (p other : side) (w v : list R).
  Let dist i j := rescaled_distance d p other i j.
  Let q i := kde K delta (length v) (fun j => nth j v 0) (dist i).
  Hypothesis Hw : Forall (fun x => 0 < x) w.
  Hypothesis Hd : 0 < delta.
  Lemma kl_inner i : rsum (map (fun j => nth j v 0 * K (dist i j / delta)) (seq 0 (length v))) = delta * q i.
  Proof.
    unfold q, kde. rewrite <- Sum_rsum, <- Sum_scal. apply Sum_ext. intros j _. field. lra.
  Qed.
  Lemma w_pos i : (i < length w)%nat -> 0 < nth i w 0.
  Proof. intro Hi. rewrite Forall_forall in Hw. apply Hw. now apply nth_In. Qed.
  Lemma kl_value : (forall i, (i < length w)%nat -> 0 < q i) ->
    kl_divergence d K delta p w other v =
      Fin (Sum (length w) (fun i => nth i w 0 * ln (nth i w 0)) - 1 / delta * Sum (length w) (fun i => nth i w 0 * ln (delta * q i))).
  Proof.
    intro Hq. unfold kl_divergence. fold dist. rewrite entropy_pos by assumption.
    rewrite (map_ext_in _ (fun i => Fin (nth i w 0 * ln (delta * q i)))).
    2:{ intros i Hi. apply in_seq in Hi. change (fun j => nth j v 0 * K (rescaled_distance d p other i j / delta)) with (fun j => nth j v 0 * K (dist i j / delta)). rewrite kl_inner. cbn [xln].
        assert (0 < delta * q i) by (apply Rmult_lt_0_compat; [assumption|apply Hq; lia]). rewrite Rltb_true by assumption. reflexivity. }
    rewrite <- (map_map (fun i => nth i w 0 * ln (delta * q i)) Fin). rewrite xsum_Fin, <- Sum_rsum. reflexivity.
  Qed.
  Lemma kl_true : (forall i, (i < length w)%nat -> 0 < q i) -> rsum w = 1 ->
    kl_divergence d K delta p w other v =
      Fin (Sum (length w) (fun i => nth i w 0 * ln (nth i w 0 / q i)) + ((1 - 1 / delta) * Sum (length w) (fun i => nth i w 0 * ln (delta * q i)) - ln delta)).
  Proof.
    intros Hq Hs. rewrite kl_value by assumption. f_equal.
    assert (Hs' : Sum (length w) (fun i => nth i w 0) = 1) by (rewrite Sum_rsum, map_nth_seq; assumption).
    assert (E1 : Sum (length w) (fun i => nth i w 0 * ln (nth i w 0 / q i)) = Sum (length w) (fun i => nth i w 0 * ln (nth i w 0)) - Sum (length w) (fun i => nth i w 0 * ln (q i))).
    { rewrite <- Sum_minus. apply Sum_ext. intros i Hi. unfold Rdiv. pose proof (w_pos i Hi). rewrite ln_mult, ln_Rinv; [ring|now apply Hq|assumption|apply Rinv_0_lt_compat; now apply Hq]. }
    assert (E2 : Sum (length w) (fun i => nth i w 0 * ln (delta * q i)) = ln delta + Sum (length w) (fun i => nth i w 0 * ln (q i))).
    { rewrite <- (Rmult_1_r (ln delta)), <- Hs', <- Sum_scal, <- Sum_plus. apply Sum_ext. intros i Hi. rewrite ln_mult; [ring|assumption|now apply Hq]. }
    rewrite E1, E2. ring.
  Qed.
  Lemma kl_inf : (forall i, (i < length w)%nat -> 0 <= q i) -> (exists i, (i < length w)%nat /\ q i = 0) ->
    kl_divergence d K delta p w other v = PInf.
  Proof.
    intros Hq (i0 & Hi0 & E0). unfold kl_divergence. fold dist.
    rewrite (map_ext_in _ (fun i => if Rltb 0 (q i) then Fin (nth i w 0 * ln (delta * q i)) else NInf)).
    2:{ intros i Hi. apply in_seq in Hi. change (fun j => nth j v 0 * K (rescaled_distance d p other i j / delta)) with (fun j => nth j v 0 * K (dist i j / delta)). rewrite kl_inner. cbn [xln].
        pose proof (w_pos i ltac:(lia)). destruct (Rltb_spec 0 (q i)) as [Hp|Hz].
        - rewrite Rltb_true by (apply Rmult_lt_0_compat; assumption). reflexivity.
        - assert (q i = 0) as -> by (pose proof (Hq i ltac:(lia)); lra). rewrite Rmult_0_r. rewrite !Rltb_false by lra. now rewrite xmul_ninf. }
    rewrite xsum_ninf.
    - assert (0 < 1 / delta) by (apply Rmult_lt_0_compat; [lra|now apply Rinv_0_lt_compat]). now rewrite xmul_ninf.
    - intros i _. destruct (Rltb 0 (q i)); [right; now eexists|now left].
    - exists i0. split; [apply in_seq; lia|]. rewrite E0. now rewrite Rltb_false by lra.
  Qed.
End KL.

(** ** Mesh *)
Lemma nth_flat_map {A B} (g : A -> list B) n l (da : A) (db : B) k : (forall x, In x l -> length (g x) = n) -> (k < length l * n)%nat ->
  nth k (flat_map g l) db = nth (k mod n) (g (nth (k / n) l da)) db.
Proof.
  revert k. induction l as [|x l IH]; intros k Hg Hk; [cbn in Hk; lia|].
  assert (Hn : n <> 0%nat) by (intro; subst; lia). cbn [flat_map]. destruct (le_lt_dec n k) as [Hge|Hlt].
  - rewrite app_nth2 by (rewrite Hg by (now left); lia). rewrite Hg by now left. rewrite IH.
    + replace k with ((k - n) + 1 * n)%nat at 3 4 by lia. rewrite Nat.mod_add, Nat.div_add by assumption. rewrite Nat.add_1_r. reflexivity.
    + intros; apply Hg; now right.
    + cbn in Hk. lia.
  - rewrite app_nth1 by (rewrite Hg by (now left); lia). rewrite Nat.mod_small, Nat.div_small by assumption. reflexivity.
Qed.
Lemma norm_gauss x mu s : s <> 0 -> norm_pdf x mu s = gauss s (x - mu).
Proof.
  intro Hs. unfold norm_pdf, gauss. assert (0 < sqrt (2 * PI)) by (apply sqrt_lt_R0; pose proof PI_RGT_0; lra).
  replace (- ((x - mu) * (x - mu)) / (2 * (s * s))) with (- ((x - mu) / s * ((x - mu) / s)) / 2) by (field; assumption). f_equal. ring.
Qed.
Lemma kde2_gauss w (l : list loc) i1 i2 s x y : s <> 0 -> kde2 w (col i1 l) (col i2 l) s x y = gauss_kde2 s w l i1 i2 x y.
Proof.
  intro Hs. unfold kde2, gauss_kde2. rewrite Sum_rsum. f_equal. apply map_ext. intro i. rewrite !norm_gauss by assumption. rewrite !col_nth. unfold coord. ring.
Qed.
Lemma mesh_value w (l : list loc) i1 i2 r1 r2 s a b : s <> 0 -> (a < r2)%nat -> (b < r1)%nat ->
  let '(p1s, p2s, pr) := posterior_mesh w l i1 i2 r1 r2 s in
  pr a b = gauss_kde2 s w l i1 i2 (p1s 0%nat ((a * r1 + b) / r2)%nat) (p2s ((a * r1 + b) mod r2)%nat 0%nat).
Proof.
  intros Hs Ha Hb. unfold posterior_mesh.
  set (g1 := linspace _ _ r1). set (g2 := linspace _ _ r2).
  assert (L1 : length g1 = r1) by apply linspace_length. assert (L2 : length g2 = r2) by apply linspace_length.
  set (k := (a * r1 + b)%nat). assert (Hk : (k < r1 * r2)%nat) by (unfold k; nia).
  set (D := fun p : R * R => kde2 w (col i1 l) (col i2 l) s (fst p) (snd p)).
  assert (Lp : length (plot_locs g1 g2) = (r1 * r2)%nat).
  { unfold plot_locs. rewrite L1, L2. generalize (mesh1 g1) as q1, (mesh2 g2) as q2. intros q1 q2. clear. assert (G : forall k st, length (flat_map (fun b => map (fun a => (q1 a b, q2 a b)) (seq 0 r2)) (seq st k)) = (k * r2)%nat); [|apply G].
    induction k as [|k IH]; intro st; [reflexivity|]. cbn [seq flat_map]. rewrite app_length, IH, map_length, seq_length. lia. }
  rewrite nth_indep with (d' := D (0, 0)) by (rewrite map_length, Lp; assumption). rewrite map_nth.
  unfold plot_locs. rewrite (nth_flat_map _ r2 _ 0%nat).
  - rewrite L2. rewrite nth_map_seq' by (apply Nat.mod_upper_bound; lia). rewrite seq_nth by (rewrite L1; apply Nat.div_lt_upper_bound; lia).
    unfold D. cbn [fst snd]. rewrite kde2_gauss by assumption. reflexivity.
  - intros x _. now rewrite map_length, seq_length, L2.
  - rewrite seq_length, L1. assumption.
Qed.
Lemma mesh_square w (l : list loc) i1 i2 n s a b : s <> 0 -> (a < n)%nat -> (b < n)%nat ->
  let '(p1s, p2s, pr) := posterior_mesh w l i1 i2 n n s in
  pr a b = gauss_kde2 s w l i1 i2 (p1s b a) (p2s b a).
Proof.
  intros Hs Ha Hb. pose proof (mesh_value w l i1 i2 n n s a b Hs Ha Hb) as H. cbn in H |- *. rewrite H.
  assert ((a * n + b) / n = a)%nat as -> by (rewrite Nat.div_add_l, Nat.div_small by lia; lia).
  assert ((a * n + b) mod n = b)%nat as -> by (rewrite Nat.add_comm, Nat.mod_add, Nat.mod_small by lia; lia). reflexivity.
Qed.
Lemma mesh_wrong : exists a b, (a < 2)%nat /\ (b < 2)%nat /\
  let '(p1s, p2s, pr) := posterior_mesh [1/4; 3/4] [[0; 0]; [1; 2]] 0 1 2 2 1 in
  pr a b <> gauss_kde2 1 [1/4; 3/4] [[0; 0]; [1; 2]] 0 1 (p1s a b) (p2s a b).
Proof.
  exists 0%nat, 1%nat. split; [lia|split; [lia|]].
  pose proof (mesh_square [1/4; 3/4] [[0; 0]; [1; 2]] 0 1 2 1 0 1 ltac:(lra) ltac:(lia) ltac:(lia)) as H.
  cbn [posterior_mesh] in H |- *. unfold posterior_mesh in H |- *. rewrite H. clear H. unfold mesh1, mesh2.
  assert (E1 : lmin1 (col 0 [[0; 0]; [1; 2]]) = 0) by (cbn; apply Rmin_left; lra).
  assert (E2 : lmax1 (col 0 [[0; 0]; [1; 2]]) = 1) by (cbn; apply Rmax_right; lra).
  assert (E3 : lmin1 (col 1 [[0; 0]; [1; 2]]) = 0) by (cbn; apply Rmin_left; lra).
  assert (E4 : lmax1 (col 1 [[0; 0]; [1; 2]]) = 2) by (cbn; apply Rmax_right; lra).
  rewrite E1, E2, E3, E4. rewrite !linspace_nth by lia. cbn [INR Nat.sub].
  unfold gauss_kde2, gauss, Sum. cbn [length nth]. rewrite ?Sum_rsum. 
  replace (0 + 0 * ((1 - 0) / 1)) with 0 by field. replace (0 + 1 * ((1 - 0) / 1)) with 1 by field. replace (0 + 0 * ((2 - 0) / 1)) with 0 by field. replace (0 + 1 * ((2 - 0) / 1)) with 2 by field.
  set (c := 1 * sqrt (2 * PI)). assert (Hc : 0 < c) by (unfold c; rewrite Rmult_1_l; apply sqrt_lt_R0; pose proof PI_RGT_0; lra). clearbody c.
  cbn [seq map]. rewrite ?Sum_rsum. cbn.
  replace (- ((0 - 0) * (0 - 0)) / (2 * (1 * 1))) with 0 by field. 
  replace (- ((2 - 0) * (2 - 0)) / (2 * (1 * 1))) with (-2) by field.
  replace (- ((0 - 1) * (0 - 1)) / (2 * (1 * 1))) with (-1/2) by field.
  replace (- ((2 - 2) * (2 - 2)) / (2 * (1 * 1))) with 0 by field.
  replace (- ((1 - 0) * (1 - 0)) / (2 * (1 * 1))) with (-1/2) by field.
  replace (- ((1 - 1) * (1 - 1)) / (2 * (1 * 1))) with 0 by field.
  replace (- ((0 - 2) * (0 - 2)) / (2 * (1 * 1))) with (-2) by field.
  rewrite exp_0. assert (Hlt : exp (-2) < exp (-1/2)) by (apply exp_increasing; lra).
  intro H. assert (HH : exp (-2) = exp (-1/2)); [|lra]. apply (f_equal (fun z => z * (c * c) * 2)) in H. field_simplify in H; lra.
Qed.

(** ** Cluster metric *)
Lemma var_nonneg wc (lc : list loc) m : Forall (fun x => 0 <= x) wc -> rsum wc <= 1 -> length wc = length lc -> 0 <= particle_cov wc lc m m.
Proof.
  intros Hw Hs Hl. unfold particle_cov. unfold rdot, col. rewrite !map2_combine.
  assert (E : forall g : R -> R -> R, map (fun p => g (fst p) (snd p)) (combine wc (map (fun x : loc => nth m x 0) lc)) = map (fun p => g (fst p) (nth m (snd p) 0)) (combine wc lc)).
  { intro g. clear. revert lc. induction wc as [|x wc IH]; intros [|y lc]; cbn; try reflexivity. now rewrite IH. }
  rewrite (E Rmult). set (z := combine wc lc).
  assert (Hz : forall q, In q z -> 0 <= fst q).
  { intros [a b] Hq. apply in_combine_l in Hq. rewrite Forall_forall in Hw. now apply Hw. }
  pose proof (cauchy_schwarz (fun q : R * loc => fst q) (fun _ => 1) (fun q => nth m (snd q) 0) z Hz) as C. cbv beta in C.
  assert (E1 : rsum (map (fun q : R * loc => fst q * (1 * 1)) z) = rsum wc).
  { rewrite (map_ext _ (fun q => fst q)) by (intro; ring). f_equal. unfold z. clear -Hl. revert lc Hl. induction wc as [|x wc IH]; intros [|y lc] Hl; cbn in *; try congruence. f_equal. apply IH. lia. }
  rewrite E1 in C. rewrite (map_ext (fun q : R * loc => fst q * (1 * nth m (snd q) 0)) (fun q => fst q * nth m (snd q) 0)) in C by (intro; ring).
  rewrite (map_ext (fun p : R * loc => fst p * nth m (snd p) 0 * nth m (snd p) 0) (fun q => fst q * (nth m (snd q) 0 * nth m (snd q) 0))) by (intro; ring).
  set (S2 := rsum (map (fun q : R * loc => fst q * (nth m (snd q) 0 * nth m (snd q) 0)) z)) in *.
  assert (0 <= S2). { unfold S2. apply rsum_map_nonneg. intros q Hq. apply Rmult_le_pos; [now apply Hz|apply Rle_0_sqr]. }
  assert (rsum wc * S2 <= 1 * S2) by (apply Rmult_le_compat_r; assumption). lra.
Qed.
Lemma select_Forall {A} (P : A -> Prop) m l : Forall P l -> Forall P (select m l).
Proof. revert l; induction m as [|b m IH]; intros [|x l] H; cbn; try constructor. inversion H; subst. destruct b; [constructor; auto|auto]. Qed.
Lemma select_len {A B} m (l : list A) (k : list B) : length l = length k -> length (select m l) = length (select m k).
Proof. revert l k; induction m as [|b m IH]; intros [|x l] [|y k] H; cbn in *; try congruence. destruct b; cbn; [f_equal|]; apply IH; lia. Qed.
Lemma select_sum_le m (w : list R) : Forall (fun x => 0 <= x) w -> rsum (select m w) <= rsum w.
Proof.
  revert w; induction m as [|b m IH]; intros [|x w] H; cbn [select]; try (unfold rsum; cbn; lra).
  - change (rsum []) with 0. now apply rsum_nonneg.
  - inversion H; subst. specialize (IH w H3). destruct b; rewrite ?rsum_cons; lra.
Qed.

Lemma cluster_covs_nonneg labels w (l : list loc) m : prob_vector w -> length w = length labels -> length l = length labels ->
  labels_ge labels -> dbscan_labels labels ->
  exists a b, est_cluster_covs labels w l m m = Ok (a, b, a + b) /\ 0 <= a /\ 0 <= b.
Proof.
  intros [Hw Hs] Hl1 Hl2 Hge Hdb. destruct (clusters_partition labels w false Hl1 Hge Hdb) as (cs & Ecs & _ & _ & Htot).
  unfold est_cluster_covs, est_cluster_moments. rewrite Ecs. cbn [bind].
  do 2 eexists. split; [reflexivity|]. split.
  - rewrite map_map. cbn [m_weight m_mean m_cov]. apply rsum_map_nonneg. intros p _. apply Rmult_le_pos.
    + apply rsum_nonneg. now apply select_Forall.
    + apply var_nonneg; [now apply select_Forall| |apply select_len; congruence]. pose proof (select_sum_le (snd p) w Hw). lra.
  - set (ms := map _ cs). set (W := fun c : moment => m_weight c). set (M := fun c : moment => m_mean c m).
    rewrite (map2_map_l _ m_weight). rewrite map2_same.
    assert (Er : rdot (map W ms) (map M ms) = rsum (map (fun c => W c * (1 * M c)) ms)).
    { unfold rdot. rewrite map2_map_l. rewrite map2_map_r. rewrite map2_same. f_equal. apply map_ext. intro c. unfold W, M. ring. }
    rewrite Er.
    assert (Hz : forall c, In c ms -> 0 <= W c).
    { intros c Hc. unfold ms in Hc. apply in_map_iff in Hc. destruct Hc as (p & <- & _). unfold W. cbn [m_weight]. apply rsum_nonneg. now apply select_Forall. }
    pose proof (cauchy_schwarz W (fun _ => 1) M ms Hz) as C. cbv beta in C.
    assert (E1 : rsum (map (fun c => W c * (1 * 1)) ms) = 1).
    { transitivity (rsum w); [|exact Hs]. rewrite <- Htot. unfold ms. rewrite map_map. apply rsum_map_ext. intros p Hp. unfold W. cbn [m_weight m_mean]. ring. }
    rewrite E1 in C. rewrite (map_ext (fun a => m_weight a * m_mean a m * m_mean a m) (fun c => W c * (M c * M c))) by (intro; unfold W, M; ring). lra.
Qed.

Lemma cluster_metric labels w (l : list loc) m a b : est_cluster_covs labels w l m m = Ok (a, b, a + b) -> 0 <= a -> 0 <= b ->
  (0 < a + b -> exists r, est_cluster_metric labels w l m = Ok (Fin r) /\ r * (a + b) = b /\ 0 <= r <= 1) /\
  (a + b = 0 -> est_cluster_metric labels w l m = Ok NaN).
Proof.
  intros E Ha Hb. unfold est_cluster_metric. rewrite E. cbn [bind]. split; intro H.
  - rewrite xdiv_Fin by lra. exists (b / (a + b)). split; [reflexivity|]. split; [field; lra|].
    split; [apply Rmult_le_pos; [lra|left; now apply Rinv_0_lt_compat]|]. apply Rmult_le_reg_r with (a + b); [assumption|]. unfold Rdiv. rewrite Rmult_assoc, Rinv_l by lra. lra.
  - assert (b = 0) as -> by lra. rewrite H. now rewrite xdiv_00.
Qed.

(** ** Weighted pairwise distances *)
Lemma wpd_value D w p i j : 0 < nth i w 0 -> 0 < nth j w 0 -> (0 < length w)%nat ->
  weighted_pairwise_distance D w p i j = Fin (D i j / Rpower (nth i w 0 * nth j w 0 * (INR (length w) * INR (length w))) p).
Proof.
  intros Hi Hj Hn. unfold weighted_pairwise_distance, np_pow. assert (0 < INR (length w)) by now apply lt_0_INR.
  assert (0 < nth i w 0 * nth j w 0 * (INR (length w) * INR (length w))) by (repeat apply Rmult_lt_0_compat; assumption).
  rewrite Reqb_false by lra. apply xdiv_Fin. unfold Rpower. apply Rgt_not_eq, exp_pos.
Qed.
Lemma wpd_sym D w p i j : (forall a b, D a b = D b a) -> weighted_pairwise_distance D w p i j = weighted_pairwise_distance D w p j i.
Proof. intro H. unfold weighted_pairwise_distance. rewrite H. now rewrite (Rmult_comm (nth i w 0)). Qed.
Lemma wpd_uniform D w p i j : (i < length w)%nat -> (j < length w)%nat -> (forall k, (k < length w)%nat -> nth k w 0 = / INR (length w)) ->
  weighted_pairwise_distance D w p i j = Fin (D i j).
Proof.
  intros Hi Hj H. assert (Hn : 0 < INR (length w)) by (apply lt_0_INR; lia).
  rewrite wpd_value; [|rewrite H by assumption; now apply Rinv_0_lt_compat..|lia]. rewrite !H by assumption.
  replace (/ INR (length w) * / INR (length w) * (INR (length w) * INR (length w))) with 1 by (field; lra).
  unfold Rpower. rewrite ln_1, Rmult_0_r, exp_0. f_equal. field.
Qed.
Lemma wpd_decreasing D w w' p i j r r' : 0 < p -> 0 < D i j -> length w = length w' -> (0 < length w)%nat ->
  0 < nth i w 0 -> 0 < nth j w 0 -> 0 < nth i w' 0 -> 0 < nth j w' 0 -> nth i w 0 * nth j w 0 < nth i w' 0 * nth j w' 0 ->
  weighted_pairwise_distance D w p i j = Fin r -> weighted_pairwise_distance D w' p i j = Fin r' -> 0 < r' < r.
Proof.
  intros Hp Hd Hl Hn Hi Hj Hi' Hj' Hlt E E'. rewrite wpd_value in E by assumption. rewrite wpd_value in E' by (try assumption; lia).
  injection E as <-. injection E' as <-. rewrite <- Hl. assert (Hn' : 0 < INR (length w)) by now apply lt_0_INR.
  set (N2 := INR (length w) * INR (length w)). assert (HN : 0 < N2) by (unfold N2; now apply Rmult_lt_0_compat).
  assert (P : forall x, 0 < Rpower x p) by (intro; unfold Rpower; apply exp_pos).
  split; [apply Rmult_lt_0_compat; [assumption|apply Rinv_0_lt_compat, P]|].
  apply Rmult_lt_compat_l; [assumption|]. apply Rinv_lt_contravar; [apply Rmult_lt_0_compat; apply P|].
  unfold Rpower. apply exp_increasing. apply Rmult_lt_compat_l; [assumption|]. apply ln_increasing.
  - repeat apply Rmult_lt_0_compat; assumption.
  - now apply Rmult_lt_compat_r.
Qed.
Lemma wpd_zero D w p i j : 0 < p -> nth i w 0 = 0 ->
  (0 < D i j -> weighted_pairwise_distance D w p i j = PInf) /\ (D i j = 0 -> weighted_pairwise_distance D w p i j = NaN).
Proof.
  intros Hp Hz. unfold weighted_pairwise_distance, np_pow. rewrite Hz. rewrite !Rmult_0_l. rewrite Reqb_true by reflexivity. rewrite Rltb_true by assumption.
  split; intro H.
  - unfold xdiv. rewrite Reqb_true by reflexivity. unfold inf_times. rewrite Rltb_true by assumption. now rewrite ?Reqb_false by lra.
  - rewrite H. now rewrite xdiv_00.
Qed.
