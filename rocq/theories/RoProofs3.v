(** Pointwise form of the posterior marginal. *)
From Verif Require Import Base RList Ext Sums SmcModel PartModel PartSpec PartProofs MiscProofs2 LinProofs RoModel RoSpec RoProofs RoProofs2.

Section Linear.
  Variables (w : list R) (l : list (list R)) (idx : nat) (s : list nat) (e : R).
  Let f i := nth idx (nth i l []) 0.
  Hypothesis Hw : prob_vector w.
  Hypothesis Hs : Permutation s (seq 0 (length w)).
  Hypothesis Hsort : mono (map f s).
  Hypothesis He : forall i, (i < length w)%nat -> f i <= e.
  Hypothesis Hdist : forall i j, (i < length w)%nat -> (j < length w)%nat -> f i = f j -> i = j.
  Let xs := map f s ++ [e].
  Let ys := cumsum (map (fun i => nth i w 0) s) ++ [1].

  Lemma s_nodup : NoDup s.
  Proof. apply (Permutation_NoDup (Permutation_sym Hs)), seq_NoDup. Qed.
  Lemma ls : length s = length w. Proof. apply Permutation_length in Hs. now rewrite seq_length in Hs. Qed.
  Lemma xs_nth k : (k < length w)%nat -> nth k xs 0 = f (nth k s 0%nat) /\ (nth k s 0%nat < length w)%nat.
  Proof.
    intros Hk. split.
    - unfold xs. rewrite app_nth1 by (rewrite map_length, ls; assumption). rewrite (nth_indep _ 0 (f 0%nat)) by (rewrite map_length, ls; assumption). apply map_nth.
    - assert (H : In (nth k s 0%nat) s) by (apply nth_In; rewrite ls; assumption). apply (Permutation_in _ Hs) in H. apply in_seq in H. lia.
  Qed.
  Lemma pos_of i : (i < length w)%nat -> exists k, (k < length w)%nat /\ nth k s 0%nat = i.
  Proof.
    intros Hi. assert (H : In i s) by (apply (Permutation_in _ (Permutation_sym Hs)), in_seq; lia). apply (In_nth _ _ 0%nat) in H. destruct H as (k & Hk & E). exists k. rewrite ls in Hk. now split.
  Qed.
  Lemma ss_map x m : (m <= length w)%nat -> (forall k, (k < m)%nat -> f (nth k s 0%nat) <= x) -> (forall k, (m <= k < length w)%nat -> x < f (nth k s 0%nat)) -> searchsorted_right (map f s) x = m.
  Proof.
    intros Hm H1 H2. set (q := searchsorted_right (map f s) x). pose proof (ss_le (map f s) x) as Hq. fold q in Hq. rewrite map_length, ls in Hq.
    assert (N : forall k, (k < length w)%nat -> nth k (map f s) 0 = f (nth k s 0%nat)).
    { intros k Hk. rewrite (nth_indep _ 0 (f 0%nat)) by (rewrite map_length, ls; assumption). apply map_nth. }
    destruct (Nat.lt_trichotomy q m) as [L|[L|L]]; [exfalso| assumption |exfalso].
    - pose proof (ss_above (map f s) x) as A0. fold q in A0. rewrite map_length, ls in A0. specialize (A0 ltac:(lia)). rewrite N in A0 by lia. specialize (H1 q L). lra.
    - pose proof (ss_below (map f s) x m) as B0. fold q in B0. specialize (B0 L). rewrite N in B0 by lia. specialize (H2 m ltac:(lia)). lra.
  Qed.
  (** Between neighbouring locations the interpolant is the straight line through the two values of the cdf *)
  Lemma Fm_linear i j x : (i < length w)%nat -> (j < length w)%nat -> f i < f j ->
    (forall k, (k < length w)%nat -> f k <= f i \/ f j <= f k) -> f i <= x <= f j ->
    Fm w l idx s e x = cdf w l idx (f i) + (x - f i) / (f j - f i) * (cdf w l idx (f j) - cdf w l idx (f i)).
  Proof.
    intros Hi Hj Hij Hgap Hx. destruct (Req_dec x (f j)) as [->|Hne].
    { pose proof (Fm_knot w l idx s e Hw Hs Hsort He j Hj) as K. change (Fm w l idx s e (f j) = cdf w l idx (f j)) in K. rewrite K. field. lra. }
    assert (Hxj : x < f j) by lra. destruct (pos_of i Hi) as (pi & Hpi & Epi). destruct (pos_of j Hj) as (pj & Hpj & Epj).
    assert (Mono : forall a b, (a <= b)%nat -> (b < length w)%nat -> f (nth a s 0%nat) <= f (nth b s 0%nat)).
    { intros a b Hab Hb. pose proof (Hsort a b) as M. rewrite map_length, ls in M. specialize (M ltac:(lia)).
      rewrite !(nth_indep _ 0 (f 0%nat)) in M by (rewrite map_length, ls; lia). now rewrite !map_nth in M. }
    assert (Lt : (pi < pj)%nat). { destruct (le_lt_dec pj pi) as [L|]; [|assumption]. specialize (Mono pj pi L Hpi). rewrite Epi, Epj in Mono. lra. }
    assert (Adj : pj = S pi).
    { destruct (Nat.eq_dec pj (S pi)) as [|N]; [assumption|exfalso]. set (k := nth (S pi) s 0%nat).
      assert (Hk : (k < length w)%nat) by (apply (xs_nth (S pi)); lia).
      pose proof (Mono pi (S pi) ltac:(lia) ltac:(lia)) as M1. pose proof (Mono (S pi) pj ltac:(lia) Hpj) as M2. rewrite Epi in M1. rewrite Epj in M2. fold k in M1, M2.
      destruct (Hgap k Hk) as [G|G].
      - assert (k = i) by (apply Hdist; [assumption|assumption|lra]). pose proof (proj1 (NoDup_nth s 0%nat) s_nodup pi (S pi)) as D. rewrite ls in D. specialize (D Hpi ltac:(lia)). fold k in D. rewrite Epi in D. lia.
      - assert (k = j) by (apply Hdist; [assumption|assumption|lra]). pose proof (proj1 (NoDup_nth s 0%nat) s_nodup pj (S pi)) as D. rewrite ls in D. specialize (D Hpj ltac:(lia)). fold k in D. rewrite Epj in D. lia. }
    assert (Up : forall k, (k <= pi)%nat -> f (nth k s 0%nat) <= f i) by (intros k Hk; rewrite <- Epi; apply Mono; lia).
    assert (Dn : forall k, (S pi <= k < length w)%nat -> f j <= f (nth k s 0%nat)) by (intros k Hk; rewrite <- Epj; apply Mono; lia).
    assert (Dn' : forall k, (S (S pi) <= k < length w)%nat -> f j < f (nth k s 0%nat)).
    { intros k Hk. destruct (Dn k ltac:(lia)) as [L|E0]; [assumption|exfalso]. assert (j = nth k s 0%nat) as E1 by (apply Hdist; [assumption|apply (xs_nth k); lia|assumption]).
      pose proof (proj1 (NoDup_nth s 0%nat) s_nodup pj k) as D. rewrite ls in D. specialize (D Hpj ltac:(lia)). rewrite Epj in D. specialize (D E1). lia. }
    assert (Ex : searchsorted_right (map f s) x = S pi).
    { apply ss_map; [lia|intros k Hk; specialize (Up k ltac:(lia)); lra|intros k Hk; specialize (Dn k Hk); lra]. }
    assert (Ei : searchsorted_right (map f s) (f i) = S pi).
    { apply ss_map; [lia|intros k Hk; specialize (Up k ltac:(lia)); lra|intros k Hk; specialize (Dn k Hk); lra]. }
    assert (Ej : searchsorted_right (map f s) (f j) = S (S pi)).
    { apply ss_map; [lia| |intros k Hk; now apply Dn']. intros k Hk. destruct (Nat.eq_dec k (S pi)) as [->|]; [rewrite <- Adj, Epj; lra|]. specialize (Up k ltac:(lia)). lra. }
    pose proof (He j Hj) as Hje.
    assert (Exs : searchsorted_right xs x = S pi) by (unfold xs; rewrite ss_app by lra; exact Ex).
    pose proof (m_len w l idx s e) as ML. pose proof (m_pos l idx s e) as MP. pose proof (m_ys w l idx s e Hw Hs) as MY. pose proof (m_last l idx s e) as MLa.
    pose proof (m_hd_le w l idx s e Hs Hsort He (f i) ltac:(apply in_map, (Permutation_in _ (Permutation_sym Hs)), in_seq; lia)) as MH.
    fold f in ML, MP, MY, MLa, MH. fold xs in ML, MP, MLa, MH. fold ys in ML, MY.
    destruct (interp_char xs ys ML MP MY x ltac:(lra)) as (J & EJ & HJ & _ & _ & _ & HL).
    rewrite Exs in EJ. cbn [Nat.sub] in EJ. rewrite Nat.sub_0_r in EJ. subst J.
    assert (Lx : length xs = S (length w)) by (unfold xs; rewrite app_length, map_length, ls; cbn; lia).
    destruct HL as (_ & _ & HL); [lia|]. unfold Fm. fold f. fold xs ys. rewrite HL.
    rewrite <- Adj. rewrite (proj1 (xs_nth pi Hpi)), (proj1 (xs_nth pj Hpj)). rewrite Epi, Epj.
    pose proof (m_ynth w s Hs) as MN. fold ys in MN. rewrite !MN. destruct (Nat.ltb_spec pi (length w)); [|lia]. destruct (Nat.ltb_spec pj (length w)); [|lia].
    pose proof (m_cdf w l idx s Hs Hsort) as MC. fold f in MC. rewrite !MC, Ei, Ej, Adj. field. lra.
  Qed.
End Linear.

Lemma marginal_value s w (l : list loc) idx n rmin rmax a b :
  prob_vector w -> length l = length w -> argsorts s (col idx l) -> (2 <= n)%nat ->
  endpoint rmin (is_min (length w) (coord l idx)) a -> endpoint rmax (is_max (length w) (coord l idx)) b -> a < b ->
  let h := (b - a) / INR (n - 1) in let F := Fm w l idx s (b + Rabs (b - a)) in
  posterior_marginal s w l idx n rmin rmax = Ok (linspace a b n, map Fin (map (rgrad (map F (linspace a b n)) h) (seq 0 n))).
Proof.
  intros Hw Hl Hs Hn Ha Hb Hab h F. destruct (argsorts_mono s w l idx Hl Hs) as [Hp Hm].
  set (ps := linspace a b n). assert (Hnr : 0 < INR (n - 1)) by (apply lt_0_INR; lia).
  assert (Hh : 0 < h) by (unfold h; apply Rmult_lt_0_compat; [lra|now apply Rinv_0_lt_compat]).
  assert (Hps : forall i, (i < n)%nat -> nth i ps 0 = a + INR i * h) by (intros i Hi; unfold ps, h; now apply linspace_nth).
  assert (Hlen : length (map F ps) = n) by (rewrite map_length; apply linspace_length).
  unfold posterior_marginal. set (locs := map (fun i => nth idx (nth i l []) 0) s) in *.
  assert (Hlne : locs <> []).
  { intro H0. unfold locs in H0. apply map_eq_nil in H0. subst s. apply Permutation_length in Hp. rewrite seq_length in Hp. cbn in Hp. destruct Hw as [_ H1]. destruct w; [unfold rsum in H1; cbn in H1; lra|discriminate]. }
  assert (E1 : match rmin with None => lmin1 locs | Some r => r end = a).
  { destruct rmin as [r|]; cbn in Ha; [now symmetry|]. exact (is_min_unique s (length w) (coord l idx) a Hp Ha). }
  assert (E2 : match rmax with None => lmax1 locs | Some r => r end = b).
  { destruct rmax as [r|]; cbn in Hb; [now symmetry|]. exact (is_max_unique s (length w) (coord l idx) b Hp Hb). }
  destruct locs as [|x0 lo] eqn:El; [congruence|]. rewrite <- El in *. rewrite E1, E2. destruct (Nat.ltb_spec n 2); [lia|].
  fold ps. change (map (interp1d (locs ++ [b + Rabs (b - a)]) (cumsum (map (fun i => nth i w 0) s) ++ [1])) ps) with (map F ps).
  assert (nth 1 ps 0 - nth 0 ps 0 = h) as -> by (rewrite !Hps by lia; cbn [INR]; ring).
  rewrite gradient_fin by lra. rewrite Hlen. reflexivity.
Qed.

Lemma marginal_pointwise s w (l : list loc) idx n rmin rmax a b :
  prob_vector w -> length l = length w -> argsorts s (col idx l) -> (2 <= n)%nat ->
  endpoint rmin (is_min (length w) (coord l idx)) a -> endpoint rmax (is_max (length w) (coord l idx)) b -> a < b ->
  (forall i, (i < length w)%nat -> coord l idx i <= b + (b - a)) ->
  let h := (b - a) / INR (n - 1) in
  exists ps pr F, posterior_marginal s w l idx n rmin rmax = Ok (ps, map Fin pr) /\ length ps = n /\ length pr = n /\
    (forall i, (i < n)%nat -> nth i ps 0 = a + INR i * h) /\
    nth 0 pr 0 = (F (nth 1 ps 0) - F (nth 0 ps 0)) / h /\
    nth (n - 1) pr 0 = (F (nth (n - 1) ps 0) - F (nth (n - 2) ps 0)) / h /\
    (forall i, (0 < i < n - 1)%nat -> nth i pr 0 = (F (nth (i + 1) ps 0) - F (nth (i - 1) ps 0)) / (2 * h)) /\
    (forall x, (forall i, (i < length w)%nat -> x < coord l idx i) -> F x = 0) /\
    (forall x, (forall i, (i < length w)%nat -> coord l idx i <= x) -> x <= b -> F x = 1) /\
    (forall i, (i < length w)%nat -> coord l idx i <= b -> F (coord l idx i) = cdf w l idx (coord l idx i)) /\
    ((forall i j, (i < length w)%nat -> (j < length w)%nat -> coord l idx i = coord l idx j -> i = j) ->
     forall i j x, (i < length w)%nat -> (j < length w)%nat -> coord l idx i <= x <= coord l idx j -> coord l idx i < coord l idx j ->
       (forall k, (k < length w)%nat -> coord l idx k <= coord l idx i \/ coord l idx j <= coord l idx k) ->
       F x = cdf w l idx (coord l idx i) + (x - coord l idx i) / (coord l idx j - coord l idx i) * (cdf w l idx (coord l idx j) - cdf w l idx (coord l idx i))).
Proof.
  intros Hw Hl Hs Hn Ha Hb Hab He h. pose proof (marginal_value s w l idx n rmin rmax a b Hw Hl Hs Hn Ha Hb Hab) as E. cbv zeta in E. fold h in E.
  destruct (argsorts_mono s w l idx Hl Hs) as [Hp Hm]. set (e := b + Rabs (b - a)) in *. set (F := Fm w l idx s e) in *. set (ps := linspace a b n) in *.
  assert (Ee : e = b + (b - a)) by (unfold e; rewrite Rabs_pos_eq by lra; reflexivity).
  assert (He' : forall i, (i < length w)%nat -> nth idx (nth i l []) 0 <= e) by (intros i Hi; rewrite Ee; now apply He).
  assert (Lp : length ps = n) by apply linspace_length.
  assert (HF : forall i, (i < n)%nat -> nth i (map F ps) 0 = F (nth i ps 0)).
  { intros i Hi. rewrite (nth_indep _ 0 (F 0)) by (rewrite map_length, Lp; assumption). apply map_nth. }
  exists ps, (map (rgrad (map F ps) h) (seq 0 n)), F.
  refine (conj E (conj Lp (conj _ (conj _ (conj _ (conj _ (conj _ (conj _ (conj _ (conj _ _)))))))))).
  - now rewrite map_length, seq_length.
  - intros i Hi. unfold ps, h. now apply linspace_nth.
  - rewrite nth_map_seq' by lia. unfold rgrad. cbn [Nat.eqb]. now rewrite !HF by lia.
  - rewrite nth_map_seq' by lia. unfold rgrad. rewrite map_length, Lp. destruct (Nat.eqb_spec (n - 1) 0); [lia|]. rewrite Nat.eqb_refl. now rewrite !HF by lia.
  - intros i Hi. rewrite nth_map_seq' by lia. unfold rgrad. rewrite map_length, Lp. destruct (Nat.eqb_spec i 0); [lia|]. destruct (Nat.eqb_spec i (n - 1)); [lia|]. now rewrite !HF by lia.
  - intros x H. now apply (Fm_zero w l idx s e).
  - intros x H H2. apply (Fm_one w l idx s e); try assumption; lra.
  - intros i Hi _. apply (Fm_knot w l idx s e Hw Hp Hm He' i Hi).
  - intros Hd i j x Hi Hj Hx Hij Hgap. apply (Fm_linear w l idx s e Hw Hp Hm He' Hd i j x Hi Hj Hij Hgap Hx).
Qed.
