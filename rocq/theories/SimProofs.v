(** Proofs about simulate_experiment. *)
From Verif Require Import Base RList Sums DomModel DomProofs DomProofs2 SimModel SimSpec.

Lemma default_values_eq n : default_values n = map Z.of_nat (seq 0 (Z.to_nat n)).
Proof.
  unfold default_values, id_values. cbn [i_min i_max]. unfold arange.
  replace (n - 1 + 1 - 0)%Z with n by lia. apply map_ext. intros. lia.
Qed.
Lemma default_values_length n : length (default_values n) = Z.to_nat n.
Proof. now rewrite default_values_eq, map_length, seq_length. Qed.
Lemma np_index_default n d : (0 <= d < n)%Z -> np_index (default_values n) d = Ok d.
Proof.
  intros H. unfold np_index. rewrite default_values_length. rewrite (proj2 (Z.ltb_ge d 0)) by lia.
  rewrite (proj2 (Z.leb_le 0 d)) by lia. rewrite (proj2 (Z.ltb_lt d _)) by lia. cbn [andb].
  rewrite default_values_eq, nth_error_map.
  rewrite nth_error_nth' with (d := 0%nat) by (rewrite seq_length; lia). cbn [option_map].
  rewrite seq_nth by lia. f_equal. lia.
Qed.

Lemma argmax_searchsorted l u : Exists (fun c => u < c) l ->
  argmax_bool (map (fun c => Rltb u c) l) = searchsorted_right l u.
Proof.
  intros H. assert (G : first_true (map (fun c => Rltb u c) l) = Some (searchsorted_right l u)); [|unfold argmax_bool; now rewrite G].
  induction l as [|x l IH]; [inversion H|]. cbn [map first_true searchsorted_right]. destruct (Rltb_spec u x) as [Hlt|Hge]; [reflexivity|].
  inversion H; subst; [lra|]. rewrite IH by assumption. reflexivity.
Qed.
Lemma argmax_none l u : Forall (fun c => c <= u) l -> argmax_bool (map (fun c => Rltb u c) l) = 0%nat.
Proof.
  intros H. assert (G : first_true (map (fun c => Rltb u c) l) = None); [|unfold argmax_bool; now rewrite G].
  induction H as [|x l Hx Hl IH]; [reflexivity|]. cbn [map first_true]. rewrite Rltb_false by assumption. now rewrite IH.
Qed.

Section Pick.
  Variables (n : Z) (pr : Z -> R).
  Let probs := map pr (default_values n).
  Lemma probs_length : length probs = Z.to_nat n.
  Proof. unfold probs. now rewrite map_length, default_values_length. Qed.
  Lemma probs_firstn d : (0 <= d <= n)%Z -> rsum (firstn (Z.to_nat d) probs) = mass_below pr d.
  Proof.
    intros H. unfold mass_below. rewrite Sum_rsum. f_equal. unfold probs. rewrite default_values_eq, map_map, firstn_map. f_equal.
    replace (Z.to_nat n) with (Z.to_nat d + (Z.to_nat n - Z.to_nat d))%nat by lia. rewrite seq_app.
    rewrite firstn_app, seq_length. rewrite firstn_all2 by (rewrite seq_length; lia).
    replace (Z.to_nat d - Z.to_nat d)%nat with 0%nat by lia. cbn [firstn]. now rewrite app_nil_r.
  Qed.
  Lemma mass_below_S d : (0 <= d)%Z -> mass_below pr (d + 1) = mass_below pr d + pr d.
  Proof.
    intros H. unfold mass_below. replace (Z.to_nat (d + 1)) with (S (Z.to_nat d)) by lia. rewrite !Sum_rsum, seq_S, map_app, rsum_app.
    cbn [map]. rewrite rsum_cons, rsum_nil. cbn [plus]. rewrite Z2Nat.id by lia. lra.
  Qed.
  Hypothesis Hd : outcome_distribution n pr.
  Lemma probs_nonneg : Forall (fun x => 0 <= x) probs.
  Proof.
    apply Forall_forall. intros x Hx. unfold probs in Hx. apply in_map_iff in Hx. destruct Hx as (d & <- & Hx).
    rewrite default_values_eq in Hx. apply in_map_iff in Hx. destruct Hx as (k & <- & Hk). apply in_seq in Hk. apply (proj1 Hd). lia.
  Qed.
  Lemma pick_default u : 0 <= u < 1 -> exists d, pick (default_values n) probs u = Ok d /\ (0 <= d < n)%Z /\
    forall d', (0 <= d' < n)%Z -> (d = d' <-> mass_below pr d' <= u < mass_below pr d' + pr d').
  Proof.
    intros Hu.
    assert (Hn : (0 < n)%Z).
    { destruct (Z_lt_le_dec 0 n); [assumption|]. destruct Hd as [_ H]. unfold mass_below in H. replace (Z.to_nat n) with 0%nat in H by lia. rewrite Sum_0 in H. lra. }
    assert (Htot : rsum probs = 1).
    { rewrite <- (proj2 Hd). rewrite <- (firstn_all probs), probs_length. apply probs_firstn. lia. }
    pose proof probs_length as Hl. pose proof probs_nonneg as Hnn.
    assert (Hlt : (searchsorted_right (cumsum probs) u < length probs)%nat) by (apply searchsorted_from_lt; [rewrite Htot; lra|lia]).
    set (k := searchsorted_right (cumsum probs) u) in *.
    assert (Hex : Exists (fun c => u < c) (cumsum probs)).
    { apply Exists_nth. exists (length probs - 1)%nat, 0. rewrite cumsum_length. split; [lia|]. rewrite cumsum_nth by lia.
      rewrite firstn_all2 by lia. lra. }
    exists (Z.of_nat k). split; [|split; [lia|]].
    - unfold pick. destruct (default_values n) as [|v0 vs] eqn:E.
      + exfalso. pose proof (default_values_length n) as E2. rewrite E in E2. simpl in E2. lia.
      + rewrite <- E. rewrite argmax_searchsorted by assumption. fold k. rewrite np_index_default by lia. cbn [bind]. apply np_index_default. lia.
    - intros d' Hd'. rewrite <- mass_below_S by lia. rewrite <- !probs_firstn by lia. replace (Z.to_nat (d' + 1)) with (S (Z.to_nat d')) by lia.
      split.
      + intros <-. rewrite Nat2Z.id. destruct (searchsorted_from_spec 0 probs u Hnn k eq_refl Hlt) as [H1 H2]. specialize (H2 (proj1 Hu)). lra.
      + intros H. assert (k = Z.to_nat d') as ->; [|lia]. unfold k. apply searchsorted_unique; [assumption|lia|assumption].
  Qed.
End Pick.

Lemma pick_deficit n pr u : (0 < n)%Z -> (forall d, (0 <= d < n)%Z -> 0 <= pr d) -> mass_below pr n <= u ->
  pick (default_values n) (map pr (default_values n)) u = Ok 0%Z.
Proof.
  intros Hn Hp Hu. unfold pick. destruct (default_values n) as [|v0 vs] eqn:E.
  - exfalso. pose proof (default_values_length n) as E2. rewrite E in E2. simpl in E2. lia.
  - rewrite <- E. rewrite argmax_none.
    + change (Z.of_nat 0) with 0%Z. rewrite np_index_default by lia. cbn [bind]. apply np_index_default; lia.
    + apply Forall_forall. intros c Hc. apply (In_nth _ _ 0) in Hc. destruct Hc as (k & Hk & <-). rewrite cumsum_length in Hk.
      rewrite cumsum_nth by assumption. rewrite map_length, default_values_length in Hk.
      replace (S k) with (Z.to_nat (Z.of_nat k + 1)) by lia. rewrite probs_firstn by lia.
      eapply Rle_trans; [|exact Hu]. rewrite <- !(probs_firstn n) by lia. apply rsum_firstn_mono; [|lia].
      apply Forall_forall. intros x Hx. apply in_map_iff in Hx. destruct Hx as (d & <- & Hx).
      rewrite default_values_eq in Hx. apply in_map_iff in Hx. destruct Hx as (j & <- & Hj). apply in_seq in Hj. apply Hp. lia.
Qed.

Lemma mapM_ok_ex {X Y} (f : X -> res Y) l : (forall x, In x l -> exists y, f x = Ok y) ->
  exists ys, mapM f l = Ok ys /\ length ys = length l /\ forall k x, nth_error l k = Some x -> exists y, nth_error ys k = Some y /\ f x = Ok y.
Proof.
  induction l as [|x l IH]; intros H.
  - exists []. repeat split. intros [|k] z E; discriminate.
  - destruct (H x (or_introl eq_refl)) as (y & Ey). destruct IH as (ys & E1 & E2 & E3); [intros z Hz; apply H; now right|].
    exists (y :: ys). cbn [mapM]. rewrite Ey, E1. repeat split; [simpl; lia|]. intros [|k] z E.
    + injection E as <-. now exists y.
    + now apply E3.
Qed.
Lemma nth_error_enum {X} (l : list X) k x : nth_error (combine (seq 0 (length l)) l) k = Some x <-> exists y, nth_error l k = Some y /\ x = (k, y).
Proof.
  assert (G : forall s, nth_error (combine (seq s (length l)) l) k = Some x <-> exists y, nth_error l k = Some y /\ x = (s + k, y)%nat); [|apply G].
  revert k; induction l as [|a l IH]; intros k s.
  - destruct k; (split; [discriminate|intros (y & E & _); discriminate]).
  - cbn [length seq combine]. destruct k as [|k]; cbn [nth_error].
    + split; [intros E; injection E as <-; exists a; split; [reflexivity|f_equal; lia]|]. intros (y & E & ->). injection E as ->. do 2 f_equal. lia.
    + rewrite IH. split; intros (y & E & ->); exists y; (split; [exact E|f_equal; lia]).
Qed.

Section Simulate.
  Context {M E : Type}.
  Lemma simulate_ok (m : @fmodel M E) n mps eps repeat rand :
    fm_constant m = true -> fm_values m = default_values n ->
    (forall x e, In x mps -> In e eps -> outcome_distribution n (fun d => fm_like m d x e)) ->
    (forall r i j, 0 <= rand r i j < 1) ->
    exists out, simulate_experiment m mps eps repeat rand = Ok out /\
      ((exists z, out = Scalar z) <-> repeat = 1%nat /\ length mps = 1%nat /\ length eps = 1%nat) /\
      forall r i j x e, (r < repeat)%nat -> nth_error mps i = Some x -> nth_error eps j = Some e ->
        exists d, outcome_at out r i j = Some d /\ (0 <= d < n)%Z /\
          forall d', (0 <= d' < n)%Z ->
            (d = d' <-> mass_below (fun o => fm_like m o x e) d' <= rand r i j < mass_below (fun o => fm_like m o x e) d' + fm_like m d' x e).
  Proof.
    intros Hc Hv Hd Hr. unfold simulate_experiment. rewrite Hc, Hv.
    set (F := fun r => mapM _ (combine (seq 0 (length mps)) mps)).
    assert (H1 : forall r im, In im (combine (seq 0 (length mps)) mps) -> exists row, mapM (fun je : nat * E =>
         pick (default_values n) (map (fun o => fm_like m o (snd im) (snd je)) (default_values n)) (rand r (fst im) (fst je)))
         (combine (seq 0 (length eps)) eps) = Ok row /\ length row = length (combine (seq 0 (length eps)) eps) /\ forall k je, nth_error (combine (seq 0 (length eps)) eps) k = Some je ->
           exists d, nth_error row k = Some d /\ pick (default_values n) (map (fun o => fm_like m o (snd im) (snd je)) (default_values n)) (rand r (fst im) (fst je)) = Ok d).
    { intros r [i x] Hin. apply mapM_ok_ex. intros [j e] Hj. cbn [fst snd].
      destruct (pick_default n (fun d => fm_like m d x e)) with (u := rand r i j) as (d & Ed & _); [|apply Hr|now exists d].
      apply Hd; [now apply in_combine_r in Hin|now apply in_combine_r in Hj]. }
    destruct (mapM_ok_ex F (seq 0 repeat)) as (t & Et & Lt & Nt).
    { intros r _. unfold F. destruct (mapM_ok_ex _ (combine (seq 0 (length mps)) mps) (fun im Him => let '(ex_intro _ row (conj E _)) := H1 r im Him in ex_intro _ row E)) as (ys & E1 & _). now exists ys. }
    rewrite Et. cbn [bind].
    assert (Cell : forall r i j x e, (r < repeat)%nat -> nth_error mps i = Some x -> nth_error eps j = Some e ->
       exists d, outcome_at (Tensor t) r i j = Some d /\ pick (default_values n) (map (fun o => fm_like m o x e) (default_values n)) (rand r i j) = Ok d).
    { intros r i j x e Hlt Hx He. destruct (Nt r r) as (mat & Em & Fm).
      { rewrite nth_error_nth' with (d := 0%nat) by (rewrite seq_length; lia). f_equal. rewrite seq_nth by lia. lia. }
      unfold F in Fm. destruct (mapM_ok_ex _ (combine (seq 0 (length mps)) mps) (fun im Him => let '(ex_intro _ row (conj E _)) := H1 r im Him in ex_intro _ row E)) as (ys & E1 & _ & E3).
      rewrite E1 in Fm. injection Fm as ->. destruct (E3 i (i, x)) as (row & Er & Fr); [apply nth_error_enum; now exists x|].
      assert (Hin : In (i, x) (combine (seq 0 (length mps)) mps)) by (apply (nth_error_In _ i); apply nth_error_enum; now exists x).
      destruct (H1 r (i, x) Hin) as (row' & Er' & _ & Nr'). rewrite Er' in Fr. injection Fr as ->.
      destruct (Nr' j (j, e)) as (d & Ed & Fd); [apply nth_error_enum; now exists e|]. exists d. split; [|exact Fd].
      cbn [outcome_at]. now rewrite Em, Er. }
    assert (Fin : forall out, (forall r i j x e, (r < repeat)%nat -> nth_error mps i = Some x -> nth_error eps j = Some e -> outcome_at out r i j = outcome_at (Tensor t) r i j) ->
      forall r i j x e, (r < repeat)%nat -> nth_error mps i = Some x -> nth_error eps j = Some e ->
        exists d, outcome_at out r i j = Some d /\ (0 <= d < n)%Z /\
          forall d', (0 <= d' < n)%Z ->
            (d = d' <-> mass_below (fun o => fm_like m o x e) d' <= rand r i j < mass_below (fun o => fm_like m o x e) d' + fm_like m d' x e)).
    { intros out Hout r i j x e Hlt Hx He. rewrite (Hout _ _ _ _ _ Hlt Hx He). destruct (Cell _ _ _ _ _ Hlt Hx He) as (d & Ed & Pd).
      destruct (pick_default n (fun d => fm_like m d x e)) with (u := rand r i j) as (d0 & E0 & R0 & C0).
      - apply Hd; eapply nth_error_In; eassumption.
      - apply Hr.
      - rewrite E0 in Pd. injection Pd as <-. exists d0. auto. }
    destruct (Nat.eq_dec repeat 1) as [->|Hrep].
    - destruct eps as [|e [|e2 eps']].
      + exists (Tensor t). split; [reflexivity|]. split; [split; [intros (z & Ez); discriminate|simpl; lia]|apply Fin; auto].
      + destruct mps as [|x [|x2 mps']].
        * exists (Tensor t). split; [reflexivity|]. split; [split; [intros (z & Ez); discriminate|simpl; lia]|apply Fin; auto].
        * destruct (Cell 0 0 0 x e)%nat as (d & Ed & _); [lia|reflexivity|reflexivity|].
          destruct t as [|a [|b t']]; simpl in Lt; try lia.
          destruct (Nt 0 0)%nat as (mat & Em & Fm); [reflexivity|]. injection Em as <-.
          assert (Ha : exists z, a = [[z]]).
          { unfold F in Fm. cbn [length seq combine mapM] in Fm.
            destruct (pick (default_values n) _ _) as [z|ex]; [|discriminate]. cbn [bind] in Fm. injection Fm as <-. now exists z. }
          destruct Ha as (z & ->). exists (Scalar z). split; [reflexivity|]. split; [split; [now split|intros _; now exists z]|].
          apply Fin. intros [|r] [|i] [|j] x' e' Hlt Hx He; try reflexivity; try lia.
          -- destruct j; discriminate.
          -- destruct i; discriminate.
          -- destruct i; discriminate.
        * exists (Tensor t). split; [reflexivity|]. split; [split; [intros (z & Ez); discriminate|simpl; lia]|apply Fin; auto].
      + exists (Tensor t). split; [destruct mps as [|? [|? ?]]; reflexivity|]. split; [split; [intros (z & Ez); discriminate|simpl; lia]|apply Fin; auto].
    - exists (Tensor t). split; [destruct repeat as [|[|repeat]]; [reflexivity|lia|reflexivity]|]. split; [split; [intros (z & Ez); discriminate|lia]|apply Fin; auto].
  Qed.
End Simulate.
