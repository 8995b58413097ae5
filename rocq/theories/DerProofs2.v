(** Proofs about power likelihoods, random walks and the hyperparameterized model. *)
From Verif Require Import Base RList Ext Sums DomModel SmcModel SmcSpec SmcProofs SmcProofs2 DerModel DerSpec.

(** ** Powers of likelihoods *)
Lemma mle_entry_nat L (k : nat) : 0 <= L -> (0 < k)%nat -> mle_entry (INR k) L = Fin (L ^ k).
Proof.
  intros HL Hk. unfold mle_entry. destruct (Reqb_spec L 0) as [->|D].
  - rewrite Rltb_true by (apply lt_0_INR; lia). now rewrite pow_i.
  - f_equal. apply Rpower_pow. lra.
Qed.
Lemma mle_entry_one L : 0 <= L -> mle_entry 1 L = Fin L.
Proof. intros H. change 1 with (INR 1) at 1. rewrite mle_entry_nat by (try assumption; lia). f_equal. ring. Qed.
Lemma mle_entry_pos g L : 0 < g -> 0 <= L -> exists r, mle_entry g L = Fin r /\ 0 <= r /\ (r = 0 <-> L = 0).
Proof.
  intros Hg HL. unfold mle_entry. destruct (Reqb_spec L 0) as [->|D].
  - rewrite Rltb_true by assumption. exists 0. repeat split; lra.
  - exists (Rpower L g). split; [reflexivity|]. unfold Rpower. pose proof (exp_pos (g * ln L)). repeat split; try lra.
Qed.
Lemma mle_entry_mono g L L' r r' : 0 < g -> 0 <= L -> 0 <= L' -> mle_entry g L = Fin r -> mle_entry g L' = Fin r' -> (L < L' <-> r < r').
Proof.
  intros Hg HL HL' E E'. assert (M : forall a b ra rb, 0 <= a -> 0 <= b -> mle_entry g a = Fin ra -> mle_entry g b = Fin rb -> a < b -> ra < rb).
  { clear - Hg. intros a b ra rb Ha Hb Ea Eb Hab. unfold mle_entry in *. destruct (Reqb_spec b 0) as [->|Db]; [lra|]. injection Eb as <-.
    destruct (Reqb_spec a 0) as [->|Da].
    - rewrite Rltb_true in Ea by assumption. injection Ea as <-. unfold Rpower. apply exp_pos.
    - injection Ea as <-. unfold Rpower. apply exp_increasing. apply Rmult_lt_compat_l; [assumption|]. apply ln_increasing; lra. }
  split; intros H; [now apply (M L L')|]. destruct (Rtotal_order L L') as [A|[A|A]]; [assumption| |].
  - subst. rewrite E in E'. injection E' as ->. lra.
  - specialize (M L' L r' r HL' HL E' E A). lra.
Qed.

Section Updater.
Context {O E RND : Type}.
Notation config := (@config O E RND).
(** The same updater with the model wrapped in MLEModel. *)
Definition powered (g : R) (c : config) : config :=
  {| md := {| lik := fun o x e => match mle_entry g (lik (md c) o x e) with Fin r => r | _ => 0 end;
              timestep := timestep (md c); canon := canon (md c) |};
     prior := prior c; rsmp := rsmp c; rthresh := rthresh c; zpolicy := zpolicy c; zthresh := zthresh c; canonize := canonize c |}.
Lemma powered_good g c : 0 < g -> good_config c -> good_config (powered g c).
Proof.
  intros Hg [A B C D F]. constructor; try assumption. intros o x e. cbn. destruct (mle_entry_pos g _ Hg (A o x e)) as (r & -> & H & _). assumption.
Qed.
Lemma rprod_repeat x n : rprod (repeat x n) = x ^ n.
Proof. induction n as [|n IH]; [reflexivity|]. cbn [repeat pow]. now rewrite rprod_cons, IH. Qed.
Lemma map_repeat' {A B} (f : A -> B) x n : map f (repeat x n) = repeat (f x) n.
Proof. induction n as [|n IH]; [reflexivity|]. cbn. now rewrite IH. Qed.
Lemma powered_update (c : config) rs s o e p : (0 < p)%nat -> good_config c -> zthresh c < 1 -> full_inv s -> (forall r l e, timestep (md c) r l e = l) ->
  regular c rs 0 (repeat (o, e) p) s -> eps <= evidence (powered (INR p) c) s o e ->
  ws (run c s (updates rs 0 (repeat (o, e) p))) = ws (fst (update (powered (INR p) c) (rs 0%nat) s o e false)).
Proof.
  intros Hp G Ht Hinv Hst R1 R2. set (c' := powered (INR p) c) in *.
  assert (G' : good_config c') by (apply powered_good; [apply lt_0_INR; lia|assumption]).
  assert (Ht' : zthresh c' < 1) by exact Ht.
  assert (R2' : regular c' rs 0 [(o, e)] s) by (split; [assumption|exact I]).
  change (fst (update c' (rs 0%nat) s o e false)) with (run c' s (updates rs 0 [(o, e)])).
  destruct (run_regular c rs G Ht _ 0%nat s Hinv R1) as (A1 & A2 & NA & A3 & A4 & A5).
  destruct (run_regular c' rs G' Ht' _ 0%nat s Hinv R2') as (B1 & B2 & NB & B3 & B4 & B5).
  set (sa := run c s (updates rs 0 (repeat (o, e) p))) in *. set (sb := run c' s (updates rs 0 [(o, e)])) in *.
  assert (HP : forall i, (i < n_particles s)%nat -> wt sa i * rprod NA = wt sb i * rprod NB).
  { intros i Hi. rewrite A5, B5 by assumption. f_equal. rewrite (path_lik_static c) by assumption. rewrite (path_lik_static c') by assumption.
    rewrite map_repeat', rprod_repeat. cbn [map fst snd]. rewrite rprod_cons. cbn [c' powered md lik].
    rewrite mle_entry_nat by (try assumption; apply (lik_nonneg c G)). unfold rprod. cbn. ring. }
  assert (HN : rprod NA = rprod NB).
  { pose proof (full_inv_Sum sa A1) as Sa. pose proof (full_inv_Sum sb B1) as Sb. rewrite A2 in Sa. rewrite B2 in Sb.
    rewrite <- (Rmult_1_r (rprod NA)), <- (Rmult_1_r (rprod NB)). rewrite <- Sa at 1. rewrite <- Sb.
    rewrite <- !Sum_scal. apply Sum_ext. intros i Hi. specialize (HP i Hi). lra. }
  pose proof (rprod_pos _ A4) as HA. destruct A1 as [La _], B1 as [Lb _]. unfold n_particles in *.
  apply list_eq_nth; [congruence|]. intros i Hi. assert (i < length (ls s))%nat as Hi' by congruence. specialize (HP i Hi'). rewrite <- HN in HP.
  apply Rmult_eq_reg_r in HP; [exact HP|lra].
Qed.
End Updater.

(** ** RandomWalkModel *)
Lemma rw_timestep_entry d sample mps n_e m i e : (m < length mps)%nat -> (i < d)%nat -> (e < n_e)%nat -> Forall (fun r => length r = d) mps ->
  entry (rw_timestep d sample mps n_e) m i e =
  Some (nth i (nth m mps []) 0 + nth i (nth (m * n_e + e) (sample (length mps * n_e)%nat) []) 0).
Proof.
  intros Hm Hi He Hd. unfold entry, rw_timestep.
  assert (Em : nth_error mps m = Some (nth m mps [])) by (apply nth_error_nth'; assumption).
  assert (Hr : length (nth m mps []) = d) by (rewrite Forall_forall in Hd; apply Hd, nth_In; assumption).
  assert (N2 : forall (A B C : Type) (f : A -> B -> C) l1 l2 k a b, nth_error l1 k = Some a -> nth_error l2 k = Some b -> nth_error (map2 f l1 l2) k = Some (f a b)).
  { clear. intros A B C f. induction l1 as [|x l1 IH]; intros [|y l2] [|k] a b; cbn; try discriminate; [congruence|]. apply IH. }
  assert (NS : forall k n, (k < n)%nat -> nth_error (seq 0 n) k = Some k).
  { intros k n H. rewrite (nth_error_nth' (seq 0 n) 0%nat) by now rewrite seq_length. now rewrite seq_nth. }
  erewrite N2; [|exact Em|unfold rw_steps; apply map_nth_error, NS; assumption].
  erewrite N2; [|apply nth_error_nth'; rewrite Hr; assumption|apply map_nth_error, NS; assumption].
  rewrite map_map. rewrite (map_nth_error _ _ _ (NS e n_e He)). reflexivity.
Qed.

(** ** Index selections *)
Lemma list_max_ge l x : In x l -> (x <= list_max l)%nat.
Proof. induction l as [|y l IH]; intros H; [destruct H|]. change (list_max (y :: l)) with (Nat.max y (list_max l)). destruct H as [->|H]; [lia|]. specialize (IH H). lia. Qed.
Lemma list_max_lt l b : l <> [] -> (forall x, In x l -> (x < b)%nat) -> (list_max l < b)%nat.
Proof.
  induction l as [|y l IH]; intros Hn H; [congruence|]. change (list_max (y :: l)) with (Nat.max y (list_max l)). assert (y < b)%nat by (apply H; now left). destruct l as [|z l]; [cbn; lia|].
  assert (list_max (z :: l) < b)%nat by (apply IH; [discriminate|intros; apply H; now right]). lia.
Qed.
Definition sel_plain (s : rw_sel) : Prop :=
  match s with
  | SelAll => True
  | SelIdx l => Forall (fun z => (0 <= z)%Z) l
  | SelSlice (Some z) _ => (0 <= z)%Z
  | SelSlice None _ => True
  end.
Lemma sel_of_plain n s : sel_plain s -> sel_plain (sel_of n s).
Proof. destruct s; cbn; auto. Qed.
Lemma wrap_plain n m z r : (0 <= z)%Z -> wrap_index n z = Ok r -> (n <= m)%nat -> wrap_index m z = Ok r /\ (r < n)%nat.
Proof.
  intros Hz. unfold wrap_index. destruct (Z.leb_spec 0 z); [|lia]. cbn [andb]. destruct (Z.ltb_spec z (Z.of_nat n)) as [A|A].
  - intros [= <-] Hm. destruct (Z.ltb_spec z (Z.of_nat m)); [|lia]. split; [reflexivity|]. lia.
  - destruct (Z.ltb_spec z 0); [lia|]. rewrite andb_false_r. discriminate.
Qed.
Lemma mapM_cons {X Y} (f : X -> res Y) x l r : mapM f (x :: l) = Ok r -> exists y r', f x = Ok y /\ mapM f l = Ok r' /\ r = y :: r'.
Proof.
  cbn. destruct (f x) as [y|]; [|discriminate]. cbn. destruct (mapM f l) as [r'|]; [|discriminate]. cbn. intros [= <-]. eauto.
Qed.
Lemma resolve_lt n s l : resolve n s = Ok l -> forall i, In i l -> (i < n)%nat.
Proof.
  destruct s as [|zs|lo hi]; cbn [resolve].
  - intros [= <-] i Hi. apply in_seq in Hi. lia.
  - revert l; induction zs as [|z zs IH]; intros l H i Hi; [cbn in H; injection H as <-; destruct Hi|]. apply mapM_cons in H. destruct H as (y & r & E1 & E2 & ->).
    destruct Hi as [<-|Hi]; [|now apply (IH r)]. unfold wrap_index in E1.
    destruct (Z.leb_spec 0 z), (Z.ltb_spec z (Z.of_nat n)); cbn [andb] in E1; try (injection E1 as <-; lia).
    + destruct (Z.leb_spec (- Z.of_nat n) z), (Z.ltb_spec z 0); cbn [andb] in E1; try discriminate; injection E1 as <-; lia.
    + destruct (Z.leb_spec (- Z.of_nat n) z), (Z.ltb_spec z 0); cbn [andb] in E1; try discriminate; injection E1 as <-; lia.
    + destruct (Z.leb_spec (- Z.of_nat n) z), (Z.ltb_spec z 0); cbn [andb] in E1; try discriminate; injection E1 as <-; lia.
  - intros [= <-] i Hi. apply in_seq in Hi. destruct hi as [z|]; [|lia]. unfold slice_bound in Hi at 2.
    assert (slice_bound n z <= n)%nat by (unfold slice_bound; destruct (Z.ltb_spec z 0); lia).
    unfold slice_bound in *. destruct (Z.ltb_spec z 0); lia.
Qed.
Lemma list_max_seq a k : (0 < k)%nat -> list_max (seq a k) = (a + k - 1)%nat.
Proof.
  intros H. apply Nat.le_antisymm.
  - assert (list_max (seq a k) < a + k)%nat; [|lia]. apply list_max_lt; [destruct k; [lia|discriminate]|]. intros x Hx. apply in_seq in Hx. lia.
  - apply list_max_ge. apply in_seq. lia.
Qed.
(** With plain selections the check at the end of the constructor guarantees that the same parameters are meant. *)
Lemma resolve_grow n k s l l' : sel_plain s -> resolve n s = Ok l -> resolve (n + k) s = Ok l' -> l <> [] -> (list_max l' <= list_max l)%nat -> l' = l.
Proof.
  destruct s as [|zs|lo hi]; cbn [sel_plain resolve]; intros Hs H H' Hn Hm.
  - injection H as <-. injection H' as <-. destruct n as [|n]; [now destruct Hn|]. rewrite !list_max_seq in Hm by lia. replace k with 0%nat by lia. now rewrite Nat.add_0_r.
  - clear Hn Hm. revert l l' H H'. induction Hs as [|z zs Hz Hs IH]; intros l l' H H'; [cbn in *; congruence|].
    apply mapM_cons in H, H'. destruct H as (y & r & E1 & E2 & ->). destruct H' as (y' & r' & E1' & E2' & ->).
    destruct (wrap_plain n (n + k) z y Hz E1 ltac:(lia)) as [E _]. rewrite (IH r r' E2 E2'). congruence.
  - injection H as <-. injection H' as <-.
    assert (Ha : forall a, (match lo with Some z => slice_bound n z | None => 0%nat end) = a -> (a < n)%nat -> (match lo with Some z => slice_bound (n + k) z | None => 0%nat end) = a).
    { intros a <- Hlt. destruct lo as [z|]; [|reflexivity]. unfold slice_bound in *. destruct (Z.ltb_spec z 0); [lia|]. lia. }
    assert (Hb : (match hi with Some z => slice_bound n z | None => n end <= n)%nat) by (destruct hi as [z|]; [unfold slice_bound; destruct (Z.ltb_spec z 0); lia|lia]).
    set (a := match lo with Some z => slice_bound n z | None => 0%nat end) in *. set (b := match hi with Some z => slice_bound n z | None => n end) in *.
    assert (Hab : (a < b)%nat) by (destruct (b - a)%nat eqn:D; [now destruct Hn|lia]). rewrite (Ha a eq_refl) in * by lia.
    assert (Hbb : (b <= match hi with Some z => slice_bound (n + k) z | None => (n + k)%nat end)%nat).
    { unfold b. destruct hi as [z|]; [|lia]. unfold slice_bound. destruct (Z.ltb_spec z 0); lia. }
    set (b' := match hi with Some z => slice_bound (n + k) z | None => (n + k)%nat end) in *. rewrite !list_max_seq in Hm by lia. f_equal. lia.
Qed.

(** ** GaussianRandomWalkModel *)
Lemma triangle n : (n * (n + 1) / 2)%nat = fold_right Nat.add 0%nat (map S (seq 0 n)).
Proof.
  assert (E : forall m, (2 * fold_right Nat.add 0%nat (map S (seq 0 m)) = m * (m + 1))%nat).
  { induction m as [|m IH]; [reflexivity|]. rewrite seq_S, map_app, fold_right_app. cbn [map fold_right Nat.add].
    assert (F : forall l x, fold_right Nat.add x l = (fold_right Nat.add 0%nat l + x)%nat) by (induction l as [|y l IHl]; intros x; cbn; [lia|]; rewrite IHl; lia).
    rewrite F. lia. }
  rewrite <- E. rewrite Nat.mul_comm. apply Nat.div_mul. lia.
Qed.
Lemma flat_map_length' {A B} (f : A -> list B) l : length (flat_map f l) = fold_right Nat.add 0%nat (map (fun a => length (f a)) l).
Proof. induction l as [|a l IH]; [reflexivity|]. cbn. now rewrite app_length, IH. Qed.
Lemma tri_names_index names : tri_names names = map (fun ij => let a := nth (fst ij) names 0%nat in let b := nth (snd ij) names 0%nat in
    if Nat.eqb a b then Sigma a else Sigma2 b a) (tril_indices (length names)).
Proof.
  unfold tri_names, tril_indices. rewrite !flat_map_concat_map, concat_map, !map_map. f_equal.
  assert (C : combine (seq 0 (length names)) names = map (fun i => (i, nth i names 0%nat)) (seq 0 (length names))).
  { rewrite <- (map_nth_seq names 0%nat) at 2. rewrite <- (map_id (seq 0 (length names))) at 1. now rewrite combine_map_pair. }
  rewrite C, map_map. apply map_ext_in. intros i Hi. apply in_seq in Hi. cbn [fst snd]. rewrite map_map.
  assert (F : firstn (S i) names = map (fun j => nth j names 0%nat) (seq 0 (S i))).
  { apply nth_ext with 0%nat 0%nat; [rewrite firstn_length, map_length, seq_length; lia|]. intros j Hj. rewrite firstn_length in Hj.
    rewrite (nth_indep (map _ _) 0%nat (nth 0 names 0%nat)) by (rewrite map_length, seq_length; lia). rewrite (map_nth (fun j => nth j names 0%nat)), seq_nth by lia.
    rewrite <- (firstn_skipn (S i) names) at 2. rewrite app_nth1 by (rewrite firstn_length; lia). reflexivity. }
  rewrite F, map_map. reflexivity.
Qed.
Lemma tril_length n : length (tril_indices n) = (n * (n + 1) / 2)%nat.
Proof. unfold tril_indices. rewrite flat_map_length', triangle. f_equal. apply map_ext. intros i. now rewrite map_length, seq_length. Qed.
Lemma tri_names_length names : length (tri_names names) = (length names * (length names + 1) / 2)%nat.
Proof. now rewrite tri_names_index, map_length, tril_length. Qed.
Lemma map_add_seq n k : map (fun i => (n + i)%nat) (seq 0 k) = seq n k.
Proof. revert n; induction k as [|k IH]; intros n; [reflexivity|]. cbn [seq map]. rewrite Nat.add_0_r. f_equal. rewrite <- (IH (S n)), <- seq_shift, map_map. apply map_ext. intros; lia. Qed.

(** What a successful construction says. *)
Lemma new_grw_ok chol names sel fixed diagonal tr g : new_grw chol names sel fixed diagonal tr = Ok g ->
  exists l l', resolve (length names) (sel_of (length names) sel) = Ok l /\ l <> [] /\ resolve (g_n_modelparams g) (sel_of (length names) sel) = Ok l' /\
    (list_max l' <= list_max l)%nat /\ g_n g = length names /\ g_sel g = sel_of (length names) sel /\ g_n_rw g = length l /\
    g_srw_idxs g = seq (length names) (length (g_names g)) /\ g_transform g = tr /\
    (match g_cov g with
     | LearnDiag => fixed = None /\ diagonal = true /\ g_names g = map (fun i => Sigma (nth i names 0%nat)) l
     | LearnDense => fixed = None /\ diagonal = false /\ g_names g = tri_names (map (fun i => nth i names 0%nat) l)
     | FixDiag s => exists v, fixed = Some (CDiag v) /\ diagonal = true /\ g_names g = [] /\ s = map sqrt v /\ length v = length l
     | FixDense ch => exists m, fixed = Some (CDense m) /\ diagonal = false /\ g_names g = [] /\ chol m = Ok ch /\ length m = length l
     end).
Proof.
  unfold new_grw. cbv zeta. destruct (resolve (length names) (sel_of (length names) sel)) as [l|]; [|discriminate]. cbn [bind].
  destruct l as [|i0 l]; [discriminate|]. set (L := i0 :: l) in *. intros H.
  assert (Fin : forall srw idxs c, idxs = seq (length names) (length srw) ->
     (match c with
     | LearnDiag => fixed = None /\ diagonal = true /\ srw = map (fun i => Sigma (nth i names 0%nat)) L
     | LearnDense => fixed = None /\ diagonal = false /\ srw = tri_names (map (fun i => nth i names 0%nat) L)
     | FixDiag s => exists v, fixed = Some (CDiag v) /\ diagonal = true /\ srw = [] /\ s = map sqrt v /\ length v = length L
     | FixDense ch => exists m, fixed = Some (CDense m) /\ diagonal = false /\ srw = [] /\ chol m = Ok ch /\ length m = length L
     end) ->
    (bind (resolve (length names + length srw) (sel_of (length names) sel)) (fun touched =>
        match touched with
        | [] => Err ValueError
        | _ => if Nat.ltb (list_max L) (list_max touched) then Err IndexError
               else Ok {| g_n := length names; g_sel := sel_of (length names) sel; g_n_rw := length L; g_names := srw; g_srw_idxs := idxs; g_cov := c; g_transform := tr |}
        end)) = Ok g ->
    exists l l', Ok L = Ok l /\ l <> [] /\ resolve (g_n_modelparams g) (sel_of (length names) sel) = Ok l' /\
    (list_max l' <= list_max l)%nat /\ g_n g = length names /\ g_sel g = sel_of (length names) sel /\ g_n_rw g = length l /\
    g_srw_idxs g = seq (length names) (length (g_names g)) /\ g_transform g = tr /\
    (match g_cov g with
     | LearnDiag => fixed = None /\ diagonal = true /\ g_names g = map (fun i => Sigma (nth i names 0%nat)) l
     | LearnDense => fixed = None /\ diagonal = false /\ g_names g = tri_names (map (fun i => nth i names 0%nat) l)
     | FixDiag s => exists v, fixed = Some (CDiag v) /\ diagonal = true /\ g_names g = [] /\ s = map sqrt v /\ length v = length l
     | FixDense ch => exists m, fixed = Some (CDense m) /\ diagonal = false /\ g_names g = [] /\ chol m = Ok ch /\ length m = length l
     end)).
  { intros srw idxs c Hi Hc. destruct (resolve (length names + length srw) (sel_of (length names) sel)) as [l'|] eqn:R; [|discriminate]. cbn [bind].
    destruct l' as [|x l']; [discriminate|]. destruct (Nat.ltb_spec (list_max L) (list_max (x :: l'))) as [A|A]; [discriminate|]. intros E. injection E as <-.
    exists L, (x :: l'). cbn [g_n g_sel g_n_rw g_names g_srw_idxs g_cov g_transform g_n_modelparams]. unfold g_n_modelparams. cbn [g_n g_names].
    repeat split; try assumption; try reflexivity. unfold L. discriminate. }
  destruct fixed as [v|].
  - destruct diagonal, v as [w|m|k]; cbn [bind] in H; try discriminate.
    + destruct (Nat.eqb_spec (length w) (length L)) as [E|E]; [|discriminate]. cbn [bind] in H. apply (Fin [] [] (FixDiag (map sqrt w))); [reflexivity| |exact H]. exists w. auto.
    + destruct (Nat.eqb (length m) (length L)) eqn:E1; cbn [andb] in H; [|discriminate]. apply Nat.eqb_eq in E1. destruct (forallb _ m); cbn [andb bind] in H; [|discriminate].
      destruct (chol m) as [ch|] eqn:EC; [|discriminate]. cbn [bind] in H. apply (Fin [] [] (FixDense ch)); [reflexivity| |exact H]. exists m. auto.
  - destruct diagonal; cbn [bind] in H.
    + refine (Fin _ _ _ _ _ H); [|cbv beta; rewrite map_map; auto]. rewrite !map_length. apply map_add_seq.
    + refine (Fin _ _ _ _ _ H); [|auto]. rewrite tri_names_length, map_length. apply map_add_seq.
Qed.

Lemma grw_step_length g x z mult : (match g_cov g with
    | LearnDiag => length (g_srw_idxs g) = length z /\ length z = g_n_rw g
    | FixDiag s => length s = length z /\ length z = g_n_rw g
    | FixDense ch => length ch = g_n_rw g
    | LearnDense => True end) -> length (grw_step g x z mult) = g_n_rw g.
Proof.
  unfold grw_step. rewrite map_length. destruct (g_cov g).
  - intros [A B]. rewrite map2_length by now rewrite map_length. rewrite map_length. congruence.
  - intros _. unfold tri_matrix. now rewrite !map_length, seq_length.
  - intros [A B]. rewrite map2_length by assumption. congruence.
  - intros A. now rewrite map_length.
Qed.
Lemma add_at_ok idxs row steps : length idxs = length steps -> add_at idxs row steps = Ok (set_row idxs row (map2 Rplus (map (fun i => nth i row 0) idxs) steps)).
Proof. intros H. unfold add_at. now rewrite H, Nat.eqb_refl. Qed.
Lemma add_at_unchanged idxs row steps y : add_at idxs row steps = Ok y -> unchanged_outside idxs row y.
Proof.
  unfold add_at. intros H. assert (exists v, y = set_row idxs row v) as [v ->].
  { destruct (Nat.eqb _ _); [injection H as <-; eauto|]. destruct steps as [|s [|? ?]]; try discriminate. injection H as <-. eauto. }
  split; [apply set_row_length|]. intros j Hj. now apply set_row_other.
Qed.
Lemma nth_firstn' {A} (l : list A) n j d : (j < n)%nat -> nth j (firstn n l) d = nth j l d.
Proof. revert n j; induction l as [|x l IH]; intros [|n] [|j] H; cbn; try lia; try reflexivity. apply IH. lia. Qed.
