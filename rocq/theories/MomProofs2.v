From Verif Require Import Base RList Ext Sums LinProofs DomModel SmcModel DerModel DerProofs2 DistModel MiscProofs2 MomSpec MomProofs.

Lemma nth_map_seq' a n i (x : list R) : (i < n)%nat -> nth i (map (fun k => nth k x 0) (seq a n)) 0 = nth (a + i) x 0.
Proof.
  intro H. rewrite (nth_indep _ 0 ((fun k => nth k x 0) 0%nat)) by (now rewrite map_length, seq_length). rewrite (map_nth (fun k => nth k x 0)). now rewrite seq_nth.
Qed.

(** ** Lower triangular matrices *)
Definition tri (i : nat) : nat := (i * (i + 1) / 2)%nat.
Lemma tril_S n : tril_indices (S n) = tril_indices n ++ map (fun j => (n, j)) (seq 0 (S n)).
Proof. unfold tril_indices. replace (seq 0 (S n)) with (seq 0 n ++ [n]) at 1 by (now rewrite seq_S). rewrite flat_map_app. cbn [flat_map]. rewrite app_nil_r. reflexivity. Qed.
Lemma tri_S n : tri (S n) = (tri n + S n)%nat.
Proof. unfold tri. rewrite <- !tril_length, tril_S, app_length, map_length, seq_length. reflexivity. Qed.
Lemma tril_nth n k i j : nth_error (tril_indices n) k = Some (i, j) <-> (j <= i < n)%nat /\ k = (tri i + j)%nat.
Proof.
  revert k i j. induction n as [|n IH]; intros k i j.
  - unfold tril_indices. cbn. split; [destruct k; discriminate|intros []; lia].
  - rewrite tril_S. destruct (Nat.lt_ge_cases k (tri n)) as [Hk|Hk].
    + rewrite nth_error_app1 by (rewrite tril_length; exact Hk). rewrite IH. split; intros [A B]; (split; [|assumption]); [lia|].
      destruct (Nat.eq_dec i n) as [->|]; [|lia]. unfold tri in *. lia.
    + rewrite nth_error_app2 by (rewrite tril_length; exact Hk). rewrite tril_length. fold (tri n). split.
      * intro H. destruct (Nat.lt_ge_cases (k - tri n) (S n)) as [L|L].
        -- rewrite (map_nth_error _ _ _ (d := (k - tri n)%nat)) in H.
           ++ injection H as <- <-. split; lia.
           ++ rewrite (nth_error_nth' _ 0%nat) by (rewrite seq_length; lia). now rewrite seq_nth.
        -- rewrite (proj2 (nth_error_None _ _)) in H; [discriminate|]. rewrite map_length, seq_length. lia.
      * intros [A B]. assert (i = n).
        { destruct (Nat.lt_ge_cases i n) as [L|L]; [|lia]. exfalso. assert (tri (S i) <= tri n)%nat.
          { clear -L. induction n as [|n IH]; [lia|]. destruct (Nat.eq_dec (S i) (S n)) as [->|]; [lia|]. rewrite (tri_S n). assert (i < n)%nat by lia. specialize (IH H). lia. }
          rewrite tri_S in H. lia. }
        subst i. subst k. replace (tri n + j - tri n)%nat with j by lia. apply (map_nth_error (fun j => (n, j))).
        rewrite (nth_error_nth' _ 0%nat) by (rewrite seq_length; lia). rewrite seq_nth by lia. reflexivity.
Qed.
Lemma find_first {V} (keys : list (nat * nat)) (vals : list V) k i j v : nth_error keys k = Some (i, j) -> nth_error vals k = Some v ->
  (forall k', nth_error keys k' = Some (i, j) -> k' = k) ->
  find (fun p => Nat.eqb (fst (fst p)) i && Nat.eqb (snd (fst p)) j) (combine keys vals) = Some ((i, j), v).
Proof.
  revert vals k. induction keys as [|[a b] keys IH]; intros vals k H1 H2 H3; [destruct k; discriminate|].
  destruct vals as [|v0 vals]; [destruct k; discriminate|]. cbn [combine find fst snd].
  destruct (Nat.eqb_spec a i) as [->|Na], (Nat.eqb_spec b j) as [->|Nb]; cbn [andb].
  - assert (k = 0%nat) by (symmetry; now apply H3). subst k. cbn in H2. congruence.
  - destruct k as [|k]; [cbn in H1; congruence|]. apply (IH vals k H1 H2). intros k' Hk'. assert (S k' = S k) by (now apply H3). lia.
  - destruct k as [|k]; [cbn in H1; congruence|]. apply (IH vals k H1 H2). intros k' Hk'. assert (S k' = S k) by (now apply H3). lia.
  - destruct k as [|k]; [cbn in H1; congruence|]. apply (IH vals k H1 H2). intros k' Hk'. assert (S k' = S k) by (now apply H3). lia.
Qed.
Lemma tri_entry_value n vals i j : length vals = tri n -> (i < n)%nat -> (j < n)%nat ->
  tri_entry n vals i j = if Nat.leb j i then nth (tri i + j) vals 0 else 0.
Proof.
  intros Hl Hi Hj. unfold tri_entry. destruct (Nat.leb_spec j i) as [L|L].
  - assert (Hk : nth_error (tril_indices n) (tri i + j) = Some (i, j)) by (apply tril_nth; lia).
    assert (Hv : (tri i + j < length vals)%nat). { rewrite Hl. unfold tri at 2. rewrite <- (tril_length n). apply nth_error_Some. rewrite Hk. discriminate. }
    rewrite (find_first (tril_indices n) vals (tri i + j) i j (nth (tri i + j) vals 0)); [reflexivity|assumption|now apply nth_error_nth'|].
    intros k' Hk'. apply tril_nth in Hk'. tauto.
  - destruct (find _ _) as [[[a b] v]|] eqn:F; [|reflexivity]. apply find_some in F. cbn [fst snd] in F. destruct F as [F1 F2].
    apply andb_true_iff in F2. destruct F2 as [F2 F3]. apply Nat.eqb_eq in F2, F3. subst a b. apply in_combine_l, In_nth_error in F1. destruct F1 as (k & Hk).
    apply tril_nth in Hk. lia.
Qed.

(** ** The step of a random walk is linear in the variates *)
Definition walk_factor (g : grw) (x : list R) (i k : nat) : R :=
  match g_cov g with
  | LearnDiag => if Nat.eqb i k then nth (g_n g + i) x 0 else 0
  | FixDiag scale => if Nat.eqb i k then nth i scale 0 else 0
  | FixDense chol => mat_entry chol i k
  | LearnDense => if Nat.leb k i then nth (g_n g + tri i + k) x 0 else 0
  end.
Lemma rdot_Sum n l m : length l = n -> length m = n -> rdot l m = Sum n (fun k => nth k l 0 * nth k m 0).
Proof.
  revert n m. induction l as [|a l IH]; intros n [|b m] H1 H2; cbn [length] in *; subst n; try discriminate; [reflexivity|].
  injection H2 as H2. rewrite rdot_cons, Sum_S. cbn [nth]. f_equal. now apply IH.
Qed.
Definition walk_ok (g : grw) : Prop :=
  match g_cov g with
  | LearnDiag => g_srw_idxs g = seq (g_n g) (g_n_rw g)
  | LearnDense => g_srw_idxs g = seq (g_n g) (tri (g_n_rw g))
  | FixDiag s => length s = g_n_rw g
  | FixDense ch => length ch = g_n_rw g /\ Forall (fun r => length r = g_n_rw g) ch
  end.
Lemma new_walk_ok chol names sel fixed diagonal tr g : new_grw chol names sel fixed diagonal tr = Ok g ->
  (forall m c, chol m = Ok c -> length c = length m /\ Forall (fun r => length r = length m) c) -> walk_ok g.
Proof.
  intros H Hc. apply new_grw_ok in H. destruct H as (l & l' & _ & _ & _ & _ & G1 & _ & G3 & G4 & _ & G6). unfold walk_ok. rewrite G1, G3, G4. destruct (g_cov g).
  - destruct G6 as (_ & _ & ->). now rewrite map_length.
  - destruct G6 as (_ & _ & ->). now rewrite tri_names_length, map_length.
  - destruct G6 as (v & _ & _ & _ & -> & Hv). now rewrite map_length.
  - destruct G6 as (m & _ & _ & _ & Hm & Hl). rewrite <- Hl. now apply Hc.
Qed.
Lemma diag_sum n i (a : R) (f : nat -> R) : (i < n)%nat -> Sum n (fun k => (if Nat.eqb i k then a else 0) * f k) = a * f i.
Proof.
  intro Hi. rewrite (Sum_single n i); [now rewrite Nat.eqb_refl|assumption|]. intros k _ Hk. destruct (Nat.eqb_spec i k); [congruence|ring].
Qed.
Lemma step_linear g x z mult i : walk_ok g -> length z = g_n_rw g -> (i < g_n_rw g)%nat ->
  nth i (grw_step g x z mult) 0 = mult * Sum (g_n_rw g) (fun k => walk_factor g x i k * nth k z 0).
Proof.
  intros Hw Hz Hi. unfold walk_ok in Hw. unfold grw_step, walk_factor.
  rewrite <- (Rmult_0_r mult) at 1. rewrite (map_nth (fun s => mult * s)). f_equal. destruct (g_cov g) as [| |s|ch].
  - rewrite Hw, diag_sum by assumption. rewrite (nth_map2 _ _ _ _ 0 0 0) by (rewrite ?map_length, ?seq_length; congruence || lia).
    rewrite nth_map_seq' by assumption. reflexivity.
  - unfold tri_matrix. rewrite map_map. rewrite (nth_indep _ 0 ((fun i0 => rdot (map (fun j => tri_entry (g_n_rw g) (map (fun k => nth k x 0) (g_srw_idxs g)) i0 j) (seq 0 (g_n_rw g))) z) 0%nat)) by (rewrite map_length, seq_length; assumption).
    rewrite (map_nth (fun i0 => rdot (map (fun j => tri_entry (g_n_rw g) (map (fun k => nth k x 0) (g_srw_idxs g)) i0 j) (seq 0 (g_n_rw g))) z)), seq_nth by assumption. cbn [plus].
    rewrite (rdot_Sum (g_n_rw g)) by (rewrite ?map_length, ?seq_length; auto). apply Sum_ext. intros k Hk. f_equal.
    rewrite (nth_map_seq (fun j => tri_entry _ _ i j)) by assumption. rewrite Hw.
    rewrite tri_entry_value by (rewrite ?map_length, ?seq_length; auto). destruct (Nat.leb_spec k i) as [L|L]; [|reflexivity].
    rewrite nth_map_seq'; [f_equal; lia|]. unfold tri at 2. rewrite <- (tril_length (g_n_rw g)). apply nth_error_Some. rewrite (proj2 (tril_nth (g_n_rw g) (tri i + k) i k)) by lia. discriminate.
  - rewrite diag_sum by assumption. now rewrite (nth_map2 _ _ _ _ 0 0 0) by (congruence || lia).
  - destruct Hw as [H1 H2]. rewrite (nth_indep _ 0 (rdot [] z)) by (rewrite map_length; lia). rewrite (map_nth (fun r => rdot r z)). unfold mat_entry.
    apply rdot_Sum; [|assumption]. rewrite Forall_forall in H2. apply H2, nth_In. lia.
Qed.
