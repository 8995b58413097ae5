(** Liu-West: the rounds of postselection in full. *)
From Verif Require Import Base RList Ext Sums SmcModel PartModel PartSpec SmcProofs2 PartProofs LwModel LwSpec LwProofs LwProofs2 LwProofs3.

Lemma select_seq_out {A} (p : nat -> bool) (l : list A) d : forall k r, NoDup l -> (r < length l)%nat -> p (k + r)%nat = false ->
  ~ In (nth r l d) (select (map p (seq k (length l))) l).
Proof.
  induction l as [|x l IH]; intros k r ND Hr Hp; [simpl in Hr; lia|]. inversion ND; subst. cbn [length seq map select]. destruct r as [|r]; cbn [nth].
  - rewrite Nat.add_0_r in Hp. rewrite Hp. intros X. apply select_sublist in X. contradiction.
  - simpl in Hr. assert (N : ~ In (nth r l d) (select (map p (seq (S k) (length l))) l)) by (apply IH; [assumption|lia|now rewrite Nat.add_succ_comm]).
    destruct (p k); [|exact N]. intros [X|X]; [|contradiction]. apply H1. rewrite X. apply nth_In. lia.
Qed.

Lemma nth_of_firstn {A} (l : list A) n j d : (j < n)%nat -> nth j (firstn n l) d = nth j l d.
Proof. revert n j. induction l as [|x l IH]; intros [|n] [|j] H; simpl; try reflexivity; try lia. apply IH. lia. Qed.
Lemma filter_empty {X} (f : X -> bool) l : (forall x, In x l -> f x = false) -> filter f l = [].
Proof. induction l as [|x l IH]; intros H; [reflexivity|]. cbn [filter]. rewrite (H x) by now left. apply IH. intros; apply H; now right. Qed.

Lemma still_open_nil rej n t k : still_open rej n t = [] -> still_open rej n (t + k) = [].
Proof. intros H. induction k as [|k IH]; [now rewrite Nat.add_0_r|]. rewrite Nat.add_succ_r. cbn [still_open]. rewrite IH. reflexivity. Qed.

Section LW.
Variable valid : loc -> bool.
Variable postselect : bool.
Variable kernel : nat -> nat -> list R.
Variable S0 : list (list R).
Variable mus0 : list loc.
Variable rej : nat -> nat -> bool.
Hypothesis Hrej : forall t r, (r < length mus0)%nat -> rej t r = postselect && negb (valid (vadd (nth r mus0 []) (matvec S0 (kernel t r)))).

Lemma pass_at t n s r : lw_inv n s -> mus s = firstn (length (idxs s)) mus0 -> (r < length (idxs s))%nat ->
  nth (nth r (idxs s) 0%nat) (new_locs (lw_pass valid postselect kernel S0 t s)) [] = vadd (nth r mus0 []) (matvec S0 (kernel t r)).
Proof.
  intros H Hm Hr. cbn [lw_pass new_locs]. cbv zeta. fold (proposal kernel S0 t (mus s)). rewrite scatter_same; try apply H; try assumption.
  - rewrite nth_proposal by (rewrite (inv_mus n s H); assumption). f_equal. rewrite Hm. now rewrite nth_of_firstn.
  - rewrite proposal_length. apply H.
  - intros k Hk. rewrite (inv_len n s H). now apply (inv_rng n s H).
Qed.

Lemma pass_idxs t n s : lw_inv n s -> mus s = firstn (length (idxs s)) mus0 -> (length (idxs s) <= length mus0)%nat ->
  idxs (lw_pass valid postselect kernel S0 t s) = select (map (rej t) (seq 0 (length (idxs s)))) (idxs s).
Proof.
  intros H Hm Hle. rewrite (pass_rest valid postselect kernel S0 t n s H). rewrite <- select_map. f_equal.
  set (loc' := new_locs _) in *. apply (nth_ext _ _ false false); [now rewrite !map_length, seq_length|]. rewrite map_length. intros r Hr.
  rewrite (nth_indep _ _ (negb (if postselect then valid (nth 0 loc' []) else true))) by now rewrite map_length.
  rewrite (map_nth (fun i => negb (if postselect then valid (nth i loc' []) else true)) _ 0%nat).
  rewrite (nth_indep _ false (rej t 0%nat)) by now rewrite map_length, seq_length. rewrite (map_nth (rej t)), seq_nth by assumption. cbn [Nat.add].
  rewrite Hrej by lia. unfold loc'. rewrite (pass_at t n s r H Hm Hr). destruct postselect; reflexivity.
Qed.

Lemma loop_exact n left : forall t s, lw_inv n s -> idxs s = still_open rej n t -> mus s = firstn (length (idxs s)) mus0 -> (length (idxs s) <= length mus0)%nat ->
  let f := lw_loop valid postselect kernel S0 left t s in
  idxs f = still_open rej n (t + left) /\
  n_calls f = (n_calls s + if postselect then length (filter (fun t' => negb (Nat.eqb (length (still_open rej n t')) 0)) (seq t left)) else 0)%nat /\
  (forall i, (i < n)%nat -> ~ In i (idxs s) -> nth i (new_locs f) [] = nth i (new_locs s) []) /\
  (forall t' r, (t <= t' < t + left)%nat -> (r < length (still_open rej n t'))%nat -> rej t' r = false \/ Datatypes.S t' = (t + left)%nat ->
    nth (nth r (still_open rej n t') 0%nat) (new_locs f) [] = vadd (nth r mus0 []) (matvec S0 (kernel t' r))).
Proof.
  induction left as [|left IH]; intros t s H Hi Hm Hle; cbv zeta.
  - rewrite Nat.add_0_r. cbn [lw_loop seq filter length]. split; [assumption|]. split; [destruct postselect; lia|]. split; [reflexivity|]. intros; lia.
  - cbn [lw_loop]. destruct (idxs s) as [|i0 is] eqn:Ei.
    + assert (Z : forall k, still_open rej n (t + k) = []) by (intros; apply still_open_nil; now symmetry).
      rewrite Z. split; [assumption|]. split; [|split; [reflexivity|]].
      * assert (F : filter (fun t' => negb (Nat.eqb (length (still_open rej n t')) 0)) (seq t (Datatypes.S left)) = []); [|rewrite F; destruct postselect; simpl; lia].
        apply filter_empty. intros x Hx. apply in_seq in Hx. replace x with (t + (x - t))%nat by lia. now rewrite Z.
      * intros t' r Ht Hr. exfalso. replace t' with (t + (t' - t))%nat in Hr by lia. rewrite Z in Hr. simpl in Hr. lia.
    + rewrite <- Ei in *. set (s1 := lw_pass valid postselect kernel S0 t s).
      assert (E1 : idxs s1 = still_open rej n (Datatypes.S t)).
      { unfold s1. rewrite (pass_idxs t n s H Hm Hle). cbn [still_open]. now rewrite Hi. }
      assert (L1 : (length (idxs s1) <= length (idxs s))%nat) by (rewrite E1; cbn [still_open]; rewrite <- Hi; apply select_length_le).
      destruct (IH (Datatypes.S t) s1) as (A & C & B & D).
      * now apply pass_inv.
      * exact E1.
      * replace (mus s1) with (firstn (length (idxs s1)) (mus s)) by reflexivity. rewrite Hm, firstn_firstn. f_equal. lia.
      * lia.
      * rewrite Nat.add_succ_comm in A. split; [exact A|]. split; [|split].
        -- rewrite C. cbn [seq filter]. rewrite <- Hi, Ei. cbn [length Nat.eqb negb]. unfold s1. cbn [lw_pass n_calls]. destruct postselect; cbn [length]; lia.
        -- intros i Hin Nin. rewrite B; [|assumption|].
           ++ unfold s1. cbn [lw_pass new_locs]. now apply scatter_other.
           ++ rewrite E1. cbn [still_open]. rewrite <- Hi. intros X. apply select_sublist in X. contradiction.
        -- intros t' r Ht Hr Hor. destruct (Nat.eq_dec t' t) as [->|Ne].
           ++ rewrite <- Hi in *. rewrite <- (pass_at t n s r H Hm Hr). fold s1. destruct Hor as [Hf|Hl].
              ** apply B; [apply (inv_rng n s H), nth_In, Hr|]. rewrite E1. cbn [still_open]. rewrite <- Hi. apply select_seq_out; [apply H|assumption|exact Hf].
              ** assert (left = 0)%nat by lia. subst left. reflexivity.
           ++ apply D; [lia|assumption|]. destruct Hor as [Hf|Hl]; [now left|right; lia].
Qed.
End LW.

Lemma call_exact valid postselect kernel sqrtm c d w l n_arg us junk anc : prob_vector w -> length l = length w ->
  Forall (fun u => 0 <= u < 1) us -> length us = the_n c l n_arg -> (forall m, isfinite (snd (sqrtm m)) = true) ->
  (forall x, In x l -> length x = d) -> (forall t i, length (kernel t i) = d) ->
  is_matrix d (fst (sqrtm (the_cov c d w l None))) ->
  (forall r, (r < length us)%nat -> (anc r < length w)%nat /\ in_slot w (anc r) (nth r us 0)) ->
  let pt := fun t r => lw_point d (c_a c) (c_h c) (est_mean d w l) (fst (sqrtm (the_cov c d w l None))) (nth (anc r) l []) (kernel t r) in
  let opened := still_open (fun t r => postselect && negb (valid (pt t r))) (length us) in
  exists dist calls, lw_call valid postselect kernel sqrtm c d w l n_arg None None us junk = Ok (dist, opened (c_maxiter c), calls) /\
    calls = (if postselect then length (filter (fun t => negb (Nat.eqb (length (opened t)) 0)) (seq 0 (c_maxiter c))) else 0%nat) /\
    forall t r, (t < c_maxiter c)%nat -> (r < length (opened t))%nat -> (postselect = true -> valid (pt t r) = true) \/ Datatypes.S t = c_maxiter c ->
      nth (nth r (opened t) 0%nat) (fst dist) [] = pt t r.
Proof.
  intros Hp Hl Hu Hn Hf Hd Hk HS Ha pt opened.
  pose proof (prob_vector_nonempty w Hp) as Hne. assert (Hw : w <> []) by (destruct w; [simpl in Hne; lia|discriminate]).
  set (S1 := fst (sqrtm (the_cov c d w l None))) in *.
  set (st := start c d w l None us junk (the_n c l n_arg)).
  assert (Lm : length (mus st) = length us) by (unfold st; cbn [start mus]; now rewrite map_length).
  assert (An : forall r, (r < length us)%nat -> sample_index w (nth r us 0) = anc r).
  { intros r Hr. assert (Hur : 0 <= nth r us 0 < 1) by (rewrite Forall_forall in Hu; apply Hu, nth_In; assumption).
    apply sample_index_slot; try assumption; now apply Ha. }
  assert (Pt : forall t r, (r < length us)%nat -> vadd (nth r (mus st) []) (matvec (map (vscale (c_h c)) S1) (kernel t r)) = pt t r).
  { intros t r Hr. unfold st. rewrite nth_start_mus by assumption. rewrite An by assumption. unfold pt. cbn [the_mean].
    apply point_eq; [assumption| |unfold est_mean, particle_mean; now rewrite map_length, seq_length|apply Hk]. apply Hd, nth_In. rewrite Hl. now apply Ha. }
  set (rej := fun t r => postselect && negb (valid (pt t r))).
  destruct (loop_exact valid postselect kernel (map (vscale (c_h c)) S1) (mus st) rej) with (n := length us) (left := c_maxiter c) (t := 0%nat) (s := st) as (A & C & _ & D).
  - intros t r Hr. unfold rej. rewrite Pt by lia. reflexivity.
  - unfold st. rewrite Hn. now apply start_inv.
  - unfold st. cbn [start idxs still_open]. now rewrite Hn.
  - symmetry. apply firstn_same. unfold st. cbn [start mus idxs]. rewrite map_length, seq_length. assumption.
  - unfold st. cbn [start mus idxs]. rewrite map_length, seq_length. lia.
  - pose proof (call_unfold valid postselect kernel sqrtm c d w l n_arg None None us junk Hp Hl Hu (Hf _)) as E. cbv zeta in E. fold S1 st in E.
    rewrite A, C in E. eexists _, _. split; [exact E|]. split; [reflexivity|]. cbn [fst].
    intros t r Ht Hr Hor. rewrite <- Pt.
    + apply D; [lia|exact Hr|]. destruct Hor as [Hv|Hl']; [left|right; lia]. unfold rej. destruct postselect; [|reflexivity]. rewrite Hv; reflexivity.
    + eapply Nat.lt_le_trans; [exact Hr|]. unfold opened. clear. induction t as [|t IH]; cbn [still_open]; [rewrite seq_length; lia|]. etransitivity; [apply select_length_le|exact IH].
Qed.
