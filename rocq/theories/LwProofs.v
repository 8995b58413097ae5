(** Proofs about the Liu-West resampler. *)
From Verif Require Import Base RList Ext Sums SmcModel PartModel PartSpec PartProofs LwModel.
From Verif Require Import SmcProofs2.

(** ** C23 *)
Lemma set_a_run s xs : p_override s = false -> p_override (fold_left set_a xs s) = false.
Proof. revert s; induction xs as [|x xs IH]; intros s H; [assumption|]. cbn. apply IH. exact H. Qed.

Lemma fold_last s xs a : fold_left set_a (xs ++ [a]) s = set_a (fold_left set_a xs s) a.
Proof. now rewrite fold_left_app. Qed.

Lemma lw_h a0 xs : let s := fold_left set_a xs (lw_new a0 None) in p_h s = xsqrt (Fin (1 - p_a s ^ 2)).
Proof.
  induction xs as [|a xs IH] using rev_ind; [reflexivity|]. cbv zeta. rewrite fold_last. cbn [set_a p_h p_a].
  rewrite set_a_run by reflexivity. reflexivity.
Qed.
Lemma lw_a a0 xs h : p_a (fold_left set_a xs (lw_new a0 h)) = last xs a0.
Proof.
  induction xs as [|a xs IH] using rev_ind; [destruct h; reflexivity|]. rewrite fold_last, last_last. reflexivity.
Qed.
Lemma lw_consistent a0 xs : Forall (fun a => 0 <= a <= 1) (a0 :: xs) ->
  exists h, p_h (fold_left set_a xs (lw_new a0 None)) = Fin h /\ 0 <= h /\ (p_a (fold_left set_a xs (lw_new a0 None))) ^ 2 + h ^ 2 = 1.
Proof.
  intros H. pose proof (lw_h a0 xs) as E. cbv zeta in E. rewrite E. rewrite lw_a.
  assert (Ha : 0 <= last xs a0 <= 1).
  { rewrite Forall_forall in H. apply H. destruct xs as [|x xs] using rev_ind; [now left|]. rewrite last_last. right. apply in_or_app; right; now left. }
  assert (H1 : 0 <= 1 - last xs a0 ^ 2) by nra.
  cbn [xsqrt]. rewrite Rltb_false by assumption. exists (sqrt (1 - last xs a0 ^ 2)). split; [reflexivity|].
  split; [apply sqrt_pos|]. rewrite pow2_sqrt by assumption. ring.
Qed.
Lemma lw_override a0 h xs : p_h (fold_left set_a xs (lw_new a0 (Some h))) = Fin h.
Proof.
  assert (H : forall s, p_override s = true -> p_h s = Fin h -> p_h (fold_left set_a xs s) = Fin h).
  { induction xs as [|x xs IH]; intros s H1 H2; [assumption|]. cbn. apply IH; cbn; [assumption|now rewrite H1]. }
  now apply H.
Qed.

(** ** scatter *)
Lemma set_at_length {A} i (v : A) l : length (set_at i v l) = length l.
Proof. revert i; induction l as [|x l IH]; intros [|i]; simpl; auto. Qed.
Lemma set_at_same {A} i (v : A) l d : (i < length l)%nat -> nth i (set_at i v l) d = v.
Proof. revert i; induction l as [|x l IH]; intros [|i] H; simpl in *; try lia; [reflexivity|]. apply IH; lia. Qed.
Lemma set_at_other {A} i k (v : A) l d : i <> k -> nth k (set_at i v l) d = nth k l d.
Proof. revert i k; induction l as [|x l IH]; intros [|i] [|k] H; simpl; try reflexivity; try congruence. apply IH. congruence. Qed.
Lemma scatter_length {A} is (vs : list A) l : length (scatter is vs l) = length l.
Proof. revert vs l; induction is as [|i is IH]; intros [|v vs] l; try reflexivity. cbn. rewrite IH. apply set_at_length. Qed.
Lemma scatter_other {A} is (vs : list A) l k d : ~ In k is -> nth k (scatter is vs l) d = nth k l d.
Proof.
  revert vs l; induction is as [|i is IH]; intros [|v vs] l H; try reflexivity. cbn. rewrite IH by (intros X; apply H; now right).
  apply set_at_other. intros ->. apply H. now left.
Qed.
Lemma scatter_same {A} is (vs : list A) l d a : NoDup is -> length vs = length is -> (forall i, In i is -> (i < length l)%nat) ->
  (a < length is)%nat -> nth (nth a is 0%nat) (scatter is vs l) d = nth a vs d.
Proof.
  revert vs l a; induction is as [|i is IH]; intros [|v vs] l a ND Hl Hr Ha; simpl in Ha, Hl; try lia.
  inversion ND; subst. cbn [scatter]. destruct a as [|a]; cbn [nth].
  - rewrite scatter_other by assumption. apply set_at_same. apply Hr; now left.
  - apply IH; try assumption; try lia. intros k Hk. rewrite set_at_length. apply Hr; now right.
Qed.

Lemma select_sublist {A} (mask : list bool) (l : list A) x : In x (select mask l) -> In x l.
Proof. revert l; induction mask as [|b mask IH]; intros [|y l]; simpl; try tauto. destruct b; simpl; intuition. Qed.
Lemma select_NoDup {A} (mask : list bool) (l : list A) : NoDup l -> NoDup (select mask l).
Proof.
  revert l; induction mask as [|b mask IH]; intros [|y l] H; simpl; try constructor. inversion H; subst.
  destruct b; [constructor; [intros X; apply select_sublist in X; contradiction|auto]|auto].
Qed.
Lemma select_length_le {A} (mask : list bool) (l : list A) : (length (select mask l) <= length l)%nat.
Proof. revert l; induction mask as [|b mask IH]; intros [|y l]; simpl; try lia. destruct b; simpl; specialize (IH l); lia. Qed.

Section LW.
Variable valid : loc -> bool.
Variable postselect : bool.
Variable kernel : nat -> nat -> list R.

Definition proposal S t (m : list loc) := map2 (fun mu k => vadd mu (matvec S (kernel t k))) m (seq 0 (length m)).

Record lw_inv (n : nat) (s : lw_state) : Prop := {
  inv_len : length (new_locs s) = n;
  inv_nd : NoDup (idxs s);
  inv_rng : forall i, In i (idxs s) -> (i < n)%nat;
  inv_mus : length (mus s) = length (idxs s)
}.

Lemma proposal_length S t m : length (proposal S t m) = length m.
Proof. unfold proposal. rewrite map2_length; [reflexivity|now rewrite seq_length]. Qed.
Lemma nth_proposal S t m a : (a < length m)%nat -> nth a (proposal S t m) [] = vadd (nth a m []) (matvec S (kernel t a)).
Proof.
  intros H. unfold proposal. rewrite (nth_map2 _ _ _ _ [] 0%nat) by (rewrite ?seq_length; lia). now rewrite seq_nth by assumption.
Qed.

(** The mask, re-expressed on the drawn rows. *)
Lemma pass_rest S t n s : lw_inv n s ->
  idxs (lw_pass valid postselect kernel S t s) =
  filter (fun i => negb (if postselect then valid (nth i (new_locs (lw_pass valid postselect kernel S t s)) []) else true)) (idxs s).
Proof.
  intros H. cbn [lw_pass idxs new_locs]. cbv zeta. set (locs := scatter _ _ _).
  rewrite <- select_map. f_equal. destruct postselect; rewrite !map_map; reflexivity.
Qed.

Lemma pass_inv S t n s : lw_inv n s -> lw_inv n (lw_pass valid postselect kernel S t s).
Proof.
  intros H. pose proof (pass_rest S t n s H) as E. constructor.
  - cbn [lw_pass new_locs]. rewrite scatter_length. apply H.
  - rewrite E. apply NoDup_filter. apply H.
  - intros i Hi. rewrite E in Hi. apply filter_In in Hi as [Hi _]. now apply (inv_rng n s H).
  - cbn [lw_pass mus idxs]. rewrite firstn_length. apply Nat.min_l. rewrite (inv_mus n s H). apply select_length_le.
Qed.

Lemma pass_calls S t s : (n_calls (lw_pass valid postselect kernel S t s) <= n_calls s + 1)%nat.
Proof. cbn. destruct postselect; lia. Qed.

Lemma loop_inv S n left : forall t s, lw_inv n s -> lw_inv n (lw_loop valid postselect kernel S left t s).
Proof.
  induction left as [|left IH]; intros t s H; [assumption|]. cbn [lw_loop]. destruct (idxs s); [assumption|].
  apply IH. now apply pass_inv.
Qed.
Lemma loop_calls S left : forall t s, (n_calls (lw_loop valid postselect kernel S left t s) <= n_calls s + left)%nat.
Proof.
  induction left as [|left IH]; intros t s; [simpl; lia|]. cbn [lw_loop]. destruct (idxs s); [lia|].
  specialize (IH (Datatypes.S t) (lw_pass valid postselect kernel S t s)). pose proof (pass_calls S t s). lia.
Qed.

Lemma loop_no_calls S left : postselect = false -> forall t s, n_calls (lw_loop valid postselect kernel S left t s) = n_calls s.
Proof.
  intros H. induction left as [|left IH]; intros t s; [reflexivity|]. cbn [lw_loop]. destruct (idxs s); [reflexivity|].
  rewrite IH. cbn. rewrite H. lia.
Qed.

(** ** C22 *)
Definition settled (n : nat) (s : lw_state) : Prop :=
  forall i, (i < n)%nat -> (In i (idxs s) <-> valid (nth i (new_locs s) []) = false).
Definition half_settled (n : nat) (s : lw_state) : Prop :=
  forall i, (i < n)%nat -> ~ In i (idxs s) -> valid (nth i (new_locs s) []) = true.

Lemma pass_settled S t n s : postselect = true -> lw_inv n s -> half_settled n s ->
  settled n (lw_pass valid postselect kernel S t s).
Proof.
  intros Hp H Hs i Hi. rewrite (pass_rest S t n s H). rewrite filter_In. rewrite Hp. cbn iota.
  destruct (valid (nth i (new_locs (lw_pass valid true kernel S t s)) [])) eqn:E; cbn [negb].
  - split; [intros [_ X]; discriminate|discriminate].
  - split; [reflexivity|]. intros _. split; [|reflexivity].
    destruct (in_dec Nat.eq_dec i (idxs s)) as [|N]; [assumption|exfalso].
    cbn [lw_pass new_locs] in E. rewrite scatter_other in E by assumption. rewrite Hs in E by assumption. discriminate.
Qed.
Lemma settled_half n s : settled n s -> half_settled n s.
Proof. intros H i Hi N. destruct (valid _) eqn:E; [reflexivity|]. apply (H i Hi) in E. contradiction. Qed.

Lemma loop_settled S n left : postselect = true -> forall t s, lw_inv n s -> settled n s ->
  settled n (lw_loop valid postselect kernel S left t s).
Proof.
  intros Hp. induction left as [|left IH]; intros t s H Hs; [assumption|]. cbn [lw_loop]. destruct (idxs s) eqn:E; [assumption|].
  apply IH; [now apply pass_inv|]. apply pass_settled; [assumption|assumption|now apply settled_half].
Qed.
Lemma loop_settled_start S n left t s : postselect = true -> lw_inv n s -> idxs s = seq 0 n ->
  settled n (lw_loop valid postselect kernel S (Datatypes.S left) t s).
Proof.
  intros Hp H Hi. cbn [lw_loop]. destruct (idxs s) eqn:E.
  - intros i Hn. exfalso. destruct n; [lia|discriminate Hi].
  - apply loop_settled; [assumption|now apply pass_inv|]. apply pass_settled; [assumption|assumption|].
    intros i Hn N. exfalso. apply N. rewrite E, Hi. apply in_seq. lia.
Qed.

(** Without postselection a single pass is made. *)
Lemma loop_nopost S n left t s : postselect = false -> lw_inv n s ->
  lw_loop valid postselect kernel S (Datatypes.S left) t s = (match idxs s with [] => s | _ => lw_pass valid postselect kernel S t s end) /\
  (idxs (lw_loop valid postselect kernel S (Datatypes.S left) t s) = []).
Proof.
  intros Hp H. cbn [lw_loop]. destruct (idxs s) eqn:E; [split; [reflexivity|assumption]|].
  assert (Hz : idxs (lw_pass valid postselect kernel S t s) = []).
  { rewrite (pass_rest S t n s H). rewrite Hp. cbn [negb]. clear. induction (idxs s); [reflexivity|assumption]. }
  destruct left; cbn [lw_loop]; rewrite ?Hz; split; auto.
Qed.

(** Every final location is the displaced centre of some drawn ancestor. *)
Lemma pass_new S t n s i : lw_inv n s -> (i < n)%nat ->
  (~ In i (idxs s) /\ nth i (new_locs (lw_pass valid postselect kernel S t s)) [] = nth i (new_locs s) []) \/
  (exists a, (a < length (idxs s))%nat /\ nth a (idxs s) 0%nat = i /\
    nth i (new_locs (lw_pass valid postselect kernel S t s)) [] = vadd (nth a (mus s) []) (matvec S (kernel t a))).
Proof.
  intros H Hi. cbn [lw_pass new_locs]. cbv zeta. fold (proposal S t (mus s)).
  destruct (in_dec Nat.eq_dec i (idxs s)) as [Hin|N].
  - right. apply (In_nth _ _ 0%nat) in Hin as (a & Ha & <-). exists a. split; [assumption|]. split; [reflexivity|].
    rewrite scatter_same; try apply H; try assumption.
    + apply nth_proposal. rewrite (inv_mus n s H). assumption.
    + rewrite proposal_length. apply H.
    + intros k Hk. rewrite (inv_len n s H). now apply (inv_rng n s H).
  - left. split; [assumption|]. now apply scatter_other.
Qed.
End LW.
