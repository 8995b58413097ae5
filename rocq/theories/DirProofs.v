(** Proofs for C147. *)
From Verif Require Import Base RList Ext Sums SmcModel SmcSpec SmcProofs SmcProofs2 RiskModel RiskSpec RiskProofs DistSpec DistProofs2 DomModel DerModel DerSpec DerProofs TwoModel ConjSpec ConjProofs CountProofs DirSpec.
From Coq Require Import List.

Lemma Prod_mult n f g : Prod n (fun i => f i * g i) = Prod n f * Prod n g.
Proof. revert f g. induction n as [|n IH]; intros f g; [unfold Prod; cbn; ring|]. rewrite !Prod_S, (IH (fun i => f (S i)) (fun i => g (S i))). ring. Qed.
Lemma Prod_positive n f : (forall i, (i < n)%nat -> 0 < f i) -> 0 < Prod n f.
Proof. revert f. induction n as [|n IH]; intros f H; [unfold Prod; cbn; lra|]. rewrite Prod_S. apply Rmult_lt_0_compat; [apply H; lia|apply IH; intros; apply H; lia]. Qed.
Lemma size_S K m : size (S K) m = (m 0 + size K (fun j => m (S j)))%nat.
Proof. unfold size. cbn [seq map]. rewrite <- seq_shift, map_map. reflexivity. Qed.
Lemma size_add K m m' : size K (fun j => m j + m' j)%nat = (size K m + size K m')%nat.
Proof. revert m m'. induction K as [|K IH]; intros m m'; [reflexivity|]. rewrite !size_S, (IH (fun j => m (S j)) (fun j => m' (S j))). lia. Qed.
Lemma size_ext K m m' : (forall j, (j < K)%nat -> m j = m' j) -> size K m = size K m'.
Proof. intros H. unfold size. f_equal. apply map_ext_in. intros j Hj. apply in_seq in Hj. apply H. lia. Qed.
Lemma Sum_counts K al m : Sum K (plus_counts al m) = Sum K al + INR (size K m).
Proof. revert al m. induction K as [|K IH]; intros al m; [cbn; ring|]. rewrite !Sum_S, size_S, plus_INR. unfold plus_counts at 1. specialize (IH (fun j => al (S j)) (fun j => m (S j))). unfold plus_counts in *. rewrite IH. ring. Qed.
Lemma monomial_add K x m m' : monomial K x (fun j => m j + m' j)%nat = monomial K x m * monomial K x m'.
Proof. unfold monomial. rewrite <- Prod_mult. apply Prod_ext. intros. apply pow_add. Qed.
Lemma Sum_positive n f : (0 < n)%nat -> (forall i, (i < n)%nat -> 0 < f i) -> 0 < Sum n f.
Proof.
  intros Hn H. destruct n as [|n]; [lia|]. rewrite Sum_S. assert (0 < f 0%nat) by (apply H; lia). assert (0 <= Sum n (fun i => f (S i))); [|lra]. apply Sum_nonneg. intros i Hi. left. apply H. lia.
Qed.
Lemma dm_pos K al m : (0 < K)%nat -> (forall j, (j < K)%nat -> 0 < al j) -> 0 < dirichlet_moment K al m.
Proof. intros HK H. apply Rdiv_lt_0_compat; [apply Prod_positive; intros; apply rising_pos; auto|apply rising_pos; now apply Sum_positive]. Qed.
Lemma dm_add K al m m' : (0 < K)%nat -> (forall j, (j < K)%nat -> 0 < al j) ->
  dirichlet_moment K al (fun j => m j + m' j)%nat = dirichlet_moment K al m * dirichlet_moment K (plus_counts al m) m'.
Proof.
  intros HK H. assert (HA := Sum_positive K al HK H). unfold dirichlet_moment. rewrite size_add, rising_add, Sum_counts.
  rewrite (Prod_ext K _ (fun j => rising (al j) (m j) * rising (plus_counts al m j) (m' j))) by (intros; apply rising_add). rewrite Prod_mult.
  assert (0 < rising (Sum K al) (size K m)) by now apply rising_pos. assert (0 < rising (Sum K al + INR (size K m)) (size K m')) by (apply rising_pos; pose proof (pos_INR (size K m)); lra). field. split; lra.
Qed.
Lemma dm_ext K al be m m' : (forall j, (j < K)%nat -> al j = be j) -> (forall j, (j < K)%nat -> m j = m' j) -> dirichlet_moment K al m = dirichlet_moment K be m'.
Proof. intros H1 H2. unfold dirichlet_moment. f_equal; [apply Prod_ext; intros j Hj; now rewrite H1, H2|]. now rewrite (Sum_ext K al be H1), (size_ext K m m' H2). Qed.
Lemma moments_ext {O} K D al be (s : @state O) : (forall j, (j < K)%nat -> al j = be j) -> dirichlet_moments K D al s -> dirichlet_moments K D be s.
Proof. intros H HD m Hm. rewrite HD by assumption. now apply dm_ext. Qed.
Lemma moments_le {O} K D D' al (s : @state O) : (D' <= D)%nat -> dirichlet_moments K D al s -> dirichlet_moments K D' al s.
Proof. intros H HD m Hm. apply HD. lia. Qed.
Lemma plus_pos K al m : (forall j, (j < K)%nat -> 0 < al j) -> forall j, (j < K)%nat -> 0 < plus_counts al m j.
Proof. intros H j Hj. unfold plus_counts. specialize (H j Hj). pose proof (pos_INR (m j)). lra. Qed.

Lemma size_zero K m : (forall j, (j < K)%nat -> m j = 0%nat) -> size K m = 0%nat.
Proof. revert m. induction K as [|K IH]; intros m H; [reflexivity|]. rewrite size_S, H, IH by (intros; try apply H; lia). reflexivity. Qed.
Lemma Prod_ones K f : (forall j, (j < K)%nat -> f j = 1) -> Prod K f = 1.
Proof. revert f. induction K as [|K IH]; intros f H; [reflexivity|]. rewrite Prod_S, H, IH by (intros; try apply H; lia). ring. Qed.

(** One unit of counts *)
Definition unit_count (o : nat) : nat -> nat := fun j => if Nat.eqb j o then 1%nat else 0%nat.
Lemma size_unit K o : (o < K)%nat -> size K (unit_count o) = 1%nat.
Proof.
  revert o. induction K as [|K IH]; intros o Ho; [lia|]. rewrite size_S. destruct o as [|o].
  - change (unit_count 0 0) with 1%nat. rewrite size_zero by reflexivity. reflexivity.
  - change (unit_count (S o) 0) with 0%nat. change (fun j => unit_count (S o) (S j)) with (unit_count o). rewrite IH by lia. reflexivity.
Qed.
Lemma Prod_unit K o (f : nat -> nat -> R) : (o < K)%nat -> (forall j, f j 0%nat = 1) -> Prod K (fun j => f j (unit_count o j)) = f o 1%nat.
Proof.
  revert o f. induction K as [|K IH]; intros o f Ho H; [lia|]. rewrite Prod_S. destruct o as [|o].
  - rewrite Prod_ones by (intros j _; apply (H (S j))). unfold unit_count. cbn. ring.
  - change (unit_count (S o) 0) with 0%nat. rewrite H, Rmult_1_l. apply (IH o (fun j => f (S j))); [lia|intros; apply H].
Qed.
Lemma monomial_unit K x o : (o < K)%nat -> monomial K x (unit_count o) = nth o x 0.
Proof. intros H. unfold monomial. rewrite (Prod_unit K o (fun j n => nth j x 0 ^ n)) by auto. apply pow_1. Qed.
Lemma dm_unit K al o : (o < K)%nat -> dirichlet_moment K al (unit_count o) = al o / Sum K al.
Proof. intros H. unfold dirichlet_moment. rewrite (Prod_unit K o (fun j n => rising (al j) n)) by auto. now rewrite size_unit, !rising_1. Qed.

Section Cloud.
Context {O E RND : Type}.
Notation state := (@state O).
Notation config := (@config O E RND).
Implicit Types (c : config) (s : state).

Lemma dir_evidence c s o e K D al m C : (forall x, In x (ls s) -> lik (md c) o x e = C * monomial K x m) -> dirichlet_moments K D al s -> (size K m <= D)%nat ->
  evidence c s o e = C * dirichlet_moment K al m.
Proof.
  intros HL HD Hm. rewrite <- (HD m Hm), <- Sum_scal. unfold evidence. apply Sum_ext. intros i Hi. rewrite HL by now apply nth_In. ring.
Qed.
(** Bayes' rule on the moments *)
Lemma dir_bayes c s o e K D al m C p : (0 < K)%nat -> (forall j, (j < K)%nat -> 0 < al j) -> C <> 0 ->
  (forall x, In x (ls s) -> lik (md c) o x e = C * monomial K x m) -> dirichlet_moments K (D + size K m) al s ->
  (forall i, (i < n_particles s)%nat -> p i = wt s i * lik (md c) o (at_ s i) e / evidence c s o e) ->
  forall m', (size K m' <= D)%nat -> Sum (n_particles s) (fun i => p i * monomial K (at_ s i) m') = dirichlet_moment K (plus_counts al m) m'.
Proof.
  intros HK Ha HC HL HD Hp m' Hm'. assert (P := dm_pos K al m HK Ha).
  rewrite (Sum_ext _ _ (fun i => / dirichlet_moment K al m * (wt s i * monomial K (at_ s i) (fun j => m j + m' j)%nat))).
  - rewrite Sum_scal, HD by (rewrite size_add; lia). rewrite dm_add by assumption. field. lra.
  - intros i Hi. rewrite Hp, HL by (auto; now apply nth_In). rewrite (dir_evidence c s o e K (D + size K m) al m C HL HD) by lia. rewrite monomial_add. field. split; lra.
Qed.
Lemma dir_step c r s o e K D al m C : good_config c -> zthresh c < 1 -> (forall r l e, timestep (md c) r l e = l) -> full_inv s -> (0 < K)%nat -> (forall j, (j < K)%nat -> 0 < al j) -> 0 < C ->
  (forall x, In x (ls s) -> lik (md c) o x e = C * monomial K x m) -> dirichlet_moments K (D + size K m) al s -> eps <= C * dirichlet_moment K al m ->
  let s' := fst (update c r s o e false) in
  full_inv s' /\ ls s' = ls s /\ nrec s' = nrec s ++ [C * dirichlet_moment K al m] /\ dirichlet_moments K D (plus_counts al m) s'.
Proof.
  intros G Ht Hst Hinv HK Ha HC HL HD He s'. assert (E1 := dir_evidence c s o e K _ al m C HL HD ltac:(lia)).
  assert (Hreg : eps <= evidence c s o e) by lra. split; [now apply update_regular_inv|].
  assert (Hs' : s' = fst (install c r (recorded s o) (norm_row c (ws s) (ls s) o e) (evidence c s o e) e false)).
  { unfold s'. destruct Hinv as [Hlen [Hw Hs]]. rewrite update_regular by (auto; apply (lik_nonneg c G)). reflexivity. }
  assert (Hl : ls s' = ls s) by (rewrite Hs', install_nocheck; cbn; apply Hst). split; [exact Hl|].
  split; [rewrite Hs', install_nocheck; cbn [fst nrec recorded]; now rewrite E1|].
  intros m' Hm'. assert (Hn : n_particles s' = n_particles s) by (unfold n_particles; now rewrite Hl). rewrite Hn. unfold at_. rewrite Hl.
  apply (dir_bayes c s o e K D al m C (wt s') HK Ha ltac:(lra) HL HD); [|assumption]. intros i Hi. destruct Hinv as [Hlen [Hw Hs]]. rewrite Hs', install_nocheck. unfold wt at 1. cbn [fst ws]. rewrite norm_row_nth by assumption. reflexivity.
Qed.

(** A history; [m d] and [C d] are the exponents and the constant of the likelihood of the datum [d] *)
Fixpoint summed (m : O * E -> nat -> nat) (data : list (O * E)) (j : nat) : nat := match data with [] => 0%nat | d :: data' => (m d j + summed m data' j)%nat end.
Fixpoint heard (K : nat) (C : O * E -> R) (m : O * E -> nat -> nat) (al : nat -> R) (data : list (O * E)) : Prop :=
  match data with [] => True | d :: data' => eps <= C d * dirichlet_moment K al (m d) /\ heard K C m (plus_counts al (m d)) data' end.
Lemma dir_history c rs K C m : good_config c -> zthresh c < 1 -> (forall r l e, timestep (md c) r l e = l) -> (0 < K)%nat -> forall data idx s al D,
  full_inv s -> (forall j, (j < K)%nat -> 0 < al j) -> (forall d, In d data -> 0 < C d /\ forall x, In x (ls s) -> lik (md c) (fst d) x (snd d) = C d * monomial K x (m d)) ->
  dirichlet_moments K (D + size K (summed m data)) al s -> heard K C m al data ->
  let s' := run c s (updates rs idx data) in
  full_inv s' /\ ls s' = ls s /\ dirichlet_moments K D (plus_counts al (summed m data)) s' /\
  exists Ns, nrec s' = nrec s ++ Ns /\ Forall (fun x => 0 < x) Ns /\ rprod Ns = rprod (map C data) * dirichlet_moment K al (summed m data).
Proof.
  intros G Ht Hst HK. induction data as [|[o e] data IH]; intros idx s al D Hinv Ha HL HD HH s'.
  - split; [exact Hinv|]. split; [reflexivity|]. cbn [summed map] in *. assert (Z0 : size K (fun _ => 0%nat) = 0%nat) by (now apply size_zero). change (summed m []) with (fun _ : nat => 0%nat) in *. rewrite Z0, Nat.add_0_r in HD.
    split; [apply (moments_ext K D al); [intros; unfold plus_counts; cbn; ring|exact HD]|]. exists []. split; [cbn; now rewrite app_nil_r|]. split; [constructor|].
    unfold dirichlet_moment. rewrite Z0. cbn [rising]. rewrite Prod_ones by reflexivity. unfold rprod. cbn. field.
  - destruct HH as [He HH]. destruct (HL _ (or_introl eq_refl)) as [HC HL1]. cbn [fst snd] in HL1. set (d := (o, e)) in *.
    assert (Hsz : size K (summed m (d :: data)) = (size K (m d) + size K (summed m data))%nat) by (rewrite <- size_add; reflexivity). rewrite Hsz in HD.
    destruct (dir_step c (rs idx) s o e K (D + size K (summed m data)) al (m d) (C d) G Ht Hst Hinv HK Ha HC HL1) as (J1 & J2 & J3 & J4); [|exact He|].
    { replace (D + size K (summed m data) + size K (m d))%nat with (D + (size K (m d) + size K (summed m data)))%nat by lia. exact HD. }
    set (s1 := fst (update c (rs idx) s o e false)) in *.
    destruct (IH (S idx) s1 (plus_counts al (m d)) D J1 (plus_pos K al (m d) Ha)) as (I1 & I2 & I3 & Ns & I4 & I5 & I6); [|exact J4|exact HH|].
    { intros d' Hd'. rewrite J2. exact (HL d' (or_intror Hd')). }
    unfold s', d. rewrite run_updates_cons. fold s1. fold d. split; [exact I1|]. split; [congruence|]. split.
    + apply (moments_ext K D _ _ _) with (2 := I3). intros j _. unfold plus_counts. cbn [summed]. rewrite plus_INR. ring.
    + exists (C d * dirichlet_moment K al (m d) :: Ns). split; [rewrite I4, J3, <- app_assoc; reflexivity|]. split; [constructor; [pose proof eps_pos; lra|exact I5]|].
      cbn [map]. rewrite !rprod_cons, I6. rewrite (dm_ext K al al (summed m (d :: data)) (fun j => m d j + summed m data j)%nat) by reflexivity. rewrite dm_add by assumption. ring.
Qed.
End Cloud.

(** ** Rolls of a die *)
Section Die.
Context {E RND : Type}.
Notation state := (@state nat).
Notation config := (@config nat E RND).
Implicit Types (c : config) (s : state).

Lemma summed_rolled (data : list (nat * E)) j : summed (fun d => unit_count (fst d)) data j = rolled data j.
Proof.
  induction data as [|[o e] data IH]; [reflexivity|]. cbn [summed fst]. rewrite IH. unfold rolled, unit_count. cbn [map fst]. destruct (Nat.eqb_spec j o) as [->|D]; [now rewrite count_occ_cons_eq|]. rewrite count_occ_cons_neq by congruence. reflexivity.
Qed.
Lemma size_rolled K (data : list (nat * E)) : Forall (fun d => (fst d < K)%nat) data -> size K (rolled data) = length data.
Proof.
  intros H. rewrite (size_ext K _ (summed (fun d => unit_count (fst d)) data)) by (intros; symmetry; apply summed_rolled). induction H as [|d data Hd H IH].
  - now apply size_zero.
  - rewrite (size_ext K _ (fun j => unit_count (fst d) j + summed (fun d => unit_count (fst d)) data j)%nat) by reflexivity. rewrite size_add, size_unit, IH by assumption. reflexivity.
Qed.
Lemma rolls_heard K (data : list (nat * E)) : (0 < K)%nat -> forall al, Forall (fun d => (fst d < K)%nat) data -> (forall j, (j < K)%nat -> 0 < al j) -> (forall j, (j < K)%nat -> eps * (Sum K al + INR (length data)) <= al j) ->
  heard K (fun _ => 1) (fun d => unit_count (fst d)) al data.
Proof.
  intros HK. induction data as [|[o e] data IH]; intros al H Ha He; [exact I|]. inversion H as [|? ? Ho H']; subst. cbn [fst] in Ho. cbn [length] in He. rewrite S_INR in He. cbn [heard fst].
  assert (E0 := eps_pos). pose proof (pos_INR (length data)) as Ln. assert (HA := Sum_positive K al HK Ha).
  split.
  - rewrite dm_unit by assumption. rewrite Rmult_1_l. apply Rmult_le_reg_r with (Sum K al); [lra|]. unfold Rdiv. rewrite Rmult_assoc, Rinv_l, Rmult_1_r by lra. specialize (He o Ho). assert (0 <= eps * (INR (length data) + 1)) by (apply Rmult_le_pos; lra). lra.
  - apply IH; [assumption|now apply plus_pos|]. intros j Hj. rewrite Sum_counts, size_unit by assumption. specialize (He j Hj). unfold plus_counts. pose proof (pos_INR (unit_count o j)). cbn [INR]. replace (Sum K al + 1 + INR (length data)) with (Sum K al + (INR (length data) + 1)) by ring. lra.
Qed.

(** Expected posterior variance after one more roll *)
Lemma post_var c s o e K al j : (0 < K)%nat -> (forall j, (j < K)%nat -> 0 < al j) -> (o < K)%nat -> (j < K)%nat ->
  (forall x, In x (ls s) -> lik (md c) o x e = nth o x 0) -> dirichlet_moments K 3 al s ->
  let al' := plus_counts al (unit_count o) in let A := Sum K al + 1 in
  variance (n_particles s) (posterior c s o e) (fun i => nth j (at_ s i) 0) = al' j * (A - al' j) / (A ^ 2 * (A + 1)).
Proof.
  intros HK Ha Ho Hj HL HD al' A. assert (HA := Sum_positive K al HK Ha).
  assert (HL1 : forall x, In x (ls s) -> lik (md c) o x e = 1 * monomial K x (unit_count o)) by (intros x Hx; rewrite monomial_unit, HL by assumption; ring).
  assert (HB : forall m', (size K m' <= 2)%nat -> Sum (n_particles s) (fun i => posterior c s o e i * monomial K (at_ s i) m') = dirichlet_moment K al' m').
  { apply (dir_bayes c s o e K 2 al (unit_count o) 1 _ HK Ha ltac:(lra) HL1); [now rewrite size_unit|]. intros i Hi. reflexivity. }
  assert (Ha' := plus_pos K al (unit_count o) Ha). fold al' in Ha'. assert (HA' : Sum K al' = A) by (unfold al'; rewrite Sum_counts, size_unit by assumption; unfold A; cbn [INR]; ring).
  assert (Z0 : size K (fun _ => 0%nat) = 0%nat) by (now apply size_zero).
  assert (P1 : Prod K (fun _ => 1) = 1) by (now apply Prod_ones).
  rewrite (variance_moments _ _ _ (al' j / A) (al' j * (al' j + 1) / (A * (A + 1)))).
  - unfold A. field. lra.
  - assert (H0 := HB (fun _ => 0%nat) ltac:(lia)). unfold dirichlet_moment, monomial in H0. rewrite Z0 in H0. cbn [pow rising] in H0. rewrite P1 in H0. rewrite (Sum_ext _ _ (fun i => posterior c s o e i * 1)) by (intros; ring). rewrite H0. field.
  - assert (H1 := HB (unit_count j) ltac:(rewrite size_unit by assumption; lia)). rewrite dm_unit, HA' in H1 by assumption. rewrite <- H1. apply Sum_ext. intros i _. now rewrite monomial_unit.
  - assert (H2 := HB (fun k => unit_count j k + unit_count j k)%nat ltac:(rewrite size_add, size_unit by assumption; lia)). rewrite dm_add, !dm_unit, Sum_counts, size_unit, HA' in H2 by assumption. assert (Hj1 : plus_counts al' (unit_count j) j = al' j + 1) by (unfold plus_counts, unit_count; now rewrite Nat.eqb_refl). rewrite Hj1 in H2. cbn [INR] in H2.
    transitivity (Sum (n_particles s) (fun i => posterior c s o e i * monomial K (at_ s i) (fun k => (unit_count j k + unit_count j k)%nat))).
    + apply Sum_ext. intros i _. rewrite monomial_add, !monomial_unit by assumption. ring.
    + rewrite H2. field. unfold A. lra.
Qed.
End Die.
