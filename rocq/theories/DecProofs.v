(** Proofs for C145. *)
From Verif Require Import Base RList Ext Sums SmcModel SmcSpec SmcProofs SmcProofs2 DecSpec.
From Coq Require Import List.

Lemma card_S n P : card (S n) P = ((if P 0%nat then 1 else 0) + card n (fun i => P (S i)))%nat.
Proof.
  unfold card. cbn [seq filter]. rewrite <- seq_shift. assert (F : forall l, length (filter P (map S l)) = length (filter (fun i => P (S i)) l)) by (induction l as [|i l IH]; [reflexivity|]; cbn [map filter]; destruct (P (S i)); cbn [length]; now rewrite IH).
  destruct (P 0%nat); cbn [length]; now rewrite F.
Qed.
Lemma card_ext n P Q : (forall i, (i < n)%nat -> P i = Q i) -> card n P = card n Q.
Proof. revert P Q. induction n as [|n IH]; intros P Q H; [reflexivity|]. rewrite !card_S, (H 0%nat) by lia. f_equal. apply IH. intros. apply H. lia. Qed.
Lemma card_le n P Q : (forall i, (i < n)%nat -> P i = true -> Q i = true) -> (card n P <= card n Q)%nat.
Proof.
  revert P Q. induction n as [|n IH]; intros P Q H; [reflexivity|]. rewrite !card_S. specialize (IH (fun i => P (S i)) (fun i => Q (S i)) ltac:(intros; apply H; [lia|assumption])).
  pose proof (H 0%nat ltac:(lia)). destruct (P 0%nat); [rewrite H0 by reflexivity; lia|]. destruct (Q 0%nat); lia.
Qed.
Lemma card_all n : card n (fun _ => true) = n.
Proof. induction n as [|n IH]; [reflexivity|]. now rewrite card_S, IH. Qed.
Lemma Sum_card n (P : nat -> bool) x : Sum n (fun i => if P i then x else 0) = INR (card n P) * x.
Proof. revert P. induction n as [|n IH]; intros P; [cbn; ring|]. rewrite Sum_S, IH, card_S, plus_INR. destruct (P 0%nat); cbn [INR]; ring. Qed.

Section Dec.
Context {O E RND : Type}.
Notation state := (@state O).
Notation config := (@config O E RND).
Implicit Types (c : config) (s : state).

Lemma card_INR_pos n P : (0 < card n P)%nat -> 0 < INR (card n P).
Proof. intros. now apply (lt_INR 0). Qed.
Lemma survivors_spread P K s : spread P s -> survivors s K = card (n_particles s) (fun i => P i && K i).
Proof.
  intros [Hc H]. apply card_INR_pos in Hc. unfold survivors. apply card_ext. intros i Hi. rewrite H by assumption. destruct (P i); cbn [andb]; [rewrite Rltb_true; [reflexivity|now apply Rinv_0_lt_compat]|rewrite Rltb_false; [reflexivity|lra]].
Qed.
Lemma evidence_spread c P K v s o e : spread P s -> keeps c s o e K v ->
  evidence c s o e = v * INR (card (n_particles s) (fun i => P i && K i)) / INR (card (n_particles s) P).
Proof.
  intros [Hc H] HK. apply card_INR_pos in Hc. unfold evidence. rewrite (Sum_ext _ _ (fun i => if P i && K i then / INR (card (n_particles s) P) * v else 0)).
  - rewrite Sum_card. field. lra.
  - intros i Hi. rewrite H, HK by assumption. destruct (P i), (K i); cbn [andb]; ring.
Qed.
Lemma n_ess_spread P s : length (ws s) = length (ls s) -> spread P s -> n_ess (ws s) = Fin (INR (card (n_particles s) P)).
Proof.
  intros Hl [Hc H]. apply card_INR_pos in Hc. assert (E1 : rsum (map (fun x => x * x) (ws s)) = / INR (card (n_particles s) P)).
  { rewrite rsum_index, map_length, Hl. fold (n_particles s). rewrite (Sum_ext _ _ (fun i => if P i then / INR (card (n_particles s) P) * / INR (card (n_particles s) P) else 0)).
    - rewrite Sum_card. field. lra.
    - intros i Hi. rewrite (nth_indep _ 0 (0 * 0)) by (rewrite map_length, Hl; exact Hi). rewrite (map_nth (fun x => x * x)). fold (wt s i). rewrite H by assumption. destruct (P i); ring. }
  unfold n_ess. rewrite E1, xdiv_Fin by (apply Rinv_neq_0_compat; lra). f_equal. field. lra.
Qed.

Lemma spread_step c r P K v s o e : good_config c -> zthresh c < 1 -> full_inv s -> spread P s -> keeps c s o e K v -> (0 < card (n_particles s) (fun i => P i && K i))%nat ->
  eps <= evidence c s o e ->
  let s1 := fst (update c r s o e false) in
  full_inv s1 /\ n_particles s1 = n_particles s /\ spread (fun i => P i && K i) s1 /\ nrec s1 = nrec s ++ [evidence c s o e] /\ ls s1 = timestep (md c) r (ls s) e /\
  rcnt s1 = rcnt s /\ mness s1 = (let m := Fin (INR (card (n_particles s) (fun i => P i && K i))) in if xleb m (mness s) then m else mness s) /\
  update c r s o e true = maybe_resample c r s1.
Proof.
  intros G Ht Hinv HP HK Hc He s1. pose proof (update_regular_inv c r s o e G Ht Hinv He) as Hinv1. fold s1 in Hinv1. split; [exact Hinv1|].
  destruct Hinv as [Hlen [Hw Hs]]. assert (E1 : s1 = fst (install c r (recorded s o) (norm_row c (ws s) (ls s) o e) (evidence c s o e) e false)) by (unfold s1; rewrite update_regular by (auto; apply (lik_nonneg c G)); reflexivity).
  assert (Hn : n_particles s1 = n_particles s) by (rewrite E1, install_nocheck; unfold n_particles; cbn; apply (step_len c G)). split; [exact Hn|].
  pose proof (evidence_spread c P K v s o e HP HK) as Hev. pose proof eps_pos as E0. destruct HP as [Hc0 HP]. apply card_INR_pos in Hc0.
  assert (HS : spread (fun i => P i && K i) s1).
  { split; rewrite Hn; [exact Hc|]. intros i Hi. rewrite E1, install_nocheck. unfold wt. cbn [fst ws]. rewrite norm_row_nth by assumption. unfold bayes. fold (evidence c s o e).
    rewrite HP, HK by assumption. apply card_INR_pos in Hc. destruct (P i), (K i); cbn [andb]; try (field; lra).
    rewrite Hev. set (m' := INR (card (n_particles s) (fun i => P i && K i))) in *. set (m := INR (card (n_particles s) P)) in *. clearbody m m'.
    assert (v <> 0) by (intros ->; rewrite Hev in He; replace (0 * m' / m) with 0 in He by (field; lra); lra). field. repeat split; lra. }
  split; [exact HS|]. split; [rewrite E1, install_nocheck; reflexivity|]. split; [rewrite E1, install_nocheck; reflexivity|]. split; [rewrite E1, install_nocheck; reflexivity|]. split.
  - cbv zeta. rewrite <- Hn, <- (n_ess_spread _ s1 (proj1 Hinv1) HS). rewrite E1, install_nocheck. reflexivity.
  - rewrite update_regular by (auto; apply (lik_nonneg c G)). rewrite E1, install_nocheck. reflexivity.
Qed.

Lemma resample_uniform c Good r s : good_config c -> uniform_resampler c Good -> Good (n_particles s) r -> full_inv s -> (0 < n_particles s)%nat ->
  let s' := fst (resample c r s) in full_inv s' /\ n_particles s' = n_particles s /\ spread (fun _ => true) s'.
Proof.
  intros G HU Hr0 [Hlen [Hw Hs]] Hn s'. destruct (HU r (ws s) (ls s) Hr0 (conj Hw Hs) Hlen) as (l' & Hr & Hl'). unfold s', resample. rewrite Hr. cbn [fst].
  assert (HL : length (if canonize c then canon (md c) l' else l') = length (ls s)) by (destruct (canonize c); rewrite ?(canon_len c G); exact Hl').
  assert (HN : 0 < INR (length (ls s))) by (apply (lt_INR 0); exact Hn).
  split; [|split].
  - split; cbn [ws ls]; [unfold uniform_weights; now rewrite repeat_length, HL|]. apply (proj2 (proj2 (rsmp_ok c G _ _ _ _ _ Hr))). intros H0. rewrite H0 in HN. cbn in HN. lra.
  - exact HL.
  - unfold spread, n_particles. cbn [ls]. rewrite HL, card_all. split; [exact Hn|]. intros i Hi. unfold wt. cbn [ws]. unfold uniform_weights. rewrite (nth_indep _ 0 (/ INR (length (ls s)))) by (now rewrite repeat_length). apply nth_repeat.
Qed.

Lemma mness_Fin y m : (if xleb (Fin m) (Fin y) then Fin m else Fin y) = Fin (Rmin y m).
Proof. cbn [xleb]. unfold Rmin. destruct (Rle_dec y m) as [H|H]; destruct (Rleb_spec m y) as [B|B]; try reflexivity; f_equal; lra. Qed.

Lemma decimation_lem c Good : good_config c -> zthresh c < 1 -> uniform_resampler c Good -> forall s xs ms k, decimation c s xs ms k -> forall P y, Forall (drawn (Good (n_particles s))) xs -> full_inv s -> spread P s -> mness s = Fin y ->
  let s' := run c s xs in
  full_inv s' /\ n_particles s' = n_particles s /\ (exists P', spread P' s') /\ rcnt s' = (rcnt s + k)%nat /\ mness s' = Fin (fold_left Rmin (map INR ms) y).
Proof.
  intros G Ht HU s xs ms k HD. induction HD as [s|s r o e check K v xs ms k HK Hm He HD IH|s r xs ms k HD IH]; intros P y Hx Hinv HP Hy; cbv zeta; try (inversion Hx as [|x0 xs0 Hx0 Hx1]; subst).
  - cbn. split; [exact Hinv|]. split; [reflexivity|]. split; [now exists P|]. split; [now rewrite Nat.add_0_r|exact Hy].
  - change (run c s (OUpdate r o e check :: xs)) with (run c (fst (step c s (OUpdate r o e check))) xs). cbn [step] in *.
    pose proof (survivors_spread P K s HP) as Hsv. rewrite Hsv in *.
    destruct (spread_step c r P K v s o e G Ht Hinv HP HK Hm He) as (S1 & S2 & S3 & S4 & S5 & S6 & S7 & S8). cbv zeta in S7. rewrite Hy, mness_Fin in S7.
    set (m := card (n_particles s) (fun i => P i && K i)) in *. cbn [map fold_left].
    assert (Hnp : (0 < n_particles s)%nat). { destruct HP as [Hc _]. unfold card in Hc. destruct (n_particles s); [cbn in Hc; lia|lia]. }
    destruct check.
    + rewrite S8 in *. unfold maybe_resample in *. rewrite (n_ess_spread _ _ (proj1 S1) S3), S2 in *. fold m in IH, HD |- *. cbn [andb xltb] in *.
      destruct (Rltb (INR m) (INR (n_particles s) * rthresh c)).
      * set (s1 := fst (update c r s o e false)) in *. destruct (resample_uniform c Good r s1 G HU ltac:(rewrite S2; exact Hx0) S1 ltac:(lia)) as (R1 & R2 & R3). cbv zeta in R1, R2, R3.
        destruct (IH (fun _ => true) (Rmin y (INR m))) as (I1 & I2 & I3 & I4 & I5); [rewrite R2, S2; exact Hx1|exact R1|exact R3|rewrite resample_mness; exact S7|].
        split; [exact I1|]. split; [congruence|]. split; [exact I3|]. split; [rewrite I4, (proj1 (resample_count c r s1)), S6; lia|exact I5].
      * destruct (IH (fun i => P i && K i) (Rmin y (INR m))) as (I1 & I2 & I3 & I4 & I5); [cbn [fst]; rewrite S2; exact Hx1|exact S1|exact S3|exact S7|].
        split; [exact I1|]. split; [rewrite I2; exact S2|]. split; [exact I3|]. split; [transitivity (rcnt (fst (update c r s o e false)) + k)%nat; [exact I4|rewrite S6; lia]|exact I5].
    + cbn [andb]. destruct (IH (fun i => P i && K i) (Rmin y (INR m))) as (I1 & I2 & I3 & I4 & I5); [cbn [fst]; rewrite S2; exact Hx1|exact S1|exact S3|exact S7|].
      split; [exact I1|]. split; [congruence|]. split; [exact I3|]. split; [rewrite I4, S6; lia|exact I5].
  - change (run c s (OResample r :: xs)) with (run c (fst (step c s (OResample r))) xs). cbn [step] in *.
    assert (Hnp : (0 < n_particles s)%nat). { destruct HP as [Hc _]. unfold card in Hc. destruct (n_particles s); [cbn in Hc; lia|lia]. }
    destruct (resample_uniform c Good r s G HU Hx0 Hinv Hnp) as (R1 & R2 & R3). cbv zeta in R1, R2, R3.
    destruct (IH (fun _ => true) y) as (I1 & I2 & I3 & I4 & I5); [rewrite R2; exact Hx1|exact R1|exact R3|rewrite resample_mness; exact Hy|].
    split; [exact I1|]. split; [congruence|]. split; [exact I3|]. split; [rewrite I4, (proj1 (resample_count c r s)); lia|exact I5].
Qed.

(** Updates without resampling, described in advance *)
Lemma nested_lem c rs : good_config c -> zthresh c < 1 -> (forall r l e, timestep (md c) r l e = l) -> forall ks idx P s y,
  full_inv s -> spread P s -> mness s = Fin y -> (forall o e K v, In (o, e, K, v) ks -> keeps c s o e K v) ->
  (0 < card (n_particles s) (all_kept P ks))%nat -> (forall o e K v, In (o, e, K, v) ks -> eps <= v * INR (card (n_particles s) (all_kept P ks)) / INR (card (n_particles s) P)) ->
  let m := card (n_particles s) (all_kept P ks) in let s' := run c s (updates rs idx (map (fun k => fst (fst k)) ks)) in
  full_inv s' /\ ls s' = ls s /\ spread (all_kept P ks) s' /\ n_ess (ws s') = Fin (INR m) /\ (ks <> [] -> mness s' = Fin (Rmin y (INR m))) /\
  exists Ns, nrec s' = nrec s ++ Ns /\ Forall (fun x => 0 < x) Ns /\ rprod Ns = rprod (map snd ks) * INR m / INR (card (n_particles s) P).
Proof.
  intros G Ht Hst. induction ks as [|[[[o e] K] v] ks IH]; intros idx P s y Hinv HP Hy HK Hm He m s'.
  - assert (Em : m = card (n_particles s) P) by (apply card_ext; intros; unfold all_kept; cbn; now rewrite andb_true_r).
    cbn in s'. unfold s'. split; [exact Hinv|]. split; [reflexivity|]. assert (HS : spread (all_kept P (@nil (O * E * (nat -> bool) * R))) s).
    { destruct HP as [H1 H2]. split; [exact Hm|]. fold m. rewrite Em. intros i Hi. unfold all_kept. cbn. rewrite andb_true_r. now apply H2. }
    split; [exact HS|]. split; [exact (n_ess_spread _ s (proj1 Hinv) HS)|]. split; [contradiction|]. exists []. split; [now rewrite app_nil_r|]. split; [constructor|]. rewrite Em. unfold rprod. cbn. destruct HP as [Hc _]. apply card_INR_pos in Hc. field. lra.
  - assert (Hall : forall i, all_kept P ((o, e, K, v) :: ks) i = all_kept (fun i => P i && K i) ks i) by (intros i; unfold all_kept; cbn; now rewrite andb_assoc).
    assert (Em : m = card (n_particles s) (all_kept (fun i => P i && K i) ks)) by (apply card_ext; intros; apply Hall).
    set (m1 := card (n_particles s) (fun i => P i && K i)).
    assert (Hm1 : (m <= m1)%nat) by (rewrite Em; apply card_le; intros i _; unfold all_kept; intros H; now apply andb_prop in H).
    assert (HKs := HK o e K v (or_introl eq_refl)). pose proof (evidence_spread c P K v s o e HP HKs) as Hev. fold m1 in Hev. fold m in Hm.
    assert (Hpc : 0 < INR (card (n_particles s) P)) by (apply card_INR_pos; apply HP). assert (E0 := eps_pos).
    assert (Hm0 : 0 < INR m) by (now apply (lt_INR 0)).
    assert (Vpos : forall o' e' K' v', In (o', e', K', v') ((o, e, K, v) :: ks) -> 0 < v').
    { intros o' e' K' v' Hin. specialize (He o' e' K' v' Hin). fold m in He. destruct (Rlt_le_dec 0 v') as [B|B]; [exact B|]. exfalso. assert (v' * INR m / INR (card (n_particles s) P) <= 0); [|lra].
      unfold Rdiv. assert (0 < / INR (card (n_particles s) P)) by now apply Rinv_0_lt_compat. assert (v' * INR m <= 0) by nra. nra. }
    assert (Hle : forall x y' z, 0 < z -> x <= y' -> x / z <= y' / z) by (intros x y' z Hz Hx; unfold Rdiv; apply Rmult_le_compat_r; [left; now apply Rinv_0_lt_compat|exact Hx]).
    assert (He1 : eps <= evidence c s o e).
    { specialize (He o e K v (or_introl eq_refl)). fold m in He. rewrite Hev. apply Rle_trans with (1 := He). apply Hle; [assumption|]. apply Rmult_le_compat_l; [left; apply (Vpos o e K v); now left|now apply le_INR]. }
    destruct (spread_step c (rs idx) P K v s o e G Ht Hinv HP HKs ltac:(fold m1; lia) He1) as (S1 & S2 & S3 & S4 & S5 & S6 & S7 & S8). cbv zeta in S7. fold m1 in S7. rewrite Hy, mness_Fin in S7. rewrite Hst in S5.
    set (s1 := fst (update c (rs idx) s o e false)) in *.
    destruct (IH (S idx) (fun i => P i && K i) s1 (Rmin y (INR m1))) as (I1 & I2 & I3 & I4 & I5 & Ns & I6 & I8 & I7); try assumption.
    { intros o' e' K' v' Hin i Hi. rewrite S2 in Hi. unfold at_. rewrite S5. apply (HK o' e' K' v'); [now right|assumption]. }
    { rewrite S2, <- Em. exact Hm. }
    { intros o' e' K' v' Hin. rewrite S2, <- Em. fold m1. specialize (He o' e' K' v' (or_intror Hin)). fold m in He. apply Rle_trans with (1 := He). unfold Rdiv. apply Rmult_le_compat_l; [left; apply Rmult_lt_0_compat; [apply (Vpos o' e' K' v'); now right|assumption]|].
      apply Rinv_le_contravar; [apply (lt_INR 0); lia|]. apply le_INR. apply card_le. intros i _ H. now apply andb_prop in H. }
    rewrite S2, <- Em in *. unfold s'. cbn [map fst]. rewrite run_updates_cons. fold s1. cbv zeta in I1, I2, I3, I4, I5, I6.
    assert (HSp : spread (all_kept P ((o, e, K, v) :: ks)) (run c s1 (updates rs (S idx) (map (fun k => fst (fst k)) ks)))).
    { destruct I3 as [J1 J2]. assert (Ec : forall n, card n (all_kept P ((o, e, K, v) :: ks)) = card n (all_kept (fun i => P i && K i) ks)) by (intros; apply card_ext; intros; apply Hall). split; [now rewrite Ec|]. intros i Hi. rewrite Ec, Hall. now apply J2. }
    split; [exact I1|]. split; [congruence|]. split; [exact HSp|]. split; [exact I4|]. split.
    + intros _. destruct ks as [|k0 ks].
      * cbn. rewrite S7. f_equal. f_equal. rewrite Em. unfold m1. apply f_equal, card_ext. intros. unfold all_kept. cbn. now rewrite andb_true_r.
      * rewrite I5 by discriminate. f_equal. apply le_INR in Hm1. unfold Rmin. repeat destruct (Rle_dec _ _); lra.
    + exists (evidence c s o e :: Ns). split; [rewrite I6, S4, <- app_assoc; reflexivity|]. split; [constructor; [lra|exact I8]|]. cbn [map snd]. rewrite !rprod_cons, I7, Hev. fold m1. assert (0 < INR m1) by (apply (lt_INR 0); lia). field. lra.
Qed.
End Dec.
