(** Proofs for C110. *)
From Verif Require Import Base RList Ext Sums SmcModel SmcSpec SmcProofs LearnProofs ReSpec.
From Coq Require Import List.

Lemma SumL_plus {A} (l : list A) f g : SumL l (fun a => f a + g a) = SumL l f + SumL l g.
Proof. induction l as [|a l IH]; rewrite ?SumL_rsum; cbn; [rewrite rsum_nil; ring|]. rewrite !rsum_cons, <- !SumL_rsum, IH. ring. Qed.

Section A.
Context {O E RND : Type}.
Variables (c : @config O E RND) (dom : E -> list O) (pol : @state O -> E) (Cl : list loc -> Prop) (Good : RND -> Prop) (Er : (RND -> R) -> R).
Hypothesis (HL : learns c dom Cl) (HR : resampling_law c Cl Good Er).
Implicit Types s : @state O.

Let Hlik := ln_lik c dom Cl HL.
Let Hth := ln_thresh c dom Cl HL.

Definition post s o e := norm_row c (ws s) (ls s) o e.
Lemma post_prob s o e : full_inv s -> eps <= evidence c s o e -> prob_vector (post s o e) /\ length (post s o e) = length (ls s).
Proof.
  intros [Hlen [Hw Hs]] He. split; [split|].
  - apply norm_row_nonneg; [assumption|exact Hlik].
  - apply norm_row_sum. now rewrite norm_scale_evidence.
  - unfold post, norm_row. rewrite map_length, hyp_row_length; assumption.
Qed.

(** After a regular update the state is a function of what the resampler returns. *)
Lemma update_shape s o e : full_inv s -> eps <= evidence c s o e ->
  exists (b : bool) (H0 : @state O) (H : list R -> list loc -> option exn -> @state O),
    ws H0 = post s o e /\ ls H0 = ls s /\
    (forall w l, ws (H w l None) = w /\ ls (H w l None) = l) /\
    forall r, fst (update c r s o e true) =
      if b then match rsmp c r (post s o e) (ls s) with Ok (w, l) => H w l None | Err x => H [] [] (Some x) end else H0.
Proof.
  intros [Hlen [Hw Hs]] He.
  set (w := post s o e).
  set (s1 := {| ws := w; ls := ls s; drec := drec s ++ [o]; nrec := nrec s ++ [evidence c s o e];
     mness := if xleb (n_ess w) (mness s) then n_ess w else mness s; rcnt := rcnt s; jr := false; calls := calls s + length (ls s) |}).
  assert (U : forall r, update c r s o e true = maybe_resample c r s1).
  { intros r. rewrite update_regular by assumption. unfold install. rewrite (ln_static c dom Cl HL). cbn [recorded ws ls drec nrec mness rcnt jr calls].
    fold (post s o e). fold w. reflexivity. }
  set (b := xltb (n_ess w) (Fin (INR (length (ls s)) * rthresh c))).
  exists b, s1, (fun w' l' x => match x with
    | None => {| ws := w'; ls := l'; drec := drec s1; nrec := nrec s1; mness := mness s1; rcnt := S (rcnt s1); jr := true; calls := calls s1 |}
    | Some _ => {| ws := w; ls := ls s; drec := drec s1; nrec := nrec s1; mness := mness s1; rcnt := S (rcnt s1); jr := true; calls := calls s1 |} end).
  split; [reflexivity|]. split; [reflexivity|]. split; [intros; split; reflexivity|].
  intros r. rewrite U. unfold maybe_resample. cbn [ws]. change (n_particles s1) with (length (ls s)). change (ws s1) with w. fold b.
  destruct b; [|reflexivity]. unfold resample. change (ws s1) with w. change (ls s1) with (ls s).
  destruct (rsmp c r w (ls s)) as [[w' l']|x]; cbn [fst]; [|reflexivity].
  destruct (canonize c) eqn:K; [|reflexivity]. now rewrite (ln_canon c dom Cl HL K).
Qed.

Lemma update_inv s o e r : full_inv s -> Cl (ls s) -> eps <= evidence c s o e -> Good r ->
  full_inv (fst (update c r s o e true)) /\ Cl (ls (fst (update c r s o e true))).
Proof.
  intros Hi HC He Hg. destruct (update_shape s o e Hi He) as (b & H0 & H & A1 & A2 & A3 & A4). destruct (post_prob s o e Hi He) as [P1 P2].
  rewrite A4. destruct b.
  - destruct (rl_ok c Cl Good Er HR r (post s o e) (ls s) Hg P1 P2 HC) as (w' & l' & -> & Q1 & Q2 & Q3).
    destruct (A3 w' l') as [B1 B2]. unfold full_inv. rewrite B1, B2. tauto.
  - unfold full_inv. rewrite A1, A2. tauto.
Qed.

(** Functions of the updated state are functions of the resampler's answer. *)
Lemma update_fun s o e : full_inv s -> eps <= evidence c s o e ->
  exists K : res (list R * list loc) -> @state O, forall r, fst (update c r s o e true) = K (rsmp c r (post s o e) (ls s)).
Proof.
  intros Hi He. destruct (update_shape s o e Hi He) as (b & H0 & H & _ & _ & _ & A4).
  exists (fun x => if b then match x with Ok (w, l) => H w l None | Err x => H [] [] (Some x) end else H0). exact A4.
Qed.

Notation look := (lookahead c dom pol Er).
Notation reg := (regular_rounds c dom pol Good).

Lemma look_ext n : forall f g s, full_inv s -> Cl (ls s) -> reg n s ->
  (forall s', full_inv s' -> Cl (ls s') -> f s' = g s') -> look n f s = look n g s.
Proof.
  induction n as [|n IH]; intros f g s Hi HC Hr Hfg; cbn; [now apply Hfg|].
  apply SumL_ext. intros o Ho. destruct (Hr o Ho) as [->|[He Hr']]; [ring|]. f_equal. apply (rl_ext c Cl Good Er HR).
  intros r Hg. destruct (update_inv s o (pol s) r Hi HC He Hg). apply IH; auto; now apply Hr'.
Qed.
Lemma look_plus n : forall f g s, full_inv s -> Cl (ls s) -> reg n s -> look n (fun s' => f s' + g s') s = look n f s + look n g s.
Proof.
  induction n as [|n IH]; intros f g s Hi HC Hr; cbn; [reflexivity|].
  rewrite <- SumL_plus. apply SumL_ext. intros o Ho. destruct (Hr o Ho) as [->|[He Hr']]; [ring|]. rewrite <- Rmult_plus_distr_l. f_equal.
  destruct (update_fun s o (pol s) Hi He) as [K HK]. destruct (post_prob s o (pol s) Hi He) as [P1 P2].
  transitivity (Er (fun r => look n f (K (rsmp c r (post s o (pol s)) (ls s))) + look n g (K (rsmp c r (post s o (pol s)) (ls s))))).
  - apply (rl_ext c Cl Good Er HR). intros r Hg. rewrite <- HK. destruct (update_inv s o (pol s) r Hi HC He Hg). apply IH; auto; now apply Hr'.
  - rewrite (rl_plus c Cl Good Er HR _ _ (fun x => look n f (K x)) (fun x => look n g (K x)) P1 P2 HC).
    f_equal; apply (rl_ext c Cl Good Er HR); intros r Hg; now rewrite HK.
Qed.
Lemma look_scal n : forall k f s, full_inv s -> Cl (ls s) -> reg n s -> look n (fun s' => k * f s') s = k * look n f s.
Proof.
  induction n as [|n IH]; intros k f s Hi HC Hr; cbn; [reflexivity|].
  rewrite <- SumL_scal. apply SumL_ext. intros o Ho. destruct (Hr o Ho) as [->|[He Hr']]; [ring|].
  rewrite <- Rmult_assoc, (Rmult_comm k), Rmult_assoc. f_equal.
  destruct (update_fun s o (pol s) Hi He) as [K HK]. destruct (post_prob s o (pol s) Hi He) as [P1 P2].
  transitivity (Er (fun r => k * look n f (K (rsmp c r (post s o (pol s)) (ls s))))).
  - apply (rl_ext c Cl Good Er HR). intros r Hg. rewrite <- HK. destruct (update_inv s o (pol s) r Hi HC He Hg). apply IH; auto; now apply Hr'.
  - rewrite (rl_scal c Cl Good Er HR _ _ k (fun x => look n f (K x)) P1 P2 HC).
    f_equal; apply (rl_ext c Cl Good Er HR); intros r Hg; now rewrite HK.
Qed.
Lemma evidence_nonneg s o e : full_inv s -> 0 <= evidence c s o e.
Proof. intros Hi. apply Sum_nonneg. intros i Hi'. apply Rmult_le_pos; [apply (wt_range s i Hi)|apply Hlik]. Qed.
Lemma look_pos n : positive_law c Cl Good Er -> forall f s, full_inv s -> Cl (ls s) -> reg n s ->
  (forall s', full_inv s' -> Cl (ls s') -> 0 <= f s') -> 0 <= look n f s.
Proof.
  intros HP. induction n as [|n IH]; intros f s Hi HC Hr Hf; cbn; [now apply Hf|].
  apply SumL_nonneg. intros o Ho. destruct (Hr o Ho) as [->|[He Hr']]; [lra|]. apply Rmult_le_pos; [now apply evidence_nonneg|].
  destruct (update_fun s o (pol s) Hi He) as [K HK]. destruct (post_prob s o (pol s) Hi He) as [P1 P2].
  rewrite (rl_ext c Cl Good Er HR _ (fun r => look n f (K (rsmp c r (post s o (pol s)) (ls s))))) by (intros r Hg; now rewrite HK).
  apply (HP _ _ (fun x => look n f (K x))); try assumption. intros r Hg. rewrite <- HK. destruct (update_inv s o (pol s) r Hi HC He Hg). apply IH; auto; now apply Hr'.
Qed.

Lemma post_average s o e g : full_inv s -> eps <= evidence c s o e ->
  evidence c s o e * cloud_average (post s o e) (ls s) g = Sum (n_particles s) (fun i => wt s i * lik (md c) o (at_ s i) e * g (at_ s i)).
Proof.
  intros [Hlen Hp] He. pose proof eps_pos. unfold cloud_average. rewrite <- Sum_scal. apply Sum_ext. intros i Hi.
  unfold post. rewrite norm_row_nth by assumption. unfold bayes. fold (evidence c s o e). fold (at_ s i). field. lra.
Qed.

Lemma one_round s o e g : unbiased c Cl Er g -> full_inv s -> Cl (ls s) -> eps <= evidence c s o e ->
  Er (fun r => average (fst (update c r s o e true)) g) = cloud_average (post s o e) (ls s) g.
Proof.
  intros HU Hi HC He. destruct (update_shape s o e Hi He) as (b & H0 & H & A1 & A2 & A3 & A4). destruct (post_prob s o e Hi He) as [P1 P2].
  destruct b.
  - rewrite <- (HU (post s o e) (ls s) P1 P2 HC). apply (rl_ext c Cl Good Er HR). intros r Hg. rewrite A4.
    destruct (rl_ok c Cl Good Er HR r (post s o e) (ls s) Hg P1 P2 HC) as (w' & l' & -> & _).
    destruct (A3 w' l') as [B1 B2]. unfold average. now rewrite B1, B2.
  - etransitivity; [apply (rl_ext c Cl Good Er HR); intros r Hg; rewrite A4; unfold average; rewrite A1, A2; reflexivity|].
    apply (rl_const c Cl Good Er HR).
Qed.

Lemma martingale n g : unbiased c Cl Er g -> forall s, full_inv s -> Cl (ls s) -> reg n s ->
  look n (fun s' => average s' g) s = average s g.
Proof.
  intros HU. induction n as [|n IH]; intros s Hi HC Hr; cbn [lookahead]; [reflexivity|].
  set (e := pol s).
  rewrite (SumL_ext _ _ (fun o => Sum (n_particles s) (fun i => wt s i * lik (md c) o (at_ s i) e * g (at_ s i)))).
  - rewrite SumL_Sum_swap. unfold average, cloud_average. apply Sum_ext. intros i Hi'. fold (at_ s i). fold (wt s i).
    rewrite (SumL_ext _ _ (fun o => (wt s i * g (at_ s i)) * lik (md c) o (at_ s i) e)) by (intros; ring).
    rewrite SumL_scal, (ln_dom c dom Cl HL (ls s)); [ring|assumption|apply nth_In; exact Hi'].
  - intros o Ho. destruct (Hr o Ho) as [Z|[He Hr']].
    + fold e in Z. rewrite Z, Rmult_0_l. symmetry. apply Sum_zero. intros i Hi'.
      assert (X : wt s i * lik (md c) o (at_ s i) e = 0).
      { apply (Sum_zero_each (n_particles s) (fun i => wt s i * lik (md c) o (at_ s i) e)); [|exact Z|exact Hi'].
        intros j _. apply Rmult_le_pos; [apply (wt_range s j Hi)|apply Hlik]. }
      rewrite X. ring.
    + fold e in He. rewrite <- (post_average s o e g Hi He). f_equal. rewrite <- (one_round s o e g HU Hi HC He).
      apply (rl_ext c Cl Good Er HR). intros r Hg. destruct (update_inv s o e r Hi HC He Hg). apply IH; auto; now apply Hr'.
Qed.

Lemma unbiased_one : unbiased c Cl Er (fun _ => 1).
Proof.
  intros w l Hp Hl HC. assert (W : forall w l, prob_vector w -> length w = length l -> cloud_average w l (fun _ => 1) = 1).
  { intros w' l' [_ Hs] Hl'. unfold cloud_average.
    rewrite (Sum_ext _ _ (fun i => nth i w' 0)) by (intros; ring). rewrite <- Hl', <- rsum_index. exact Hs. }
  rewrite W by assumption. etransitivity; [|apply (rl_const c Cl Good Er HR 1)]. apply (rl_ext c Cl Good Er HR). intros r Hg.
  destruct (rl_ok c Cl Good Er HR r w l Hg Hp Hl HC) as (w' & l' & -> & Q1 & Q2 & _). now apply W.
Qed.
Lemma look_const n k s : full_inv s -> Cl (ls s) -> reg n s -> look n (fun _ => k) s = k.
Proof.
  intros Hi HC Hr. transitivity (look n (fun s' => k * average s' (fun _ => 1)) s).
  - apply look_ext; try assumption. intros s' Hi' _. unfold average, cloud_average. destruct Hi' as [Hl [_ Hs]].
    rewrite (Sum_ext _ _ (fun i => nth i (ws s') 0)) by (intros; ring). rewrite <- Hl, <- rsum_index, Hs. ring.
  - rewrite look_scal by assumption. rewrite (martingale n _ unbiased_one) by assumption. unfold average, cloud_average. destruct Hi as [Hl [_ Hs]].
    rewrite (Sum_ext _ _ (fun i => nth i (ws s) 0)) by (intros; ring). rewrite <- Hl, <- rsum_index, Hs. ring.
Qed.

Definition crd (j : nat) (x : loc) : R := nth j x 0.
Definition crd2 (j k : nat) (x : loc) : R := nth j x 0 * nth k x 0.
Lemma mean_average d s j : (j < d)%nat -> length (ws s) = length (ls s) -> nth j (particle_mean d (ws s) (ls s)) 0 = average s (crd j).
Proof. intros Hj Hl. exact (mean_mom d (ws s) (ls s) j Hj Hl). Qed.
Lemma cov_average s j k : length (ws s) = length (ls s) -> particle_cov (ws s) (ls s) j k = average s (crd2 j k) - average s (crd j) * average s (crd k).
Proof. intros Hl. exact (cov_mom (ws s) (ls s) j k Hl). Qed.

Lemma look_mean n d j s : unbiased c Cl Er (crd j) -> (j < d)%nat -> full_inv s -> Cl (ls s) -> reg n s ->
  look n (fun s' => nth j (particle_mean d (ws s') (ls s')) 0) s = nth j (particle_mean d (ws s) (ls s)) 0.
Proof.
  intros HU Hj Hi HC Hr. rewrite mean_average by (try assumption; apply Hi). rewrite <- (martingale n _ HU s Hi HC Hr).
  apply look_ext; try assumption. intros s' Hi' _. apply mean_average; [assumption|apply Hi'].
Qed.
Lemma look_cov n d j k s : unbiased c Cl Er (crd j) -> unbiased c Cl Er (crd k) -> unbiased c Cl Er (crd2 j k) -> (j < d)%nat -> (k < d)%nat ->
  full_inv s -> Cl (ls s) -> reg n s ->
  let mean s' i := nth i (particle_mean d (ws s') (ls s')) 0 in
  particle_cov (ws s) (ls s) j k = look n (fun s' => particle_cov (ws s') (ls s') j k) s
    + look n (fun s' => (mean s' j - mean s j) * (mean s' k - mean s k)) s.
Proof.
  intros U1 U2 U3 Hj Hk Hi HC Hr mean. unfold mean. rewrite !(mean_average d s) by (try assumption; apply Hi).
  rewrite <- look_plus by assumption.
  set (a := average s (crd j)). set (b := average s (crd k)).
  transitivity (look n (fun s' => average s' (crd2 j k) + ((- b) * average s' (crd j) + ((- a) * average s' (crd k) + a * b))) s).
  - rewrite !look_plus, !look_scal by assumption. rewrite !martingale, look_const by assumption. rewrite cov_average by apply Hi. fold a b. ring.
  - apply look_ext; try assumption. intros s' Hi' _. rewrite !(mean_average d s') by (try assumption; apply Hi'). rewrite cov_average by apply Hi'. ring.
Qed.
Lemma look_var n j s : positive_law c Cl Good Er -> unbiased c Cl Er (crd j) -> unbiased c Cl Er (crd2 j j) -> full_inv s -> Cl (ls s) -> reg n s ->
  look n (fun s' => particle_cov (ws s') (ls s') j j) s <= particle_cov (ws s) (ls s) j j.
Proof.
  intros HP U1 U2 Hi HC Hr. rewrite (look_cov n (S j) j j s U1 U1 U2) by (try assumption; lia).
  match goal with |- ?a <= ?a + ?b => assert (0 <= b); [|lra] end.
  apply look_pos; try assumption. intros s' _ _. apply Rle_0_sqr.
Qed.

(** A resampler that may raise the average of [g] by at most [q]. *)
Lemma er_le s o e (A B : @state O -> R) : positive_law c Cl Good Er -> full_inv s -> Cl (ls s) -> eps <= evidence c s o e ->
  (forall r, Good r -> A (fst (update c r s o e true)) <= B (fst (update c r s o e true))) ->
  Er (fun r => A (fst (update c r s o e true))) <= Er (fun r => B (fst (update c r s o e true))).
Proof.
  intros HP Hi HC He H. destruct (update_fun s o e Hi He) as [K HK]. destruct (post_prob s o e Hi He) as [P1 P2].
  rewrite (rl_ext c Cl Good Er HR (fun r => A _) (fun r => A (K (rsmp c r (post s o e) (ls s))))) by (intros r Hg; now rewrite HK).
  rewrite (rl_ext c Cl Good Er HR (fun r => B _) (fun r => A (K (rsmp c r (post s o e) (ls s))) + (B (K (rsmp c r (post s o e) (ls s))) - A (K (rsmp c r (post s o e) (ls s)))))) by (intros r Hg; rewrite HK; ring).
  rewrite (rl_plus c Cl Good Er HR _ _ (fun x => A (K x)) (fun x => B (K x) - A (K x)) P1 P2 HC).
  assert (0 <= Er (fun r => B (K (rsmp c r (post s o e) (ls s))) - A (K (rsmp c r (post s o e) (ls s))))); [|lra].
  apply (HP _ _ (fun x => B (K x) - A (K x)) P1 P2 HC). intros r Hg. rewrite <- HK. specialize (H r Hg). lra.
Qed.
Lemma look_le n : positive_law c Cl Good Er -> forall f g s, full_inv s -> Cl (ls s) -> reg n s ->
  (forall s', full_inv s' -> Cl (ls s') -> f s' <= g s') -> look n f s <= look n g s.
Proof.
  intros HP. induction n as [|n IH]; intros f g s Hi HC Hr H; cbn; [now apply H|].
  apply SumL_le. intros o Ho. destruct (Hr o Ho) as [->|[He Hr']]; [lra|]. apply Rmult_le_compat_l; [now apply evidence_nonneg|].
  apply (er_le s o (pol s) (look n f) (look n g)); try assumption. intros r Hg. destruct (update_inv s o (pol s) r Hi HC He Hg). apply IH; auto; now apply Hr'.
Qed.
Lemma evidence_total s e : full_inv s -> Cl (ls s) -> SumL (dom e) (fun o => evidence c s o e) = 1.
Proof.
  intros Hi HC. unfold evidence. rewrite SumL_Sum_swap. rewrite <- (full_inv_Sum s Hi). apply Sum_ext. intros i Hi'. rewrite SumL_scal.
  rewrite (ln_dom c dom Cl HL (ls s)); [ring|assumption|apply nth_In; exact Hi'].
Qed.
Definition bounded_drift g (q : R) : Prop := forall w l, prob_vector w -> length w = length l -> Cl l ->
  Er (fun r => match rsmp c r w l with Ok (w', l') => cloud_average w' l' g | Err _ => 0 end) <= cloud_average w l g + q.
Lemma one_round_drift s o e g q : 0 <= q -> bounded_drift g q -> full_inv s -> Cl (ls s) -> eps <= evidence c s o e ->
  Er (fun r => average (fst (update c r s o e true)) g) <= cloud_average (post s o e) (ls s) g + q.
Proof.
  intros Hq HU Hi HC He. destruct (update_shape s o e Hi He) as (b & H0 & H & A1 & A2 & A3 & A4). destruct (post_prob s o e Hi He) as [P1 P2].
  destruct b.
  - eapply Rle_trans; [|apply (HU (post s o e) (ls s) P1 P2 HC)]. right. apply (rl_ext c Cl Good Er HR). intros r Hg. rewrite A4.
    destruct (rl_ok c Cl Good Er HR r (post s o e) (ls s) Hg P1 P2 HC) as (w' & l' & -> & _).
    destruct (A3 w' l') as [B1 B2]. unfold average. now rewrite B1, B2.
  - apply Rle_trans with (cloud_average (post s o e) (ls s) g + 0); [|lra]. right. rewrite Rplus_0_r.
    etransitivity; [apply (rl_ext c Cl Good Er HR); intros r Hg; rewrite A4; unfold average; rewrite A1, A2; reflexivity|].
    apply (rl_const c Cl Good Er HR).
Qed.
Lemma drift n g q : positive_law c Cl Good Er -> 0 <= q -> bounded_drift g q -> forall s, full_inv s -> Cl (ls s) -> reg n s ->
  look n (fun s' => average s' g) s <= average s g + INR n * q.
Proof.
  intros HP Hq HU. induction n as [|n IH]; intros s Hi HC Hr; [cbn; lra|]. cbn [lookahead].
  set (e := pol s).
  apply Rle_trans with (SumL (dom e) (fun o => Sum (n_particles s) (fun i => wt s i * lik (md c) o (at_ s i) e * g (at_ s i)) + (INR (S n) * q) * evidence c s o e)).
  - apply SumL_le. intros o Ho. destruct (Hr o Ho) as [Z|[He Hr']].
    + fold e in Z. rewrite Z, Rmult_0_l. right. rewrite Rmult_0_r, Rplus_0_r. symmetry. apply Sum_zero. intros i Hi'.
      assert (X : wt s i * lik (md c) o (at_ s i) e = 0).
      { apply (Sum_zero_each (n_particles s) (fun i => wt s i * lik (md c) o (at_ s i) e)); [|exact Z|exact Hi'].
        intros j _. apply Rmult_le_pos; [apply (wt_range s j Hi)|apply Hlik]. }
      rewrite X. ring.
    + fold e in He. rewrite <- (post_average s o e g Hi He). rewrite (Rmult_comm (INR (S n) * q)), <- Rmult_plus_distr_l.
      apply Rmult_le_compat_l; [now apply evidence_nonneg|]. rewrite S_INR.
      apply Rle_trans with (Er (fun r => average (fst (update c r s o e true)) g + INR n * q)).
      * apply (er_le s o e (look n (fun s' => average s' g)) (fun s' => average s' g + INR n * q)); try assumption.
        intros r Hg. destruct (update_inv s o e r Hi HC He Hg). apply IH; auto; now apply Hr'.
      * destruct (update_fun s o e Hi He) as [K HK]. destruct (post_prob s o e Hi He) as [P1 P2].
        rewrite (rl_ext c Cl Good Er HR _ (fun r => average (K (rsmp c r (post s o e) (ls s))) g + INR n * q)) by (intros r Hg; now rewrite HK).
        rewrite (rl_plus c Cl Good Er HR _ _ (fun x => average (K x) g) (fun _ => INR n * q) P1 P2 HC), (rl_const c Cl Good Er HR).
        rewrite (rl_ext c Cl Good Er HR _ (fun r => average (fst (update c r s o e true)) g)) by (intros r Hg; now rewrite HK).
        pose proof (one_round_drift s o e g q Hq HU Hi HC He). lra.
  - rewrite SumL_plus, SumL_scal, (evidence_total s e Hi HC). rewrite SumL_Sum_swap. unfold average, cloud_average. right. f_equal; [|ring].
    apply Sum_ext. intros i Hi'. fold (at_ s i). fold (wt s i).
    rewrite (SumL_ext _ _ (fun o => (wt s i * g (at_ s i)) * lik (md c) o (at_ s i) e)) by (intros; ring).
    rewrite SumL_scal, (ln_dom c dom Cl HL (ls s)); [ring|assumption|apply nth_In; exact Hi'].
Qed.
Lemma look_var_drift n j q s : positive_law c Cl Good Er -> 0 <= q -> unbiased c Cl Er (crd j) -> bounded_drift (crd2 j j) q -> full_inv s -> Cl (ls s) -> reg n s ->
  look n (fun s' => particle_cov (ws s') (ls s') j j) s <= particle_cov (ws s) (ls s) j j + INR n * q.
Proof.
  intros HP Hq U1 U2 Hi HC Hr. pose proof (drift n _ q HP Hq U2 s Hi HC Hr) as D. rewrite cov_average by apply Hi. set (a := average s (crd j)).
  apply Rle_trans with (look n (fun s' => average s' (crd2 j j) + ((-2 * a) * average s' (crd j) + a * a)) s).
  - apply look_le; try assumption. intros s' Hi' _. rewrite cov_average by apply Hi'. pose proof (Rle_0_sqr (average s' (crd j) - a)). unfold Rsqr in *. lra.
  - rewrite !look_plus, !look_scal by assumption. rewrite (martingale n _ U1), look_const by assumption. fold a. lra.
Qed.

(** Likelihoods bounded below by machine epsilon on the clouds make all rounds regular. *)
Lemma regular_rounds_bounded n : (forall l x e o, Cl l -> In x l -> In o (dom e) -> eps <= lik (md c) o x e) ->
  forall s, full_inv s -> Cl (ls s) -> reg n s.
Proof.
  intros HB. induction n as [|n IH]; intros s Hi HC; cbn; [exact I|]. intros o Ho. right.
  assert (He : eps <= evidence c s o (pol s)).
  { apply Rle_trans with (eps * Sum (n_particles s) (wt s)); [rewrite full_inv_Sum by assumption; lra|].
    rewrite <- Sum_scal. apply Sum_le. intros i Hi'. rewrite Rmult_comm. apply Rmult_le_compat_l; [apply (wt_range s i Hi)|].
    apply (HB (ls s)); [assumption|apply nth_In; exact Hi'|assumption]. }
  split; [exact He|]. intros r Hg. destruct (update_inv s o (pol s) r Hi HC He Hg). now apply IH.
Qed.
End A.
