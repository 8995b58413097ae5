(** C148: the posterior depends on the cloud only through the distribution it represents.  Splitting, merging, reordering or dropping
    weightless particles, or changing the parameters of the model, changes no normalization, estimate, Bayes risk or information gain. *)
From Verif Require Import Base RList Ext Sums SmcModel SmcSpec SmcProofs SmcProofs2 PartModel PartSpec PartProofs PartProofs3 PartProps RiskModel RiskSpec RiskProofs SmcProps ConjProofs DirProofs RepSpec.
From Coq Require Import List Permutation.

Section Two.
Context {O E RND RND' : Type} (c : @config O E RND) (c' : @config O E RND') (g : loc -> loc) (mv mv' : E -> loc -> loc).
Definition same_model : Prop :=
  good_config c /\ good_config c' /\ zthresh c < 1 /\ zthresh c' < 1 /\
  (forall r l e, timestep (md c) r l e = map (mv e) l) /\ (forall r l e, timestep (md c') r l e = map (mv' e) l) /\
  (forall o x e, lik (md c') o (g x) e = lik (md c) o x e) /\ (forall e x, mv' e (g x) = g (mv e x)).

Lemma pushed_evidence s s' o e : same_model -> pushed g s s' -> evidence c' s' o e = evidence c s o e.
Proof.
  intros (_ & _ & _ & _ & _ & _ & HL & _) HP. transitivity (average s' (fun x => lik (md c') o x e)); [reflexivity|]. rewrite HP. unfold average, evidence. apply Sum_ext. intros i _. now rewrite HL.
Qed.
End Two.

Lemma average_update {O E RND} (c : @config O E RND) r s o e (mv : E -> loc -> loc) f : good_config c -> zthresh c < 1 -> (forall r l e, timestep (md c) r l e = map (mv e) l) -> full_inv s -> eps <= evidence c s o e ->
  average (fst (update c r s o e false)) f = average s (fun x => lik (md c) o x e / evidence c s o e * f (mv e x)).
Proof.
  intros G Ht Hst Hinv He. destruct Hinv as [Hlen [Hw Hs]]. rewrite update_regular by (auto; apply (lik_nonneg c G)). rewrite install_nocheck. unfold average, n_particles. cbn [fst ls ws recorded]. rewrite Hst, map_length.
  apply Sum_ext. intros i Hi. unfold wt at 1, at_ at 1. cbn [ws ls]. rewrite norm_row_nth by assumption. rewrite (nth_indep _ [] (mv e [])) by (now rewrite map_length). rewrite (map_nth (mv e)). unfold bayes. fold (evidence c s o e). fold (at_ s i). assert (E0 := eps_pos). field. lra.
Qed.

(** Any history of updates: the records agree and the posterior is the image of the posterior. *)
Theorem c148_history {O E RND RND'} (c : @config O E RND) (c' : @config O E RND') g mv mv' rs rs' : same_model c c' g mv mv' -> forall data idx idx' s s',
  full_inv s -> full_inv s' -> pushed g s s' -> regular c rs idx data s ->
  let a := run c s (updates rs idx data) in let b := run c' s' (updates rs' idx' data) in
  full_inv a /\ full_inv b /\ pushed g a b /\ exists Ns, nrec a = nrec s ++ Ns /\ nrec b = nrec s' ++ Ns.
Proof.
  intros HM. assert (HM' := HM). destruct HM' as (G & G' & Ht & Ht' & Hst & Hst' & HL & Hmv). induction data as [|[o e] data IH]; intros idx idx' s s' Hi Hi' HP HR a b.
  - split; [exact Hi|]. split; [exact Hi'|]. split; [exact HP|]. exists []. cbn. now rewrite !app_nil_r.
  - destruct HR as [He HR]. assert (Ev := pushed_evidence c c' g mv mv' s s' o e HM HP). assert (He' : eps <= evidence c' s' o e) by lra.
    assert (J := update_regular_inv c (rs idx) s o e G Ht Hi He). assert (J' := update_regular_inv c' (rs' idx') s' o e G' Ht' Hi' He').
    destruct (IH (S idx) (S idx') _ _ J J') as (I1 & I2 & I3 & Ns & I4 & I5); [|exact HR|].
    { intros f. rewrite (average_update c' _ s' o e mv') by assumption. rewrite (average_update c _ s o e mv) by assumption. rewrite HP. unfold average. apply Sum_ext. intros i _. now rewrite HL, Hmv, Ev. }
    unfold a, b. rewrite !run_updates_cons. split; [exact I1|]. split; [exact I2|]. split; [exact I3|]. exists (evidence c s o e :: Ns). split.
    + rewrite I4. destruct Hi as [Hlen [Hw Hs]]. rewrite update_regular by (auto; apply (lik_nonneg c G)). rewrite install_nocheck. cbn [fst nrec recorded]. now rewrite <- app_assoc.
    + rewrite I5. destruct Hi' as [Hlen [Hw Hs]]. rewrite update_regular by (auto; apply (lik_nonneg c' G')). rewrite install_nocheck. cbn [fst nrec recorded]. now rewrite Ev, <- app_assoc.
Qed.
Corollary c148_total_likelihood {O E RND RND'} (c : @config O E RND) (c' : @config O E RND') g mv mv' rs rs' data s s' : same_model c c' g mv mv' ->
  full_inv s -> full_inv s' -> pushed g s s' -> regular c rs 0 data s -> nrec s' = nrec s ->
  log_total_likelihood (run c' s' (updates rs' 0 data)) = log_total_likelihood (run c s (updates rs 0 data)).
Proof. intros HM Hi Hi' HP HR H0. destruct (c148_history c c' g mv mv' rs rs' HM data 0%nat 0%nat s s' Hi Hi' HP HR) as (_ & _ & _ & Ns & E1 & E2). unfold log_total_likelihood. now rewrite E1, E2, H0. Qed.

(** Estimates *)
Theorem c148_mean {O O'} g (s : @state O) (s' : @state O') d j : full_inv s -> full_inv s' -> pushed g s s' -> (j < d)%nat ->
  nth j (est_mean d (ws s') (ls s')) 0 = average s (fun x => nth j (g x) 0).
Proof. intros Hi [Hl' Hp'] HP Hj. rewrite c17_mean_is_weighted_average by assumption. rewrite <- (HP (fun x => nth j x 0)). unfold expect, average. rewrite Hl'. reflexivity. Qed.
Lemma average_cov {O} (s : @state O) d m n : full_inv s -> (m < d)%nat -> (n < d)%nat ->
  nth n (nth m (est_cov d (ws s) (ls s)) []) 0 = average s (fun x => nth m x 0 * nth n x 0) - average s (fun x => nth m x 0) * average s (fun x => nth n x 0).
Proof.
  intros [Hl Hp] Hm Hn. rewrite c17_covariance_is_mean_outer_deviation by assumption. unfold covar, expect. rewrite Hl.
  change (Sum (length (ls s)) (fun i => nth i (ws s) 0 * coord (ls s) m i)) with (average s (fun x => nth m x 0)). change (Sum (length (ls s)) (fun i => nth i (ws s) 0 * coord (ls s) n i)) with (average s (fun x => nth n x 0)).
  set (a := average s (fun x => nth m x 0)). set (b := average s (fun x => nth n x 0)).
  rewrite (Sum_ext _ _ (fun i => wt s i * (nth m (at_ s i) 0 * nth n (at_ s i) 0) - b * (wt s i * nth m (at_ s i) 0) - a * (wt s i * nth n (at_ s i) 0) + a * b * wt s i)) by (intros i _; unfold wt, at_, coord; ring).
  rewrite Sum_plus, !Sum_minus, !Sum_scal. assert (H1 := full_inv_Sum s (conj Hl Hp)). unfold n_particles in H1. rewrite H1.
  change (Sum (length (ls s)) (fun i => wt s i * nth m (at_ s i) 0)) with a. change (Sum (length (ls s)) (fun i => wt s i * nth n (at_ s i) 0)) with b.
  change (Sum (length (ls s)) (fun i => wt s i * (nth m (at_ s i) 0 * nth n (at_ s i) 0))) with (average s (fun x => nth m x 0 * nth n x 0)). ring.
Qed.
Theorem c148_estimates {O O'} (s : @state O) (s' : @state O') d : full_inv s -> full_inv s' -> same_distribution s s' ->
  (forall j, (j < d)%nat -> nth j (est_mean d (ws s') (ls s')) 0 = nth j (est_mean d (ws s) (ls s)) 0) /\
  (forall m n, (m < d)%nat -> (n < d)%nat -> nth n (nth m (est_cov d (ws s') (ls s')) []) 0 = nth n (nth m (est_cov d (ws s) (ls s)) []) 0).
Proof.
  intros Hi Hi' HP. split.
  - intros j Hj. rewrite (c148_mean (fun x => x) s s' d j Hi Hi' HP Hj). symmetry. apply (c148_mean (fun x => x) s s d j Hi Hi); [intros f; reflexivity|assumption].
  - intros m n Hm Hn. rewrite !average_cov by assumption. now rewrite !HP.
Qed.

(** Bayes risk and information gain, for likelihoods that sum to one over the outcomes *)
Section Design.
Context {O E RND RND' : Type} (c : @config O E RND) (c' : @config O E RND') (s s' : @state O).
Hypothesis Hi : full_inv s.
Hypothesis Hi' : full_inv s'.
Hypothesis HP : same_distribution s s'.
Hypothesis HL : forall o x e, lik (md c') o x e = lik (md c) o x e.
Hypothesis Hpos : forall o x e, 0 <= lik (md c) o x e.

Lemma same_evidence o e : evidence c' s' o e = evidence c s o e.
Proof. transitivity (average s' (fun x => lik (md c') o x e)); [reflexivity|]. rewrite HP. unfold average, evidence. apply Sum_ext. intros i _. now rewrite HL. Qed.
Lemma variance_average {T} (t : @state T) h f : average t h = 1 -> variance (n_particles t) (fun i => wt t i * h (at_ t i)) (fun i => f (at_ t i)) = average t (fun x => h x * f x ^ 2) - average t (fun x => h x * f x) ^ 2.
Proof. intros H. apply variance_moments; [exact H| |]; apply Sum_ext; intros; ring. Qed.

Theorem c148_risk Q os e o_last : os = removelast os ++ [o_last] ->
  (forall x, In x (ls s) \/ In x (ls s') -> SumL os (fun o => lik (md c) o x e) = 1) ->
  (forall o, In o os -> 0 < evidence c s o e) -> (forall o, In o (removelast os) -> eps <= evidence c s o e) ->
  bayes_risk1 c' Q (ws s') (ls s') os e = bayes_risk1 c Q (ws s) (ls s) os e.
Proof.
  intros Hos Hn He1 He2. assert (Hlast : In o_last os) by (rewrite Hos; apply in_or_app; right; now left).
  rewrite (c13_value c' Q s' os e o_last); try assumption; try apply Hi'; [|intros; rewrite HL; apply Hpos| | |].
  - rewrite (c13_value c Q s os e o_last); try assumption; try apply Hi.
    + f_equal. unfold expected_posterior_loss. apply SumL_ext. intros o Ho. rewrite same_evidence. f_equal. unfold loss. apply Sum_ext. intros j _. f_equal. assert (Eo := He1 o Ho).
      set (h := fun x => lik (md c) o x e / evidence c s o e).
      assert (Hh : average s h = 1) by (unfold average, h; rewrite (Sum_ext _ _ (fun i => / evidence c s o e * (wt s i * lik (md c) o (at_ s i) e))) by (intros; field; lra); rewrite Sum_scal; fold (evidence c s o e); apply Rinv_l; lra).
      assert (V1 : variance (n_particles s) (posterior c s o e) (fun i => nth j (at_ s i) 0) = average s (fun x => h x * nth j x 0 ^ 2) - average s (fun x => h x * nth j x 0) ^ 2).
      { rewrite <- (variance_average s h (fun x => nth j x 0) Hh). unfold variance, posterior, bayes. fold (evidence c s o e). apply Sum_ext. intros i _. unfold h.
        rewrite (Sum_ext _ (fun k => wt s k * lik (md c) o (at_ s k) e / evidence c s o e * nth j (at_ s k) 0) (fun k => wt s k * (lik (md c) o (at_ s k) e / evidence c s o e) * nth j (at_ s k) 0)) by (intros; field; lra). field. lra. }
      assert (V2 : variance (n_particles s') (posterior c' s' o e) (fun i => nth j (at_ s' i) 0) = average s' (fun x => h x * nth j x 0 ^ 2) - average s' (fun x => h x * nth j x 0) ^ 2).
      { rewrite <- (variance_average s' h (fun x => nth j x 0)) by (now rewrite HP). unfold variance, posterior, bayes. fold (evidence c' s' o e). rewrite same_evidence. apply Sum_ext. intros i _. unfold h. rewrite HL.
        rewrite (Sum_ext _ (fun k => wt s' k * lik (md c') o (at_ s' k) e / evidence c s o e * nth j (at_ s' k) 0) (fun k => wt s' k * (lik (md c) o (at_ s' k) e / evidence c s o e) * nth j (at_ s' k) 0)) by (intros; rewrite HL; field; lra). field. lra. }
      rewrite V1, V2, !HP. reflexivity.
    + intros i Hik. apply Hn. left. now apply nth_In.
    + intros o Ho. right. now apply He2.
    + now apply He1.
  - intros i Hik. rewrite (SumL_ext _ _ (fun o => lik (md c) o (at_ s' i) e)) by (intros; apply HL). apply Hn. right. now apply nth_In.
  - intros o Ho. right. rewrite same_evidence. now apply He2.
  - rewrite same_evidence. now apply He1.
Qed.
Theorem c148_gain os e o_last : os = removelast os ++ [o_last] -> Forall (fun x => 0 < x) (ws s) -> Forall (fun x => 0 < x) (ws s') ->
  (forall x, In x (ls s) \/ In x (ls s') -> SumL os (fun o => lik (md c) o x e) = 1) -> (forall o x, In o os -> In x (ls s) \/ In x (ls s') -> 0 < lik (md c) o x e) ->
  (forall o, In o (removelast os) -> eps <= evidence c s o e) ->
  eig1 c' (ws s') (ls s') os e = eig1 c (ws s) (ls s) os e.
Proof.
  intros Hos W W' Hn Hp He2.
  assert (Pw : forall T (t : @state T) i, full_inv t -> Forall (fun x => 0 < x) (ws t) -> (i < n_particles t)%nat -> 0 < wt t i).
  { intros T t i It Ft Hk. apply (proj1 (Forall_forall _ _) Ft). apply nth_In. now rewrite (proj1 It). }
  rewrite (c14_value c' s' os e o_last); try assumption; try apply Hi'; [|intros; rewrite HL; auto| |].
  - rewrite (c14_value c s os e o_last); try assumption; try apply Hi; [|auto|].
    + f_equal. assert (Hev : forall o, In o os -> evidence c s o e <> 0).
      { intros o Ho. apply Rgt_not_eq. unfold evidence. apply Sum_positive; [unfold n_particles; rewrite <- (proj1 Hi); now apply prob_vector_nonempty, Hi|]. intros i Hik. apply Rmult_lt_0_compat; [now apply (Pw _ s i)|]. apply Hp; [assumption|left; now apply nth_In]. } unfold mutual_information. apply SumL_ext. intros o Ho.
      transitivity (average s' (fun x => lik (md c) o x e * ln (lik (md c) o x e / evidence c s o e))).
      * unfold average. apply Sum_ext. intros i Hik. cbv zeta. rewrite same_evidence, HL. assert (Pi := Pw _ s' i Hi' W' Hik). assert (Ev := Hev o Ho). rewrite (Rmult_assoc (wt s' i)). do 3 f_equal. field. split; lra.
      * rewrite HP. unfold average. apply Sum_ext. intros i Hik. cbv zeta. assert (Pi := Pw _ s i Hi W Hik). assert (Ev := Hev o Ho). rewrite (Rmult_assoc (wt s i)). do 3 f_equal. field. split; lra.
    + intros i Hik. apply Hn. left. now apply nth_In.
  - intros i Hik. rewrite (SumL_ext _ _ (fun o => lik (md c) o (at_ s' i) e)) by (intros; apply HL). apply Hn. right. now apply nth_In.
  - intros o Ho. rewrite same_evidence. now apply He2.
Qed.
End Design.

(** What changes nothing: reordering the particles, splitting one into two at the same place, dropping one without weight. *)
Lemma average_list {O} (s : @state O) f : length (ws s) = length (ls s) -> average s f = rsum (map (fun p => fst p * f (snd p)) (combine (ws s) (ls s))).
Proof.
  unfold average, n_particles, wt, at_. generalize (ws s) (ls s). intros w l. revert l. induction w as [|x w IH]; intros [|y l] H; try discriminate; [reflexivity|].
  cbn [length combine map fst snd]. rewrite Sum_S, rsum_cons. cbn [nth]. f_equal. apply IH. now injection H.
Qed.
Theorem c148_representations {O O'} (s : @state O) (s' : @state O') : length (ws s) = length (ls s) -> length (ws s') = length (ls s') ->
  (Permutation (combine (ws s) (ls s)) (combine (ws s') (ls s')) -> same_distribution s s') /\
  (forall u p a b x v q, length u = length p -> ws s = u ++ (a + b) :: v -> ls s = p ++ x :: q -> ws s' = u ++ a :: b :: v -> ls s' = p ++ x :: x :: q -> same_distribution s s') /\
  (forall u p x v q, length u = length p -> ws s = u ++ 0 :: v -> ls s = p ++ x :: q -> ws s' = u ++ v -> ls s' = p ++ q -> same_distribution s s').
Proof.
  intros Hl Hl'. assert (C : forall A B (u : list A) (p : list B) v q, length u = length p -> combine (u ++ v) (p ++ q) = combine u p ++ combine v q).
  { intros A B u. induction u as [|y u IH]; intros [|z p] v q H; try discriminate; [reflexivity|]. cbn. f_equal. apply IH. now injection H. }
  split; [|split].
  - intros HP f. rewrite !average_list by assumption. symmetry. apply rsum_perm. now apply Permutation_map.
  - intros u p a b x v q Hup E1 E2 E3 E4 f. rewrite !average_list by assumption. rewrite E1, E2, E3, E4, !C by assumption. cbn [combine]. rewrite !map_app, !rsum_app. cbn [map fst snd]. rewrite !rsum_cons. ring.
  - intros u p x v q Hup E1 E2 E3 E4 f. rewrite !average_list by assumption. rewrite E1, E2, E3, E4, !C by assumption. cbn [combine]. rewrite !map_app, !rsum_app. cbn [map fst snd]. rewrite !rsum_cons. ring.
Qed.

(** Two particles, one of them split in two; a coin with bias [p] and one with bias [1 - p]. *)
Definition rep_state {O} (w : list R) (l : list loc) : @state O := {| ws := w; ls := l; drec := []; nrec := []; mness := PInf; rcnt := 0; jr := false; calls := 0 |}.
Definition rep_config (flip : bool) : @config bool unit unit :=
  {| md := {| lik := fun (o : bool) (x : loc) _ => let p := Rmax 0 (Rmin 1 (if flip then 1 - nth 0 x 0 else nth 0 x 0)) in if o then p else 1 - p; timestep := fun _ l _ => map (fun x : loc => x) l; canon := fun x => x |};
     prior := fun _ n => repeat [0] n; rsmp := fun _ _ _ => Err RuntimeError; rthresh := 1/2; zpolicy := PError; zthresh := 1/2; canonize := true |}.
Lemma rep_good b : good_config (rep_config b).
Proof.
  constructor; cbn; auto; try (intros; now rewrite ?map_length, ?repeat_length); try discriminate. intros o x e. match goal with |- context [Rmin 1 ?z] => set (y := z) end. pose proof (Rmax_l 0 (Rmin 1 y)). assert (Rmax 0 (Rmin 1 y) <= 1) by (apply Rmax_lub; [lra|apply Rmin_l]). destruct o; lra.
Qed.
Definition two {O} : @state O := rep_state [1/2; 1/2] [[1/4]; [3/4]].
Definition three {O} : @state O := rep_state [1/2; 1/8; 3/8] [[1/4]; [3/4]; [3/4]].
Definition mirrored {O} : @state O := rep_state [1/2; 1/8; 3/8] [[1 - 1/4]; [1 - 3/4]; [1 - 3/4]].
Lemma two_inv {O} : full_inv (@two O).
Proof. split; [reflexivity|split; [repeat constructor; lra|cbn; rewrite !rsum_cons, rsum_nil; lra]]. Qed.
Lemma three_inv {O} : full_inv (@three O).
Proof. split; [reflexivity|split; [repeat constructor; lra|cbn; rewrite !rsum_cons, rsum_nil; lra]]. Qed.
Lemma mirrored_inv {O} : full_inv (@mirrored O).
Proof. split; [reflexivity|split; [repeat constructor; lra|cbn; rewrite !rsum_cons, rsum_nil; lra]]. Qed.
Lemma two_three {O O'} : same_distribution (@two O) (@three O').
Proof. apply (proj1 (proj2 (c148_representations (@two O) (@three O') eq_refl eq_refl))) with (u := [1/2]) (p := [[1/4]]) (a := 1/8) (b := 3/8) (x := [3/4]) (v := []) (q := []); try reflexivity. cbn. replace (1/8 + 3/8) with (1/2) by lra. reflexivity. Qed.
Lemma two_mirrored {O O'} : pushed (fun x => [1 - nth 0 x 0]) (@two O) (@mirrored O').
Proof. intros f. rewrite !average_list by reflexivity. cbn. rewrite !rsum_cons, rsum_nil. lra. Qed.
Lemma rep_model b : same_model (rep_config false) (rep_config b) (fun x => if b then [1 - nth 0 x 0] else x) (fun _ x => x) (fun _ x => x).
Proof.
  split; [apply rep_good|]. split; [apply rep_good|]. split; [cbn; lra|]. split; [cbn; lra|]. split; [reflexivity|]. split; [reflexivity|]. split; [|reflexivity].
  intros o x e. cbn. destruct b; [|reflexivity]. cbn [nth]. replace (1 - (1 - nth 0 x 0)) with (nth 0 x 0) by ring. reflexivity.
Qed.
Lemma rep_lik (x : R) (o : bool) : 0 <= x <= 1 -> lik (md (rep_config false)) o [x] tt = if o then x else 1 - x.
Proof. intros H. cbn. rewrite (Rmin_right 1 x) by lra. rewrite Rmax_right by lra. reflexivity. Qed.
Lemma rep_small : eps <= 1/64.
Proof. unfold eps. replace (1/64) with (/ 2 ^ 6) by lra. apply Rinv_le_contravar; [apply pow_lt; lra|]. apply Rle_pow; [lra|lia]. Qed.
Lemma rep_evidence o : evidence (rep_config false) (@two bool) o tt = 1/2.
Proof. unfold evidence, n_particles, wt, at_. cbn [two rep_state ls ws length]. rewrite !Sum_S, Sum_0. cbn [nth]. rewrite !rep_lik by lra. destruct o; lra. Qed.
Lemma rep_regular b : regular (rep_config false) (fun _ => tt) 0 [(b, tt)] (@two bool).
Proof. split; [rewrite rep_evidence; pose proof rep_small; lra|exact I]. Qed.
Example ex_c148 b : log_total_likelihood (run (rep_config false) three (updates (fun _ => tt) 0 [(b, tt)])) = log_total_likelihood (run (rep_config false) two (updates (fun _ => tt) 0 [(b, tt)])) /\
  log_total_likelihood (run (rep_config true) mirrored (updates (fun _ => tt) 0 [(b, tt)])) = log_total_likelihood (run (rep_config false) two (updates (fun _ => tt) 0 [(b, tt)])).
Proof.
  split.
  - apply (c148_total_likelihood _ _ _ _ _ _ _ _ two three (rep_model false)); [apply two_inv|apply three_inv|intros f; apply two_three|apply rep_regular|reflexivity].
  - apply (c148_total_likelihood _ _ _ _ _ _ _ _ two mirrored (rep_model true)); [apply two_inv|apply mirrored_inv|apply two_mirrored|apply rep_regular|reflexivity].
Qed.
Example ex_c148_posterior b : let a := run (rep_config false) two (updates (fun _ => tt) 0 [(b, tt)]) in let d := run (rep_config true) mirrored (updates (fun _ => tt) 0 [(b, tt)]) in
  nth 0 (est_mean 1 (ws d) (ls d)) 0 = average a (fun x => 1 - nth 0 x 0).
Proof.
  intros a d. destruct (c148_history _ _ _ _ _ (fun _ => tt) (fun _ => tt) (rep_model true) [(b, tt)] 0%nat 0%nat two mirrored two_inv mirrored_inv two_mirrored (rep_regular b)) as (H1 & H2 & H3 & _).
  exact (c148_mean _ a d 1 0 H1 H2 H3 Nat.lt_0_1).
Qed.
Example ex_c148_design : bayes_risk1 (rep_config false) [1] (ws (@three bool)) (ls (@three bool)) [true; false] tt = bayes_risk1 (rep_config false) [1] (ws (@two bool)) (ls (@two bool)) [true; false] tt /\
  eig1 (rep_config false) (ws (@three bool)) (ls (@three bool)) [true; false] tt = eig1 (rep_config false) (ws (@two bool)) (ls (@two bool)) [true; false] tt.
Proof.
  pose proof rep_small as Ep. pose proof eps_pos as E0.
  assert (X : forall x, In x (ls (@two bool)) \/ In x (ls (@three bool)) -> exists y, x = [y] /\ 0 < y < 1) by (intros x [[<-|[<-|[]]]|[<-|[<-|[<-|[]]]]]; eexists; split; try reflexivity; lra).
  assert (N : forall x, In x (ls (@two bool)) \/ In x (ls (@three bool)) -> SumL [true; false] (fun o => lik (md (rep_config false)) o x tt) = 1) by (intros x H; destruct (X x H) as (y & -> & Hy); unfold SumL; cbn [fold_right]; rewrite !rep_lik by lra; lra).
  split.
  - apply (c148_risk (rep_config false) (rep_config false) two three two_inv three_inv two_three (fun _ _ _ => eq_refl) (lik_nonneg _ (rep_good false)) [1] [true; false] tt false eq_refl N); intros o _; rewrite rep_evidence; lra.
  - apply (c148_gain (rep_config false) (rep_config false) two three two_inv three_inv two_three (fun _ _ _ => eq_refl) [true; false] tt false eq_refl); try assumption; [repeat constructor; lra|repeat constructor; lra| |].
    + intros o x _ H. destruct (X x H) as (y & -> & Hy). rewrite rep_lik by lra. destruct o; lra.
    + intros o _. rewrite rep_evidence. lra.
Qed.
(** The effective sample size does depend on the representation. *)
Example ex_c148_n_ess : n_ess (ws (@two bool)) = Fin 2 /\ n_ess (ws (@three bool)) = Fin (32/13).
Proof.
  destruct (n_ess_Fin (ws (@two bool)) (proj2 two_inv)) as [_ E1]. destruct (n_ess_Fin (ws (@three bool)) (proj2 three_inv)) as [_ E2]. rewrite E1, E2. unfold sumsq. cbn [two three rep_state ws map]. rewrite !rsum_cons, rsum_nil. split; f_equal; field.
Qed.
Print Assumptions c148_history.
Print Assumptions c148_total_likelihood.
Print Assumptions c148_mean.
Print Assumptions c148_estimates.
Print Assumptions c148_risk.
Print Assumptions c148_gain.
Print Assumptions c148_representations.
