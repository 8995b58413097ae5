(** C155 *)
From Coq Require Import String.
From Verif Require Import Base RList Ext Sums SmcModel SmcSpec SmcProofs PartModel TwoModel LearnSpec RateSpec RateProps DesModel DesProps LinAlg LinProofs UnitSpec GuessSpec.
From Coq Require Import List.

Lemma take_in {A} (l : list A) is xs : take l is = Ok xs -> forall x, In x xs -> In x l.
Proof.
  revert xs. induction is as [|i is IH]; intros xs H x Hx; [injection H as <-; contradiction|]. cbn [take] in H. destruct (nth_error l i) as [y|] eqn:E; [|discriminate]. destruct (take l is) as [t|] eqn:Et; [|discriminate]. cbn [bind] in H. injection H as <-. destruct Hx as [<-|Hx]; [eapply nth_error_In; eassumption|]. now apply (IH t).
Qed.
Lemma dist1 a b : distance [1] [a] [b] = Rabs (a - b).
Proof. unfold distance, rsum. cbn. rewrite Rmult_1_l. ring. Qed.
(** Every experiment that the heuristic returns measures at a particle for the inverse of the distance to another one, whatever the weights and the random numbers. *)
Theorem c155_experiment maxiters junk us w l e : Forall (fun x => length x = 1%nat) l -> pgh_inv maxiters junk us w l = Ok e -> guess_of l e.
Proof.
  intros F H. unfold pgh_inv in H. destruct (pgh _ _ _ _ _ _ _ _ _ _) as [r|] eqn:Hp; [|discriminate]. cbn [bind] in H. injection H as <-.
  apply c54_experiment_from_distinct_particles in Hp; [|intros a b; exists (distance [1] a b); split; [reflexivity|]|discriminate|auto|auto|constructor].
  2: { unfold distance. apply rsum_nonneg. apply Forall_forall. intros y Hy. apply in_map_iff in Hy. destruct Hy as (z & <- & _). apply Rabs_pos. }
  destruct Hp as (q & x & xp & d & _ & Hd & E & Hpos & _ & (k1 & K1 & C1) & (k2 & K2 & C2) & _). cbn in K1, K2. injection K1 as <-. injection K2 as <-.
  assert (I : In x l /\ In xp l). { unfold cloud_draw, pd_sample in Hd. destruct (take l _) as [[|y [|y' [|]]]|] eqn:Et; try discriminate. cbn in Hd. injection Hd as -> ->. split; eapply take_in; try eassumption; cbn; auto. }
  destruct I as [I1 I2]. rewrite Forall_forall in F. pose proof (F _ I1) as L1. pose proof (F _ I2) as L2. destruct x as [|a [|]]; try discriminate. destruct xp as [|b [|]]; try discriminate.
  rewrite dist1 in E. injection E as <-. cbn in C1, C2. injection C1 as C1. injection C2 as C2. exists a, b. split; [assumption|]. split; [assumption|]. split; [intros ->; rewrite Rminus_diag_eq, Rabs_R0 in Hpos by reflexivity; lra|]. unfold guessed. rewrite <- C1, <- C2. reflexivity.
Qed.
Lemma half_angle a b : a <> b -> cos (1 / Rabs (a - b) * (b - a) / 2) = cos (1 / 2).
Proof.
  intros H. destruct (Rlt_dec b a).
  - rewrite Rabs_right by lra. replace (1 / (a - b) * (b - a) / 2) with (- (1 / 2)) by (field; lra). apply cos_neg.
  - rewrite Rabs_left by lra. f_equal. field. lra.
Qed.
(** The particle at which it measures predicts outcome 0 for certain, the other one with probability cos²(1/2), at whatever distance they are. *)
Theorem c155_predictions a b : a <> b -> let e := guessed a b in
  inv_like (fst e) (snd e) a 0 = 1 /\ inv_like (fst e) (snd e) a 1 = 0 /\ inv_like (fst e) (snd e) b 0 = cos (1 / 2) ^ 2 /\ inv_like (fst e) (snd e) b 1 = sin (1 / 2) ^ 2.
Proof.
  intros H. unfold guessed. cbn [fst snd]. unfold inv_like, pr0_like, inv_pr0. cbn [Z.eqb]. rewrite half_angle by assumption. replace (1 / Rabs (a - b) * (a - a) / 2) with 0 by (field; apply Rabs_no_R0; lra). rewrite cos_0. pose proof (sin2_cos2 (1 / 2)). unfold Rsqr in *. repeat split; lra.
Qed.
Lemma cos_half : 0 < cos (1 / 2) < 22 / 25.
Proof.
  split; [apply cos_gt_0; pose proof PI2_1; lra|]. pose proof (pre_cos_bound (1 / 2) 0 ltac:(lra) ltac:(lra)) as [_ H]. unfold cos_approx, cos_term in H. cbn in H. lra.
Qed.
Section Rate.
Context {RND : Type} (c : @config Z (R * R) RND).
Hypothesis HC : inversion c.
Theorem c155_overlap a b : a <> b -> overlap c both_outcomes [a] [b] (guessed a b) = cos (1 / 2) /\ overlap c both_outcomes [b] [a] (guessed a b) = cos (1 / 2).
Proof.
  intros H. destruct HC as [HL _]. destruct (c155_predictions a b H) as (E1 & E2 & E3 & E4). unfold overlap, both_outcomes. cbn [SumL fold_right]. rewrite !HL. cbn [nth]. rewrite E1, E2, E3, E4. rewrite ?Rmult_1_l, ?Rmult_1_r, ?Rmult_0_l, ?Rmult_0_r, sqrt_0.
  assert (Q : sqrt (cos (1 / 2) ^ 2) = cos (1 / 2)) by (apply sqrt_pow2; pose proof cos_half; lra). rewrite Q. unfold rsum; cbn; split; ring.
Qed.
(** Two particles, one of them true: under any experiments the heuristic may propose, the expected weight of the wrong one falls by the factor cos(1/2) < 0.88 per experiment, however close the particles are. *)
Theorem c155_two_particles rs V pol n s t i a b : truth c rs both_outcomes V pol n s t -> ls s = [[a]; [b]] -> a <> b -> (i < 2)%nat -> (t < 2)%nat -> i <> t -> (forall hist, guess_of (ls s) (pol hist)) ->
  generated c rs s t (records both_outcomes pol n []) (fun data => wt (run c s (updates rs 0 data)) i) <= sqrt (wt s i / wt s t) / 2 * cos (1 / 2) ^ n.
Proof.
  intros HT El Hab Hi Ht Hit HG. pose proof cos_half. apply (c118_wrong_particle_decays c rs both_outcomes V pol n s t i (cos (1 / 2)) HT (proj2 HC)); try assumption; try lra.
  - unfold n_particles. rewrite El. exact Hi.
  - intros hist. destruct (HG hist) as (x & y & Hx & Hy & Hxy & ->). rewrite El in *. unfold at_. rewrite El.
    assert (Q : (nth i [[a]; [b]] [] = [x] /\ nth t [[a]; [b]] [] = [y]) \/ (nth i [[a]; [b]] [] = [y] /\ nth t [[a]; [b]] [] = [x])).
    { destruct Hx as [Hx|[Hx|[]]], Hy as [Hy|[Hy|[]]]; injection Hx as <-; injection Hy as <-; try contradiction; destruct i as [|[|]], t as [|[|]]; try lia; cbn; auto. }
    destruct (c155_overlap x y Hxy) as [O1 O2]. destruct Q as [[-> ->]|[-> ->]]; lra.
Qed.
End Rate.

(** A record that one particle explains with a probability well above the machine precision meets no zero-weight rule. *)
Lemma explained_regular {O E RND} (c : @config O E RND) rs t : good_config c -> zthresh c < 1 -> (forall o x e, lik (md c) o x e <= 1) -> forall data idx s, full_inv s -> (t < n_particles s)%nat ->
  eps <= wt s t * path_lik c rs idx data (ls s) t -> regular c rs idx data s.
Proof.
  intros G Ht H1. induction data as [|[o e] data IH]; intros idx s Hinv Hn He; [exact I|]. cbn [path_lik] in He. pose proof eps_pos as E0.
  assert (P : forall i, 0 <= wt s i). { intros i. destruct Hinv as [Hl [F _]]. unfold wt. destruct (Nat.lt_ge_cases i (length (ws s))) as [H|H]; [apply (proj1 (Forall_forall _ _) F); now apply nth_In|rewrite nth_overflow by assumption; lra]. }
  assert (Hp : forall data idx l, 0 <= path_lik c rs idx data l t <= 1).
  { clear - G H1. induction data as [|[o e] data IH]; intros idx l; cbn [path_lik]; [lra|]. specialize (IH (S idx) (timestep (md c) (rs idx) l e)). pose proof (H1 o (nth t l []) e). pose proof (lik_nonneg c G o (nth t l []) e). split; [apply Rmult_le_pos; lra|]. nra. }
  specialize (Hp data (S idx) (timestep (md c) (rs idx) (ls s) e)). set (q := path_lik c rs (S idx) data (timestep (md c) (rs idx) (ls s) e) t) in *. fold (at_ s t) in He.
  pose proof (H1 o (at_ s t) e) as L1. pose proof (lik_nonneg c G o (at_ s t) e) as L0. specialize (P t) as Pt. assert (0 <= wt s t * lik (md c) o (at_ s t) e) by (now apply Rmult_le_pos).
  assert (Ev1 : wt s t * lik (md c) o (at_ s t) e <= evidence c s o e).
  { unfold evidence. apply (Sum_ge_term _ (fun i => wt s i * lik (md c) o (at_ s i) e)); [assumption|]. intros i _. apply Rmult_le_pos; [apply P|apply (lik_nonneg c G)]. }
  assert (Ev2 : evidence c s o e <= 1).
  { rewrite <- (full_inv_Sum s Hinv). apply Sum_le. intros i Hi. rewrite <- (Rmult_1_r (wt s i)) at 2. apply Rmult_le_compat_l; [apply P|apply H1]. }
  assert (K : eps <= wt s t * lik (md c) o (at_ s t) e) by nra. assert (He' : eps <= evidence c s o e) by lra. split; [exact He'|].
  assert (Hs' : fst (update c (rs idx) s o e false) = fst (install c (rs idx) (recorded s o) (norm_row c (ws s) (ls s) o e) (evidence c s o e) e false)).
  { destruct Hinv as [Hlen [Hw Hs]]. rewrite update_regular by (auto; apply (lik_nonneg c G)). reflexivity. }
  assert (Hl : ls (fst (update c (rs idx) s o e false)) = timestep (md c) (rs idx) (ls s) e) by (rewrite Hs', install_nocheck; reflexivity).
  apply IH; [now apply update_regular_inv|unfold n_particles; rewrite Hl, (step_len c G); exact Hn|]. rewrite Hl. fold q.
  rewrite Hs', install_nocheck. unfold wt. cbn [fst ws]. rewrite norm_row_nth by (try assumption; apply Hinv). unfold bayes. fold (evidence c s o e). fold (at_ s t). fold (wt s t).
  assert (wt s t * lik (md c) o (at_ s t) e <= wt s t * lik (md c) o (at_ s t) e / evidence c s o e).
  { assert (D : forall p v, 0 <= p -> 0 < v <= 1 -> p <= p / v) by (intros p v Hp0 Hv; apply Rmult_le_reg_r with v; [lra|]; replace (p / v * v) with p by (field; lra); nra). apply D; [assumption|lra]. }
  nra.
Qed.
Lemma inv_like_unit t w_ w o : 0 <= inv_like t w_ w o <= 1.
Proof. unfold inv_like, pr0_like, inv_pr0. pose proof (COS_bound (t * (w - w_) / 2)). assert (0 <= cos (t * (w - w_) / 2) ^ 2 <= 1) by (split; [apply pow2_ge_0|nra]). destruct (Z.eqb o 0); lra. Qed.
Lemma sin_half : 0 < sin (1 / 2) ^ 2 < cos (1 / 2) ^ 2.
Proof.
  pose proof (sin2_cos2 (1 / 2)) as S. unfold Rsqr in S. assert (0 < sin (1 / 2)) by (apply sin_gt_0; pose proof PI2_1; lra). split; [nra|].
  pose proof (pre_cos_bound (1 / 2) 0 ltac:(lra) ltac:(lra)) as [H0 _]. unfold cos_approx, cos_term in H0. cbn in H0. nra.
Qed.
Section Now.
Context {RND : Type} (c : @config Z (R * R) RND).
Hypothesis HC : inversion c.
Lemma guess_likelihood l e o t : In [nth 0 (nth t l []) 0] l -> nth t l [] = [nth 0 (nth t l []) 0] -> (forall a b y, In [a] l -> In [b] l -> In [y] l -> a <> b -> y = a \/ y = b) -> In o [0; 1]%Z -> guess_of l e ->
  lik (md c) o (nth t l []) e = 0 \/ sin (1 / 2) ^ 2 <= lik (md c) o (nth t l []) e.
Proof.
  intros Hy Ey H2 Ho (a & b & Ha & Hb & Hab & ->). destruct HC as [HL _]. rewrite HL. destruct (c155_predictions a b Hab) as (E1 & E2 & E3 & E4). pose proof sin_half. pose proof cos_half. set (y := nth 0 (nth t l []) 0) in *.
  assert (sin (1 / 2) ^ 2 <= 1) by (pose proof (SIN_bound (1 / 2)); nra).
  destruct (H2 a b y Ha Hb Hy Hab) as [-> | ->]; destruct Ho as [<-|[<-|[]]]; rewrite ?E1, ?E2, ?E3, ?E4; [right|left|right|right]; lra.
Qed.
Lemma records_likelihood rs l t pol : (forall o e, In o [0; 1]%Z -> guess_of l e -> lik (md c) o (nth t l []) e = 0 \/ sin (1 / 2) ^ 2 <= lik (md c) o (nth t l []) e) -> (forall hist, guess_of l (pol hist)) ->
  forall n hist idx data, In data (records both_outcomes pol n hist) -> path_lik c rs idx data l t = 0 \/ (sin (1 / 2) ^ 2) ^ n <= path_lik c rs idx data l t.
Proof.
  intros HG Hpol. pose proof sin_half. induction n as [|n IH]; intros hist idx data Hd; [destruct Hd as [<-|[]]; cbn; right; lra|]. cbn [records] in Hd. apply in_flat_map in Hd. destruct Hd as (o & Ho & Hd). apply in_map_iff in Hd. destruct Hd as (data' & <- & Hd'). cbn [path_lik]. rewrite (proj2 HC).
  destruct (HG o (pol hist) Ho (Hpol hist)) as [-> | H1]; [left; ring|]. destruct (IH _ (S idx) _ Hd') as [-> | H2]; [left; ring|right]. cbn [pow]. apply Rmult_le_compat; try assumption; [left; apply H|apply pow_le; left; apply H].
Qed.
(** So for a number of experiments that keeps [sin(1/2)^(2n)] above the machine precision no further assumption is needed. *)
Theorem c155_two_particles_unconditional rs pol n s t i a b : good_config c -> zthresh c < 1 -> full_inv s -> ls s = [[a]; [b]] -> a <> b -> (i < 2)%nat -> (t < 2)%nat -> i <> t -> (forall hist, guess_of (ls s) (pol hist)) ->
  eps <= wt s t * (sin (1 / 2) ^ 2) ^ n ->
  generated c rs s t (records both_outcomes pol n []) (fun data => wt (run c s (updates rs 0 data)) i) <= sqrt (wt s i / wt s t) / 2 * cos (1 / 2) ^ n.
Proof.
  intros G Hz Hinv El Hab Hi Ht Hit HG He. pose proof eps_pos as E0. pose proof sin_half as Sh. assert (Hn : (t < n_particles s)%nat) by (unfold n_particles; rewrite El; exact Ht). assert (Hq : 0 < (sin (1 / 2) ^ 2) ^ n) by (apply pow_lt; lra). assert (Hw : 0 < wt s t) by nra.
  apply (c155_two_particles c HC rs (fun _ => True) pol n s t i a b); try assumption. constructor; auto.
  - apply Forall_forall. auto.
  - intros x e _. unfold both_outcomes. cbn [SumL fold_right]. rewrite !(proj1 HC). unfold inv_like, pr0_like. cbn [Z.eqb]. ring.
  - intros r l e _. apply Forall_forall. auto.
  - intros data Hd. destruct (records_likelihood rs (ls s) t pol) with (n := n) (hist := @nil Z) (idx := 0%nat) (data := data) as [Z0|Hb]; auto.
    + intros o e Ho Hge. apply guess_likelihood; auto; rewrite El in *.
      * destruct t as [|[|]]; cbn; auto; lia.
      * destruct t as [|[|]]; cbn; auto; lia.
      * intros x y z [X|[X|[]]] [Y|[Y|[]]] [W|[W|[]]] Hxy; injection X as <-; injection Y as <-; injection W as <-; try contradiction; auto.
    + right. apply (explained_regular c rs t); auto; [intros; rewrite (proj1 HC); apply inv_like_unit|]. nra.
Qed.
End Now.
(** With three particles the heuristic may measure half-way between two of them, and then learns nothing about which of the two is true, however often. *)
Theorem c155_mirror_refuted : guess_of [[-1]; [0]; [1]] (guessed 0 1) /\ forall o, inv_like (fst (guessed 0 1)) (snd (guessed 0 1)) (-1) o = inv_like (fst (guessed 0 1)) (snd (guessed 0 1)) 1 o.
Proof.
  split; [exists 0, 1; cbn; repeat split; auto; lra|]. intros o. unfold inv_like, inv_pr0, guessed. cbn [fst snd]. replace (1 / Rabs (0 - 1) * (-1 - 0) / 2) with (- (1 / Rabs (0 - 1) * (1 - 0) / 2)) by (field; apply Rabs_no_R0; lra). now rewrite cos_neg.
Qed.

(** ** Information *)
(** The Fisher information of an experiment of the inversion model is [t ^ 2] wherever the scores are finite numbers (both outcomes possible); *)
Theorem c155_fisher t w_ w : 0 < inv_like t w_ w 0 -> 0 < inv_like t w_ w 1 -> exists q0 q1, inv_score t w_ w 0 = Fin q0 /\ inv_score t w_ w 1 = Fin q1 /\
  fisher 2 (fun o => inv_like t w_ w (Z.of_nat o)) (fun _ o => match o with O => q0 | _ => q1 end) 0 0 = t ^ 2.
Proof.
  unfold inv_like, pr0_like, inv_pr0. cbn [Z.eqb]. intros H0 H1. unfold inv_score. cbv zeta. replace (t * (w - w_) / 2) with ((w - w_) * t / 2) in * by (unfold Rdiv; ring). set (a := (w - w_) * t / 2) in *. pose proof (sin2_cos2 a) as SC. unfold Rsqr in SC.
  assert (Hc : cos a <> 0) by (intros E; rewrite E in H0; lra). assert (Hs : sin a <> 0) by (intros E; rewrite E in SC; nra).
  assert (Ht : tan a <> 0) by (unfold tan; intros E; apply Hs; apply Rmult_eq_reg_r with (/ cos a); [unfold Rdiv in E; lra|now apply Rinv_neq_0_compat]).
  unfold xtan, xpow01. rewrite Reqb_false by assumption. cbn [Z.eqb Z.sub Z.add Z.opp Z.pos_sub]. rewrite xdiv_Fin by assumption. cbn [xmul]. eexists. eexists. split; [reflexivity|]. split; [reflexivity|].
  unfold fisher. cbn [seq map Z.of_nat]. cbn [Z.eqb Pos.of_succ_nat]. rewrite !rsum_cons, rsum_nil. unfold tan in *. assert (SC' : 1 - cos a ^ 2 = sin a * sin a) by lra. rewrite SC'. 
  transitivity (t ^ 2 * (sin a * sin a + cos a * cos a)); [field; auto|rewrite SC; ring].
Qed.
(** so that of a guess is the inverse square of the distance between the two particles. *)
Theorem c155_information a b w : a <> b -> 0 < inv_like (fst (guessed a b)) (snd (guessed a b)) w 0 -> 0 < inv_like (fst (guessed a b)) (snd (guessed a b)) w 1 ->
  exists q0 q1, inv_score (fst (guessed a b)) (snd (guessed a b)) w 0 = Fin q0 /\ inv_score (fst (guessed a b)) (snd (guessed a b)) w 1 = Fin q1 /\
  fisher 2 (fun o => inv_like (fst (guessed a b)) (snd (guessed a b)) w (Z.of_nat o)) (fun _ o => match o with O => q0 | _ => q1 end) 0 0 = / (a - b) ^ 2.
Proof.
  intros Hab H0 H1. destruct (c155_fisher _ _ _ H0 H1) as (q0 & q1 & E0 & E1 & E2). exists q0, q1. split; [assumption|]. split; [assumption|]. rewrite E2. cbn [fst guessed]. unfold Rdiv. rewrite Rmult_1_l. rewrite pow_inv by (try apply Rabs_no_R0; lra). now rewrite <- (pow2_abs (a - b)).
Qed.
Lemma pairs_variance n w x : Sum n w = 1 -> distinct_pairs n w x (fun a b => (a - b) ^ 2) = 2 * variance n w x.
Proof.
  intros H1. unfold distinct_pairs, variance.
  rewrite (Sum_ext n _ (fun i => w i * x i ^ 2 * 1 - 2 * (w i * x i) * Sum n (fun j => w j * x j) + w i * Sum n (fun j => w j * x j ^ 2))).
  - rewrite Sum_plus, Sum_minus, !Sum_scal_r. replace (Sum n (fun i => 2 * (w i * x i))) with (2 * Sum n (fun i => w i * x i)) by (symmetry; apply Sum_scal). rewrite H1. ring.
  - intros i Hi. rewrite <- H1 at 1. rewrite <- !Sum_scal, <- Sum_minus, <- Sum_plus. apply Sum_ext. intros j Hj. destruct (Req_dec (x i) (x j)) as [E|E]; [rewrite Reqb_true by assumption; rewrite E; ring|rewrite Reqb_false by assumption; ring].
Qed.
(** Averaged over the pairs drawn from the posterior, a guess carries at least the information [P / (2 Var)], where [P] is the chance that two drawn particles differ: the experiments adapt to the posterior spread. *)
Theorem c155_average_information n w x : (forall i, (i < n)%nat -> 0 <= w i) -> Sum n w = 1 -> 0 < chance_distinct n w x ->
  0 < variance n w x /\ chance_distinct n w x / (2 * variance n w x) <= guess_average n w x (fun a b => / (a - b) ^ 2).
Proof.
  intros Hw H1 HP. set (P := chance_distinct n w x) in *. set (Q := distinct_pairs n w x (fun a b => (a - b) ^ 2)). set (I := distinct_pairs n w x (fun a b => / (a - b) ^ 2)).
  assert (K : forall lam, 2 * lam * P - lam ^ 2 * Q <= I).
  { intros lam. unfold P, Q, I, chance_distinct, distinct_pairs. rewrite <- !Sum_scal, <- Sum_minus. apply Sum_le. intros i Hi. rewrite <- !Sum_scal, <- Sum_minus. apply Sum_le. intros j Hj.
    destruct (Req_dec (x i) (x j)) as [E|E]; [rewrite Reqb_true by assumption; lra|]. rewrite Reqb_false by assumption. set (d := x i - x j). assert (Hd : d <> 0) by (unfold d; lra). pose proof (Hw i Hi). pose proof (Hw j Hj). assert (Hp : 0 <= w i * w j) by nra. set (p := w i * w j) in *. clearbody p d.
    assert (0 <= p * (/ d - lam * d) ^ 2) by (apply Rmult_le_pos; [assumption|apply pow2_ge_0]). assert (G : p * (/ d - lam * d) ^ 2 = p * / d ^ 2 - 2 * lam * p + lam ^ 2 * (p * d ^ 2)) by (field; assumption). lra. }
  assert (HQ : Q = 2 * variance n w x) by (now apply pairs_variance).
  assert (Q0 : 0 < Q).
  { destruct (Rle_lt_dec Q 0) as [Hq|Hq]; [|assumption]. exfalso. specialize (K ((I + 1) / (2 * P))). assert (I0 : 0 <= I).
    { unfold I, distinct_pairs. apply Sum_nonneg. intros i Hi. apply Sum_nonneg. intros j Hj. destruct (Req_dec (x i) (x j)) as [E|E]; [rewrite Reqb_true by assumption; lra|]. rewrite Reqb_false by assumption. apply Rmult_le_pos; [apply Rmult_le_pos; auto|]. left. apply Rinv_0_lt_compat. assert (x i - x j <> 0) by lra. nra. }
    replace (2 * ((I + 1) / (2 * P)) * P) with (I + 1) in K by (field; lra). assert (0 <= ((I + 1) / (2 * P)) ^ 2) by apply pow2_ge_0. nra. }
  split; [lra|]. unfold guess_average. fold P. fold I. rewrite <- HQ. specialize (K (P / Q)). replace (2 * (P / Q) * P - (P / Q) ^ 2 * Q) with (P / Q * P) in K by (field; lra).
  apply Rmult_le_reg_r with P; [assumption|]. replace (I / P * P) with I by (field; lra). exact K.
Qed.

(** ** Examples *)
Definition guess_config : @config Z (R * R) unit :=
  {| md := {| lik := fun o x e => inv_like (fst e) (snd e) (nth 0 x 0) o; timestep := fun _ x _ => x; canon := fun x => x |}; prior := fun _ n => repeat [0] n; rsmp := fun _ _ _ => Err RuntimeError; rthresh := 1/2; zpolicy := PError; zthresh := 10 * eps; canonize := true |}.
Lemma guess_good : good_config guess_config.
Proof. constructor; cbn; intros; try reflexivity; try discriminate; [apply inv_like_unit|apply repeat_length]. Qed.
(** Two frequencies a millionth apart; the true one is measured at every other time. *)
Example guess_case : generated guess_config (fun _ => tt) {| ws := [1/2; 1/2]; ls := [[1]; [1 + / 10 ^ 6]]; drec := []; nrec := []; mness := Fin 2; rcnt := 0; jr := false; calls := 0 |} 1
    (records both_outcomes (fun hist => if Nat.even (length hist) then guessed 1 (1 + / 10 ^ 6) else guessed (1 + / 10 ^ 6) 1) 20 [])
    (fun data => wt (run guess_config {| ws := [1/2; 1/2]; ls := [[1]; [1 + / 10 ^ 6]]; drec := []; nrec := []; mness := Fin 2; rcnt := 0; jr := false; calls := 0 |} (updates (fun _ => tt) 0 data)) 0) <= 1 / 20.
Proof.
  set (s := {| ws := [1/2; 1/2]; ls := _; drec := _; nrec := _; mness := _; rcnt := _; jr := _; calls := _ |}). assert (Q : 1 <> 1 + / 10 ^ 6) by (assert (0 < / 10 ^ 6) by (apply Rinv_0_lt_compat; apply pow_lt; lra); lra).
  eapply Rle_trans; [apply (c155_two_particles_unconditional guess_config (conj (fun _ _ _ => eq_refl) (fun _ _ _ => eq_refl)) (fun _ => tt) _ 20 s 1 0 1 (1 + / 10 ^ 6) guess_good)|]; auto; try lia.
  - cbn. unfold eps. assert (/ 2 ^ 52 <= / 2 ^ 4) by (apply Rinv_le_contravar; [apply pow_lt; lra|apply Rle_pow; [lra|lia]]). assert (/ 2 ^ 4 = 1 / 16) by (cbn; field). lra.
  - split; [reflexivity|]. split; [repeat constructor; cbn; lra|]. unfold rsum; cbn; lra.
  - intros hist. destruct (Nat.even (length hist)); [exists 1, (1 + / 10 ^ 6)|exists (1 + / 10 ^ 6), 1]; cbn; auto 10.
  - unfold wt, s. cbn [ws nth]. pose proof (pre_cos_bound (1 / 2) 0 ltac:(lra) ltac:(lra)) as [_ H]. unfold cos_approx, cos_term in H. cbn in H. pose proof (sin2_cos2 (1 / 2)) as S. unfold Rsqr in S. pose proof cos_half.
    assert (B : 22 / 100 <= sin (1 / 2) ^ 2) by nra. assert ((22 / 100) ^ 20 <= (sin (1 / 2) ^ 2) ^ 20) by (apply pow_incr; lra). unfold eps. apply Rle_trans with (1 / 2 * (22 / 100) ^ 20); [|lra]. apply Rmult_le_reg_l with (2 ^ 52); [apply pow_lt; lra|]. rewrite Rinv_r by (apply pow_nonzero; lra). lra.
  - unfold wt, s. cbn [ws nth]. replace (1 / 2 / (1 / 2)) with 1 by field. rewrite sqrt_1. pose proof cos_half. assert (cos (1 / 2) ^ 20 <= (22 / 25) ^ 20) by (apply pow_incr; lra). lra.
Qed.
(** Three equally likely frequencies: the average guess is worth 3/4, the bound says at least 1/2. *)
Example guess_information : let x := fun i => INR i in let w := fun _ : nat => 1 / 3 in
  chance_distinct 3 w x = 2 / 3 /\ variance 3 w x = 2 / 3 /\ guess_average 3 w x (fun a b => / (a - b) ^ 2) = 3 / 4.
Proof.
  cbv zeta. unfold guess_average, chance_distinct, distinct_pairs, variance. rewrite !Sum_S, !Sum_0. cbn [INR]. rewrite !(Reqb_true 0 0), !(Reqb_true 1 1), !(Reqb_true (1 + 1) (1 + 1)) by reflexivity. rewrite !(Reqb_false 0 1), !(Reqb_false 1 0), !(Reqb_false 0 (1 + 1)), !(Reqb_false (1 + 1) 0), !(Reqb_false 1 (1 + 1)), !(Reqb_false (1 + 1) 1) by lra. repeat split; try lra; field; repeat split; lra.
Qed.

Print Assumptions c155_experiment.
Print Assumptions c155_predictions.
Print Assumptions c155_overlap.
Print Assumptions c155_two_particles.
Print Assumptions c155_two_particles_unconditional.
Print Assumptions c155_mirror_refuted.
Print Assumptions c155_fisher.
Print Assumptions c155_information.
Print Assumptions c155_average_information.
