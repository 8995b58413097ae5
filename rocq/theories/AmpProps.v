(** C149: amplified updates (MLEModel) approach the maximum likelihood estimate as the power grows, as long as no evidence falls below
    machine epsilon; which it does for large powers unless the best particle was certain of the data. *)
From Verif Require Import Base RList Ext Sums SmcModel SmcSpec SmcProofs SmcProofs2 PartModel PartSpec PartProofs PartProofs3 PartProps SmcProps DerModel DerSpec DerProofs DerProofs2 LinAlg LinProofs.
From Coq Require Import List.

Section Amp.
Context {O E RND : Type}.
Notation state := (@state O).
Notation config := (@config O E RND).
Implicit Types (c : config) (s : state).

(** Likelihood of all the data at particle [i] under the underlying model *)
Definition record_lik c s (data : list (O * E)) (i : nat) : R := rprod (map (fun d => lik (md c) (fst d) (at_ s i) (snd d)) data).
(** Particle [b] has weight and is the best one by a factor: the others' likelihoods are at most [rho] times its own. *)
Definition best c s data (b : nat) (rho : R) : Prop :=
  (b < n_particles s)%nat /\ 0 < wt s b /\ 0 < record_lik c s data b /\ 0 < rho < 1 /\
  forall j, (j < n_particles s)%nat -> j <> b -> record_lik c s data j <= rho * record_lik c s data b.

Definition pw (g L : R) : R := if Reqb L 0 then 0 else Rpower L g.
Lemma powered_lik g c o x e : 0 < g -> 0 <= lik (md c) o x e -> lik (md (powered g c)) o x e = pw g (lik (md c) o x e).
Proof. intros Hg HL. cbn. unfold mle_entry, pw. destruct (Reqb_spec (lik (md c) o x e) 0); [|reflexivity]. now rewrite Rltb_true. Qed.
Lemma pw_mult g a b : 0 < g -> 0 <= a -> 0 <= b -> pw g (a * b) = pw g a * pw g b.
Proof.
  intros Hg Ha Hb. unfold pw. destruct (Reqb_spec a 0) as [->|Da]; [rewrite Rmult_0_l; destruct (Reqb_spec 0 0); [ring|lra]|]. destruct (Reqb_spec b 0) as [->|Db]; [rewrite Rmult_0_r; destruct (Reqb_spec 0 0); [ring|lra]|].
  destruct (Reqb_spec (a * b) 0) as [H|_]; [destruct (Rmult_integral _ _ H); contradiction|]. symmetry. apply Rpower_mult_distr; lra.
Qed.
Lemma pw_nonneg g a : 0 <= pw g a.
Proof. unfold pw. destruct (Reqb_spec a 0); [lra|]. left. apply exp_pos. Qed.
Lemma pw_le g a b : 0 < g -> 0 <= a -> a <= b -> pw g a <= pw g b.
Proof. intros Hg Ha Hab. unfold pw at 1. destruct (Reqb_spec a 0); [apply pw_nonneg|]. unfold pw. rewrite Reqb_false by lra. apply Rle_Rpower_l; lra. Qed.
Lemma pw_1 g : pw g 1 = 1.
Proof. unfold pw. rewrite Reqb_false by lra. unfold Rpower. rewrite ln_1, Rmult_0_r. apply exp_0. Qed.
Lemma pw_rprod g l : 0 < g -> Forall (fun x => 0 <= x) l -> rprod (map (pw g) l) = pw g (rprod l).
Proof.
  intros Hg H. induction H as [|x l Hx H IH]; [unfold rprod; cbn; symmetry; apply pw_1|]. cbn [map]. rewrite !rprod_cons, IH. symmetry. apply pw_mult; try assumption. now apply rprod_nonneg.
Qed.
Lemma record_nonneg c s data i : good_config c -> Forall (fun x => 0 <= x) (map (fun d => lik (md c) (fst d) (at_ s i) (snd d)) data).
Proof. intros G. apply Forall_forall. intros x Hx. apply in_map_iff in Hx as (d & <- & _). apply (lik_nonneg c G). Qed.

(** The amplified posterior *)
Lemma amplified c rs s data g : good_config c -> zthresh c < 1 -> (forall r l e, timestep (md c) r l e = l) -> full_inv s -> 0 < g -> regular (powered g c) rs 0 data s ->
  let s' := run (powered g c) s (updates rs 0 data) in
  full_inv s' /\ ls s' = ls s /\ n_particles s' = n_particles s /\ exists N, 0 < N /\ forall i, (i < n_particles s)%nat -> wt s' i * N = wt s i * pw g (record_lik c s data i).
Proof.
  intros G Ht Hst Hinv Hg HR s'. assert (G' := powered_good g c Hg G).
  destruct (run_regular (powered g c) rs G' Ht data 0%nat s Hinv HR) as (I1 & I2 & Ns & I3 & I4 & I5). fold s' in I1, I2, I5.
  split; [exact I1|]. split; [apply run_static_ls; assumption|]. split; [exact I2|]. exists (rprod Ns). split; [now apply rprod_pos|]. intros i Hi. rewrite I5 by assumption. f_equal. rewrite path_lik_static by assumption.
  unfold record_lik. rewrite <- pw_rprod by (try assumption; now apply record_nonneg). rewrite map_map. f_equal. apply map_ext. intros d. apply powered_lik; [assumption|apply (lik_nonneg c G)].
Qed.
Theorem c149_weights c rs s data g i j : good_config c -> zthresh c < 1 -> (forall r l e, timestep (md c) r l e = l) -> full_inv s -> 0 < g -> regular (powered g c) rs 0 data s ->
  (i < n_particles s)%nat -> (j < n_particles s)%nat -> 0 < record_lik c s data i -> 0 < record_lik c s data j ->
  let s' := run (powered g c) s (updates rs 0 data) in
  wt s' i * (wt s j * Rpower (record_lik c s data j) g) = wt s' j * (wt s i * Rpower (record_lik c s data i) g).
Proof.
  intros G Ht Hst Hinv Hg HR Hi Hj Li Lj s'. destruct (amplified c rs s data g G Ht Hst Hinv Hg HR) as (_ & _ & _ & N & HN & HW). fold s' in HW. assert (A := HW i Hi). assert (B := HW j Hj). unfold pw in A, B. rewrite Reqb_false in A, B by lra. rewrite <- A, <- B. ring.
Qed.
(** The weight off the best particle *)
Theorem c149_mass c rs s data g b rho : good_config c -> zthresh c < 1 -> (forall r l e, timestep (md c) r l e = l) -> full_inv s -> 0 < g -> regular (powered g c) rs 0 data s ->
  best c s data b rho -> 1 - wt (run (powered g c) s (updates rs 0 data)) b <= Rpower rho g / wt s b.
Proof.
  intros G Ht Hst Hinv Hg HR (Hb & Hw & HL & Hrho & HB). set (s' := run (powered g c) s (updates rs 0 data)). destruct (amplified c rs s data g G Ht Hst Hinv Hg HR) as (I1 & I2 & I3 & N & HN & HW). fold s' in I1, I2, I3, HW.
  assert (S1 : Sum (n_particles s) (wt s') = 1) by (rewrite <- I3; now apply full_inv_Sum). assert (S0 := full_inv_Sum s Hinv).
  assert (P : forall T (t : @SmcModel.state T) i, full_inv t -> 0 <= wt t i).
  { intros T t i [Hl [F _]]. unfold wt. destruct (Nat.lt_ge_cases i (length (ws t))) as [H|H]; [apply (proj1 (Forall_forall _ _) F); now apply nth_In|rewrite nth_overflow by assumption; lra]. }
  assert (Wb := HW b Hb). unfold pw in Wb. rewrite Reqb_false in Wb by lra.
  assert (Hj : forall j, (j < n_particles s)%nat -> j <> b -> wt s' j <= wt s j * (Rpower rho g * wt s' b / wt s b)).
  { intros j Hj Hjb. apply Rmult_le_reg_r with N; [assumption|]. rewrite HW by assumption. 
    replace (wt s j * (Rpower rho g * wt s' b / wt s b) * N) with (wt s j * (Rpower rho g * (wt s' b * N) / wt s b)) by (field; lra). rewrite Wb. apply Rmult_le_compat_l; [now apply P|].
    replace (Rpower rho g * (wt s b * Rpower (record_lik c s data b) g) / wt s b) with (Rpower rho g * Rpower (record_lik c s data b) g) by (field; lra).
    rewrite Rpower_mult_distr by lra. replace (Rpower (rho * record_lik c s data b) g) with (pw g (rho * record_lik c s data b)) by (unfold pw; rewrite Reqb_false; [reflexivity|apply Rgt_not_eq, Rmult_lt_0_compat; lra]).
    apply pw_le; [assumption| |now apply HB]. unfold record_lik. apply rprod_nonneg. now apply record_nonneg. }
  assert (Hbs : wt s' b <= 1).
  { rewrite <- S1. apply Sum_ge_term; [assumption|]. intros j _. now apply P. }
  set (K := Rpower rho g * wt s' b / wt s b) in *. assert (HR0 : 0 < Rpower rho g) by apply exp_pos. assert (P0 := P _ s' b I1).
  assert (HK0 : 0 <= K) by (unfold K; apply Rmult_le_pos; [apply Rmult_le_pos; lra|left; now apply Rinv_0_lt_compat]).
  assert (HK : K <= Rpower rho g / wt s b) by (unfold K, Rdiv; apply Rmult_le_compat_r; [left; now apply Rinv_0_lt_compat|]; rewrite <- (Rmult_1_r (Rpower rho g)) at 2; apply Rmult_le_compat_l; lra).
  assert (Hs : Sum (n_particles s) (wt s') <= Sum (n_particles s) (fun j => K * wt s j + (if Nat.eqb j b then wt s' b else 0))).
  { apply Sum_le. intros j Hjn. assert (Pj := P _ s j Hinv). assert (0 <= K * wt s j) by now apply Rmult_le_pos. destruct (Nat.eqb_spec j b) as [->|D]; [lra|]. specialize (Hj j Hjn D). lra. }
  rewrite S1, Sum_plus, Sum_scal, S0, (Sum_single _ b) in Hs; [|assumption|intros k _ Hk; destruct (Nat.eqb_spec k b); [contradiction|reflexivity]]. rewrite Nat.eqb_refl in Hs. lra.
Qed.
(** The estimate: within [spread * rho^g / w_b] of the best particle *)
Theorem c149_mean c rs s data g b rho d j lo hi : good_config c -> zthresh c < 1 -> (forall r l e, timestep (md c) r l e = l) -> full_inv s -> 0 < g -> regular (powered g c) rs 0 data s ->
  best c s data b rho -> (j < d)%nat -> (forall x, In x (ls s) -> lo <= nth j x 0 <= hi) ->
  let s' := run (powered g c) s (updates rs 0 data) in
  Rabs (nth j (est_mean d (ws s') (ls s')) 0 - nth j (at_ s b) 0) <= (hi - lo) * (Rpower rho g / wt s b).
Proof.
  intros G Ht Hst Hinv Hg HR HB Hj Hx s'. assert (HM := c149_mass c rs s data g b rho G Ht Hst Hinv Hg HR HB). fold s' in HM. destruct HB as (Hb & _).
  destruct (amplified c rs s data g G Ht Hst Hinv Hg HR) as (I1 & I2 & I3 & _). fold s' in I1, I2, I3. assert (S1 : Sum (n_particles s) (wt s') = 1) by (rewrite <- I3; now apply full_inv_Sum).
  rewrite c17_mean_is_weighted_average by (try assumption; apply I1). unfold expect. rewrite (proj1 I1). fold (n_particles s'). rewrite I3, I2.
  set (y := nth j (at_ s b) 0). assert (Hxb : lo <= y <= hi) by (apply Hx; now apply nth_In).
  assert (P : forall i, 0 <= wt s' i).
  { intros i. destruct I1 as [Hl [F _]]. unfold wt. destruct (Nat.lt_ge_cases i (length (ws s'))) as [H|H]; [apply (proj1 (Forall_forall _ _) F); now apply nth_In|rewrite nth_overflow by assumption; lra]. }
  replace (Sum (n_particles s) (fun i => nth i (ws s') 0 * coord (ls s) j i) - y) with (Sum (n_particles s) (fun i => wt s' i * (coord (ls s) j i - y))).
  2: { rewrite (Sum_ext _ _ (fun i => wt s' i * coord (ls s) j i - y * wt s' i)) by (intros; ring). rewrite Sum_minus, Sum_scal, S1. unfold wt. ring. }
  apply Rle_trans with ((hi - lo) * (1 - wt s' b)); [|apply Rmult_le_compat_l; lra].
  assert (Hs : Sum (n_particles s) (fun i => if Nat.eqb i b then wt s' b else 0) = wt s' b).
  { rewrite (Sum_single _ b); [now rewrite Nat.eqb_refl|assumption|intros k _ Hk; destruct (Nat.eqb_spec k b); [contradiction|reflexivity]]. }
  assert (T : forall sg, sg = 1 \/ sg = -1 -> sg * Sum (n_particles s) (fun i => wt s' i * (coord (ls s) j i - y)) <= (hi - lo) * (1 - wt s' b)).
  { intros sg Hsg. rewrite <- S1 at 1. rewrite <- Hs. rewrite <- Sum_minus, <- !Sum_scal. apply Sum_le. intros i Hi. assert (Xi : lo <= coord (ls s) j i <= hi) by (apply Hx; now apply nth_In). specialize (P i). destruct (Nat.eqb_spec i b) as [->|D].
    - replace (coord (ls s) j b - y) with 0 by (unfold y, coord, at_; ring). lra.
    - replace (sg * (wt s' i * (coord (ls s) j i - y))) with (wt s' i * (sg * (coord (ls s) j i - y))) by ring. rewrite Rminus_0_r, (Rmult_comm (hi - lo)). apply Rmult_le_compat_l; [assumption|]. destruct Hsg as [-> | ->]; lra. }
  assert (T1 := T 1 (or_introl eq_refl)). assert (T2 := T (-1) (or_intror eq_refl)). unfold Rabs. destruct (Rcase_abs _); lra.
Qed.

Lemma decay rho k d : 0 < rho < 1 -> 0 <= k -> 0 < d -> exists G, 0 < G /\ forall g, G <= g -> k * Rpower rho g <= d.
Proof.
  intros Hr Hk Hd. assert (Hln : ln rho < 0) by (rewrite <- ln_1; apply ln_increasing; lra). set (t := ln (d / (k + 1)) / ln rho). exists (Rmax 1 t). split; [apply Rlt_le_trans with 1; [lra|apply Rmax_l]|].
  intros g Hg. assert (Htg : t <= g) by (eapply Rle_trans; [apply Rmax_r|exact Hg]).
  assert (Hq : 0 < d / (k + 1)) by (apply Rdiv_lt_0_compat; lra). assert (He : Rpower rho g <= d / (k + 1)).
  { unfold Rpower. rewrite <- (exp_ln (d / (k + 1))) by assumption. assert (Hle : g * ln rho <= ln (d / (k + 1))). { replace (ln (d / (k + 1))) with (t * ln rho) by (unfold t; field; lra). nra. }
    destruct Hle as [Hlt|Heq]; [left; now apply exp_increasing|rewrite Heq; lra]. }
  apply Rle_trans with (k * (d / (k + 1))); [now apply Rmult_le_compat_l|]. apply Rmult_le_reg_r with (k + 1); [lra|]. replace (k * (d / (k + 1)) * (k + 1)) with (k * d) by (field; lra). lra.
Qed.
(** As the power grows, the estimate approaches the best particle, among the powers that keep every evidence above machine epsilon. *)
Theorem c149_limit_partial c rs s data b rho d j tol : good_config c -> zthresh c < 1 -> (forall r l e, timestep (md c) r l e = l) -> full_inv s ->
  best c s data b rho -> (j < d)%nat -> 0 < tol ->
  exists g0, 0 < g0 /\ forall g, g0 <= g -> regular (powered g c) rs 0 data s ->
    let s' := run (powered g c) s (updates rs 0 data) in Rabs (nth j (est_mean d (ws s') (ls s')) 0 - nth j (at_ s b) 0) <= tol.
Proof.
  intros G Ht Hst Hinv HB Hj Htol. assert (HB' := HB). destruct HB' as (Hb & Hw & HL & Hrho & _).
  assert (Bd : exists lo hi, forall x, In x (ls s) -> lo <= nth j x 0 <= hi).
  { clear. induction (ls s) as [|x l (lo & hi & IH)]; [exists 0, 0; intros x []|]. exists (Rmin lo (nth j x 0)), (Rmax hi (nth j x 0)). intros y [<-|Hy]; [split; [apply Rmin_r|apply Rmax_r]|]. destruct (IH y Hy). split; [eapply Rle_trans; [apply Rmin_l|assumption]|eapply Rle_trans; [eassumption|apply Rmax_l]]. }
  destruct Bd as (lo & hi & Bd). assert (Hlh : lo <= hi) by (destruct (Bd (at_ s b) (nth_In _ _ Hb)); lra).
  destruct (decay rho ((hi - lo) / wt s b) tol Hrho) as (g0 & H0 & H1); [apply Rmult_le_pos; [lra|left; now apply Rinv_0_lt_compat]|assumption|].
  exists g0. split; [assumption|]. intros g Hg HR s'. assert (Hgp : 0 < g) by lra. assert (M := c149_mean c rs s data g b rho d j lo hi G Ht Hst Hinv Hgp HR HB Hj Bd). fold s' in M. specialize (H1 g Hg).
  replace ((hi - lo) * (Rpower rho g / wt s b)) with ((hi - lo) / wt s b * Rpower rho g) in M by (field; lra). lra.
Qed.

(** A best particle that was certain of every datum: every power will do. *)
Lemma certain_regular c rs g b : good_config c -> zthresh c < 1 -> (forall r l e, timestep (md c) r l e = l) -> 0 < g -> forall data idx s, full_inv s -> (b < n_particles s)%nat -> eps <= wt s b ->
  (forall o e x, In (o, e) data -> In x (ls s) -> lik (md c) o x e <= 1) -> (forall o e, In (o, e) data -> lik (md c) o (at_ s b) e = 1) -> regular (powered g c) rs idx data s.
Proof.
  intros G Ht Hst Hg. assert (G' := powered_good g c Hg G). assert (E0 := eps_pos). induction data as [|[o e] data IH]; intros idx s Hinv Hb He H1 H2; [exact I|].
  assert (P : forall i, 0 <= wt s i). { intros i. destruct Hinv as [Hl [F _]]. unfold wt. destruct (Nat.lt_ge_cases i (length (ws s))) as [H|H]; [apply (proj1 (Forall_forall _ _) F); now apply nth_In|rewrite nth_overflow by assumption; lra]. }
  assert (Lp : forall i, lik (md (powered g c)) o (at_ s i) e = pw g (lik (md c) o (at_ s i) e)) by (intros i; apply powered_lik; [assumption|apply (lik_nonneg c G)]).
  assert (Ev1 : wt s b <= evidence (powered g c) s o e).
  { unfold evidence. apply Rle_trans with (wt s b * lik (md (powered g c)) o (at_ s b) e); [rewrite Lp; rewrite (H2 o e (or_introl eq_refl)); rewrite pw_1; lra|]. apply (Sum_ge_term _ (fun i => wt s i * lik (md (powered g c)) o (at_ s i) e)); [assumption|]. intros i _. apply Rmult_le_pos; [apply P|apply (lik_nonneg _ G')]. }
  assert (Ev2 : evidence (powered g c) s o e <= 1).
  { rewrite <- (full_inv_Sum s Hinv). apply Sum_le. intros i Hi. rewrite Lp. specialize (P i). assert (pw g (lik (md c) o (at_ s i) e) <= 1) by (rewrite <- (pw_1 g); apply pw_le; [assumption|apply (lik_nonneg c G)|apply H1; [now left|now apply nth_In]]). rewrite <- (Rmult_1_r (wt s i)) at 2. now apply Rmult_le_compat_l. }
  assert (He' : eps <= evidence (powered g c) s o e) by lra. split; [exact He'|].
  assert (Hs' : fst (update (powered g c) (rs idx) s o e false) = fst (install (powered g c) (rs idx) (recorded s o) (norm_row (powered g c) (ws s) (ls s) o e) (evidence (powered g c) s o e) e false)).
  { destruct Hinv as [Hlen [Hw Hs]]. rewrite update_regular by (auto; apply (lik_nonneg _ G')). reflexivity. }
  assert (Hl : ls (fst (update (powered g c) (rs idx) s o e false)) = ls s) by (rewrite Hs', install_nocheck; cbn; apply Hst).
  apply IH; [now apply update_regular_inv|unfold n_particles; now rewrite Hl| | |].
  - rewrite Hs', install_nocheck. unfold wt. cbn [fst ws]. rewrite norm_row_nth by (try assumption; apply Hinv). unfold bayes. fold (evidence (powered g c) s o e). fold (at_ s b). rewrite Lp, (H2 o e (or_introl eq_refl)), pw_1, Rmult_1_r. fold (wt s b).
    apply Rle_trans with (wt s b); [assumption|]. apply Rmult_le_reg_r with (evidence (powered g c) s o e); [lra|]. unfold Rdiv. rewrite Rmult_assoc, Rinv_l, Rmult_1_r by lra. rewrite <- (Rmult_1_r (wt s b)) at 2. apply Rmult_le_compat_l; lra.
  - intros o' e' x Hd Hx. rewrite Hl in Hx. apply H1; [now right|assumption].
  - intros o' e' Hd. unfold at_. rewrite Hl. apply H2. now right.
Qed.
Theorem c149_certain c rs s data b rho d j tol : good_config c -> zthresh c < 1 -> (forall r l e, timestep (md c) r l e = l) -> full_inv s ->
  best c s data b rho -> eps <= wt s b -> (forall o e x, In (o, e) data -> In x (ls s) -> lik (md c) o x e <= 1) -> (forall o e, In (o, e) data -> lik (md c) o (at_ s b) e = 1) -> (j < d)%nat -> 0 < tol ->
  exists g0, 0 < g0 /\ forall g, g0 <= g ->
    let s' := run (powered g c) s (updates rs 0 data) in Rabs (nth j (est_mean d (ws s') (ls s')) 0 - nth j (at_ s b) 0) <= tol.
Proof.
  intros G Ht Hst Hinv HB He H1 H2 Hj Htol. destruct (c149_limit_partial c rs s data b rho d j tol G Ht Hst Hinv HB Hj Htol) as (g0 & H0 & H). exists g0. split; [assumption|]. intros g Hg. apply H; [assumption|]. apply (certain_regular c rs g b); try assumption; [lra|apply HB].
Qed.
(** Otherwise a large enough power takes the evidence below machine epsilon, and under the default policy the update is refused. *)
Theorem c149_limit_refuted c s o e q : good_config c -> full_inv s -> 0 < q < 1 -> (forall x, In x (ls s) -> lik (md c) o x e <= q) -> zpolicy c = PError -> eps <= zthresh c ->
  exists g0, 0 < g0 /\ forall g r check, g0 <= g ->
    ws (fst (update (powered g c) r s o e check)) = ws s /\ ls (fst (update (powered g c) r s o e check)) = ls s /\ snd (update (powered g c) r s o e check) = Some RuntimeError.
Proof.
  intros G Hinv Hq HL Hp Hz. assert (E0 := eps_pos). destruct (decay q 1 (eps / 2) Hq ltac:(lra) ltac:(lra)) as (g0 & H0 & H1). exists g0. split; [assumption|]. intros g r check Hg. assert (Hgp : 0 < g) by lra. assert (G' := powered_good g c Hgp G).
  assert (P : forall i, 0 <= wt s i). { intros i. destruct Hinv as [Hl [F _]]. unfold wt. destruct (Nat.lt_ge_cases i (length (ws s))) as [H|H]; [apply (proj1 (Forall_forall _ _) F); now apply nth_In|rewrite nth_overflow by assumption; lra]. }
  assert (Ev : evidence (powered g c) s o e <= Rpower q g).
  { rewrite <- (Rmult_1_r (Rpower q g)), <- (full_inv_Sum s Hinv), <- Sum_scal. apply Sum_le. intros i Hi. rewrite powered_lik by (try assumption; apply (lik_nonneg c G)). rewrite (Rmult_comm (Rpower q g)). apply Rmult_le_compat_l; [apply P|].
    replace (Rpower q g) with (pw g q) by (unfold pw; rewrite Reqb_false by lra; reflexivity). apply pw_le; [assumption|apply (lik_nonneg c G)|apply HL; now apply nth_In]. }
  specialize (H1 g Hg). assert (Hnt : new_total (powered g c) s o e <= zthresh (powered g c)) by (unfold new_total; destruct (Rlt_dec _ eps); [cbn; lra|lra]).
  destruct Hinv as [Hlen [Hw Hs]]. destruct (c08_error_and_skip_leave_posterior (powered g c) r s o e check G' Hlen Hw Hnt) as (X1 & X2 & _ & _ & _ & _ & X3); try (cbn; rewrite Hp; discriminate).
  split; [exact X1|]. split; [exact X2|]. rewrite X3. cbn. now rewrite Hp.
Qed.
End Amp.

(** Non-vacuity: a coin of unknown bias, flipped once, under the default policy for small evidence *)
Definition amp_config : @config bool unit unit :=
  {| md := {| lik := fun (o : bool) (x : loc) _ => let p := Rmax 0 (Rmin 1 (nth 0 x 0)) in if o then p else 1 - p; timestep := fun _ l _ => l; canon := fun x => x |};
     prior := fun _ n => repeat [0] n; rsmp := fun _ _ _ => Err RuntimeError; rthresh := 1/2; zpolicy := PError; zthresh := 10 * eps; canonize := true |}.
Lemma amp_good : good_config amp_config.
Proof.
  constructor; cbn; auto; try (intros; now rewrite ?map_length, ?repeat_length); try discriminate. intros o x e. pose proof (Rmax_l 0 (Rmin 1 (nth 0 x 0))). assert (Rmax 0 (Rmin 1 (nth 0 x 0)) <= 1) by (apply Rmax_lub; [lra|apply Rmin_l]). destruct o; lra.
Qed.
Definition amp_state (x y : R) : @SmcModel.state bool := {| ws := [1/2; 1/2]; ls := [[x]; [y]]; drec := []; nrec := []; mness := PInf; rcnt := 0; jr := false; calls := 0 |}.
Lemma amp_inv x y : full_inv (amp_state x y).
Proof. split; [reflexivity|split; [repeat constructor; lra|cbn; rewrite !rsum_cons, rsum_nil; lra]]. Qed.
Lemma amp_lik (x : R) (o : bool) : 0 <= x <= 1 -> lik (md amp_config) o [x] tt = if o then x else 1 - x.
Proof. intros H. cbn. rewrite (Rmin_right 1 x) by lra. rewrite Rmax_right by lra. reflexivity. Qed.
Lemma amp_small : eps <= 1/64.
Proof. unfold eps. replace (1/64) with (/ 2 ^ 6) by lra. apply Rinv_le_contravar; [apply pow_lt; lra|]. apply Rle_pow; [lra|lia]. Qed.
Lemma amp_best x y : 0 <= x -> 2 * x <= y -> 0 < y <= 1 -> best amp_config (amp_state x y) [(true, tt)] 1 (1/2).
Proof.
  intros H1 H2 H3. split; [cbn; lia|]. split; [unfold wt; cbn; lra|]. unfold record_lik, at_. cbn [amp_state ls map fst snd nth]. rewrite !rprod_cons, !amp_lik by lra. unfold rprod. cbn [fold_right]. split; [lra|]. split; [lra|].
  intros [|[|j]] Hj D; cbn in Hj; try lia. cbn [nth]. rewrite amp_lik by lra. lra.
Qed.
Lemma amp_zthresh : zthresh amp_config < 1.
Proof. cbn. pose proof amp_small. lra. Qed.
(** The double-headed coin wins: with heads observed, the estimate of the bias approaches one. *)
Example ex_c149_certain tol : 0 < tol -> exists g0, 0 < g0 /\ forall g, g0 <= g ->
  let s' := run (powered g amp_config) (amp_state (1/2) 1) (updates (fun _ => tt) 0 [(true, tt)]) in Rabs (nth 0 (est_mean 1 (ws s') (ls s')) 0 - 1) <= tol.
Proof.
  intros Ht. apply (c149_certain amp_config (fun _ => tt) (amp_state (1/2) 1) [(true, tt)] 1 (1/2) 1 0); try assumption; try (exact amp_good); try (exact amp_zthresh); try reflexivity.
  - apply amp_inv.
  - apply amp_best; lra.
  - unfold wt. cbn. pose proof amp_small. lra.
  - intros o e x [E|[]] Hx. injection E as <- <-. destruct Hx as [<-|[<-|[]]]; rewrite amp_lik by lra; lra.
  - intros o e [E|[]]. injection E as <- <-. unfold at_. cbn [amp_state ls nth]. now rewrite amp_lik by lra.
  - lia.
Qed.
(** Two fair-ish coins: a power of two concentrates the weights, and a large power is refused. *)
Lemma amp_regular : regular (powered 2 amp_config) (fun _ => tt) 0 [(true, tt)] (amp_state (1/4) (3/4)).
Proof.
  split; [|exact I]. unfold evidence. change (n_particles (amp_state (1/4) (3/4))) with 2%nat. rewrite !Sum_S, Sum_0. rewrite !powered_lik by (try lra; apply (lik_nonneg _ amp_good)). unfold wt, at_. cbn [amp_state ws ls nth]. rewrite !amp_lik by lra.
  unfold pw. rewrite !Reqb_false by lra. replace 2 with (INR 2) by (cbn; ring). rewrite !Rpower_pow by (cbn; lra). cbn. pose proof amp_small. lra.
Qed.
Example ex_c149_mass : 1 - wt (run (powered 2 amp_config) (amp_state (1/4) (3/4)) (updates (fun _ => tt) 0 [(true, tt)])) 1 <= 1/2.
Proof.
  eapply Rle_trans; [apply (c149_mass amp_config (fun _ => tt) (amp_state (1/4) (3/4)) [(true, tt)] 2 1 (1/2)); [exact amp_good|exact amp_zthresh|reflexivity|apply amp_inv|lra|exact amp_regular|apply amp_best; lra]|].
  unfold wt. cbn [amp_state ws nth]. replace 2 with (INR 2) at 2 by (cbn; ring). rewrite Rpower_pow by lra. cbn. lra.
Qed.
Example ex_c149_refuted : exists g0, 0 < g0 /\ forall g, g0 <= g ->
  ws (fst (update (powered g amp_config) tt (amp_state (1/4) (3/4)) true tt true)) = [1/2; 1/2] /\ snd (update (powered g amp_config) tt (amp_state (1/4) (3/4)) true tt true) = Some RuntimeError.
Proof.
  destruct (c149_limit_refuted amp_config (amp_state (1/4) (3/4)) true tt (3/4)) as (g0 & H0 & H); [exact amp_good|apply amp_inv|lra| |reflexivity|cbn; pose proof eps_pos; lra|].
  - intros x [<-|[<-|[]]]; rewrite amp_lik by lra; lra.
  - exists g0. split; [assumption|]. intros g Hg. destruct (H g tt true Hg) as (A & _ & B). split; assumption.
Qed.
Print Assumptions c149_weights.
Print Assumptions c149_mass.
Print Assumptions c149_mean.
Print Assumptions c149_limit_partial.
Print Assumptions c149_certain.
Print Assumptions c149_limit_refuted.
