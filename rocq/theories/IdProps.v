(** C157: which experiments identify the parameters, model by model *)
From Coq Require Import ZArith.
From Verif Require Import Base RList Ext Sums SmcModel SmcSpec SmcProofs TwoModel DomModel DerModel DomProofs LearnSpec LearnProofs LearnProps MisSpec MisProps CountProps.
From Coq Require Import List.

(** ** In general *)
Section General.
Context {O E RND : Type} (c : @config O E RND) (rs : nat -> RND) (s : @state O).
(** [x] and [y] predict the same for every experiment that satisfies [used] *)
Definition alike (used : E -> Prop) (dom : E -> list O) (x y : loc) : Prop := forall e o, used e -> In o (dom e) -> lik (md c) o x e = lik (md c) o y e.

(** Data as particle [t] predicts: whatever takes one value on all particles that the used experiments cannot tell from [t] is learned. *)
Theorem c157_learned dom es q dec data t (f : loc -> R) : (forall x e, In x (ls s) -> In e es -> SumL (dom e) (fun o => lik (md c) o x e) = 1) ->
  settled c dom es (fun o e => q e * lik (md c) o (at_ s t) e) s dec data -> (forall e, In e es -> 0 <= q e) -> (t < n_particles s)%nat -> 0 < wt s t ->
  (forall x, In x (ls s) -> alike (fun e => In e es /\ 0 < q e) dom x (at_ s t) -> f x = f (at_ s t)) ->
  tends (fun n => Sum (n_particles s) (fun i => wt (run c s (updates rs 0 (map data (seq 0 n)))) i * f (at_ s i))) (f (at_ s t)).
Proof.
  intros One HS Hq Ht Hw Hf. pose proof HS as HS'. destruct HS'. eapply (c153_averages c rs); [exact HS|exact Ht|exact Hw|]. intros i Hi. pose proof eps_pos as E0.
  assert (In_ : forall k, (k < n_particles s)%nat -> In (at_ s k) (ls s)) by (intros k Hk; now apply nth_In).
  destruct (Classical_Prop.classic (alike (fun e => In e es /\ 0 < q e) dom (at_ s i) (at_ s t))) as [Al|Nal]; [left; apply Hf; auto|]. right. right.
  assert (T : forall j, (j < n_particles s)%nat -> forall e o, In e es -> In o (dom e) -> 0 < lik (md c) o (at_ s t) e /\ 0 < lik (md c) o (at_ s j) e).
  { intros j Hj e o He Ho. pose proof (l_positive (at_ s t) e o (In_ t Ht) He Ho). pose proof (l_positive (at_ s j) e o (In_ j Hj) He Ho). lra. }
  pose proof (c153_closest c dom es q (fun o k => lik (md c) o (at_ s t) k) s i t) as K. cbv beta in K.
  pose proof (c153_truth c dom es q (fun o k => lik (md c) o (at_ s t) k) s i Hi Hq (T i Hi) (fun e He => conj (One (at_ s t) e (In_ t Ht) He) (One (at_ s i) e (In_ i Hi) He))) as (_ & M1 & _).
  pose proof (c153_truth c dom es q (fun o k => lik (md c) o (at_ s t) k) s t Ht Hq (T t Ht) (fun e He => conj (One (at_ s t) e (In_ t Ht) He) (One (at_ s t) e (In_ t Ht) He))) as (_ & _ & M2). rewrite (M2 (fun _ _ _ _ => eq_refl)) in K.
  assert (0 < miss c dom es q (fun o k => lik (md c) o (at_ s t) k) s i); [|lra]. apply M1. apply Classical_Prop.NNPP. intros No. apply Nal. intros e o [He Hqe] Ho. apply Classical_Prop.NNPP. intros Hne. apply No. exists e, o. repeat split; auto.
Qed.
(** Conversely, no data from experiments that cannot tell two particles apart ever change the ratio of their weights. *)
Theorem c157_never_learned used dom data i j : good_config c -> zthresh c < 1 -> full_inv s -> (forall r l e, timestep (md c) r l e = l) -> regular c rs 0 data s ->
  (i < n_particles s)%nat -> (j < n_particles s)%nat -> alike used dom (at_ s i) (at_ s j) -> Forall (fun p => used (snd p) /\ In (fst p) (dom (snd p))) data ->
  wt (run c s (updates rs 0 data)) i * wt s j = wt (run c s (updates rs 0 data)) j * wt s i.
Proof.
  intros G Hz Hs St Rg Hi Hj Al F. destruct (predictive_recorded c rs s data G Hz Hs Rg) as (Ns & _ & P1 & P2 & K). rewrite P1 in P2. pose proof (K i Hi) as Ki. pose proof (K j Hj) as Kj. rewrite !path_lik_static in Ki, Kj by assumption.
  assert (EL : map (fun p => lik (md c) (fst p) (at_ s i) (snd p)) data = map (fun p => lik (md c) (fst p) (at_ s j) (snd p)) data).
  { apply map_ext_in. intros p Hp. rewrite Forall_forall in F. destruct (F p Hp). now apply Al. }
  unfold at_ in EL. rewrite EL in Ki. apply Rmult_eq_reg_l with (predictive c rs s data); [|lra]. transitivity (wt s j * (predictive c rs s data * wt (run c s (updates rs 0 data)) i)); [ring|]. rewrite Ki. transitivity (wt s i * (predictive c rs s data * wt (run c s (updates rs 0 data)) j)); [rewrite Kj; ring|ring].
Qed.
End General.

(** ** Precession and inversion *)
Lemma cos_eq a b : cos a = cos b <-> exists k : Z, a = b + 2 * IZR k * PI \/ a = - b + 2 * IZR k * PI.
Proof.
  split.
  - intros H. assert (P : sin ((a - b) / 2) * sin ((a + b) / 2) = 0). { assert (X := form2 a b). nra. }
    apply Rmult_integral in P. destruct P as [P|P]; apply sin_eq_0_0 in P; destruct P as [k Hk]; exists k; [left|right]; lra.
  - intros (k & [-> | ->]).
    + replace (2 * IZR k * PI) with (2 * (IZR k * PI)) by ring. rewrite cos_plus, cos_2a_sin, sin_2a. assert (S0 : sin (IZR k * PI) = 0) by (apply sin_eq_0_1; now exists k). rewrite S0. ring.
    + replace (2 * IZR k * PI) with (2 * (IZR k * PI)) by ring. rewrite cos_plus, cos_neg, cos_2a_sin, sin_2a. assert (S0 : sin (IZR k * PI) = 0) by (apply sin_eq_0_1; now exists k). rewrite S0. ring.
Qed.
Lemma inv_pr0_cos t w_ w : inv_pr0 t w_ w = (1 + cos (t * (w - w_))) / 2.
Proof. unfold inv_pr0. replace (t * (w - w_)) with (2 * (t * (w - w_) / 2)) at 2 by field. rewrite cos_2a_cos. simpl. field. Qed.
Lemma inv_alike t w_ w w' : (forall o, inv_like t w_ w o = inv_like t w_ w' o) <-> cos (t * (w - w_)) = cos (t * (w' - w_)).
Proof.
  split.
  - intros H. specialize (H 0%Z). unfold inv_like, pr0_like in H. cbn [Z.eqb] in H. rewrite !inv_pr0_cos in H. lra.
  - intros H o. unfold inv_like. now rewrite !inv_pr0_cos, H.
Qed.
Lemma cos_inj a b : 0 <= a <= PI -> 0 <= b <= PI -> cos a = cos b -> a = b.
Proof.
  intros Ha Hb H. destruct (Rtotal_order a b) as [L|[L|L]]; [|assumption|]; exfalso.
  - pose proof (cos_decreasing_1 a b ltac:(lra) ltac:(lra) ltac:(lra) ltac:(lra) L). lra.
  - pose proof (cos_decreasing_1 b a ltac:(lra) ltac:(lra) ltac:(lra) ltac:(lra) L). lra.
Qed.
(** One inversion experiment: exactly the frequencies mirrored at the inversion frequency or shifted by full turns are confused. *)
Theorem c157_inversion_confuses t w_ w w' : t <> 0 ->
  (forall o, inv_like t w_ w o = inv_like t w_ w' o) <-> exists k : Z, w = w' + IZR k * (2 * PI / t) \/ w = 2 * w_ - w' + IZR k * (2 * PI / t).
Proof.
  intros Ht. rewrite inv_alike, cos_eq. split; intros (k & [H|H]); exists k; [left|right|left|right].
  - apply Rmult_eq_reg_l with t; [|assumption]. replace (t * (w' + IZR k * (2 * PI / t))) with (t * w' + 2 * IZR k * PI) by (field; assumption). lra.
  - apply Rmult_eq_reg_l with t; [|assumption]. replace (t * (2 * w_ - w' + IZR k * (2 * PI / t))) with (2 * (t * w_) - t * w' + 2 * IZR k * PI) by (field; assumption). lra.
  - rewrite H. field. assumption.
  - rewrite H. field. assumption.
Qed.
(** Precession: sign and full turns. *)
Theorem c157_precession_confuses t w w' : t <> 0 -> (forall o, prec_like t w o = prec_like t w' o) <-> exists k : Z, w = w' + IZR k * (2 * PI / t) \/ w = - w' + IZR k * (2 * PI / t).
Proof.
  intros Ht. unfold prec_like. rewrite c157_inversion_confuses by assumption. split; intros (k & [H|H]); exists k; [left|right|left|right]; lra.
Qed.
(** So one time suffices for a prior that covers at most half a turn ... *)
Theorem c157_precession_half_turn t w w' : 0 < t -> 0 <= w * t <= PI -> 0 <= w' * t <= PI -> (forall o, prec_like t w o = prec_like t w' o) -> w = w'.
Proof.
  intros Ht H H' K. unfold prec_like in K. apply inv_alike in K. rewrite !Rminus_0_r in K. apply cos_inj in K; try lra. apply Rmult_eq_reg_l with t; lra.
Qed.
(** ... but no set of times with a common unit identifies a frequency among all. *)
Theorem c157_precession_aliases_refuted u w : 0 < u -> let w' := w + 2 * PI / u in w < w' /\ forall (n : nat) o, prec_like (INR n * u) w o = prec_like (INR n * u) w' o.
Proof.
  intros Hu w'. assert (0 < 2 * PI / u) by (apply Rdiv_lt_0_compat; pose proof PI_RGT_0; lra). split; [unfold w'; lra|]. intros n. apply inv_alike. rewrite !Rminus_0_r. apply cos_eq. exists (- Z.of_nat n)%Z. left.
  rewrite opp_IZR, <- INR_IZR_INZ. unfold w'. field. lra.
Qed.
(** Two inversion frequencies break the mirror symmetry. *)
Theorem c157_two_inversions t1 t2 w1 w2 w w' : 0 < t1 -> 0 < t2 -> w1 <> w2 -> Rabs (t1 * (w - w1)) <= PI -> Rabs (t1 * (w' - w1)) <= PI -> Rabs (t2 * (w - w2)) <= PI -> Rabs (t2 * (w' - w2)) <= PI ->
  (forall o, inv_like t1 w1 w o = inv_like t1 w1 w' o) -> (forall o, inv_like t2 w2 w o = inv_like t2 w2 w' o) -> w = w'.
Proof.
  intros H1 H2 Hne A1 A1' A2 A2' K1 K2. apply inv_alike in K1, K2.
  assert (G : forall a b, Rabs a <= PI -> Rabs b <= PI -> cos a = cos b -> Rabs a = Rabs b).
  { intros a b Ha Hb H. apply cos_inj; [split; [apply Rabs_pos|assumption]|split; [apply Rabs_pos|assumption]|]. unfold Rabs. destruct (Rcase_abs a), (Rcase_abs b); rewrite ?cos_neg; assumption. }
  apply G in K1; [|assumption|assumption]. apply G in K2; [|assumption|assumption]. rewrite !Rabs_mult in K1, K2. rewrite !(Rabs_pos_eq t1) in K1 by lra. rewrite !(Rabs_pos_eq t2) in K2 by lra.
  apply Rmult_eq_reg_l in K1; [|lra]. apply Rmult_eq_reg_l in K2; [|lra]. destruct (Req_dec w w') as [|D]; [assumption|]. exfalso. apply Hne.
  unfold Rabs in K1, K2. destruct (Rcase_abs (w - w1)), (Rcase_abs (w' - w1)), (Rcase_abs (w - w2)), (Rcase_abs (w' - w2)); lra.
Qed.

(** ** Unknown T2 *)
Lemma t2_pr0_cos t w r : t2_pr0 t w r = 1 / 2 + exp (- t * r) * cos (w * t) / 2.
Proof. unfold t2_pr0. replace (w * t) with (2 * (w * t / 2)) at 2 by field. rewrite cos_2a_cos. simpl. field. Qed.
(** A time and its double identify frequency and decay. *)
Theorem c157_t2 t w r w' r' : 0 < t -> 0 <= w * t <= PI -> 0 <= w' * t <= PI ->
  (forall o, t2_like t w r o = t2_like t w' r' o) -> (forall o, t2_like (2 * t) w r o = t2_like (2 * t) w' r' o) -> w = w' /\ r = r'.
Proof.
  intros Ht H H' K1 K2. specialize (K1 0%Z). specialize (K2 0%Z). unfold t2_like, pr0_like in K1, K2. cbn [Z.eqb] in K1, K2. rewrite !t2_pr0_cos in K1, K2.
  replace (w * (2 * t)) with (2 * (w * t)) in K2 by ring. replace (w' * (2 * t)) with (2 * (w' * t)) in K2 by ring. rewrite !cos_2a_cos in K2.
  assert (Ex : forall x, exp (- (2 * t) * x) = exp (- t * x) * exp (- t * x)) by (intros x; rewrite <- exp_plus; f_equal; ring). rewrite !Ex in K2.
  pose proof (exp_pos (- t * r)) as P. pose proof (exp_pos (- t * r')) as P'. set (d := exp (- t * r)) in *. set (d' := exp (- t * r')) in *. set (x := cos (w * t)) in *. set (x' := cos (w' * t)) in *.
  assert (E1 : d * x = d' * x') by lra. assert (E2 : d * d = d' * d'). { assert ((d * x) * (d * x) = (d' * x') * (d' * x')) by (now rewrite E1). nra. }
  assert (Ed : d = d') by nra. assert (Ex' : x = x') by (rewrite <- Ed in E1; apply Rmult_eq_reg_l with d; lra). split.
  - apply Rmult_eq_reg_r with t; [|lra]. apply cos_inj; assumption.
  - unfold d, d' in Ed. apply exp_inv in Ed. apply Rmult_eq_reg_l with (- t); lra.
Qed.
(** A single time does not. *)
Theorem c157_t2_one_time_refuted : t2_valid 0 (ln 2) = true /\ t2_valid (PI / 3) 0 = true /\ forall o, t2_like 1 0 (ln 2) o = t2_like 1 (PI / 3) 0 o.
Proof.
  pose proof PI_RGT_0. assert (0 < ln 2) by (rewrite <- ln_1; apply ln_increasing; lra). split; [unfold t2_valid; rewrite !Rleb_true by lra; reflexivity|]. split; [unfold t2_valid; rewrite !Rleb_true by lra; reflexivity|].
  intros o. unfold t2_like. rewrite !t2_pr0_cos. f_equal. replace (- (1) * ln 2) with (- ln 2) by ring. rewrite exp_Ropp, exp_ln by lra. rewrite !Rmult_0_l, cos_0, !Rmult_1_r, Rmult_0_r, exp_0, cos_PI3. lra.
Qed.

(** ** Coins and dice *)
Theorem c157_noisy_coin a b p p' : (forall o, noisy_like a b p o = noisy_like a b p' o) <-> a = b \/ p = p'.
Proof.
  split.
  - intros H. specialize (H 0%Z). unfold noisy_like, pr0_like in H. cbn [Z.eqb] in H. assert (K : (a - b) * (p - p') = 0) by lra. apply Rmult_integral in K. destruct K; [left|right]; lra.
  - intros [-> | ->] o; [|reflexivity]. unfold noisy_like. f_equal. ring.
Qed.
Theorem c157_die p p' : length p = length p' -> (forall o, (o < length p)%nat -> die_like p o = die_like p' o) -> p = p'.
Proof. intros HL H. apply nth_ext with (d := 0) (d' := 0); [assumption|exact H]. Qed.
(** Repeated measurements of a two-outcome model identify what single ones do. *)
Theorem c157_binomial n p p' : (0 < n)%nat -> 0 <= p <= 1 -> 0 <= p' <= 1 -> (forall k, (k <= n)%nat -> binomial_pdf n k p = binomial_pdf n k p') -> p = p'.
Proof.
  intros Hn Hp Hp' H. specialize (H n (Nat.le_refl n)). unfold binomial_pdf, scipy_binom_pmf in H. rewrite !Rleb_true in H by lra. cbn [andb] in H. injection H as H. rewrite Nat.sub_diag in H. cbn [pow] in H.
  rewrite binom_diag in H. cbn [INR] in H.
  assert (K : p ^ n = p' ^ n) by lra.
  assert (M : forall x y, 0 <= x < y -> forall m, 0 <= x ^ S m < y ^ S m).
  { intros x y Hxy. induction m as [|m IH]; [cbn; lra|]. change (x ^ S (S m)) with (x * x ^ S m). change (y ^ S (S m)) with (y * y ^ S m). set (a := x ^ S m) in *. set (b := y ^ S m) in *. clearbody a b. nra. }
  destruct n as [|n]; [lia|]. destruct (Rtotal_order p p') as [L|[L|L]]; [|assumption|]; exfalso; [pose proof (M p p' ltac:(lra) n)|pose proof (M p' p ltac:(lra) n)]; lra.
Qed.

(** ** Tomography *)
Definition vadd (x v : list R) : list R := map2 Rplus x v.
Lemma rdot_vadd m : forall x v, length x = length v -> rdot m (vadd x v) = rdot m x + rdot m v.
Proof. induction m as [|a m IH]; intros [|b x] [|d v] HL; try discriminate HL; rewrite ?rdot_nil_l, ?rdot_nil_r; try (cbn; rewrite ?rdot_nil_r; ring). unfold vadd. cbn [map2]. rewrite !rdot_cons. fold (vadd x v). rewrite IH by (cbn in HL; lia). ring. Qed.
Lemma tomo_inside m x : 0 < tomo_like m x 0 -> 0 < tomo_like m x 1 -> tomo_like m x 1 = rdot m x.
Proof. unfold tomo_like, pr0_like, clip. cbn [Z.eqb]. unfold Rmin, Rmax. repeat destruct (Rle_dec _ _); lra. Qed.
(** Measurements that span the space identify every state whose outcomes all occur. *)
Theorem c157_tomography d meas x y : Forall (fun m => length m = d) meas -> length x = d -> length y = d ->
  (forall v, length v = d -> (forall m, In m meas -> rdot m v = 0) -> v = repeat 0 d) ->
  (forall m o, In m meas -> o = 0%Z \/ o = 1%Z -> 0 < tomo_like m x o /\ tomo_like m x o = tomo_like m y o) -> x = y.
Proof.
  intros F Lx Ly Sp H. assert (Z0 : vadd x (map Ropp y) = repeat 0 d).
  { apply Sp; [unfold vadd; rewrite map2_length; rewrite ?map_length; lia|]. intros m Hm. rewrite rdot_vadd by (rewrite map_length; lia).
    destruct (H m 0%Z Hm ltac:(auto)) as [A0 B0]. destruct (H m 1%Z Hm ltac:(auto)) as [A1 B1].
    assert (X := tomo_inside m x A0 A1). rewrite B0 in A0. rewrite B1 in A1. assert (Y := tomo_inside m y A0 A1). assert (N : rdot m (map Ropp y) = - rdot m y).
    { clear. revert y. induction m as [|a m IH]; intros [|b y]; cbn [map]; rewrite ?rdot_nil_l, ?rdot_nil_r, ?rdot_cons; try ring. rewrite IH. ring. }
    rewrite N. lra. }
  clear - Z0 Lx Ly. revert x y Lx Ly Z0. induction d as [|d IH]; intros [|a x] [|b y] Lx Ly Z0; try discriminate; [reflexivity|]. unfold vadd in Z0. cbn in Z0. injection Z0 as Z1 Z2. f_equal; [lra|]. apply IH; [cbn in Lx; lia|cbn in Ly; lia|exact Z2].
Qed.
(** Along a direction that all measurements are orthogonal to, nothing is ever seen. *)
Theorem c157_tomography_refuted meas x v : length x = length v -> (forall m, In m meas -> rdot m v = 0) -> forall m o, In m meas -> tomo_like m (vadd x v) o = tomo_like m x o.
Proof. intros HL H m o Hm. unfold tomo_like. now rewrite rdot_vadd, H, Rplus_0_r by assumption. Qed.

(** ** Examples *)
Definition ex_prec (o : Z) (x : loc) (t : unit) : R := prec_like 1 (nth 0 x 0) o.
Definition ex_freqs : @state Z := {| ws := [1/2; 1/2]; ls := [[PI / 3]; [PI / 2]]; drec := []; nrec := []; mness := PInf; rcnt := 0; jr := false; calls := 0 |}.
Lemma ex_prec_value o x : ex_prec o x tt = if Z.eqb o 0 then (1 + cos (nth 0 x 0)) / 2 else (1 - cos (nth 0 x 0)) / 2.
Proof. unfold ex_prec, prec_like, inv_like, pr0_like. rewrite inv_pr0_cos. rewrite Rminus_0_r, Rmult_1_l. destruct (Z.eqb o 0); lra. Qed.
(** Precession for time 1, frequencies pi/3 and pi/2, the latter true: the mean converges to pi/2. *)
Example id_precession : tends (fun n => Sum 2 (fun i => wt (run (ex_config ex_prec) ex_freqs (updates (fun _ => tt) 0 (map alternating (seq 0 n)))) i * nth 0 (at_ ex_freqs i) 0)) (PI / 2).
Proof.
  assert (Ep : eps <= 1/32). { unfold eps. replace (1/32) with (/ 2 ^ 5) by lra. apply Rinv_le_contravar; [apply pow_lt; lra|]. apply Rle_pow; [lra|lia]. } pose proof PI_RGT_0 as Hpi.
  apply (c157_learned (ex_config ex_prec) (fun _ => tt) ex_freqs (fun _ => [0; 1]%Z) [tt] (fun _ => 1) dec_zu alternating 1 (fun x => nth 0 x 0)).
  - intros x [] _ _. unfold SumL. cbn [map ex_config md lik fold_right]. rewrite !ex_prec_value. cbn. lra.
  - constructor.
    + apply ex_good. intros o x []. rewrite ex_prec_value. pose proof (COS_bound (nth 0 x 0)). destruct (Z.eqb o 0); lra.
    + cbn. lra.
    + reflexivity.
    + split; [reflexivity|split; [repeat constructor; lra|cbn; rewrite !rsum_cons, rsum_nil; lra]].
    + intros x [] o Hx _ Ho. cbn [ex_config md lik]. rewrite ex_prec_value. destruct Hx as [<- | [<- | []]]; cbn [nth]; rewrite ?cos_PI2, ?cos_PI3; destruct (Z.eqb o 0); lra.
    + cbn. repeat constructor; cbn; intuition congruence.
    + intros k. unfold alternating. destruct (Nat.even k); cbn; auto.
    + intros [] o _ Ho. cbn [ex_config md lik]. rewrite ex_prec_value. cbn [at_ ex_freqs ls nth]. unfold at_. cbn [ls ex_freqs nth]. rewrite cos_PI2. cut (tends (freq dec_zu alternating (o, tt)) (1 / 2)); [|apply alternating_freq; cbn in Ho; intuition]. intros K. destruct (Z.eqb o 0); eapply eq_ind; try exact K; lra.
  - intros; lra.
  - cbn. lia.
  - cbn. lra.
  - intros x Hx Al. unfold at_. cbn [ls ex_freqs nth]. apply (c157_precession_half_turn 1).
    + lra.
    + destruct Hx as [<- | [<- | []]]; cbn [nth]; lra.
    + lra.
    + intros o. assert (Z1 : forall z, In z [0; 1]%Z -> ex_prec z x tt = ex_prec z [PI / 2] tt) by (intros z Hz; exact (Al tt z (conj (or_introl eq_refl) Rlt_0_1) Hz)).
      pose proof (Z1 0%Z ltac:(cbn; auto)) as K0. unfold ex_prec, prec_like, inv_like, pr0_like in *. cbn [Z.eqb nth] in K0. cbn [nth]. now rewrite K0.
Qed.
Example id_tomography : let meas := [[1/2; 1/2]; [1/2; -1/2]; [1/2; 0]] in forall v, length v = 2%nat -> (forall m, In m meas -> rdot m v = 0) -> v = repeat 0 2.
Proof. intros meas [|a [|b [|]]] HL H; try discriminate. pose proof (H [1/2; 1/2] ltac:(cbn; auto)) as H1. pose proof (H [1/2; -1/2] ltac:(cbn; auto)) as H2. rewrite !rdot_cons, rdot_nil_l in H1, H2. cbn. repeat f_equal; lra. Qed.

Print Assumptions c157_learned.
Print Assumptions c157_never_learned.
Print Assumptions c157_inversion_confuses.
Print Assumptions c157_precession_confuses.
Print Assumptions c157_precession_half_turn.
Print Assumptions c157_precession_aliases_refuted.
Print Assumptions c157_two_inversions.
Print Assumptions c157_t2.
Print Assumptions c157_t2_one_time_refuted.
Print Assumptions c157_noisy_coin.
Print Assumptions c157_die.
Print Assumptions c157_binomial.
Print Assumptions c157_tomography.
Print Assumptions c157_tomography_refuted.
