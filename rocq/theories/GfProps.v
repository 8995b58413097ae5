(** C121: smoothed posterior marginals. *)
From Verif Require Import Base RList Ext Sums SmcModel PartModel PartSpec RoModel RoSpec RoProofs RoProofs2 RoProofs3 FltProofs GfModel GfSpec GfProofs.
From Coq Require Import List.

(** No smoothing requested: the values of C79 are returned as they are *)
Theorem c121_off s w (l : list loc) idx n sm rmin rmax : sm <= 0 ->
  posterior_marginal_smoothed s w l idx n sm rmin rmax = posterior_marginal s w l idx n rmin rmax.
Proof.
  intros H. unfold posterior_marginal_smoothed. rewrite (Rltb_false 0 sm) by lra. destruct (posterior_marginal s w l idx n rmin rmax) as [[ps pr]|e]; reflexivity.
Qed.

Lemma range_values s (w : list R) (l : list loc) idx rmin rmax a b : length l = length w -> argsorts s (col idx l) ->
  endpoint rmin (is_min (length w) (coord l idx)) a -> endpoint rmax (is_max (length w) (coord l idx)) b ->
  marginal_range s l idx rmin rmax = (a, b).
Proof.
  intros Hl Hs Ha Hb. destruct (argsorts_mono s w l idx Hl Hs) as [Hp _]. unfold marginal_range. f_equal.
  - destruct rmin as [r|]; cbn in Ha; [now symmetry|]. exact (is_min_unique s (length w) (coord l idx) a Hp Ha).
  - destruct rmax as [r|]; cbn in Hb; [now symmetry|]. exact (is_max_unique s (length w) (coord l idx) b Hp Hb).
Qed.
Lemma trapz_index h n (p : list R) : (2 <= n)%nat -> length p = n -> trapz h p = h * (Sum n (fun i => nth i p 0) - (nth 0 p 0 + nth (n - 1) p 0) / 2).
Proof.
  intros Hn Hp. unfold trapz. rewrite Hp. destruct n as [|[|n]]; [lia|lia|]. replace (S (S n) - 1)%nat with (S n) by lia.
  rewrite (trapz_sum n h (fun i => nth i p 0)). rewrite Sum_S, Sum_end. rewrite Sum_scal. field.
Qed.
Lemma term_le_sum n (f : nat -> R) : (forall i, (i < n)%nat -> 0 <= f i) -> forall k, (k < n)%nat -> f k <= Sum n f.
Proof.
  induction n as [|m IH]; intros Hf k Hk; [lia|]. rewrite Sum_end. assert (0 <= Sum m f) by (apply Sum_nonneg; intros; apply Hf; lia).
  destruct (Nat.eq_dec k m) as [->|]; [lra|]. specialize (IH ltac:(intros; apply Hf; lia) k ltac:(lia)). specialize (Hf m ltac:(lia)). lra.
Qed.
Lemma smoothed_value s w (l : list loc) idx n sm rmin rmax a b :
  prob_vector w -> length l = length w -> argsorts s (col idx l) -> (2 <= n)%nat ->
  endpoint rmin (is_min (length w) (coord l idx)) a -> endpoint rmax (is_max (length w) (coord l idx)) b -> a < b ->
  (forall i, (i < length w)%nat -> coord l idx i <= b + (b - a)) -> 0 < sm ->
  let h := (b - a) / INR (n - 1) in
  exists ps p q, posterior_marginal s w l idx n rmin rmax = Ok (ps, map Fin p) /\
    posterior_marginal_smoothed s w l idx n sm rmin rmax = Ok (ps, map Fin q) /\ length p = n /\ length q = n /\
    (forall i, (i < n)%nat -> 0 <= nth i p 0) /\
    gaussian_average n (fun i => nth i p 0) (fun i => nth i q 0) h (sm * (INR n / INR (n - 1))) (kernel_radius (INR n * sm / (b - a))).
Proof.
  intros Hw Hl Hs Hn Ha Hb Hab He Hsm h.
  destruct (marginal s w l idx n rmin rmax a b Hw Hl Hs Hn Ha Hb Hab He) as (ps & p & F & E & _ & Lp & _ & Hp & _).
  assert (N1 : 0 < INR (n - 1)) by (apply lt_0_INR; lia). assert (N0 : 0 < INR n) by (apply lt_0_INR; lia).
  assert (Hh : 0 < h) by (unfold h; apply Rdiv_lt_0_compat; lra).
  assert (Hsg : 0 < INR n * sm / (b - a)) by (apply Rdiv_lt_0_compat; [nra|lra]).
  destruct (filter_average p (INR n * sm / (b - a)) h Hsg Hh ltac:(lia)) as (q & Eq & Lq & G).
  exists ps, p, q. split; [exact E|]. split.
  - unfold posterior_marginal_smoothed. rewrite E. cbn [bind]. rewrite (Rltb_true 0 sm) by assumption. rewrite (range_values s w l idx rmin rmax a b Hl Hs Ha Hb).
    rewrite Rabs_pos_eq by lra. rewrite Reqb_false by lra. now rewrite Eq.
  - split; [assumption|]. split; [congruence|]. split; [exact Hp|]. rewrite Lp in G.
    replace (sm * (INR n / INR (n - 1))) with (INR n * sm / (b - a) * h); [exact G|]. unfold h. field. lra.
Qed.

(** The smoothed values are averages of the plain ones over a Gaussian whose standard deviation is
    smoothing * res/(res-1) in the units of the parameter, cut off after about four standard deviations *)
Theorem c121_smoothed s w (l : list loc) idx n sm rmin rmax a b :
  prob_vector w -> length l = length w -> argsorts s (col idx l) -> (2 <= n)%nat ->
  endpoint rmin (is_min (length w) (coord l idx)) a -> endpoint rmax (is_max (length w) (coord l idx)) b -> a < b ->
  (forall i, (i < length w)%nat -> coord l idx i <= b + (b - a)) -> 0 < sm ->
  let h := (b - a) / INR (n - 1) in let sd := sm * (INR n / INR (n - 1)) in
  exists ps p q r, posterior_marginal s w l idx n rmin rmax = Ok (ps, map Fin p) /\
    posterior_marginal_smoothed s w l idx n sm rmin rmax = Ok (ps, map Fin q) /\ length q = n /\
    gaussian_average n (fun i => nth i p 0) (fun i => nth i q 0) h sd r /\
    (INR r - 1/2) * h <= 4 * sd < (INR r + 1/2) * h.
Proof.
  intros Hw Hl Hs Hn Ha Hb Hab He Hsm h sd.
  destruct (smoothed_value s w l idx n sm rmin rmax a b Hw Hl Hs Hn Ha Hb Hab He Hsm) as (ps & p & q & E & E' & Lp & Lq & _ & G).
  exists ps, p, q, (kernel_radius (INR n * sm / (b - a))). refine (conj E (conj E' (conj Lq (conj G _)))).
  assert (N1 : 0 < INR (n - 1)) by (apply lt_0_INR; lia). assert (N0 : 0 < INR n) by (apply lt_0_INR; lia).
  assert (Hh : 0 < h) by (unfold h; apply Rdiv_lt_0_compat; lra).
  assert (Hsg : 0 < INR n * sm / (b - a)) by (apply Rdiv_lt_0_compat; [nra|lra]).
  pose proof (radius_value _ Hsg) as [R1 R2]. replace sd with (INR n * sm / (b - a) * h) by (unfold sd, h; field; lra).
  set (sg := INR n * sm / (b - a)) in *. set (r := INR (kernel_radius sg)) in *. clearbody sg r h. split; nra.
Qed.
(** Non-negative values stay so, the total over the grid is kept, no value leaves the range of the plain values,
    and the values come no further apart *)
Theorem c121_conserved s w (l : list loc) idx n sm rmin rmax a b :
  prob_vector w -> length l = length w -> argsorts s (col idx l) -> (2 <= n)%nat ->
  endpoint rmin (is_min (length w) (coord l idx)) a -> endpoint rmax (is_max (length w) (coord l idx)) b -> a < b ->
  (forall i, (i < length w)%nat -> coord l idx i <= b + (b - a)) -> 0 < sm ->
  exists ps p q, posterior_marginal s w l idx n rmin rmax = Ok (ps, map Fin p) /\
    posterior_marginal_smoothed s w l idx n sm rmin rmax = Ok (ps, map Fin q) /\ length q = n /\
    (forall i, (i < n)%nat -> 0 <= nth i q 0) /\
    Sum n (fun i => nth i q 0) = Sum n (fun i => nth i p 0) /\
    (forall lo hi, (forall i, (i < n)%nat -> lo <= nth i p 0 <= hi) -> forall i, (i < n)%nat -> lo <= nth i q 0 <= hi) /\
    Sum n (fun i => nth i q 0 * nth i q 0) <= Sum n (fun i => nth i p 0 * nth i p 0) /\
    (let h := (b - a) / INR (n - 1) in
     trapz h q = trapz h p + h * ((nth 0 p 0 - nth 0 q 0) + (nth (n - 1) p 0 - nth (n - 1) q 0)) / 2).
Proof.
  intros Hw Hl Hs Hn Ha Hb Hab He Hsm.
  destruct (smoothed_value s w l idx n sm rmin rmax a b Hw Hl Hs Hn Ha Hb Hab He Hsm) as (ps & p & q & E & E' & Lp & Lq & Hp & G).
  exists ps, p, q. assert (Hn0 : (0 < n)%nat) by lia. pose proof (average_range n _ _ _ _ _ Hn0 G) as AR. pose proof (average_total n _ _ _ _ _ Hn0 G) as T.
  cbv beta in AR, T. refine (conj E (conj E' (conj Lq (conj _ (conj T (conj AR (conj (average_squares n _ _ _ _ _ Hn0 G) _))))))).
  - intros i Hi. assert (B : exists hi, forall i, (i < n)%nat -> nth i p 0 <= hi).
    { exists (Sum n (fun i => nth i p 0)). intros k Hk. now apply (term_le_sum n (fun i => nth i p 0)). }
    destruct B as (hi & B). apply (AR 0 hi); [|assumption]. intros k Hk. split; [now apply Hp|now apply B].
  - intros h. rewrite !(trapz_index h n) by assumption. rewrite T. field.
Qed.
(** A width below an eighth of the grid's reach leaves everything unchanged *)
Theorem c121_small s w (l : list loc) idx n sm rmin rmax a b :
  prob_vector w -> length l = length w -> argsorts s (col idx l) -> (2 <= n)%nat ->
  endpoint rmin (is_min (length w) (coord l idx)) a -> endpoint rmax (is_max (length w) (coord l idx)) b -> a < b ->
  (forall i, (i < length w)%nat -> coord l idx i <= b + (b - a)) -> 8 * INR n * sm < b - a ->
  posterior_marginal_smoothed s w l idx n sm rmin rmax = posterior_marginal s w l idx n rmin rmax.
Proof.
  intros Hw Hl Hs Hn Ha Hb Hab He Hsm. destruct (Rle_dec sm 0) as [H0|H0]; [now apply c121_off|]. apply Rnot_le_lt in H0.
  destruct (smoothed_value s w l idx n sm rmin rmax a b Hw Hl Hs Hn Ha Hb Hab He H0) as (ps & p & q & E & E' & Lp & Lq & Hp & G).
  rewrite E, E'. do 3 f_equal. apply (nth_ext _ _ 0 0); [congruence|]. intros i Hi. apply (average_radius_zero n _ _ _ _ _ G); [|lia].
  assert (N0 : 0 < INR n) by (apply lt_0_INR; lia). assert (Hsg : 0 < INR n * sm / (b - a)) by (apply Rdiv_lt_0_compat; [nra|lra]).
  pose proof (radius_value _ Hsg) as [R1 R2]. assert (INR n * sm / (b - a) < 1 / 8).
  { apply (Rmult_lt_reg_r (b - a)); [lra|]. unfold Rdiv. rewrite Rmult_assoc, Rinv_l by lra. lra. }
  assert (INR (kernel_radius (INR n * sm / (b - a))) < 1) by lra. change 1 with (INR 1) in H1. apply INR_lt in H1. lia.
Qed.
(** A range of length zero cannot be smoothed *)
Theorem c121_zero_range s (w : list R) (l : list loc) idx n sm a : s <> [] -> (2 <= n)%nat -> 0 < sm ->
  posterior_marginal_smoothed s w l idx n sm (Some a) (Some a) = Err OverflowError.
Proof.
  intros Hs Hn Hsm. unfold posterior_marginal_smoothed, posterior_marginal. destruct (map _ s) eqn:E; [apply map_eq_nil in E; contradiction|].
  destruct (Nat.ltb_spec n 2); [lia|]. cbn [bind]. rewrite (Rltb_true 0 sm) by assumption. cbn [marginal_range].
  rewrite Rminus_diag_eq by reflexivity. rewrite Rabs_R0. now rewrite Reqb_true by reflexivity.
Qed.
Theorem c121_coinciding s (w : list R) (l : list loc) idx n sm c : (0 < length w)%nat -> length l = length w -> argsorts s (col idx l) -> (2 <= n)%nat -> 0 < sm ->
  (forall i, (i < length w)%nat -> coord l idx i = c) ->
  posterior_marginal_smoothed s w l idx n sm None None = Err OverflowError.
Proof.
  intros Hw Hl Hs Hn Hsm Hc. destruct (marginal_nan s w l idx n c Hw Hl Hs Hn Hc) as (ps & pr & E & _).
  assert (I : is_min (length w) (coord l idx) c) by (split; [exists 0%nat; split; [assumption|now apply Hc]|intros i Hi; rewrite Hc by assumption; lra]).
  assert (X : is_max (length w) (coord l idx) c) by (split; [exists 0%nat; split; [assumption|now apply Hc]|intros i Hi; rewrite Hc by assumption; lra]).
  unfold posterior_marginal_smoothed. rewrite E. cbn [bind]. rewrite (Rltb_true 0 sm) by assumption.
  rewrite (range_values s w l idx None None c c Hl Hs I X). rewrite Rminus_diag_eq by reflexivity. rewrite Rabs_R0. now rewrite Reqb_true by reflexivity.
Qed.

(** One particle at 3/2 on the grid 0, 1, 2, 3, smoothed by 1/4 *)
Lemma one_prob : prob_vector [1]. Proof. split; [repeat constructor; lra|unfold rsum; cbn; lra]. Qed.
Lemma one_sorted : argsorts [0%nat] (col 0 [[3/2]]). Proof. split; [cbn; apply Permutation_refl|]. intros [|x] [|y] H; cbn in *; lra || lia. Qed.
Lemma one_particle : exists q, 
  posterior_marginal [0%nat] [1] [[3/2]] 0 4 (Some 0) (Some 3) = Ok ([0; 1; 2; 3], map Fin [0; 1/2; 1/2; 0]) /\
  posterior_marginal_smoothed [0%nat] [1] [[3/2]] 0 4 (1/4) (Some 0) (Some 3) = Ok ([0; 1; 2; 3], map Fin q) /\ length q = 4%nat /\
  gaussian_average 4 (fun i => nth i [0; 1/2; 1/2; 0] 0) (fun i => nth i q 0) 1 (1/3) 1.
Proof.
  assert (Hc : forall i, (i < length [1])%nat -> coord [[3/2]] 0 i <= 3 + (3 - 0)) by (intros [|i] Hi; cbn in *; lra || lia).
  destruct (smoothed_value [0%nat] [1] [[3/2]] 0 4 (1/4) (Some 0) (Some 3) 0 3 one_prob eq_refl one_sorted ltac:(lia) eq_refl eq_refl ltac:(lra) Hc ltac:(lra)) as (ps & p & q & E & E' & Lp & Lq & _ & G).
  destruct (marginal_pointwise [0%nat] [1] [[3/2]] 0 4 (Some 0) (Some 3) 0 3 one_prob eq_refl one_sorted ltac:(lia) eq_refl eq_refl ltac:(lra) Hc)
    as (ps' & p' & F & E1 & Lps & _ & Hps & P0 & P3 & Pm & Z & O & _). rewrite E in E1. injection E1 as <- E1.
  assert (p' = p) as ->. { revert E1. clear. revert p'. induction p as [|x p IH]; intros [|y p'] H; try discriminate; [reflexivity|]. injection H as -> H. f_equal. now apply IH. }
  change (4 - 1)%nat with 3%nat in *. assert (I3 : INR 3 = 3) by (cbn [INR]; ring). assert (I4 : INR 4 = 4) by (cbn [INR]; ring). rewrite I3 in *. rewrite I4 in *. replace ((3 - 0) / 3) with 1 in * by field.
  assert (F0 : forall x, x < 3/2 -> F x = 0) by (intros x Hx; apply Z; intros [|i] Hi; [exact Hx|cbn in Hi; lia]).
  assert (F1 : forall x, 3/2 <= x <= 3 -> F x = 1) by (intros x Hx; apply O; [intros [|i] Hi; [apply Hx|cbn in Hi; lia]|lra]).
  assert (Q0 : nth 0 ps 0 = 0) by (rewrite Hps by lia; cbn [INR]; ring). assert (Q1 : nth 1 ps 0 = 1) by (rewrite Hps by lia; cbn [INR]; ring).
  assert (Q2 : nth 2 ps 0 = 2) by (rewrite Hps by lia; cbn [INR]; ring). assert (Q3 : nth 3 ps 0 = 3) by (rewrite Hps by lia; cbn [INR]; ring).
  assert (Eps : ps = [0; 1; 2; 3]). { apply (nth_ext _ _ 0 0); [now rewrite Lps|]. rewrite Lps. intros [|[|[|[|i]]]] Hi; [exact Q0|exact Q1|exact Q2|exact Q3|lia]. }
  assert (Ep : p = [0; 1/2; 1/2; 0]).
  { apply (nth_ext _ _ 0 0); [now rewrite Lp|]. rewrite Lp. intros [|[|[|[|i]]]] Hi; [| | | |lia].
    - rewrite P0, Q0, Q1, !F0 by lra. cbn [nth]. field.
    - rewrite (Pm 1%nat) by lia. cbn [Nat.add Nat.sub]. rewrite Q0, Q2, (F0 0), (F1 2) by lra. cbn [nth]. field.
    - rewrite (Pm 2%nat) by lia. cbn [Nat.add Nat.sub]. rewrite Q1, Q3, (F0 1), (F1 3) by lra. cbn [nth]. field.
    - rewrite P3. cbn [Nat.sub]. rewrite Q2, Q3, !F1 by lra. cbn [nth]. field. }
  exists q. rewrite <- Eps, <- Ep. refine (conj E (conj E' (conj Lq _))).
  replace (1/4 * (4/3)) with (1/3) in G by field. replace (4 * (1/4) / (3 - 0)) with (1/3) in G by field.
  replace (kernel_radius (1/3)) with 1%nat in G; [exact G|]. pose proof (radius_value (1/3) ltac:(lra)) as [R1 R2].
  destruct (kernel_radius (1/3)) as [|[|k]]; [cbn [INR] in R2; lra|reflexivity|]. rewrite !S_INR in R1. pose proof (pos_INR k). lra.
Qed.
(** The first smoothed value for a kernel of standard deviation [sd] cut off after one step *)
Lemma first_value q sd : gaussian_average 4 (fun i => nth i [0; 1/2; 1/2; 0] 0) q 1 sd 1 -> q 0%nat = bell sd 1 / 2 / (1 + 2 * bell sd 1).
Proof.
  intros (y & (H1 & H2 & _) & E). rewrite (E 0%nat) by lia. unfold SumZ. cbn [Nat.mul Nat.add]. rewrite !Sum_S, !Sum_0. cbn [Z.of_nat Z.sub Z.add Z.opp Z.pos_sub Pos.of_succ_nat Pos.succ].
  change (Z.pos (Pos.pred_double 1)) with 1%Z. rewrite (Rmult_1_l 1).
  replace (y (-1)%Z) with 0 by (change (-1)%Z with (-1 - Z.of_nat 0)%Z; rewrite H2, H1 by lia; reflexivity).
  replace (y 0%Z) with 0 by (change 0%Z with (Z.of_nat 0); rewrite H1 by lia; reflexivity).
  replace (y 1%Z) with (1/2) by (change 1%Z with (Z.of_nat 1); rewrite H1 by lia; reflexivity).
  replace (bell sd (-1 * 1)) with (bell sd 1) by (unfold bell; f_equal; f_equal; ring). replace (bell sd (0 * 1)) with 1.
  2:{ unfold bell. rewrite <- exp_0. f_equal. unfold Rdiv. ring. }
  rewrite Rmult_1_l. pose proof (bell_pos sd 1). field. lra.
Qed.
(** Smoothing does not keep the integral: here it drops below one *)
Theorem c121_integral_refuted : exists q,
  posterior_marginal [0%nat] [1] [[3/2]] 0 4 (Some 0) (Some 3) = Ok ([0; 1; 2; 3], map Fin [0; 1/2; 1/2; 0]) /\
  posterior_marginal_smoothed [0%nat] [1] [[3/2]] 0 4 (1/4) (Some 0) (Some 3) = Ok ([0; 1; 2; 3], map Fin q) /\
  trapz 1 [0; 1/2; 1/2; 0] = 1 /\ trapz 1 q < 1.
Proof.
  destruct one_particle as (q & E & E' & Lq & G). exists q. split; [exact E|]. split; [exact E'|].
  assert (T1 : trapz 1 [0; 1/2; 1/2; 0] = 1) by (rewrite (trapz_index 1 4) by (reflexivity || lia); rewrite !Sum_S, Sum_0; cbn [nth Nat.sub]; field).
  split; [exact T1|]. pose proof (average_total 4 _ _ _ _ _ ltac:(lia) G) as T. cbv beta in T. rewrite (trapz_index 1 4) by (assumption || lia). rewrite T.
  pose proof (average_range 4 _ _ _ _ _ ltac:(lia) G 0 (1/2)) as AR. cbv beta in AR. specialize (AR ltac:(intros [|[|[|[|i]]]] Hi; cbn; lra || lia) 3%nat ltac:(lia)).
  pose proof (first_value _ _ G) as Q. cbv beta in Q. pose proof (bell_pos (1/3) 1) as B.
  assert (0 < nth 0 q 0). { rewrite Q. apply Rdiv_lt_0_compat; lra. }
  rewrite !Sum_S, Sum_0. cbn [nth Nat.sub] in *. lra.
Qed.
(** The kernel is wider than the documented width *)
Theorem c121_width_refuted : exists q r,
  posterior_marginal [0%nat] [1] [[3/2]] 0 4 (Some 0) (Some 3) = Ok ([0; 1; 2; 3], map Fin [0; 1/2; 1/2; 0]) /\
  posterior_marginal_smoothed [0%nat] [1] [[3/2]] 0 4 (1/4) (Some 0) (Some 3) = Ok ([0; 1; 2; 3], map Fin q) /\
  gaussian_average 4 (fun i => nth i [0; 1/2; 1/2; 0] 0) (fun i => nth i q 0) 1 (1/3) r /\
  ~ gaussian_average 4 (fun i => nth i [0; 1/2; 1/2; 0] 0) (fun i => nth i q 0) 1 (1/4) r.
Proof.
  destruct one_particle as (q & E & E' & _ & G). exists q, 1%nat. refine (conj E (conj E' (conj G _))). intros G'.
  pose proof (first_value _ _ G) as Q. pose proof (first_value _ _ G') as Q'. cbv beta in Q, Q'. rewrite Q in Q'.
  assert (B1 : bell (1/4) 1 < bell (1/3) 1) by (unfold bell; apply exp_increasing; lra). pose proof (bell_pos (1/4) 1) as B0.
  set (u := bell (1/4) 1) in *. set (v := bell (1/3) 1) in *. clearbody u v.
  assert (C : v / 2 * (1 + 2 * u) = u / 2 * (1 + 2 * v)).
  { apply (f_equal (fun z => z * (1 + 2 * v) * (1 + 2 * u))) in Q'. replace (v / 2 / (1 + 2 * v) * (1 + 2 * v) * (1 + 2 * u)) with (v / 2 * (1 + 2 * u)) in Q' by (field; lra). rewrite Q'. field. lra. }
  lra.
Qed.
Example c121_example : prob_vector [1] /\ argsorts [0%nat] (col 0 [[3/2]]) /\ (forall i, (i < 1)%nat -> coord [[3/2]] 0 i <= 3 + (3 - 0)) /\ 8 * INR 4 * (1/16) < 3 - 0.
Proof. refine (conj one_prob (conj one_sorted (conj _ _))); [intros [|i] Hi; cbn; lra || lia|cbn [INR]; lra]. Qed.

Print Assumptions c121_off.
Print Assumptions c121_smoothed.
Print Assumptions c121_conserved.
Print Assumptions c121_small.
Print Assumptions c121_zero_range.
Print Assumptions c121_coinciding.
Print Assumptions c121_integral_refuted.
Print Assumptions c121_width_refuted.
