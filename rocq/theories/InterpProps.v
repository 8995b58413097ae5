(** Theorems for properties C91 (interpolated distributions) and C92 (gradients of log densities). *)
From Verif Require Import Base RList Ext Sums RoModel PartProofs RoProofs LinProofs SmcModel MiscModel MiscSpec MiscProofs MiscProofs2 InterpModel MomSpec MomProofs MomProofs2.

(** ** C91.  The grid is equally spaced in the logistic coordinate, increasing and symmetric. *)
Definition logistic (scale x : R) : R := / (1 + exp (- (x / scale))).
Lemma nth_firstn_lt {A} (l : list A) n j d : (j < n)%nat -> nth j (firstn n l) d = nth j l d.
Proof. revert n j; induction l as [|a l IH]; intros [|n] [|j] H; try lia; try reflexivity. cbn. apply IH. lia. Qed.
Lemma compact_length scale n : length (compactspace scale n) = n.
Proof. unfold compactspace. rewrite map_length, firstn_length, skipn_length, linspace_length. lia. Qed.
Lemma compact_nth scale n i : (i < n)%nat -> nth i (compactspace scale n) 0 = logit scale (INR (i + 1) / INR (n + 1)).
Proof.
  intros Hi. unfold compactspace. set (l := firstn n (skipn 1 (linspace 0 1 (n + 2)))). assert (Ll : length l = n) by (unfold l; rewrite firstn_length, skipn_length, linspace_length; lia).
  rewrite (nth_indep _ 0 (logit scale 0)) by (rewrite map_length; lia). rewrite (map_nth (logit scale)). f_equal. unfold l. rewrite nth_firstn_lt by assumption.
  assert (E : nth i (skipn 1 (linspace 0 1 (n + 2))) 0 = nth (i + 1) (linspace 0 1 (n + 2)) 0).
  { rewrite Nat.add_1_r. destruct (linspace 0 1 (n + 2)) as [|a t]; [destruct i; reflexivity|reflexivity]. }
  rewrite E, linspace_nth by lia. replace (n + 2 - 1)%nat with (n + 1)%nat by lia. unfold Rdiv. ring.
Qed.
Lemma unit_point n i : (i < n)%nat -> 0 < INR (i + 1) / INR (n + 1) < 1.
Proof.
  intros H. assert (0 < INR (n + 1)) by (apply lt_0_INR; lia). assert (0 < INR (i + 1)) by (apply lt_0_INR; lia). assert (INR (i + 1) < INR (n + 1)) by (apply lt_INR; lia).
  split; [now apply Rdiv_lt_0_compat|]. apply Rmult_lt_reg_r with (INR (n + 1)); [assumption|]. unfold Rdiv. rewrite Rmult_assoc, Rinv_l by lra. lra.
Qed.
Lemma logistic_logit scale q : 0 < scale -> 0 < q < 1 -> logistic scale (logit scale q) = q.
Proof.
  intros Hs Hq. unfold logistic, logit. replace (- (scale * ln (q / (1 - q)) / scale)) with (- ln (q / (1 - q))) by (field; lra).
  rewrite exp_Ropp, exp_ln by (apply Rdiv_lt_0_compat; lra). field. lra.
Qed.
Theorem c91_grid scale n : 0 < scale -> length (compactspace scale n) = n /\
  (forall i, (i < n)%nat -> logistic scale (nth i (compactspace scale n) 0) = INR (i + 1) / INR (n + 1)) /\
  (forall i j, (i < j < n)%nat -> nth i (compactspace scale n) 0 < nth j (compactspace scale n) 0) /\
  (forall i, (i < n)%nat -> nth (n - 1 - i) (compactspace scale n) 0 = - nth i (compactspace scale n) 0).
Proof.
  intros Hs. split; [apply compact_length|]. split; [intros i Hi; rewrite compact_nth by assumption; apply logistic_logit; [assumption|now apply unit_point]|]. split.
  - intros i j [Hij Hj]. rewrite !compact_nth by lia. unfold logit. apply Rmult_lt_compat_l; [assumption|].
    assert (Hi : (i < n)%nat) by lia. pose proof (unit_point n i Hi) as Ui. pose proof (unit_point n j Hj) as Uj. set (p := INR (i + 1) / INR (n + 1)) in *. set (q := INR (j + 1) / INR (n + 1)) in *.
    assert (Hpq : p < q).
    { unfold p, q, Rdiv. apply Rmult_lt_compat_r; [apply Rinv_0_lt_compat, lt_0_INR; lia|apply lt_INR; lia]. }
    clearbody p q. apply ln_increasing; [apply Rdiv_lt_0_compat; lra|]. apply Rmult_lt_reg_r with ((1 - p) * (1 - q)); [apply Rmult_lt_0_compat; lra|].
    replace (p / (1 - p) * ((1 - p) * (1 - q))) with (p * (1 - q)) by (field; lra). replace (q / (1 - q) * ((1 - p) * (1 - q))) with (q * (1 - p)) by (field; lra). lra.
  - intros i Hi. rewrite !compact_nth by lia. unfold logit. pose proof (unit_point n i Hi) as U.
    assert (E : INR (n - 1 - i + 1) / INR (n + 1) = 1 - INR (i + 1) / INR (n + 1)).
    { assert (P : 0 < INR (n + 1)) by (apply lt_0_INR; lia). replace (n - 1 - i + 1)%nat with (n + 1 - (i + 1))%nat by lia. rewrite minus_INR by lia. field. lra. }
    rewrite E. set (p := INR (i + 1) / INR (n + 1)) in *. clearbody p.
    replace ((1 - p) / (1 - (1 - p))) with (/ (p / (1 - p))) by (field; lra). rewrite ln_Rinv by (apply Rdiv_lt_0_compat; lra). ring.
Qed.
(** The coordinate written in the docstring of compactspace takes the same value twice, so it cannot be the one that is equally spaced. *)
Theorem c91_documented_coordinate_refuted alpha : let s x := exp (- alpha * x) / (1 + exp (- alpha * x)) ^ 2 in forall x, s (- x) = s x.
Proof.
  intros s x. unfold s. replace (- alpha * - x) with (- (- alpha * x)) by ring. rewrite exp_Ropp. pose proof (exp_pos (- alpha * x)) as P. set (e := exp (- alpha * x)) in *. clearbody e. field. lra.
Qed.

(** The tabulated CDF rises from 0 to 1. *)
Lemma traps_cons f0 f1 fs x0 x1 xs : trapezoids (f0 :: f1 :: fs) (x0 :: x1 :: xs) = (x1 - x0) * (f1 + f0) / 2 :: trapezoids (f1 :: fs) (x1 :: xs).
Proof. reflexivity. Qed.
Lemma traps_nth fs xs : length fs = length xs -> length (trapezoids fs xs) = (length xs - 1)%nat /\
  forall i, (i < length xs - 1)%nat -> nth i (trapezoids fs xs) 0 = (nth (S i) xs 0 - nth i xs 0) * (nth (S i) fs 0 + nth i fs 0) / 2.
Proof.
  revert xs. induction fs as [|f0 fs IH]; intros [|x0 xs] H; cbn [length] in H; try discriminate; [split; [reflexivity|cbn; lia]|].
  destruct fs as [|f1 fs]; destruct xs as [|x1 xs]; cbn [length] in H; try discriminate; [split; [reflexivity|cbn; lia]|].
  destruct (IH (x1 :: xs) ltac:(cbn [length]; congruence)) as [L N]. rewrite traps_cons. split; [cbn [length] in *; rewrite L; lia|].
  intros [|i] Hi; [reflexivity|]. cbn [nth]. cbn [length] in Hi, N. apply N. lia.
Qed.
Lemma traps_scale fs xs c : length fs = length xs -> trapezoids (map (fun f => f / c) fs) xs = map (fun a => a / c) (trapezoids fs xs).
Proof.
  revert xs. induction fs as [|f0 fs IH]; intros [|x0 xs] H; cbn [length] in H; try discriminate; [reflexivity|].
  destruct fs as [|f1 fs]; destruct xs as [|x1 xs]; cbn [length] in H; try discriminate; [reflexivity|].
  rewrite traps_cons. cbn [map]. rewrite traps_cons. change (f1 / c :: map (fun f => f / c) fs) with (map (fun f => f / c) (f1 :: fs)). rewrite IH by (cbn [length]; congruence). f_equal. unfold Rdiv. ring.
Qed.
Section Table.
Context (pdf : R -> R) (xs : list R).
Hypothesis Hn : (2 <= length xs)%nat.
Hypothesis Hx : forall i, (S i < length xs)%nat -> nth i xs 0 < nth (S i) xs 0.
Hypothesis Hp : forall x, In x xs -> 0 <= pdf x.
Hypothesis Hz : trapz (map pdf xs) xs <> 0.
Let norm := trapz (map pdf xs) xs.
Let cs := cdf_table pdf xs.
Let area i := (nth (S i) xs 0 - nth i xs 0) * (pdf (nth (S i) xs 0) + pdf (nth i xs 0)) / 2.

Lemma pdf_nth i : (i < length xs)%nat -> nth i (map pdf xs) 0 = pdf (nth i xs 0).
Proof. intros H. rewrite (nth_indep _ 0 (pdf 0)) by (now rewrite map_length). apply map_nth. Qed.
Lemma area_nonneg i : (S i < length xs)%nat -> 0 <= area i.
Proof.
  intros H. pose proof (Hx i H). pose proof (Hp (nth i xs 0) ltac:(apply nth_In; lia)). pose proof (Hp (nth (S i) xs 0) ltac:(apply nth_In; lia)). unfold area.
  apply Rmult_le_pos; [apply Rmult_le_pos; lra|lra].
Qed.
Lemma cs_length : length cs = length xs.
Proof.
  unfold cs, cdf_table, cumtrapz. cbn [length]. rewrite cumsum_length. destruct (traps_nth (map (fun f => f / trapz (map pdf xs) xs) (map pdf xs)) xs) as [-> _]; [now rewrite !map_length|]. lia.
Qed.
Lemma traps_Sum k : (k < length xs)%nat -> rsum (firstn k (trapezoids (map pdf xs) xs)) = Sum k area.
Proof.
  intros H. destruct (traps_nth (map pdf xs) xs ltac:(now rewrite map_length)) as [L N]. rewrite <- (PartProofs.Sum_firstn _ k) by lia. apply Sum_ext. intros i Hi. rewrite N by lia. rewrite !pdf_nth by lia. reflexivity.
Qed.
Lemma norm_Sum : norm = Sum (length xs - 1) area.
Proof.
  unfold norm, trapz. destruct (traps_nth (map pdf xs) xs ltac:(now rewrite map_length)) as [L N]. rewrite <- traps_Sum by lia. rewrite firstn_all2 by lia. reflexivity.
Qed.
Lemma norm_pos : 0 < norm.
Proof. assert (0 <= norm) by (rewrite norm_Sum; apply Sum_nonneg; intros; apply area_nonneg; lia). fold norm in Hz. lra. Qed.
Lemma cs_nth k : (k < length xs)%nat -> nth k cs 0 = Sum k area / norm.
Proof.
  intros H. unfold cs, cdf_table, cumtrapz. fold norm. rewrite traps_scale by (now rewrite map_length). destruct (traps_nth (map pdf xs) xs ltac:(now rewrite map_length)) as [L N].
  destruct k as [|k]; [cbn [nth]; change (Sum 0 area) with 0; unfold Rdiv; ring|]. cbn [nth]. rewrite cumsum_nth by (rewrite map_length; lia). rewrite firstn_map.
  rewrite <- traps_Sum by assumption. unfold Rdiv. rewrite (rsum_map_scal_r (/ norm) (fun a => a)), map_id. reflexivity.
Qed.
Lemma Sum_mono_bound f m k : (k <= m)%nat -> (forall i, (i < m)%nat -> 0 <= f i) -> Sum k f <= Sum m f.
Proof.
  intros Hk Hf. induction m as [|m IH]; [replace k with 0%nat by lia; lra|]. destruct (Nat.eq_dec k (S m)) as [->|Hne]; [lra|].
  rewrite Sum_last. pose proof (Hf m ltac:(lia)). specialize (IH ltac:(lia) ltac:(intros; apply Hf; lia)). lra.
Qed.
Lemma cs_mono : mono cs.
Proof.
  intros a b [Hab Hb]. rewrite cs_length in Hb. rewrite !cs_nth by lia. unfold Rdiv. apply Rmult_le_compat_r; [left; apply Rinv_0_lt_compat, norm_pos|].
  apply Sum_mono_bound; [assumption|]. intros i Hi. apply area_nonneg. lia.
Qed.
Theorem c91_table : length (cdf_table pdf xs) = length xs /\ nth 0 (cdf_table pdf xs) 0 = 0 /\ nth (length xs - 1) (cdf_table pdf xs) 0 = 1 /\
  (forall i j, (i <= j < length xs)%nat -> nth i (cdf_table pdf xs) 0 <= nth j (cdf_table pdf xs) 0) /\
  (forall i, (S i < length xs)%nat -> nth (S i) (cdf_table pdf xs) 0 - nth i (cdf_table pdf xs) 0 = area i / trapz (map pdf xs) xs).
Proof.
  fold cs norm. pose proof norm_pos as P. split; [apply cs_length|]. split; [rewrite cs_nth by lia; change (Sum 0 area) with 0; unfold Rdiv; ring|].
  split; [rewrite cs_nth, <- norm_Sum by lia; field; lra|]. split.
  - intros i j H. apply cs_mono. now rewrite cs_length.
  - intros i Hi. rewrite !cs_nth by lia. rewrite Sum_last. unfold Rdiv. ring.
Qed.
(** Each sample lies on the grid's range, and the piecewise linear CDF through the table takes the value of the draw there;
    the cell of the sample has positive probability. *)
Theorem c91_inverse_transform u : 0 <= u < 1 -> exists x i, inv_cdf pdf xs u = Fin x /\ (S i < length xs)%nat /\ nth i xs 0 <= x <= nth (S i) xs 0 /\
  nth 0 xs 0 <= x <= nth (length xs - 1) xs 0 /\
  nth i (cdf_table pdf xs) 0 + (x - nth i xs 0) / (nth (S i) xs 0 - nth i xs 0) * (nth (S i) (cdf_table pdf xs) 0 - nth i (cdf_table pdf xs) 0) = u /\
  0 < pdf (nth i xs 0) + pdf (nth (S i) xs 0).
Proof.
  intros Hu. destruct c91_table as (L & C0 & C1 & M & D). fold cs in L, C0, C1, M, D |- *.
  assert (E0 : hd 0 cs = 0) by (now rewrite hd_nth). assert (E1 : last cs 0 = 1) by (rewrite last_nth, cs_length; exact C1).
  unfold inv_cdf. fold cs. destruct (Reqb_spec (trapz (map pdf xs) xs) 0) as [E|_]; [contradiction|]. rewrite E0, E1.
  rewrite (Rltb_false u 0) by lra. rewrite (Rltb_false 1 u) by lra. cbn [orb].
  assert (Mx : mono xs).
  { intros a b [Hab Hb]. induction b as [|b IH]; [replace a with 0%nat by lia; lra|]. destruct (Nat.eq_dec a (S b)) as [->|]; [lra|]. pose proof (Hx b Hb). specialize (IH ltac:(lia) ltac:(lia)). lra. }
  destruct (interp_char cs xs ltac:(now rewrite cs_length) ltac:(rewrite cs_length; lia) Mx u ltac:(rewrite E0, E1; lra)) as (j & Ej & Hj & Hjx & Hl & He & Hlt).
  rewrite cs_length in *. assert (Hj' : (j < length xs - 1)%nat). { destruct (Nat.eq_dec j (length xs - 1)) as [E|]; [|lia]. rewrite E, C1 in Hjx. lra. }
  destruct (Hlt Hj') as (H1 & H2 & H3). exists (interp1d cs xs u), j. split; [reflexivity|]. split; [lia|]. split; [lra|]. split.
  { pose proof (Mx 0%nat j ltac:(lia)). pose proof (Mx (S j) (length xs - 1)%nat ltac:(lia)). lra. }
  pose proof (Hx j ltac:(lia)) as Hd. assert (Hc : nth (S j) cs 0 - nth j cs 0 <> 0) by lra. split.
  - rewrite H3. field. split; lra.
  - pose proof (D j ltac:(lia)) as Da. pose proof (Hp (nth j xs 0) ltac:(apply nth_In; lia)). pose proof (Hp (nth (S j) xs 0) ltac:(apply nth_In; lia)).
    destruct (Req_dec (pdf (nth j xs 0) + pdf (nth (S j) xs 0)) 0) as [Z|]; [|lra]. exfalso. apply Hc. rewrite Da. unfold area. rewrite (Rplus_comm (pdf (nth (S j) xs 0))), Z. unfold Rdiv. ring.
Qed.
(** Larger draws give larger samples. *)
Theorem c91_monotone u v x y : 0 <= u <= v -> v < 1 -> inv_cdf pdf xs u = Fin x -> inv_cdf pdf xs v = Fin y -> x <= y.
Proof.
  intros Huv Hv Eu Ev. destruct (Req_dec u v) as [E|Hne]; [rewrite E, Ev in Eu; injection Eu as <-; lra|].
  destruct (c91_inverse_transform u ltac:(lra)) as (x' & i & Ex & Hi & Bx & _ & Fx & _). destruct (c91_inverse_transform v ltac:(lra)) as (y' & j & Ey & Hj & By & _ & Fy & _).
  rewrite Eu in Ex. injection Ex as <-. rewrite Ev in Ey. injection Ey as <-. destruct c91_table as (L & C0 & C1 & M & D).
  destruct (Rle_dec x y) as [|Hlt]; [assumption|exfalso].
  assert (Mx : mono xs).
  { intros a b [Hab Hb]. induction b as [|b IH]; [replace a with 0%nat by lia; lra|]. destruct (Nat.eq_dec a (S b)) as [->|]; [lra|]. pose proof (Hx b Hb). specialize (IH ltac:(lia) ltac:(lia)). lra. }
  pose proof (Hx i Hi) as Di. pose proof (Hx j Hj) as Dj. pose proof (M i (S i) ltac:(lia)) as Mi. pose proof (M j (S j) ltac:(lia)) as Mj.
  assert (Hji : (j <= i)%nat). { destruct (le_lt_dec j i) as [|H]; [assumption|]. pose proof (Mx (S i) j ltac:(lia)). lra. }
  set (cdf := cdf_table pdf xs) in *. clearbody cdf.
  assert (Fr : forall k t, nth k xs 0 <= t <= nth (S k) xs 0 -> nth k xs 0 < nth (S k) xs 0 -> 0 <= (t - nth k xs 0) / (nth (S k) xs 0 - nth k xs 0) <= 1).
  { intros k t H1 H2. split; [apply Rmult_le_pos; [lra|left; apply Rinv_0_lt_compat; lra]|]. apply Rmult_le_reg_r with (nth (S k) xs 0 - nth k xs 0); [lra|]. unfold Rdiv. rewrite Rmult_assoc, Rinv_l by lra. lra. }
  pose proof (Fr i x Bx Di) as [Fx0 Fx1]. pose proof (Fr j y By Dj) as [Fy0 Fy1].
  destruct (Nat.eq_dec i j) as [->|Hn'].
  - assert (Hr : (y - nth j xs 0) / (nth (S j) xs 0 - nth j xs 0) <= (x - nth j xs 0) / (nth (S j) xs 0 - nth j xs 0)).
    { unfold Rdiv. apply Rmult_le_compat_r; [left; apply Rinv_0_lt_compat; lra|lra]. }
    apply (Rmult_le_compat_r (nth (S j) cdf 0 - nth j cdf 0)) in Hr; lra.
  - pose proof (M (S j) i ltac:(lia)) as Mji.
    assert (A1 : 0 <= (x - nth i xs 0) / (nth (S i) xs 0 - nth i xs 0) * (nth (S i) cdf 0 - nth i cdf 0)) by (apply Rmult_le_pos; lra).
    assert (A2 : (y - nth j xs 0) / (nth (S j) xs 0 - nth j xs 0) * (nth (S j) cdf 0 - nth j cdf 0) <= 1 * (nth (S j) cdf 0 - nth j cdf 0)) by (apply Rmult_le_compat_r; lra).
    lra.
Qed.
End Table.
(** Only the shape of the density matters: an unnormalised density gives the same samples. *)
Theorem c91_unnormalised pdf c xs u : c <> 0 -> trapz (map pdf xs) xs <> 0 -> inv_cdf (fun x => c * pdf x) xs u = inv_cdf pdf xs u.
Proof.
  intros Hc Hz. assert (S : trapezoids (map (fun x => c * pdf x) xs) xs = map (fun a => a / / c) (trapezoids (map pdf xs) xs)).
  { rewrite <- traps_scale by (now rewrite map_length). rewrite map_map. f_equal. apply map_ext. intros a. field. assumption. }
  assert (Nn : trapz (map (fun x => c * pdf x) xs) xs = c * trapz (map pdf xs) xs).
  { unfold trapz. rewrite S. rewrite <- (rsum_scal c). f_equal. apply map_ext. intros a. field. assumption. }
  assert (T : cdf_table (fun x => c * pdf x) xs = cdf_table pdf xs).
  { unfold cdf_table. rewrite Nn. f_equal. rewrite !map_map. apply map_ext. intros a. field. split; assumption. }
  unfold inv_cdf. rewrite T, Nn. destruct (Reqb_spec (c * trapz (map pdf xs) xs) 0) as [E|]; [apply Rmult_integral in E; tauto|]. destruct (Reqb_spec (trapz (map pdf xs) xs) 0); [contradiction|reflexivity].
Qed.
(** The distribution itself: any density positive on the grid, any positive scale, at least two points. *)
Theorem c91_samples pdf scale n u : 0 < scale -> (2 <= n)%nat -> (forall x, 0 < pdf x) -> 0 <= u < 1 ->
  exists x, interpolated_sample pdf scale n u = Fin x /\ 1 / INR (n + 1) <= logistic scale x <= INR n / INR (n + 1).
Proof.
  intros Hs Hn Hp Hu. destruct (c91_grid scale n Hs) as (L & G1 & G2 & _). set (xs := compactspace scale n) in *.
  assert (Hx : forall i, (S i < length xs)%nat -> nth i xs 0 < nth (S i) xs 0) by (intros i Hi; apply G2; lia).
  assert (Hz : trapz (map pdf xs) xs <> 0).
  { apply Rgt_not_eq. unfold trapz. destruct (traps_nth (map pdf xs) xs ltac:(now rewrite map_length)) as [Lt Nt].
    assert (E : rsum (trapezoids (map pdf xs) xs) = Sum (length xs - 1) (fun i => nth i (trapezoids (map pdf xs) xs) 0)) by (rewrite <- Lt, Sum_firstn by lia; now rewrite firstn_all).
    rewrite E. assert (P : forall i, (i < length xs - 1)%nat -> 0 < nth i (trapezoids (map pdf xs) xs) 0).
    { intros i Hi. rewrite Nt by assumption. rewrite !pdf_nth by lia. pose proof (Hx i ltac:(lia)). pose proof (Hp (nth i xs 0)). pose proof (Hp (nth (S i) xs 0)).
      apply Rdiv_lt_0_compat; [|lra]. apply Rmult_lt_0_compat; lra. }
    eapply Rlt_le_trans; [|apply (Sum_ge_term _ _ 0%nat); [lia|intros i Hi; left; now apply P]]. apply P. lia. }
  destruct (c91_inverse_transform pdf xs ltac:(lia) Hx (fun x _ => Rlt_le _ _ (Hp x)) Hz u Hu) as (x & i & E & _ & _ & B & _). exists x. split; [exact E|].
  assert (Mono : forall a b, a <= b -> logistic scale a <= logistic scale b).
  { intros a b Hab. unfold logistic. apply Rinv_le_contravar; [pose proof (exp_pos (- (b / scale))); lra|]. apply Rplus_le_compat_l.
    destruct (Req_dec a b) as [->|]; [lra|]. left. apply exp_increasing. apply Ropp_lt_contravar. unfold Rdiv. apply Rmult_lt_compat_r; [now apply Rinv_0_lt_compat|lra]. }
  rewrite L in B. pose proof (Mono _ _ (proj1 B)) as B1. pose proof (Mono _ _ (proj2 B)) as B2. rewrite G1 in B1, B2 by lia. replace (n - 1 + 1)%nat with n in B2 by lia. cbn [Nat.add INR] in B1. split; assumption.
Qed.
Example c91_uniform_case : inv_cdf (fun _ => 3) [0; 1; 2] (1 / 4) = Fin (1 / 2).
Proof.
  assert (Hx : forall i, (S i < length [0; 1; 2])%nat -> nth i [0; 1; 2] 0 < nth (S i) [0; 1; 2] 0) by (intros [|[|[|i]]] Hi; cbn in *; try lia; lra).
  assert (T : trapz (map (fun _ => 3) [0; 1; 2]) [0; 1; 2] = 6) by (unfold trapz, rsum; cbn; field).
  destruct (c91_inverse_transform (fun _ => 3) [0; 1; 2] ltac:(cbn; lia) Hx ltac:(intros; lra) ltac:(rewrite T; lra) (1 / 4) ltac:(lra)) as (x & i & E & Hi & B & _ & Ev & _). rewrite E. f_equal.
  assert (C : cdf_table (fun _ => 3) [0; 1; 2] = [0; 1 / 2; 1]).
  { unfold cdf_table. rewrite T. unfold cumtrapz, cumsum. cbn. f_equal. f_equal; [field|]. f_equal. field. }
  rewrite C in Ev. destruct i as [|[|i]]; cbn in Hi, Ev, B; [lra|lra|lia].
Qed.

(** ** C92 Gradients of the log densities *)
(** Normal: the derivative of the log of the Gaussian density.  Any positive [k] as normalisation: [/ sqrt (2 * PI * var)]
    for the whole line, something larger for the truncated form (inside its limits). *)
Theorem c92_normal mean var k x : 0 < var -> 0 < k -> exists g, normal_grad mean var x = Fin g /\
  derivable_pt_lim (fun t => ln (k * exp (- (t - mean) ^ 2 / (2 * var)))) x g.
Proof.
  intros Hv Hk. exists (- (x - mean) / var). split; [unfold normal_grad; now rewrite xdiv_Fin by lra|].
  assert (P : derivable_pt_lim (fun t => ln k + (-1 / (2 * var)) * ((t - mean) * (t - mean))) x (0 + (-1 / (2 * var)) * ((1 - 0) * (x - mean) + (x - mean) * (1 - 0)))).
  { apply (derivable_pt_lim_plus (fun _ => ln k)); [apply derivable_pt_lim_const|].
    apply (derivable_pt_lim_scal (fun t => (t - mean) * (t - mean))). apply (derivable_pt_lim_mult (fun t => t - mean) (fun t => t - mean));
      apply (derivable_pt_lim_minus (fun t => t) (fun _ => mean)); try apply derivable_pt_lim_id; apply derivable_pt_lim_const. }
  replace (- (x - mean) / var) with (0 + (-1 / (2 * var)) * ((1 - 0) * (x - mean) + (x - mean) * (1 - 0))) by (field; lra).
  apply (derivable_pt_lim_ext (fun t => ln k + (-1 / (2 * var)) * ((t - mean) * (t - mean)))); [|exact P].
  intro t. rewrite ln_mult by (try apply exp_pos; assumption). rewrite ln_exp. f_equal. field. lra.
Qed.
Example c92_normal_case : normal_grad 1 4 3 = Fin (- (1/2)).
Proof. unfold normal_grad. rewrite xdiv_Fin by lra. f_equal. lra. Qed.

(** Multivariate normal: every component of the returned row is the partial derivative of the log density. *)
Definition entry (m : list (list R)) (i j : nat) : R := nth j (nth i m []) 0.
Definition square (d : nat) (m : list (list R)) : Prop := length m = d /\ Forall (fun r => length r = d) m.
Definition deviation (mean y : list R) (i : nat) : R := nth i y 0 - nth i mean 0.
Lemma mvn_nth d mean P x i : length mean = d -> length x = d -> square d P -> (i < d)%nat ->
  nth i (mvn_grad mean P x) 0 = - Sum d (fun j => entry P i j * deviation mean x j).
Proof.
  intros Hm Hx [HP HF] Hi. unfold mvn_grad. set (f := fun r => - rdot r (map2 Rminus x mean)).
  rewrite (nth_indep _ 0 (f [])) by (rewrite map_length; lia). rewrite (map_nth f). unfold f. f_equal. rewrite Forall_forall in HF.
  assert (Hr : length (nth i P []) = d) by (apply HF, nth_In; lia).
  assert (Hv : length (map2 Rminus x mean) = d) by (rewrite map2_length; lia).
  rewrite (rdot_Sum d) by assumption. apply Sum_ext. intros j Hj. unfold entry, deviation. f_equal. now rewrite nth_map2 with (da := 0) (db := 0) by lia.
Qed.
Lemma quad_shift d P v i s : (forall a b, (a < d)%nat -> (b < d)%nat -> P a b = P b a) -> (i < d)%nat ->
  qform d P (fun j => v j + s * (if Nat.eqb j i then 1 else 0)) = qform d P v + 2 * s * Sum d (fun j => P i j * v j) + s ^ 2 * P i i.
Proof.
  intros Hs Hi. unfold qform.
  rewrite (Sum_ext d _ (fun a => Sum d (fun b => v a * P a b * v b) + (v a * (s * P a i) + (if Nat.eqb a i then s * Sum d (fun b => P i b * v b) + s ^ 2 * P i i else 0)))).
  2:{ intros a Ha. rewrite (Sum_ext d _ (fun b => v a * P a b * v b + ((if Nat.eqb a i then s * (P a b * v b) else 0) + (if Nat.eqb b i then (v a + s * (if Nat.eqb a i then 1 else 0)) * P a i * s else 0)))).
      2:{ intros b Hb. destruct (Nat.eqb_spec a i), (Nat.eqb_spec b i); subst; ring. }
      rewrite !Sum_plus. f_equal. rewrite (Sum_single d i) with (f := fun b => if Nat.eqb b i then _ else 0); [|assumption|intros b Hb Hn; now destruct (Nat.eqb_spec b i)].
      rewrite Nat.eqb_refl. destruct (Nat.eqb_spec a i) as [->|]; [rewrite Sum_scal; ring|rewrite Sum_zero by reflexivity; ring]. }
  rewrite !Sum_plus. rewrite Rplus_assoc. f_equal.
  rewrite (Sum_single d i) with (f := fun b => if Nat.eqb b i then _ else 0); [|assumption|intros b Hb Hn; now destruct (Nat.eqb_spec b i)].
  rewrite Nat.eqb_refl. rewrite (Sum_ext d (fun a => v a * (s * P a i)) (fun a => s * (P i a * v a))) by (intros a Ha; rewrite (Hs a i) by assumption; ring). rewrite Sum_scal. ring.
Qed.
Theorem c92_multivariate d mean P k x i : length mean = d -> length x = d -> square d P -> (forall a b, (a < d)%nat -> (b < d)%nat -> entry P a b = entry P b a) -> 0 < k -> (i < d)%nat ->
  partial (fun y => ln (k * exp (- qform d (entry P) (deviation mean y) / 2))) x i (nth i (mvn_grad mean P x) 0).
Proof.
  intros Hm Hx HP Hs Hk Hi. rewrite (mvn_nth d) by assumption. unfold partial. set (x0 := nth i x 0). set (g := Sum d (fun j => entry P i j * deviation mean x j)).
  set (q := qform d (entry P) (deviation mean x)). set (p := entry P i i).
  assert (D : derivable_pt_lim (fun t => (ln k - q / 2) + ((- g) * (t - x0) + (- p / 2) * ((t - x0) * (t - x0)))) x0 (0 + ((- g) * (1 - 0) + (- p / 2) * ((1 - 0) * (x0 - x0) + (x0 - x0) * (1 - 0))))).
  { apply (derivable_pt_lim_plus (fun _ => ln k - q / 2)); [apply derivable_pt_lim_const|].
    assert (L : derivable_pt_lim (fun t => t - x0) x0 (1 - 0)) by (apply (derivable_pt_lim_minus (fun t => t) (fun _ => x0)); [apply derivable_pt_lim_id|apply derivable_pt_lim_const]).
    apply (derivable_pt_lim_plus (fun t => - g * (t - x0)) (fun t => - p / 2 * ((t - x0) * (t - x0)))).
    - now apply (derivable_pt_lim_scal (fun t => t - x0)).
    - apply (derivable_pt_lim_scal (fun t => (t - x0) * (t - x0))). now apply (derivable_pt_lim_mult (fun t => t - x0) (fun t => t - x0)). }
  replace (- g) with (0 + ((- g) * (1 - 0) + (- p / 2) * ((1 - 0) * (x0 - x0) + (x0 - x0) * (1 - 0)))) by ring.
  refine (derivable_pt_lim_ext _ _ _ _ _ D). intro t. rewrite ln_mult by (try apply exp_pos; assumption). rewrite ln_exp.
  assert (Q : qform d (entry P) (deviation mean (upd x i t)) = q + 2 * (t - x0) * g + (t - x0) ^ 2 * p).
  { unfold q, g, p. rewrite <- quad_shift by assumption. unfold qform. apply Sum_ext. intros a Ha. apply Sum_ext. intros b Hb.
    assert (E : forall c, (c < d)%nat -> deviation mean (upd x i t) c = deviation mean x c + (t - x0) * (if Nat.eqb c i then 1 else 0)).
    { intros c Hc. unfold deviation, upd. rewrite (nth_map_seq (fun j => if Nat.eqb j i then t else nth j x 0)) by lia. destruct (Nat.eqb_spec c i) as [->|]; unfold x0; ring. }
    now rewrite !E. }
  rewrite Q. field.
Qed.
Example c92_multivariate_case : mvn_grad [1; 2] [[2; 1]; [1; 3]] [2; 4] = [-4; -7] /\ square 2 [[2; 1]; [1; 3]].
Proof. split; [|split; [reflexivity|repeat constructor]]. unfold mvn_grad. cbn. unfold rdot. cbn. unfold rsum. cbn. repeat f_equal; ring. Qed.

(** Uniform: zero, the derivative of a constant log density, for every batch of models except a batch of one ... *)
Theorem c92_uniform delta var : length var <> 1%nat -> exists rows, uniform_grad delta var = G2 rows /\ map (@length ext) rows = map (@length R) var /\
  Forall (Forall (fun g => g = Fin 0)) rows.
Proof.
  intros H. assert (E : uniform_grad delta var = G2 (map (map (fun _ => Fin 0)) var)) by (destruct var as [|a [|b v]]; [reflexivity|cbn in H; lia|reflexivity]).
  exists (map (map (fun _ => Fin 0)) var). split; [exact E|]. split; [rewrite map_map; apply map_ext; intro; apply map_length|].
  apply Forall_map, Forall_forall. intros r _. apply Forall_map, Forall_forall. reflexivity.
Qed.
(** ... for which an array of another shape is returned with the reciprocals of the variances, so that the gradient at a
    model depends on whether it is passed alone. *)
Theorem c92_uniform_single_refuted delta x : Forall (fun d => 0 < d) delta -> delta <> [] -> exists g, uniform_grad delta [x] = G1 (map Fin g) /\ Forall (fun r => 0 < r) g /\
  length g = length delta /\ forall i, (i < length delta)%nat -> nth i g 0 = / (nth i delta 0 ^ 2 / 12).
Proof.
  intros H Hn. exists (map (fun d => 12 / d ^ 2) delta). repeat split.
  - unfold uniform_grad. f_equal. rewrite map_map. apply map_ext_in. intros d Hd. rewrite Forall_forall in H. specialize (H d Hd). rewrite xdiv_Fin; [reflexivity|nra].
  - apply Forall_map. eapply Forall_impl; [|exact H]. cbn. intros d Hd. apply Rdiv_lt_0_compat; nra.
  - apply map_length.
  - intros i Hi. rewrite (nth_indep _ 0 (12 / 0 ^ 2)) by (rewrite map_length; lia). rewrite (map_nth (fun d => 12 / d ^ 2)). rewrite Forall_forall in H. specialize (H _ (nth_In delta 0 Hi)). field. nra.
Qed.
Example c92_uniform_case : uniform_grad [2] [[1]; [1/2]] = G2 [[Fin 0]; [Fin 0]] /\ uniform_grad [2] [[1]] = G1 [Fin 3].
Proof. split; [reflexivity|]. unfold uniform_grad. cbn [map]. rewrite xdiv_Fin by lra. do 3 f_equal. lra. Qed.

(** Postselection: the log density of the conditioned distribution differs by a constant from that of the original one, so the
    gradient inside the accepted region is the original one. *)
Theorem c92_postselected logp accept x i g : 0 < accept -> partial logp x i g -> partial (fun y => logp y - ln accept) x i (postselected_grad (fun _ => g) x).
Proof.
  intros _ H. unfold partial, postselected_grad in *. replace g with (g - 0) by ring. apply (derivable_pt_lim_minus (fun t => logp (upd x i t)) (fun _ => ln accept)); [exact H|apply derivable_pt_lim_const].
Qed.

Lemma rsum_map_Sum {A} (f : A -> R) l d : rsum (map f l) = Sum (length l) (fun k => f (nth k l d)).
Proof. induction l as [|a l IH]; [reflexivity|]. cbn [map length]. rewrite Sum_S, rsum_cons, IH. reflexivity. Qed.
(** The expected outer product of the gradients, as accumulated into the initial information matrix of SMCUpdaterBCRB, is the
    inverse covariance: for every random vector [X] of mean [mean] and covariance [cov] and [P] inverse to [cov]. *)
Section Information.
Context {W : Type}.
Variable Ex : (W -> R) -> R.
Hypothesis HE : expectation Ex.
Theorem c92_outer_product d mean P cov (X : W -> list R) i j : length mean = d -> (forall w, length (X w) = d) -> square d P ->
  (forall a, (a < d)%nat -> Ex (fun w => nth a (X w) 0) = nth a mean 0) ->
  (forall a b, (a < d)%nat -> (b < d)%nat -> Cov Ex (fun w => nth a (X w) 0) (fun w => nth b (X w) 0) = cov a b) ->
  (forall a b, (a < d)%nat -> (b < d)%nat -> entry P a b = entry P b a) ->
  (forall a b, (a < d)%nat -> (b < d)%nat -> Sum d (fun k => cov a k * entry P k b) = if Nat.eqb a b then 1 else 0) ->
  (i < d)%nat -> (j < d)%nat ->
  Ex (fun w => nth i (mvn_grad mean P (X w)) 0 * nth j (mvn_grad mean P (X w)) 0) = entry P i j.
Proof.
  intros Hm HX HP Hmean Hcov Hsym Hinv Hi Hj.
  rewrite (ex_ext Ex HE _ (fun w => Sum d (fun a => Sum d (fun b => entry P i a * entry P j b * (deviation mean (X w) a * deviation mean (X w) b))))).
  2:{ intro w. rewrite !(mvn_nth d) by auto. rewrite Rmult_opp_opp. rewrite <- Sum_scal_r. apply Sum_ext. intros a Ha. rewrite <- Sum_scal. apply Sum_ext. intros; ring. }
  rewrite (ex_Sum Ex HE). rewrite (Sum_ext d _ (fun a => entry P i a * (if Nat.eqb a j then 1 else 0))).
  - rewrite (Sum_single d j); [rewrite Nat.eqb_refl; ring|assumption|]. intros a Ha Hn. destruct (Nat.eqb_spec a j); [contradiction|ring].
  - intros a Ha. rewrite (ex_Sum Ex HE). rewrite <- Hinv by assumption. rewrite <- Sum_scal. apply Sum_ext. intros b Hb. rewrite (ex_scal Ex HE).
    assert (C : Ex (fun w => deviation mean (X w) a * deviation mean (X w) b) = cov a b).
    { rewrite <- Hcov by assumption. unfold Cov. rewrite !Hmean by assumption. reflexivity. }
    rewrite C, (Hsym j b) by assumption. ring.
Qed.
(** The whole matrix: the mean over the particles of the initial cloud, each distributed in that way. *)
Theorem c92_initial_information {O} d mean P cov (cloud : W -> list (list R)) (s : W -> @state O) n h next adaptive (b : W -> @bcrb O) i j : (0 < n)%nat ->
  length mean = d -> (forall w, length (cloud w) = n /\ Forall (fun x => length x = d) (cloud w)) -> square d P ->
  (forall k a, (k < n)%nat -> (a < d)%nat -> Ex (fun w => nth a (nth k (cloud w) []) 0) = nth a mean 0) ->
  (forall k a c, (k < n)%nat -> (a < d)%nat -> (c < d)%nat -> Cov Ex (fun w => nth a (nth k (cloud w) []) 0) (fun w => nth c (nth k (cloud w) []) 0) = cov a c) ->
  (forall a c, (a < d)%nat -> (c < d)%nat -> entry P a c = entry P c a) ->
  (forall a c, (a < d)%nat -> (c < d)%nat -> Sum d (fun k => cov a k * entry P k c) = if Nat.eqb a c then 1 else 0) ->
  (forall w, ls (s w) = cloud w /\ n_particles (s w) = n) ->
  (forall w, bcrb_init true (fun x k => nth k (mvn_grad mean P x) 0) (s w) h next None adaptive = Ok (b w)) ->
  (i < d)%nat -> (j < d)%nat -> Ex (fun w => current_bim (b w) i j) = entry P i j.
Proof.
  intros Hn Hm Hc HP Hmean Hcov Hsym Hinv Hs Hb Hi Hj.
  rewrite (ex_ext Ex HE _ (fun w => / INR n * Sum n (fun k => nth i (mvn_grad mean P (nth k (cloud w) [])) 0 * nth j (mvn_grad mean P (nth k (cloud w) [])) 0))).
  - rewrite (ex_scal Ex HE), (ex_Sum Ex HE). rewrite (Sum_ext n _ (fun _ => entry P i j)).
    + rewrite Sum_rsum, rsum_map_const, seq_length. field. apply not_0_INR. lia.
    + intros k Hk. apply (c92_outer_product d mean P cov (fun w => nth k (cloud w) [])); auto.
      intro w. destruct (Hc w) as [L F]. rewrite Forall_forall in F. apply F, nth_In. lia.
  - intro w. specialize (Hb w). destruct (Hs w) as [E1 E2]. destruct (Hc w) as [L _].
    assert (V : current_bim (b w) i j = rsum (map (fun m => nth i (mvn_grad mean P m) 0 * nth j (mvn_grad mean P m) 0) (ls (s w))) / INR (n_particles (s w))).
    { unfold bcrb_init in Hb. cbn [negb] in Hb. destruct adaptive; injection Hb as <-; unfold current_bim, put; cbn [b_heap b_cur].
      - destruct (Nat.eqb_spec next (S next)); [lia|]. now rewrite Nat.eqb_refl.
      - now rewrite Nat.eqb_refl. }
    rewrite V, E1, E2, <- L. rewrite (rsum_map_Sum _ _ []). unfold Rdiv. ring.
Qed.
End Information.
(** Two equally likely points at distance two from the mean one: variance four, information one quarter. *)
Example c92_information_case : expectation (mean_of [-1; 3]) /\ mean_of [-1; 3] (fun w => nth 0 [w] 0) = 1 /\ Cov (mean_of [-1; 3]) (fun w => nth 0 [w] 0) (fun w => nth 0 [w] 0) = 4 /\
  mean_of [-1; 3] (fun w => nth 0 (mvn_grad [1] [[1/4]] [w]) 0 * nth 0 (mvn_grad [1] [[1/4]] [w]) 0) = 1/4.
Proof.
  assert (M : mean_of [-1; 3] (fun w => nth 0 [w] 0) = 1) by (unfold mean_of, rsum; cbn; lra).
  repeat split; try exact M; try (apply mean_of_expectation; discriminate).
  - unfold Cov. rewrite M. unfold mean_of, rsum. cbn. lra.
  - unfold mean_of, mvn_grad, rdot, rsum. cbn. lra.
Qed.
Print Assumptions c91_grid.
Print Assumptions c91_documented_coordinate_refuted.
Print Assumptions c91_table.
Print Assumptions c91_inverse_transform.
Print Assumptions c91_monotone.
Print Assumptions c91_unnormalised.
Print Assumptions c91_samples.
Print Assumptions c92_normal.
Print Assumptions c92_multivariate.
Print Assumptions c92_uniform.
Print Assumptions c92_uniform_single_refuted.
Print Assumptions c92_postselected.
Print Assumptions c92_outer_product.
Print Assumptions c92_initial_information.
