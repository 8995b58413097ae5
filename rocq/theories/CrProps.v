(** C150: the Fisher information bounds every estimator (Cramer and Rao), for adaptive plans too *)
From Coq Require Import Lra Lia.
From Coquelicot Require Import Coquelicot.
From Verif Require Import Base RList Ext Sums TwoModel TwoProofs TwoProps SmcModel SmcSpec SmcProofs MiscModel LinAlg LinProofs CrSpec.
From Coq Require Import List.
Open Scope R_scope.

Lemma deriv_ext f g x d : (forall t, f t = g t) -> derivable_pt_lim f x d -> derivable_pt_lim g x d.
Proof. intros H D. apply is_derive_Reals. apply (is_derive_ext f); [exact H|]. now apply is_derive_Reals. Qed.
Lemma Sum_deriv n x : forall (f : nat -> R -> R) (g : nat -> R), (forall o, (o < n)%nat -> derivable_pt_lim (f o) x (g o)) -> derivable_pt_lim (fun t => Sum n (fun o => f o t)) x (Sum n g).
Proof.
  induction n as [|n IH]; intros f g H.
  - apply (deriv_ext (fun _ => 0)); [reflexivity|]. apply derivable_pt_lim_const.
  - rewrite Sum_S. apply (deriv_ext (fun t => f 0%nat t + Sum n (fun o => f (S o) t))); [intros; now rewrite Sum_S|].
    apply (derivable_pt_lim_plus (f 0%nat) (fun t => Sum n (fun o => f (S o) t))); [apply H; lia|]. apply (IH (fun o => f (S o)) (fun o => g (S o))). intros o Ho. apply H. lia.
Qed.
Lemma quadratic a b c : 0 <= a -> 0 <= c -> (forall l, 0 <= a + 2 * b * l + c * l ^ 2) -> b ^ 2 <= a * c.
Proof.
  intros Ha Hc H. destruct (Req_dec c 0) as [->|D].
  - destruct (Req_dec b 0) as [->|Db]; [lra|]. specialize (H (- (a + 1) / (2 * b))). exfalso. replace (a + 2 * b * (- (a + 1) / (2 * b)) + 0 * (- (a + 1) / (2 * b)) ^ 2) with (-1) in H by (field; assumption). lra.
  - specialize (H (- b / c)). replace (a + 2 * b * (- b / c) + c * (- b / c) ^ 2) with ((a * c - b ^ 2) / c) in H by (field; assumption).
    assert (0 < c) by lra. assert (X : 0 <= (a * c - b ^ 2) / c * c) by now apply Rmult_le_pos. replace ((a * c - b ^ 2) / c * c) with (a * c - b ^ 2) in X by (field; assumption). lra.
Qed.

Section Bound.
Context {E : Type}.
Variable nout : E -> nat.
Variable L : E -> nat -> R -> R.
Variables (d : nat) (v : nat -> R) (score : E -> nat -> nat -> R).
Notation expected := (expected nout L).
Notation honest := (honest nout L d v score).
Notation dir_info := (dir_info nout L d v score).
Notation always := (always nout).

Lemma expected_ext p : forall T T' t, (forall h, T h = T' h) -> expected p T t = expected p T' t.
Proof. induction p as [|e k IH]; intros T T' t H; cbn; [apply H|]. apply Sum_ext. intros o _. f_equal. apply IH. intros; apply H. Qed.
Lemma expected_plus p : forall T T' t, expected p (fun h => T h + T' h) t = expected p T t + expected p T' t.
Proof. induction p as [|e k IH]; intros T T' t; cbn; [reflexivity|]. rewrite <- Sum_plus. apply Sum_ext. intros o _. rewrite IH. ring. Qed.
Lemma expected_scal p : forall a T t, expected p (fun h => a * T h) t = a * expected p T t.
Proof. induction p as [|e k IH]; intros a T t; cbn; [reflexivity|]. rewrite <- Sum_scal. apply Sum_ext. intros o _. rewrite IH. ring. Qed.
Lemma expected_nonneg p : always honest p -> forall T, (forall h, 0 <= T h) -> 0 <= expected p T 0.
Proof.
  induction p as [|e k IH]; intros A T H; cbn; [apply H|]. destruct A as [(A1 & _ & _) A2]. apply Sum_nonneg. intros o Ho. apply Rmult_le_pos; [now apply A1|]. apply IH; [now apply A2|]. intros; apply H.
Qed.
Lemma expected_const p : always honest p -> forall a t, expected p (fun _ => a) t = a.
Proof.
  induction p as [|e k IH]; intros A a t; cbn; [reflexivity|]. destruct A as [(_ & A1 & _) A2]. rewrite (Sum_ext _ _ (fun o => a * L e o t)); [rewrite Sum_scal, A1; ring|]. intros o Ho. rewrite IH by now apply A2. ring.
Qed.
Lemma expected_shift p : always honest p -> forall a T t, expected p (fun h => a + T h) t = a + expected p T t.
Proof. intros A a T t. rewrite (expected_plus p (fun _ => a) T). now rewrite expected_const. Qed.

Definition sdir (e : E) (o : nat) : R := Sum d (fun i => v i * score e i o).
Fixpoint path_score (p : plan E) (h : list nat) : R := match p, h with Ask e k, o :: h => sdir e o + path_score (k o) h | _, _ => 0 end.
Lemma expected_deriv p : always honest p -> forall T, derivable_pt_lim (expected p T) 0 (expected p (fun h => T h * path_score p h) 0).
Proof.
  induction p as [|e k IH]; intros A T.
  - cbn. rewrite Rmult_0_r. apply derivable_pt_lim_const.
  - destruct A as [(_ & _ & A1) A2]. cbn [CrSpec.expected]. apply (Sum_deriv (nout e) 0 (fun o t => L e o t * expected (k o) (fun h => T (o :: h)) t)). intros o Ho.
    replace (L e o 0 * expected (k o) (fun h => T (o :: h) * path_score (Ask e k) (o :: h)) 0) with (L e o 0 * sdir e o * expected (k o) (fun h => T (o :: h)) 0 + L e o 0 * expected (k o) (fun h => T (o :: h) * path_score (k o) h) 0).
    + apply (derivable_pt_lim_mult (L e o) (expected (k o) (fun h => T (o :: h)))); [now apply A1|]. apply IH. now apply A2.
    + rewrite (expected_ext (k o) (fun h => T (o :: h) * path_score (Ask e k) (o :: h)) (fun h => sdir e o * T (o :: h) + T (o :: h) * path_score (k o) h)) by (intros; cbn [path_score]; ring). rewrite expected_plus, expected_scal. ring.
Qed.
Lemma score_zero p : always honest p -> expected p (path_score p) 0 = 0.
Proof.
  intros A. apply (uniqueness_limite (expected p (fun _ => 1)) 0).
  - rewrite (expected_ext p (path_score p) (fun h => 1 * path_score p h)) by (intros; ring). exact (expected_deriv p A (fun _ => 1)).
  - apply (deriv_ext (fun _ => 1)); [intros t; now rewrite expected_const|]. apply derivable_pt_lim_const.
Qed.
Lemma score_sq p : always honest p -> expected p (fun h => path_score p h ^ 2) 0 = information nout L d v score p.
Proof.
  unfold information. induction p as [|e k IH]; intros A; [cbn; ring|]. assert (A' := A). destruct A' as [H A2]. destruct H as (Hp & Hn & _). cbn [CrSpec.expected].
  assert (I0 : dir_info e = Sum (nout e) (fun o => L e o 0 * sdir e o ^ 2)) by (unfold CrSpec.dir_info, sdir; apply (proj1 (c40_positive_semidefinite (nout e) (fun o => L e o 0) (score e) d v Hp))).
  transitivity (Sum (nout e) (fun o => L e o 0 * sdir e o ^ 2 + L e o 0 * expected (k o) (along dir_info (k o)) 0)).
  - apply Sum_ext. intros o Ho. rewrite <- IH by now apply A2. rewrite (expected_ext (k o) (fun h => path_score (Ask e k) (o :: h) ^ 2) (fun h => sdir e o ^ 2 + (2 * sdir e o * path_score (k o) h + path_score (k o) h ^ 2))) by (intros; cbn [path_score]; ring).
    rewrite expected_shift by now apply A2. rewrite expected_plus, expected_scal, score_zero by now apply A2. ring.
  - rewrite Sum_plus, <- I0. rewrite (Sum_ext _ (fun o => L e o 0 * expected (k o) (fun h => along dir_info (Ask e k) (o :: h)) 0) (fun o => dir_info e * L e o 0 + L e o 0 * expected (k o) (along dir_info (k o)) 0)).
    + rewrite Sum_plus, Sum_scal, Hn. ring.
    + intros o Ho. cbn [along]. rewrite expected_shift by now apply A2. ring.
Qed.
Lemma information_nonneg p : always honest p -> 0 <= information nout L d v score p.
Proof. intros A. rewrite <- score_sq by assumption. apply expected_nonneg; [assumption|]. intros; apply pow2_ge_0. Qed.
Lemma variance_nonneg p T : always honest p -> 0 <= variance nout L p T.
Proof. intros A. apply expected_nonneg; [assumption|]. intros; apply pow2_ge_0. Qed.

(** The square of the rate at which the mean of any statistic moves is at most its variance times the information collected. *)
Theorem c150_adaptive p T D : always honest p -> derivable_pt_lim (expected p T) 0 D -> D ^ 2 <= variance nout L p T * information nout L d v score p.
Proof.
  intros A HD. assert (HD' := expected_deriv p A T). assert (ED := uniqueness_limite _ _ _ _ HD HD'). set (m := expected p T 0).
  assert (EX : D = expected p (fun h => (T h - m) * path_score p h) 0).
  { rewrite ED. rewrite (expected_ext p (fun h => (T h - m) * path_score p h) (fun h => T h * path_score p h + - m * path_score p h)) by (intros; ring). rewrite expected_plus, expected_scal, score_zero by assumption. ring. }
  rewrite EX. rewrite <- score_sq by assumption. unfold variance. fold m. apply quadratic; [apply expected_nonneg; [assumption|intros; apply pow2_ge_0]|apply expected_nonneg; [assumption|intros; apply pow2_ge_0]|].
  intros l. replace (expected p (fun h => (T h - m) ^ 2) 0 + 2 * expected p (fun h => (T h - m) * path_score p h) 0 * l + expected p (fun h => path_score p h ^ 2) 0 * l ^ 2) with (expected p (fun h => (T h - m + l * path_score p h) ^ 2) 0).
  - apply expected_nonneg; [assumption|]. intros; apply pow2_ge_0.
  - rewrite (expected_ext p (fun h => (T h - m + l * path_score p h) ^ 2) (fun h => (T h - m) ^ 2 + (2 * l * ((T h - m) * path_score p h) + l ^ 2 * path_score p h ^ 2))) by (intros; ring). rewrite !expected_plus, !expected_scal. ring.
Qed.
(** Unbiased estimators of the distance moved *)
Theorem c150_unbiased p T : always honest p -> (forall t, expected p T t = expected p T 0 + t) -> 0 < information nout L d v score p /\ 1 / information nout L d v score p <= variance nout L p T.
Proof.
  intros A U. assert (B : 1 ^ 2 <= variance nout L p T * information nout L d v score p).
  { apply c150_adaptive; [assumption|]. apply (deriv_ext (fun t => expected p T 0 + t)); [intros; symmetry; apply U|]. replace 1 with (0 + 1) by ring. apply (derivable_pt_lim_plus (fun _ => expected p T 0) (fun t => t)); [apply derivable_pt_lim_const|apply derivable_pt_lim_id]. }
  assert (I0 := information_nonneg p A). assert (V0 := variance_nonneg p T A). assert (Hp : 0 < information nout L d v score p) by (destruct I0 as [H|H]; [exact H|rewrite <- H in B; lra]).
  split; [exact Hp|]. apply Rmult_le_reg_r with (information nout L d v score p); [exact Hp|]. replace (1 / information nout L d v score p * information nout L d v score p) with 1 by (field; lra). lra.
Qed.
(** A fixed list of experiments collects the sum of their informations. *)
Theorem c150_script es : always honest (script es) -> information nout L d v score (script es) = rsum (map dir_info es).
Proof.
  unfold information. induction es as [|e es IH]; intros A; [reflexivity|]. destruct A as [H A2]. assert (Hn := proj1 (proj2 H)). cbn [script map CrSpec.expected]. rewrite rsum_cons.
  assert (Hs : always honest (script es)).
  { apply (A2 0%nat). destruct (nout e) as [|n]; [|lia]. specialize (Hn 0). rewrite Sum_0 in Hn. lra. }
  rewrite (Sum_ext _ _ (fun o => (dir_info e + rsum (map dir_info es)) * L e o 0)); [rewrite Sum_scal, Hn; ring|].
  intros o Ho. cbn [along]. rewrite expected_shift, IH by assumption. ring.
Qed.
End Bound.

Lemma rsum_map_Sum {A} n (f : A -> nat -> R) l : rsum (map (fun e => Sum n (f e)) l) = Sum n (fun i => rsum (map (fun e => f e i) l)).
Proof. induction l as [|a l IH]; cbn [map]; [rewrite (Sum_ext _ _ (fun _ => 0 * 0)) by (intros; rewrite rsum_nil; ring); rewrite Sum_scal, rsum_nil; ring|]. rewrite rsum_cons, IH, <- Sum_plus. apply Sum_ext. intros; now rewrite rsum_cons. Qed.
(** Averaged over a cloud of possible parameters: the variance of an estimator that is unbiased around every particle, against the
    information that SMCUpdaterBCRB averages over the particles ([bim_weighted], smc.py:1128-1155). *)
Theorem c150_cloud {E} nout (L : loc -> E -> nat -> R -> R) d v (score : loc -> E -> nat -> nat -> R) w ms es T :
  prob_vector w -> length w = length ms -> (forall m, In m ms -> always nout (honest nout (L m) d v (score m)) (script es)) ->
  (forall m, In m ms -> forall t, expected nout (L m) (script es) T t = expected nout (L m) (script es) T 0 + t) ->
  1 <= rsum (map2 (fun p m => p * variance nout (L m) (script es) T) w ms) *
       rsum (map (fun e => Sum d (fun i => Sum d (fun j => v i * bim_weighted (fun m e => fisher (nout e) (fun o => L m e o 0) (score m e)) w ms e i j * v j))) es).
Proof.
  intros [W1 W2] Hl A U. set (V := fun m => variance nout (L m) (script es) T). set (J := fun m => information nout (L m) d v (score m) (script es)).
  assert (M2 : forall f : R -> loc -> R, map2 f w ms = map (fun i => f (nth i w 0) (nth i ms [])) (seq 0 (length ms))).
  { intros f. revert Hl. clear. revert ms. induction w as [|a w IH]; intros [|m ms] H; try discriminate; [reflexivity|]. cbn [length seq map map2]. f_equal. rewrite <- seq_shift, map_map. apply IH. now injection H. }
  assert (EJ : rsum (map (fun e => Sum d (fun i => Sum d (fun j => v i * bim_weighted (fun m e => fisher (nout e) (fun o => L m e o 0) (score m e)) w ms e i j * v j))) es) = rsum (map2 (fun p m => p * J m) w ms)).
  { rewrite M2, <- Sum_rsum. rewrite (Sum_ext _ (fun k => nth k w 0 * J (nth k ms [])) (fun k => rsum (map (fun e => nth k w 0 * dir_info nout (L (nth k ms [])) d v (score (nth k ms [])) e) es))).
    - rewrite <- rsum_map_Sum. apply rsum_map_ext. intros e _. unfold bim_weighted, dir_info. transitivity (Sum d (fun i => Sum (length ms) (fun k => nth k w 0 * Sum d (fun j => v i * fisher (nout e) (fun o => L (nth k ms []) e o 0) (score (nth k ms []) e) i j * v j)))).
      + apply Sum_ext. intros i _. rewrite (Sum_ext d _ (fun j => Sum (length ms) (fun k => nth k w 0 * (v i * fisher (nout e) (fun o => L (nth k ms []) e o 0) (score (nth k ms []) e) i j * v j)))).
        * rewrite Sum_swap. apply Sum_ext. intros k _. now rewrite Sum_scal.
        * intros j _. rewrite M2, <- Sum_rsum. rewrite <- Sum_scal, <- Sum_scal_r. apply Sum_ext. intros k _. ring.
      + rewrite Sum_swap. apply Sum_ext. intros k _. now rewrite Sum_scal.
    - intros k Hk. unfold J. rewrite c150_script by (apply A, nth_In; exact Hk). now rewrite rsum_map_scal. }
  rewrite EJ, !M2. assert (HV : forall i, (i < length ms)%nat -> 0 <= V (nth i ms []) /\ 0 <= J (nth i ms []) /\ 1 <= V (nth i ms []) * J (nth i ms [])).
  { intros i Hi. assert (Hm := nth_In ms [] Hi). specialize (A _ Hm). destruct (c150_unbiased _ _ _ _ _ _ T A (U _ Hm)) as [J0 B]. split; [eapply variance_nonneg; exact A|]. split; [left; exact J0|]. unfold V, J. apply Rmult_le_reg_r with (/ information nout (L (nth i ms [])) d v (score (nth i ms [])) (script es)); [now apply Rinv_0_lt_compat|]. rewrite Rmult_assoc, Rinv_r by lra. unfold Rdiv in B. lra. }
  assert (CS := cauchy_schwarz (fun i => nth i w 0) (fun i => sqrt (V (nth i ms []))) (fun i => sqrt (J (nth i ms []))) (seq 0 (length ms))).
  assert (P : forall i, 0 <= nth i w 0). { intros i. destruct (Nat.lt_ge_cases i (length w)) as [H|H]; [apply (proj1 (Forall_forall _ _) W1); now apply nth_In|rewrite nth_overflow by assumption; lra]. }
  specialize (CS (fun i _ => P i)).
  rewrite (rsum_map_ext (fun i => nth i w 0 * (sqrt (V (nth i ms [])) * sqrt (V (nth i ms [])))) (fun i => nth i w 0 * V (nth i ms []))) in CS by (intros i Hi; apply in_seq in Hi; rewrite sqrt_sqrt; [reflexivity|apply HV; lia]).
  rewrite (rsum_map_ext (fun i => nth i w 0 * (sqrt (J (nth i ms [])) * sqrt (J (nth i ms [])))) (fun i => nth i w 0 * J (nth i ms []))) in CS by (intros i Hi; apply in_seq in Hi; rewrite sqrt_sqrt; [reflexivity|apply HV; lia]).
  eapply Rle_trans; [|exact CS]. set (X := rsum (map (fun i => nth i w 0 * (sqrt (V (nth i ms [])) * sqrt (J (nth i ms [])))) (seq 0 (length ms)))). assert (1 <= X); [|nra].
  assert (W2' : rsum (map (fun i => nth i w 0) (seq 0 (length ms))) = 1) by (rewrite <- Hl, <- Sum_rsum, <- rsum_index; exact W2).
  rewrite <- W2'. unfold X. rewrite <- !Sum_rsum. apply Sum_le. intros i Hi. destruct (HV i) as (H1 & H2 & H3); [lia|]. rewrite <- sqrt_mult by assumption. rewrite <- (Rmult_1_r (nth i w 0)) at 1. apply Rmult_le_compat_l; [apply P|]. rewrite <- sqrt_1. now apply sqrt_le_1_alt.
Qed.

(** ** The models of test_models.py; one parameter, moving at unit speed *)
Definition number (x : ext) : R := match x with Fin r => r | _ => 0 end.
Lemma honest_pr0 {E} (L : E -> nat -> R -> R) (f : E -> R -> R) (score : E -> nat -> nat -> R) e f' q0 q1 :
  (forall o t, L e o t = pr0_like (f e t) (Z.of_nat o)) -> derivable_pt_lim (f e) 0 f' -> 0 <= pr0_like (f e 0) 0 -> 0 <= pr0_like (f e 0) 1 ->
  score e 0%nat 0%nat = q0 -> score e 0%nat 1%nat = q1 -> f' = pr0_like (f e 0) 0 * q0 -> - f' = pr0_like (f e 0) 1 * q1 ->
  honest (fun _ => 2%nat) L 1 (fun _ => 1) score e.
Proof.
  intros HL Hf H0 H1 S0 S1 E0 E1. split; [|split].
  - intros o Ho. rewrite HL. destruct o as [|[|o]]; [exact H0|exact H1|lia].
  - intros t. rewrite !Sum_S, Sum_0, !HL. unfold pr0_like. cbn. ring.
  - intros o Ho. apply (deriv_ext (fun t => pr0_like (f e t) (Z.of_nat o))); [intros; symmetry; apply HL|]. rewrite !Sum_S, Sum_0, HL.
    pose proof (deriv_pr0 (f e) 0 f' (Z.of_nat o) Hf) as D. destruct o as [|[|o]]; [| |lia].
    + change (Z.of_nat 0) with 0%Z in *. rewrite S0, Rplus_0_r, Rmult_1_l, <- E0. exact D.
    + change (Z.of_nat 1) with 1%Z in *. rewrite S1, Rplus_0_r, Rmult_1_l, <- E1. exact D.
Qed.
(** CoinModel *)
Definition coin_L (p : R) (_ : unit) (o : nat) (t : R) : R := coin_like (p + t) (Z.of_nat o).
Definition coin_S (p : R) (_ : unit) (_ o : nat) : R := number (coin_score p (Z.of_nat o)).
Lemma coin_honest p : 0 < p < 1 -> honest (fun _ => 2%nat) (coin_L p) 1 (fun _ => 1) (coin_S p) tt.
Proof.
  intros H. apply (honest_pr0 (coin_L p) (fun _ t => p + t) (coin_S p) tt 1 (/ p) (- / (1 - p))).
  - reflexivity.
  - replace 1 with (0 + 1) at 1 by ring. apply (derivable_pt_lim_plus (fun _ => p) (fun t => t)); [apply derivable_pt_lim_const|apply derivable_pt_lim_id].
  - cbn. lra.
  - cbn. lra.
  - unfold coin_S, coin_score, xdiv. rewrite !Reqb_false by lra. cbn. field. lra.
  - unfold coin_S, coin_score, xdiv. rewrite !Reqb_false by lra. cbn. field. lra.
  - cbn. field. lra.
  - cbn. field. lra.
Qed.
Lemma coin_always p N : 0 < p < 1 -> always (fun _ => 2%nat) (honest (fun _ => 2%nat) (coin_L p) 1 (fun _ => 1) (coin_S p)) (script (repeat tt N)).
Proof. intros H. induction N as [|N IH]; [exact I|]. split; [now apply coin_honest|]. intros o _. exact IH. Qed.
Lemma coin_info p : 0 < p < 1 -> dir_info (fun _ => 2%nat) (coin_L p) 1 (fun _ => 1) (coin_S p) tt = 1 / (p * (1 - p)).
Proof.
  intros H. unfold dir_info. rewrite !Sum_S, !Sum_0. unfold fisher. cbn [seq map]. rewrite !rsum_cons, rsum_nil. unfold coin_S, coin_score, xdiv. rewrite !Reqb_false by lra. unfold coin_L, coin_like, pr0_like. cbn. field. lra.
Qed.
(** No unbiased estimator of the bias of a coin from N flips has a smaller variance than the frequency of zeros. *)
Theorem c150_coin p N T : 0 < p < 1 -> (0 < N)%nat -> derivable_pt_lim (expected (fun _ => 2%nat) (coin_L p) (script (repeat tt N)) T) 0 1 ->
  p * (1 - p) / INR N <= variance (fun _ => 2%nat) (coin_L p) (script (repeat tt N)) T.
Proof.
  intros H HN HD. assert (A := coin_always p N H). assert (B := c150_adaptive _ _ _ _ _ _ T 1 A HD). rewrite c150_script in B by exact A.
  assert (Ei : rsum (map (dir_info (fun _ => 2%nat) (coin_L p) 1 (fun _ => 1) (coin_S p)) (repeat tt N)) = INR N * (1 / (p * (1 - p)))).
  { clear -H. induction N as [|N IH]; [cbn [repeat map]; rewrite rsum_nil; cbn; ring|]. cbn [repeat map]. rewrite rsum_cons, IH, S_INR, coin_info by assumption. ring. }
  rewrite Ei in B. assert (Hn : 0 < INR N) by now apply (lt_INR 0). assert (Hpp : 0 < p * (1 - p)) by nra. set (V := variance _ _ _ _) in *. clearbody V.
  apply Rmult_le_reg_r with (INR N * / (p * (1 - p))); [apply Rmult_lt_0_compat; [assumption|now apply Rinv_0_lt_compat]|]. replace (p * (1 - p) / INR N * (INR N * / (p * (1 - p)))) with 1 by (field; repeat split; lra). replace (INR N * / (p * (1 - p))) with (INR N * (1 / (p * (1 - p)))) by (field; repeat split; lra). lra.
Qed.
(** The frequency of zeros *)
Definition zeros (h : list nat) : R := rsum (map (fun o => match o with O => 1 | _ => 0 end) h).
Lemma zeros_cons o h : zeros (o :: h) = (match o with O => 1 | _ => 0 end) + zeros h.
Proof. unfold zeros. cbn [map]. now rewrite rsum_cons. Qed.
Lemma zeros_sq p N t : forall c, expected (fun _ => 2%nat) (coin_L p) (script (repeat tt N)) (fun h => (zeros h - c) ^ 2) t = INR N * ((p + t) * (1 - (p + t))) + (INR N * (p + t) - c) ^ 2.
Proof.
  induction N as [|N IH]; intros c; [cbn [repeat script expected]; unfold zeros; cbn [map]; rewrite rsum_nil; cbn [INR]; ring|].
  cbn [repeat script expected]. rewrite !Sum_S, Sum_0. rewrite (expected_ext _ _ _ (fun h => (zeros (0%nat :: h) - c) ^ 2) (fun h => (zeros h - (c - 1)) ^ 2)) by (intros; rewrite zeros_cons; ring). rewrite (expected_ext _ _ _ (fun h => (zeros (1%nat :: h) - c) ^ 2) (fun h => (zeros h - c) ^ 2)) by (intros; rewrite zeros_cons; ring).
  rewrite !IH, S_INR. unfold coin_L, coin_like, pr0_like. cbn -[INR pow]. ring.
Qed.
Lemma zeros_mean p N t : expected (fun _ => 2%nat) (coin_L p) (script (repeat tt N)) zeros t = INR N * (p + t).
Proof.
  induction N as [|N IH]; [cbn [repeat script expected]; unfold zeros; cbn [map]; rewrite rsum_nil; cbn [INR]; ring|].
  cbn [repeat script expected]. rewrite !Sum_S, Sum_0. assert (O1 : forall a t, expected (fun _ => 2%nat) (coin_L p) (script (repeat tt N)) (fun _ => a) t = a).
  { clear IH. induction N as [|N IH]; intros a u; [reflexivity|]. cbn [repeat script expected]. rewrite !Sum_S, Sum_0, IH. unfold coin_L, coin_like, pr0_like. cbn. ring. }
  rewrite (expected_ext _ _ _ (fun h => zeros (0%nat :: h)) (fun h => 1 + zeros h)) by (intros; now rewrite zeros_cons). rewrite (expected_ext _ _ _ (fun h => zeros (1%nat :: h)) zeros) by (intros; rewrite zeros_cons; ring). rewrite (expected_plus _ _ _ (fun _ => 1) zeros), O1, !IH, S_INR. unfold coin_L, coin_like, pr0_like. cbn -[INR]. ring.
Qed.
Theorem c150_coin_attained p N : (0 < N)%nat -> let freq := fun h => / INR N * zeros h in
  (forall t, expected (fun _ => 2%nat) (coin_L p) (script (repeat tt N)) freq t = p + t) /\ variance (fun _ => 2%nat) (coin_L p) (script (repeat tt N)) freq = p * (1 - p) / INR N.
Proof.
  intros HN freq. assert (Hn : 0 < INR N) by now apply (lt_INR 0). assert (M : forall t, expected (fun _ => 2%nat) (coin_L p) (script (repeat tt N)) freq t = p + t) by (intros t; unfold freq; rewrite expected_scal, zeros_mean; field; lra).
  split; [exact M|]. unfold variance. rewrite M. rewrite (expected_ext _ _ _ (fun h => (freq h - (p + 0)) ^ 2) (fun h => / INR N ^ 2 * (zeros h - INR N * p) ^ 2)) by (intros; unfold freq; field; lra). rewrite expected_scal, zeros_sq, Rplus_0_r. field. lra.
Qed.

(** SimplePrecessionModel: whatever the rule for choosing the times, the variance of an unbiased frequency estimate is at least the
    inverse of the expected sum of squared times. *)
Definition prec_L (w : R) (t : R) (o : nat) (y : R) : R := prec_like t (w + y) (Z.of_nat o).
Definition prec_S (w : R) (t : R) (_ o : nat) : R := number (prec_score t w (Z.of_nat o)).
Lemma prec_honest w t : 0 < prec_like t w 0 -> 0 < prec_like t w 1 -> honest (fun _ => 2%nat) (prec_L w) 1 (fun _ => 1) (prec_S w) t /\ dir_info (fun _ => 2%nat) (prec_L w) 1 (fun _ => 1) (prec_S w) t = t ^ 2.
Proof.
  intros H0 H1. destruct (c39_precession t w 0 (or_introl eq_refl) H0) as (q0 & S0 & D0). destruct (c39_precession t w 1 (or_intror eq_refl) H1) as (q1 & S1 & D1).
  pose proof (inv_pr0_deriv t 0 w) as D. set (f' := - t * sin (t * (w - 0) / 2) * cos (t * (w - 0) / 2)) in *.
  assert (E0 : f' = prec_like t w 0 * q0). { pose proof (deriv_ln (fun x => prec_like t x 0) w _ (deriv_pr0 _ w f' 0 D) H0) as X. cbn [Z.eqb] in X. rewrite (uniqueness_limite _ _ _ _ D0 X). field. lra. }
  assert (E1 : - f' = prec_like t w 1 * q1). { pose proof (deriv_ln (fun x => prec_like t x 1) w _ (deriv_pr0 _ w f' 1 D) H1) as X. cbn [Z.eqb] in X. rewrite (uniqueness_limite _ _ _ _ D1 X). field. lra. }
  split.
  - apply (honest_pr0 (prec_L w) (fun t y => inv_pr0 t 0 (w + y)) (prec_S w) t f' q0 q1); rewrite ?Rplus_0_r.
    + reflexivity.
    + replace f' with (f' * (0 + 1)) by ring. apply (derivable_pt_lim_comp (fun y => w + y) (fun x => inv_pr0 t 0 x)); [apply (derivable_pt_lim_plus (fun _ => w) (fun t => t)); [apply derivable_pt_lim_const|apply derivable_pt_lim_id]|rewrite Rplus_0_r; exact D].
    + left. exact H0.
    + left. exact H1.
    + unfold prec_S. cbn [Z.of_nat]. now rewrite S0.
    + unfold prec_S. change (Z.of_nat 1) with 1%Z. now rewrite S1.
    + exact E0.
    + exact E1.
  - unfold dir_info. rewrite !Sum_S, !Sum_0, !Rmult_1_l, !Rmult_1_r, !Rplus_0_r. rewrite <- (c40_inversion_value t 0 w H0 H1 q0 q1 S0 S1). unfold fisher. cbn [seq map]. rewrite !rsum_cons, rsum_nil. unfold prec_L. rewrite !Rplus_0_r. unfold prec_S. cbn [Z.of_nat]. change (Z.of_nat 1) with 1%Z. rewrite S0. change (Z.pos (Pos.of_succ_nat 0)) with 1%Z. rewrite S1. reflexivity.
Qed.
Theorem c150_precession w p T : always (fun _ => 2%nat) (fun t => 0 < prec_like t w 0 /\ 0 < prec_like t w 1) p -> derivable_pt_lim (expected (fun _ => 2%nat) (prec_L w) p T) 0 1 ->
  1 <= variance (fun _ => 2%nat) (prec_L w) p T * expected (fun _ => 2%nat) (prec_L w) p (along (fun t => t ^ 2) p) 0.
Proof.
  intros A HD. assert (A' : always (fun _ => 2%nat) (honest (fun _ => 2%nat) (prec_L w) 1 (fun _ => 1) (prec_S w)) p).
  { clear HD. induction p as [|t k IH]; [exact I|]. destruct A as [[H0 H1] A]. split; [now apply prec_honest|]. intros o Ho. now apply IH, A. }
  pose proof (c150_adaptive _ _ _ _ _ _ T 1 A' HD) as B. rewrite pow1 in B. eapply Rle_trans; [exact B|]. right. f_equal. unfold information. clear HD B A'.
  induction p as [|t k IH]; [reflexivity|]. destruct A as [[H0 H1] A]. cbn [expected]. apply Sum_ext. intros o Ho. f_equal. cbn [along]. rewrite (proj2 (prec_honest w t H0 H1)). rewrite !(expected_plus _ _ _ (fun _ => t ^ 2)). f_equal. apply IH. now apply A.
Qed.

(** ** Non-vacuity *)
(** A second experiment only after the outcome 0, at the frequency pi/2 *)
Definition ex_plan : plan R := Ask 1 (fun o => match o with O => Ask (1/2) (fun _ => Stop) | _ => Stop end).
Definition ex_T (h : list nat) : R := match h with O :: _ => -2 | _ => 0 end.
Lemma ex_like t : 0 < t <= 1 -> 0 < prec_like t (PI/2) 0 /\ 0 < prec_like t (PI/2) 1.
Proof.
  intros Ht. unfold prec_like, inv_like, pr0_like, inv_pr0. cbn [Z.eqb]. rewrite sin2. assert (P := PI_RGT_0). replace (t * (PI / 2 - 0) / 2) with (t * (PI / 4)) by field.
  assert (0 < t * (PI / 4) < PI / 2) by nra. split; apply pow_lt; [apply cos_gt_0; lra|apply sin_gt_0; lra].
Qed.
Lemma ex_always : always (fun _ => 2%nat) (fun t => 0 < prec_like t (PI/2) 0 /\ 0 < prec_like t (PI/2) 1) ex_plan.
Proof. split; [apply ex_like; lra|]. intros [|o] _; [split; [apply ex_like; lra|]|exact I]. intros o _. exact I. Qed.
Lemma ex_derivative : derivable_pt_lim (expected (fun _ => 2%nat) (prec_L (PI/2)) ex_plan ex_T) 0 1.
Proof.
  apply (deriv_ext (fun t => -2 * inv_pr0 1 0 (PI/2 + t))).
  - intros t. cbn [ex_plan expected]. rewrite !Sum_S, !Sum_0. cbn [ex_T]. unfold prec_L, prec_like, inv_like, pr0_like. cbn. ring.
  - assert (D := inv_pr0_deriv 1 0 (PI/2)). replace (1 * (PI / 2 - 0) / 2) with (PI / 4) in D by field. rewrite sin_PI4, cos_PI4 in D.
    assert (Q : -2 * ((- (1) * (1 / sqrt 2) * (1 / sqrt 2)) * (0 + 1)) = 1).
    { assert (X := sqrt_sqrt 2 ltac:(lra)). assert (Y : 0 < sqrt 2) by (apply sqrt_lt_R0; lra). apply Rmult_eq_reg_r with (sqrt 2 * sqrt 2); [|lra]. transitivity 2; [field; lra|lra]. }
    cut (derivable_pt_lim (fun t => -2 * inv_pr0 1 0 (PI/2 + t)) 0 (-2 * ((- (1) * (1 / sqrt 2) * (1 / sqrt 2)) * (0 + 1)))); [now rewrite Q|].
    apply derivable_pt_lim_scal. apply (derivable_pt_lim_comp (fun y => PI/2 + y) (fun x => inv_pr0 1 0 x)); [apply (derivable_pt_lim_plus (fun _ => PI/2) (fun t => t)); [apply derivable_pt_lim_const|apply derivable_pt_lim_id]|rewrite Rplus_0_r; exact D].
Qed.
Example ex_c150_precession : 1 <= variance (fun _ => 2%nat) (prec_L (PI/2)) ex_plan ex_T * expected (fun _ => 2%nat) (prec_L (PI/2)) ex_plan (along (fun t => t ^ 2) ex_plan) 0.
Proof. exact (c150_precession (PI/2) ex_plan ex_T ex_always ex_derivative). Qed.
Example ex_c150_coin : let freq := fun h => / INR 10 * zeros h in derivable_pt_lim (expected (fun _ => 2%nat) (coin_L (1/3)) (script (repeat tt 10)) freq) 0 1 /\ variance (fun _ => 2%nat) (coin_L (1/3)) (script (repeat tt 10)) freq = 1/45.
Proof.
  intros freq. destruct (c150_coin_attained (1/3) 10 ltac:(lia)) as [M V]. fold freq in M, V. split; [|rewrite V; cbn; lra]. apply (deriv_ext (fun t => 1/3 + t)); [intros; symmetry; apply M|]. apply is_derive_Reals. auto_derive; [exact I|ring].
Qed.
Example ex_c150_cloud : let freq := fun h => / INR 3 * zeros h in let L := fun (m : loc) => coin_L (nth 0 m 0) in
  1 <= rsum (map2 (fun p m => p * variance (fun _ => 2%nat) (L m) (script (repeat tt 3)) freq) [1/2; 1/2] [[1/4]; [3/4]]) *
       rsum (map (fun e => Sum 1 (fun i => Sum 1 (fun j => 1 * bim_weighted (fun m e => fisher 2 (fun o => L m e o 0) (coin_S (nth 0 m 0) e)) [1/2; 1/2] [[1/4]; [3/4]] e i j * 1))) (repeat tt 3)).
Proof.
  intros freq L. apply (c150_cloud (fun _ => 2%nat) L 1 (fun _ => 1) (fun m => coin_S (nth 0 m 0)) [1/2; 1/2] [[1/4]; [3/4]] (repeat tt 3) freq).
  - split; [repeat constructor; lra|rewrite !rsum_cons, rsum_nil; lra].
  - reflexivity.
  - intros m [<-|[<-|[]]]; apply coin_always; cbn; lra.
  - intros m _ t. destruct (c150_coin_attained (nth 0 m 0) 3 ltac:(lia)) as [M _]. fold freq in M. unfold L. rewrite !M. ring.
Qed.
Print Assumptions c150_adaptive.
Print Assumptions c150_unbiased.
Print Assumptions c150_script.
Print Assumptions c150_cloud.
Print Assumptions c150_coin.
Print Assumptions c150_coin_attained.
Print Assumptions c150_precession.
