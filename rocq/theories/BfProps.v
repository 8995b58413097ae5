(** C158 *)
From Verif Require Import Base RList Ext Sums SmcModel SmcSpec SmcProofs DerProofs LearnSpec LearnProofs LearnProps VarProps MisSpec MisProps CountProofs CountProps RateSpec RateProofs RateProps BfSpec.
From Coq Require Import List.

Section Ville.
Context {O E : Type} (dom : E -> list O) (pol : list O -> E) (h : R) (P1 P2 : list (O * E) -> R).
Hypothesis Hh : 0 <= h.
Hypothesis N1 : forall pre e, SumL (dom e) (fun o => P1 (pre ++ [(o, e)])) = P1 pre.
Hypothesis N2 : forall pre e, SumL (dom e) (fun o => P2 (pre ++ [(o, e)])) = P2 pre.
Hypothesis Z2 : forall d, 0 <= P2 d.
Definition ever (pre d : list (O * E)) : bool := existsb (fun k => Rleb (h * P1 (pre ++ firstn k d)) (P2 (pre ++ firstn k d))) (seq 0 (S (length d))).
Lemma ever_top pre d : h * P1 pre <= P2 pre -> ever pre d = true.
Proof. intros H. unfold ever. cbn [seq existsb firstn]. rewrite app_nil_r, Rleb_true by assumption. reflexivity. Qed.
Lemma ever_cons pre p d : P2 pre < h * P1 pre -> ever pre (p :: d) = ever (pre ++ [p]) d.
Proof.
  intros H. unfold ever. change (seq 0 (S (length (p :: d)))) with (0%nat :: seq 1 (S (length d))). rewrite <- seq_shift. cbn [existsb firstn]. rewrite app_nil_r, Rleb_false by assumption. cbn [orb].
  generalize (seq 0 (S (length d))) as l. induction l as [|k l IH]; cbn [map existsb firstn]; [reflexivity|]. rewrite IH, <- !app_assoc. reflexivity.
Qed.
Lemma total1 n : forall hist pre, SumL (records dom pol n hist) (fun d => P1 (pre ++ d)) = P1 pre.
Proof.
  induction n as [|n IH]; intros hist pre; cbn [records].
  - unfold SumL. cbn. rewrite app_nil_r. ring.
  - rewrite SumL_flat_map. rewrite <- (N1 pre (pol hist)). apply SumL_ext. intros o _. rewrite SumL_map. rewrite <- (IH (hist ++ [o]) (pre ++ [(o, pol hist)])). apply SumL_ext. intros d _. now rewrite <- app_assoc.
Qed.
Lemma ville_factor n : forall hist pre, h * SumL (records dom pol n hist) (fun d => P1 (pre ++ d) * indicator (ever pre d)) <= P2 pre.
Proof.
  induction n as [|n IH]; intros hist pre; destruct (Rle_lt_dec (h * P1 pre) (P2 pre)) as [Hle|Hlt].
  - rewrite (SumL_ext _ _ (fun d => P1 (pre ++ d))) by (intros d _; rewrite ever_top by assumption; cbn; ring). now rewrite total1.
  - cbn [records]. unfold SumL. cbn [fold_right]. unfold ever. cbn [length seq existsb firstn]. rewrite app_nil_r, Rleb_false by assumption. cbn. pose proof (Z2 pre). lra.
  - rewrite (SumL_ext _ _ (fun d => P1 (pre ++ d))) by (intros d _; rewrite ever_top by assumption; cbn; ring). now rewrite total1.
  - cbn [records]. rewrite SumL_flat_map, <- SumL_scal, <- (N2 pre (pol hist)). apply SumL_le. intros o _. rewrite SumL_map. eapply Rle_trans; [|apply (IH (hist ++ [o]) (pre ++ [(o, pol hist)]))].
    apply Req_le. f_equal. apply SumL_ext. intros d _. now rewrite ever_cons, <- app_assoc by assumption.
Qed.
End Ville.

Section Props.
Context {O E RND : Type}.
Implicit Types (c : @config O E RND) (s : @state O).

Lemma path_next c rs dom (V : loc -> Prop) e : good_config c -> (forall x e, V x -> SumL (dom e) (fun o => lik (md c) o x e) = 1) -> (forall r l e, Forall V l -> Forall V (timestep (md c) r l e)) ->
  forall data idx l i, Forall V l -> (i < length l)%nat -> SumL (dom e) (fun o => path_lik c rs idx (data ++ [(o, e)]) l i) = path_lik c rs idx data l i.
Proof.
  intros G Hn Hst. induction data as [|[o e'] data IH]; intros idx l i HV Hi; cbn [app path_lik].
  - rewrite (SumL_ext _ _ (fun o => lik (md c) o (nth i l []) e)) by (intros; ring). apply Hn. rewrite Forall_forall in HV. now apply HV, nth_In.
  - rewrite SumL_scal, IH; [reflexivity|now apply Hst|]. now rewrite (step_len c G).
Qed.
Lemma predictive_next c rs dom V pol n s data e : study c rs dom V pol n s -> SumL (dom e) (fun o => predictive c rs s (data ++ [(o, e)])) = predictive c rs s data.
Proof.
  intros []. unfold predictive. rewrite SumL_Sum_swap. apply Sum_ext. intros i Hi. rewrite SumL_scal. f_equal. now apply (path_next c rs dom V).
Qed.
Lemma predictive_nonneg c rs s data : good_config c -> full_inv s -> 0 <= predictive c rs s data.
Proof. intros G Hs. unfold predictive. apply Sum_nonneg. intros i _. apply Rmult_le_pos; [apply (wt_range s i Hs)|now apply path_nonneg]. Qed.
Lemma regular_firstn c rs : forall data idx s k, regular c rs idx data s -> regular c rs idx (firstn k data) s.
Proof. induction data as [|[o e] data IH]; intros idx s [|k] H; cbn [firstn]; try exact I; auto. cbn [regular] in *. intuition. Qed.
Lemma factor_value c c' rs rs' s s' data : good_config c -> good_config c' -> zthresh c < 1 -> zthresh c' < 1 -> full_inv s -> full_inv s' -> nrec s = [] -> nrec s' = [] -> regular c rs 0 data s -> regular c' rs' 0 data s' ->
  log_factor (run c s (updates rs 0 data)) (run c' s' (updates rs' 0 data)) = ln (predictive c' rs' s' data) - ln (predictive c rs s data) /\ 0 < predictive c rs s data /\ 0 < predictive c' rs' s' data.
Proof.
  intros G G' T T' I1 I' F F' Rg Rg'. destruct (total_is_prediction c rs s data G T I1 F Rg) as [L1 P1]. destruct (total_is_prediction c' rs' s' data G' T' I' F' Rg') as [L2 P2]. unfold log_factor. rewrite L1, L2. auto.
Qed.

(** Both logarithms are finite and the factor is the ratio of what the two updaters predicted for the record. *)
Theorem c158_factor c c' rs rs' dom V V' pol n s s' data : study c rs dom V pol n s -> study c' rs' dom V' pol n s' -> In data (records dom pol n []) ->
  exists a b, log_total_likelihood (run c s (updates rs 0 data)) = Fin a /\ log_total_likelihood (run c' s' (updates rs' 0 data)) = Fin b /\ log_factor (run c s (updates rs 0 data)) (run c' s' (updates rs' 0 data)) = b - a /\ exp (b - a) = predictive c' rs' s' data / predictive c rs s data.
Proof.
  intros [G T I1 F _ _ _ Rg] [G' T' I' F' _ _ _ Rg'] Hd. destruct (total_is_prediction c rs s data G T I1 F (Rg data Hd)) as [L1 P1]. destruct (total_is_prediction c' rs' s' data G' T' I' F' (Rg' data Hd)) as [L2 P2].
  exists (ln (predictive c rs s data)), (ln (predictive c' rs' s' data)). unfold log_factor. rewrite L1, L2. repeat split. unfold Rminus. rewrite exp_plus, exp_Ropp, !exp_ln by assumption. reflexivity.
Qed.
(** When the data are as the first updater predicts, the Bayes factor reaches [exp h] in favour of the second at some time with probability at most [exp (-h)]: stopping when the result looks good does not help. *)
Theorem c158_misleading_evidence c c' rs rs' dom V V' pol n s s' h : study c rs dom V pol n s -> study c' rs' dom V' pol n s' ->
  SumL (records dom pol n []) (fun data => predictive c rs s data * indicator (ever_favoured c c' rs rs' s s' h data)) <= exp (- h).
Proof.
  intros S1 S2. pose proof S1 as X1. pose proof S2 as X2. destruct X1 as [G T I1 F _ _ _ Rg]. destruct X2 as [G' T' I' F' _ _ _ Rg'].
  pose proof (ville_factor dom pol (exp h) (predictive c rs s) (predictive c' rs' s') (fun pre e => predictive_next c rs dom V pol n s pre e S1) (fun pre e => predictive_next c' rs' dom V' pol n s' pre e S2) (fun d => predictive_nonneg c' rs' s' d G' I') n [] []) as K.
  assert (P0 : predictive c' rs' s' [] = 1). { unfold predictive. rewrite (Sum_ext _ _ (wt s')) by (intros; cbn; ring). now apply full_inv_Sum. } rewrite P0 in K. pose proof (exp_pos h) as Eh.
  apply Rmult_le_reg_l with (exp h); [assumption|]. rewrite <- exp_plus. replace (h + - h) with 0 by ring. rewrite exp_0. eapply Rle_trans; [|exact K]. apply Req_le. f_equal. apply SumL_ext. intros d Hd. f_equal. f_equal. unfold ever_favoured, ever. cbn [app].
  assert (EB : forall l, existsb (fun k => Rleb h (log_factor (run c s (updates rs 0 (firstn k d))) (run c' s' (updates rs' 0 (firstn k d))))) l = existsb (fun k => Rleb (exp h * predictive c rs s (firstn k d)) (predictive c' rs' s' (firstn k d))) l); [|apply EB].
  induction l as [|k l IH]; cbn [existsb]; [reflexivity|]. rewrite IH. f_equal.
  destruct (factor_value c c' rs rs' s s' (firstn k d) G G' T T' I1 I' F F' (regular_firstn c rs d 0 s k (Rg d Hd)) (regular_firstn c' rs' d 0 s' k (Rg' d Hd))) as (-> & A1 & A2).
  destruct (Rle_lt_dec h (ln (predictive c' rs' s' (firstn k d)) - ln (predictive c rs s (firstn k d)))) as [Hle|Hlt].
  - rewrite !Rleb_true; [reflexivity| |assumption]. rewrite <- (exp_ln (predictive c rs s (firstn k d))), <- exp_plus by assumption. rewrite <- (exp_ln (predictive c' rs' s' (firstn k d))) by assumption. destruct (Rle_lt_or_eq_dec _ _ Hle) as [L|L]; [apply Rlt_le, exp_increasing; lra|apply Req_le; f_equal; lra].
  - rewrite !Rleb_false; [reflexivity| |assumption]. rewrite <- (exp_ln (predictive c rs s (firstn k d))), <- exp_plus by assumption. rewrite <- (exp_ln (predictive c' rs' s' (firstn k d))) at 1 by assumption. apply exp_increasing. lra.
Qed.
(** On average the first updater's total log-likelihood is the larger one, ... *)
Theorem c158_own_data c c' rs rs' dom V V' pol n s s' : study c rs dom V pol n s -> study c' rs' dom V' pol n s' ->
  SumL (records dom pol n []) (fun data => predictive c rs s data * log_factor (run c s (updates rs 0 data)) (run c' s' (updates rs' 0 data))) <= 0.
Proof.
  intros S1 S2. pose proof S1 as X1. pose proof S2 as X2. destruct X1 as [G T I1 F Vd N1 St Rg]. destruct X2 as [G' T' I' F' Vd' N1' St' Rg'].
  assert (FV := fun data Hd => factor_value c c' rs rs' s s' data G G' T T' I1 I' F F' (Rg data Hd) (Rg' data Hd)).
  destruct (gibbs (records dom pol n []) (predictive c rs s) (predictive c' rs' s') (fun d Hd => proj1 (proj2 (FV d Hd))) (fun d Hd => proj2 (proj2 (FV d Hd)))) as [K _].
  - exact (predictive_total c rs dom V (step_len c G) N1 St pol n [] s Vd I1).
  - exact (predictive_total c' rs' dom V' (step_len c' G') N1' St' pol n [] s' Vd' I').
  - apply Ropp_le_cancel. rewrite Ropp_0. eapply Rle_trans; [exact K|]. apply Req_le. replace (- SumL (records dom pol n []) (fun data => predictive c rs s data * log_factor (run c s (updates rs 0 data)) (run c' s' (updates rs' 0 data)))) with (-1 * SumL (records dom pol n []) (fun data => predictive c rs s data * log_factor (run c s (updates rs 0 data)) (run c' s' (updates rs' 0 data)))) by ring. rewrite <- SumL_scal. apply SumL_ext. intros d Hd. destruct (FV d Hd) as (-> & _). ring.
Qed.
(** ... and the Bayes factor itself is one on average. *)
Theorem c158_average_factor c c' rs rs' dom V V' pol n s s' : study c rs dom V pol n s -> study c' rs' dom V' pol n s' ->
  SumL (records dom pol n []) (fun data => predictive c rs s data * exp (log_factor (run c s (updates rs 0 data)) (run c' s' (updates rs' 0 data)))) = 1.
Proof.
  intros S1 S2. pose proof S1 as X1. pose proof S2 as X2. destruct X1 as [G T I1 F Vd N1 St Rg]. destruct X2 as [G' T' I' F' Vd' N1' St' Rg'].
  rewrite <- (predictive_total c' rs' dom V' (step_len c' G') N1' St' pol n [] s' Vd' I'). apply SumL_ext. intros d Hd.
  destruct (factor_value c c' rs rs' s s' d G G' T T' I1 I' F F' (Rg d Hd) (Rg' d Hd)) as (-> & A1 & A2). unfold Rminus. rewrite exp_plus, exp_Ropp, !exp_ln by assumption. field. lra.
Qed.
(** On long data with limiting frequencies, the factor grows or falls exponentially at the rate by which the best particles differ in fit. *)
Theorem c158_growth c c' rs rs' dom es phi s s' dec data t t' : settled c dom es phi s dec data -> settled c' dom es phi s' dec data -> nrec s = [] -> nrec s' = [] ->
  (t < n_particles s)%nat -> 0 < wt s t -> (forall i, (i < n_particles s)%nat -> 0 < wt s i -> fit c dom es phi s i <= fit c dom es phi s t) ->
  (t' < n_particles s')%nat -> 0 < wt s' t' -> (forall i, (i < n_particles s')%nat -> 0 < wt s' i -> fit c' dom es phi s' i <= fit c' dom es phi s' t') ->
  tends (fun n => log_factor (run c s (updates rs 0 (map data (seq 0 n)))) (run c' s' (updates rs' 0 (map data (seq 0 n)))) / INR n) (fit c' dom es phi s' t' - fit c dom es phi s t).
Proof.
  intros H1 H2 F1 F2 Ht Wt B Ht' Wt' B'. destruct (c153_total c rs dom es phi s dec data H1 t F1 Ht Wt B) as (T1 & E1 & L1). destruct (c153_total c' rs' dom es phi s' dec data H2 t' F2 Ht' Wt' B') as (T2 & E2 & L2).
  apply (tends_ext (fun n => T2 n / INR n - T1 n / INR n)); [|now apply tends_minus]. intros n. unfold log_factor. rewrite E1, E2. unfold Rdiv. ring.
Qed.

(** ** Two priors on the same particles *)
Section Priors.
Variables (c : @config O E RND) (rs : nat -> RND) (s s' : @state O).
Hypothesis G : good_config c.
Hypothesis T : zthresh c < 1.
Hypothesis I1 : full_inv s.
Hypothesis I2 : full_inv s'.
Hypothesis Hls : ls s' = ls s.
(** Priors within a factor: so are the evidences, ... *)
Theorem c158_prior_evidence data a b : 0 < a -> (forall i, (i < n_particles s)%nat -> a * wt s' i <= wt s i <= b * wt s' i) -> 
  a * predictive c rs s' data <= predictive c rs s data <= b * predictive c rs s' data.
Proof.
  intros Ha H. unfold predictive, n_particles in *. rewrite Hls. split; rewrite <- Sum_scal; apply Sum_le; intros i Hi; pose proof (path_nonneg c rs data G 0%nat (ls s) i); specialize (H i Hi); nra.
Qed.
(** ... and the posteriors are within the product of the factors, however many data there are. *)
Theorem c158_prior_posterior data a b i : 0 < a -> (forall i, (i < n_particles s)%nat -> a * wt s' i <= wt s i <= b * wt s' i) -> regular c rs 0 data s -> regular c rs 0 data s' -> (i < n_particles s)%nat ->
  a * wt (run c s' (updates rs 0 data)) i <= b * wt (run c s (updates rs 0 data)) i /\ a * wt (run c s (updates rs 0 data)) i <= b * wt (run c s' (updates rs 0 data)) i.
Proof.
  intros Ha H R1 R2 Hi. destruct (c158_prior_evidence data a b Ha H) as [Z1 Z2]. destruct (predictive_recorded c rs s data G T I1 R1) as (N1 & _ & Q1 & Q2 & K1). destruct (predictive_recorded c rs s' data G T I2 R2) as (N2 & _ & Q3 & Q4 & K2). rewrite Q1 in Q2. rewrite Q3 in Q4.
  specialize (K1 i Hi). specialize (K2 i ltac:(unfold n_particles in *; now rewrite Hls)). rewrite Hls in K2. specialize (H i Hi). pose proof (path_nonneg c rs data G 0%nat (ls s) i) as HL. pose proof (wt_range s' i I2) as W'. pose proof (wt_range s i I1) as W.
  set (w := wt (run c s (updates rs 0 data)) i) in *. set (w' := wt (run c s' (updates rs 0 data)) i) in *. set (z := predictive c rs s data) in *. set (z' := predictive c rs s' data) in *. set (L := path_lik c rs 0 data (ls s) i) in *. clearbody w w' z z' L.
  assert (Hw : w = wt s i * L / z) by (apply Rmult_eq_reg_l with z; [|lra]; rewrite K1; field; lra). assert (Hw' : w' = wt s' i * L / z') by (apply Rmult_eq_reg_l with z'; [|lra]; rewrite K2; field; lra).
  assert (0 < b) by nra. split; apply Rmult_le_reg_r with (z * z'); try nra.
  - replace (a * w' * (z * z')) with (a * z * (z' * w')) by ring. replace (b * w * (z * z')) with (b * z' * (z * w)) by ring. rewrite K1, K2.
    apply Rle_trans with (z * (wt s i * L)); [|apply Rmult_le_compat_r; [nra|lra]]. replace (a * z * (wt s' i * L)) with (z * (a * wt s' i * L)) by ring. apply Rmult_le_compat_l; [lra|]. apply Rmult_le_compat_r; lra.
  - replace (a * w * (z * z')) with (a * z' * (z * w)) by ring. replace (b * w' * (z * z')) with (b * z * (z' * w')) by ring. rewrite K1, K2.
    apply Rle_trans with (z * (wt s i * L)); [apply Rmult_le_compat_r; [nra|lra]|]. replace (b * z * (wt s' i * L)) with (z * (b * wt s' i * L)) by ring. apply Rmult_le_compat_l; [lra|]. apply Rmult_le_compat_r; lra.
Qed.
(** Sharing data brings opinions together: averaged over the data that the first prior predicts, the relative entropy between the posteriors is that between the priors less that between the predictions. *)
Theorem c158_opinions_approach dom V pol n : study c rs dom V pol n s -> study c rs dom V pol n s' -> (forall i, (i < n_particles s)%nat -> 0 < wt s i /\ 0 < wt s' i) ->
  let gap := SumL (records dom pol n []) (fun data => predictive c rs s data * (ln (predictive c rs s data) - ln (predictive c rs s' data))) in
  SumL (records dom pol n []) (fun data => predictive c rs s data * relative_entropy (run c s (updates rs 0 data)) (run c s' (updates rs 0 data))) = relative_entropy s s' - gap /\ 0 <= gap.
Proof.
  intros S1 S2 Hpos gap. pose proof S1 as X1. pose proof S2 as X2. destruct X1 as [_ _ _ F Vd N1 St Rg]. destruct X2 as [_ _ _ F' Vd' _ _ Rg'].
  assert (FV := fun data Hd => factor_value c c rs rs s s' data G G T T I1 I2 F F' (Rg data Hd) (Rg' data Hd)). split.
  - unfold gap. rewrite (SumL_ext _ _ (fun data => Sum (n_particles s) (fun i => wt s i * (ln (wt s i) - ln (wt s' i)) * path_lik c rs 0 data (ls s) i) - predictive c rs s data * (ln (predictive c rs s data) - ln (predictive c rs s' data)))).
    + rewrite SumL_minus. f_equal. rewrite SumL_Sum_swap. unfold relative_entropy. apply Sum_ext. intros i Hi. rewrite SumL_scal. rewrite (path_total c rs dom V (step_len c G) N1 St pol n [] 0%nat (ls s) i Vd Hi). ring.
    + intros data Hd. destruct (FV data Hd) as (_ & A1 & A2). destruct (predictive_recorded c rs s data G T I1 (Rg data Hd)) as (_ & _ & _ & _ & K1). destruct (predictive_recorded c rs s' data G T I2 (Rg' data Hd)) as (_ & _ & _ & _ & K2). destruct (run_regular c rs G T data 0%nat s I1 (Rg data Hd)) as (_ & HN & _).
      unfold relative_entropy. rewrite HN. rewrite <- Sum_scal. replace (predictive c rs s data * (ln (predictive c rs s data) - ln (predictive c rs s' data))) with (Sum (n_particles s) (fun i => (ln (predictive c rs s data) - ln (predictive c rs s' data)) * (wt s i * path_lik c rs 0 data (ls s) i))) by (rewrite Sum_scal; fold (predictive c rs s data); ring). rewrite <- Sum_minus. apply Sum_ext. intros i Hi.
      specialize (K1 i Hi). specialize (K2 i ltac:(unfold n_particles in *; now rewrite Hls)). rewrite Hls in K2. destruct (Hpos i Hi) as [W W']. pose proof (path_nonneg c rs data G 0%nat (ls s) i) as HL.
      rewrite <- Rmult_assoc, K1. set (L := path_lik c rs 0 data (ls s) i) in *. set (w := wt (run c s (updates rs 0 data)) i) in *. set (w' := wt (run c s' (updates rs 0 data)) i) in *.
      destruct (Req_dec L 0) as [->|HL0]; [ring|]. assert (L0 : 0 < L) by lra. assert (P : 0 < w) by (apply Rmult_lt_reg_l with (predictive c rs s data); [assumption|]; rewrite K1, Rmult_0_r; now apply Rmult_lt_0_compat). assert (P' : 0 < w') by (apply Rmult_lt_reg_l with (predictive c rs s' data); [assumption|]; rewrite K2, Rmult_0_r; now apply Rmult_lt_0_compat).
      assert (Q1 : ln (predictive c rs s data) + ln w = ln (wt s i) + ln L) by (rewrite <- !ln_mult by assumption; now f_equal). assert (Q2 : ln (predictive c rs s' data) + ln w' = ln (wt s' i) + ln L) by (rewrite <- !ln_mult by assumption; now f_equal).
      replace (ln w) with (ln (wt s i) + ln L - ln (predictive c rs s data)) by lra. replace (ln w') with (ln (wt s' i) + ln L - ln (predictive c rs s' data)) by lra. ring.
  - apply gibbs; [intros d Hd; apply (FV d Hd)|intros d Hd; apply (FV d Hd)| |].
    + exact (predictive_total c rs dom V (step_len c G) N1 St pol n [] s Vd I1).
    + exact (predictive_total c rs dom V (step_len c G) N1 St pol n [] s' Vd' I2).
Qed.
End Priors.
End Props.

(** ** Examples: the two coins of C118, with equal weights and with weights 1/4, 3/4; and a model that knows only fair coins *)
Definition ex_other : @state Z := {| ws := [1/4; 3/4]; ls := [[0]; [1]]; drec := []; nrec := []; mness := PInf; rcnt := 0; jr := false; calls := 0 |}.
Definition fair (o : Z) (x : loc) (_ : unit) : R := 1 / 2.
Lemma coin_study (l : Z -> loc -> unit -> R) (s : @state Z) pol n : l = coin \/ l = fair -> s = ex_state \/ s = ex_other -> study (ex_config l) (fun _ => tt) (fun _ => [0%Z; 1%Z]) (fun _ => True) pol n s.
Proof.
  intros Hl Hs. assert (Ep : eps <= 1/32). { unfold eps. replace (1/32) with (/ 2 ^ 5) by lra. apply Rinv_le_contravar; [apply pow_lt; lra|]. apply Rle_pow; [lra|lia]. }
  assert (Low : forall o x e, 1/10 <= l o x e) by (intros o x e; destruct Hl as [-> | ->]; [apply coin_low|unfold fair; lra]).
  assert (G : good_config (ex_config l)) by (apply ex_good; intros o x e; pose proof (Low o x e); lra).
  assert (F : full_inv s) by (destruct Hs as [-> | ->]; (split; [reflexivity|split; [repeat constructor; lra|cbn; rewrite !rsum_cons, rsum_nil; lra]])).
  constructor; try assumption; try (cbn; lra).
  - destruct Hs as [-> | ->]; reflexivity.
  - apply Forall_forall. auto.
  - intros x e _. unfold SumL. cbn. destruct Hl as [-> | ->]; [|unfold fair; lra]. unfold coin. destruct x as [|a [|b x]]; try lra. destruct (Rltb a (1/2)); cbn; lra.
  - intros r l' e H. exact H.
  - intros data _. apply regular_bounded; [assumption|cbn; lra| |assumption]. intros o e x _. cbn. pose proof (Low o x e). lra.
Qed.
Example bf_misleading n : SumL (records (fun _ => [0%Z; 1%Z]) (fun _ => tt) n []) (fun data => predictive (ex_config fair) (fun _ => tt) ex_state data * indicator (ever_favoured (ex_config fair) (ex_config coin) (fun _ => tt) (fun _ => tt) ex_state ex_other 3 data)) <= exp (-3).
Proof. apply c158_misleading_evidence with (V := fun _ => True) (V' := fun _ => True); apply coin_study; auto. Qed.
Example bf_posteriors data : 2/3 * wt (run (ex_config coin) ex_other (updates (fun _ => tt) 0 data)) 0 <= 2 * wt (run (ex_config coin) ex_state (updates (fun _ => tt) 0 data)) 0.
Proof.
  assert (Ep : eps <= 1/32). { unfold eps. replace (1/32) with (/ 2 ^ 5) by lra. apply Rinv_le_contravar; [apply pow_lt; lra|]. apply Rle_pow; [lra|lia]. }
  destruct (coin_study coin ex_state (fun _ => tt) 0 ltac:(auto) ltac:(auto)). destruct (coin_study coin ex_other (fun _ => tt) 0 ltac:(auto) ltac:(auto)).
  apply (c158_prior_posterior (ex_config coin) (fun _ => tt) ex_state ex_other); try assumption; try reflexivity; try lra.
  - intros [|[|i]] Hi; cbn in Hi; try lia; cbn; lra.
  - apply regular_bounded; [assumption|cbn; lra| |assumption]. intros o e x _. cbn. pose proof (coin_low o x e). lra.
  - apply regular_bounded; [assumption|cbn; lra| |assumption]. intros o e x _. cbn. pose proof (coin_low o x e). lra.
  - cbn. lia.
Qed.
Example bf_approach n : let c := ex_config coin in
  SumL (records (fun _ => [0%Z; 1%Z]) (fun _ => tt) n []) (fun data => predictive c (fun _ => tt) ex_state data * relative_entropy (run c ex_state (updates (fun _ => tt) 0 data)) (run c ex_other (updates (fun _ => tt) 0 data))) <= relative_entropy ex_state ex_other.
Proof.
  intros c. pose proof (coin_study coin ex_state (fun _ => tt) n ltac:(auto) ltac:(auto)) as S1. pose proof (coin_study coin ex_other (fun _ => tt) n ltac:(auto) ltac:(auto)) as S2. pose proof (b_config _ _ _ _ _ _ _ S1) as G. pose proof (b_threshold _ _ _ _ _ _ _ S1) as T. pose proof (b_state _ _ _ _ _ _ _ S1) as I1. pose proof (b_state _ _ _ _ _ _ _ S2) as I2.
  destruct (c158_opinions_approach (ex_config coin) (fun _ => tt) ex_state ex_other G T I1 I2 eq_refl (fun _ => [0%Z; 1%Z]) (fun _ => True) (fun _ => tt) n S1 S2) as [K1 K2].
  - intros [|[|i]] Hi; cbn in Hi; try lia; cbn; lra.
  - unfold c. rewrite K1. lra.
Qed.
(** Alternating data: the fair model gains on a cloud with only the unfair coin. *)
Example bf_growth : let one x := {| ws := [1]; ls := [[x]]; drec := []; nrec := []; mness := PInf; rcnt := 0; jr := false; calls := 0 |} : @state Z in
  tends (fun n => log_factor (run (ex_config coin) (one 0) (updates (fun _ => tt) 0 (map alternating (seq 0 n)))) (run (ex_config fair) (one 1) (updates (fun _ => tt) 0 (map alternating (seq 0 n)))) / INR n) (ln (5 / 3)).
Proof.
  intros one. assert (Ep : eps <= 1/32). { unfold eps. replace (1/32) with (/ 2 ^ 5) by lra. apply Rinv_le_contravar; [apply pow_lt; lra|]. apply Rle_pow; [lra|lia]. }
  assert (St : forall l x, (forall o x e, 1/10 <= l o x e) -> settled (ex_config l) (fun _ => [0%Z; 1%Z]) [tt] (fun _ _ => 1/2) (one x) dec_zu alternating).
  { intros l x Low. constructor.
    - apply ex_good. intros o y e. pose proof (Low o y e). lra.
    - cbn. lra.
    - reflexivity.
    - split; [reflexivity|split; [repeat constructor; lra|cbn; rewrite !rsum_cons, rsum_nil; lra]].
    - intros y e o _ _ _. cbn. pose proof (Low o y e). lra.
    - cbn. repeat constructor; cbn; intuition congruence.
    - intros k. unfold alternating. destruct (Nat.even k); cbn; auto.
    - intros [] o _ Ho. apply alternating_freq. cbn in Ho. intuition. }
  pose proof (c158_growth (ex_config coin) (ex_config fair) (fun _ => tt) (fun _ => tt) (fun _ => [0%Z; 1%Z]) [tt] (fun _ _ => 1/2) (one 0) (one 1) dec_zu alternating 0 0 (St coin 0 coin_low) (St fair 1 ltac:(intros; unfold fair; lra)) eq_refl eq_refl ltac:(cbn; lia) ltac:(cbn; lra) ltac:(intros [|i] Hi _; cbn in Hi; try lia; lra) ltac:(cbn; lia) ltac:(cbn; lra) ltac:(intros [|i] Hi _; cbn in Hi; try lia; lra)) as K.
  eapply eq_ind; [exact K|]. unfold fit, SumL. cbn. unfold coin, fair. rewrite Rltb_true by lra. cbn. replace (1 / 2 * ln (1 / 2) + (1 / 2 * ln (1 / 2) + 0) + 0 - (1 / 2 * ln (9 / 10) + (1 / 2 * ln (1 / 10) + 0) + 0)) with (1 / 2 * ((ln (1 / 2) + ln (1 / 2)) - (ln (9 / 10) + ln (1 / 10)))) by ring.
  rewrite <- !ln_mult by lra. replace (ln (1 / 2 * (1 / 2)) - ln (9 / 10 * (1 / 10))) with (ln (1 / 2 * (1 / 2) / (9 / 10 * (1 / 10)))). 2:{ unfold Rdiv at 1. rewrite ln_mult, ln_Rinv by lra. ring. }
  replace (1 / 2 * (1 / 2) / (9 / 10 * (1 / 10))) with (5 / 3 * (5 / 3)) by field. rewrite ln_mult by lra. field.
Qed.

Print Assumptions c158_factor.
Print Assumptions c158_misleading_evidence.
Print Assumptions c158_own_data.
Print Assumptions c158_average_factor.
Print Assumptions c158_growth.
Print Assumptions c158_prior_evidence.
Print Assumptions c158_prior_posterior.
Print Assumptions c158_opinions_approach.
