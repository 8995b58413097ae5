(** Theorems for properties C86 (random-walk covariance), C37 (simulated outcomes) and C87 (moments of samplers). *)
From Verif Require Import Base RList Ext Sums LinProofs DomModel SmcModel DerModel DerProofs2 LwModel DistModel MomModel MomSpec MomProofs MomProofs2.

(** ** C86 *)
Section Walk.
Context {W : Type} (Ex : (W -> R) -> R) (HE : expectation Ex).
Context (chol : list (list R) -> res (list (list R))).
Hypothesis chol_shape : forall m c, chol m = Ok c -> length c = length m /\ Forall (fun r => length r = length m) c.
Context (names : list nat) (sel : rw_sel) (tr : option ((list R -> list R) * (list R -> list R))).
Variable z : W -> list R.

Lemma step_cov g x mult i j : walk_ok g -> (forall w, length (z w) = g_n_rw g) -> standardised Ex (g_n_rw g) (fun k w => nth k (z w) 0) ->
  (i < g_n_rw g)%nat -> (j < g_n_rw g)%nat ->
  Ex (fun w => nth i (grw_step g x (z w) mult) 0) = 0 /\
  Ex (fun w => nth i (grw_step g x (z w) mult) 0 * nth j (grw_step g x (z w) mult) 0) = mult ^ 2 * Sum (g_n_rw g) (fun k => walk_factor g x i k * walk_factor g x j k) /\
  Cov Ex (fun w => nth i (grw_step g x (z w) mult) 0) (fun w => nth j (grw_step g x (z w) mult) 0)
    = mult ^ 2 * Sum (g_n_rw g) (fun k => walk_factor g x i k * walk_factor g x j k).
Proof.
  intros Hw Hl Hs Hi Hj.
  assert (E : forall i, (i < g_n_rw g)%nat -> Ex (fun w => nth i (grw_step g x (z w) mult) 0) = 0).
  { intros k Hk. rewrite (ex_ext _ HE _ (fun w => mult * Sum (g_n_rw g) (fun l => walk_factor g x k l * nth l (z w) 0))) by (intro w; now apply step_linear).
    rewrite (ex_scal _ HE). rewrite (linear_mean Ex HE _ (fun k w => nth k (z w) 0)) by assumption. ring. }
  assert (P : Ex (fun w => nth i (grw_step g x (z w) mult) 0 * nth j (grw_step g x (z w) mult) 0) = mult ^ 2 * Sum (g_n_rw g) (fun k => walk_factor g x i k * walk_factor g x j k)).
  { rewrite (ex_ext _ HE _ (fun w => mult ^ 2 * (Sum (g_n_rw g) (fun l => walk_factor g x i l * nth l (z w) 0) * Sum (g_n_rw g) (fun l => walk_factor g x j l * nth l (z w) 0)))).
    2:{ intro w. rewrite !step_linear by auto. ring. }
    rewrite (ex_scal _ HE). now rewrite (linear_product Ex HE _ (fun k w => nth k (z w) 0)). }
  split; [now apply E|]. split; [assumption|]. rewrite (cov_moments Ex HE), P, E by assumption. ring.
Qed.
Notation walk_step g x mult i := (fun w => nth i (grw_step g x (z w) mult) 0).

(** Steps have mean zero. *)
Theorem c86_zero_mean fixed diagonal g x mult i : new_grw chol names sel fixed diagonal tr = Ok g ->
  (forall w, length (z w) = g_n_rw g) -> standardised Ex (g_n_rw g) (fun k w => nth k (z w) 0) -> (i < g_n_rw g)%nat ->
  Ex (walk_step g x mult i) = 0.
Proof. intros H Hl Hs Hi. apply (step_cov g x mult i i); try assumption. exact (new_walk_ok _ _ _ _ _ _ _ H chol_shape). Qed.
(** Known diagonal covariance [v]: the covariance of the steps is diag(v), times the squared scale of the experiment. *)
Theorem c86_fixed_diagonal v g x mult i j : new_grw chol names sel (Some (CDiag v)) true tr = Ok g -> Forall (fun a => 0 <= a) v ->
  (forall w, length (z w) = length v) -> standardised Ex (length v) (fun k w => nth k (z w) 0) -> (i < length v)%nat -> (j < length v)%nat ->
  Cov Ex (walk_step g x mult i) (walk_step g x mult j) = mult ^ 2 * (if Nat.eqb i j then nth i v 0 else 0).
Proof.
  intros H Hv. pose proof (new_walk_ok _ _ _ _ _ _ _ H chol_shape) as Hw. apply new_grw_ok in H. destruct H as (l & l' & _ & _ & _ & _ & _ & _ & G3 & _ & _ & G6).
  assert (G : g_n_rw g = length v /\ g_cov g = FixDiag (map sqrt v)).
  { destruct (g_cov g) as [| |s|c]; try (destruct G6 as (? & _); discriminate); destruct G6 as (v' & Ev & G6); [injection Ev as <-|discriminate].
    destruct G6 as (_ & _ & -> & Hl). split; congruence. }
  destruct G as [Gn Gc]. rewrite <- Gn. intros Hl Hs Hi Hj. destruct (step_cov g x mult i j Hw Hl Hs Hi Hj) as (_ & _ & ->). f_equal.
  unfold walk_factor. rewrite Gc, diag_sum by assumption. rewrite (Nat.eqb_sym j i). destruct (Nat.eqb_spec i j) as [->|]; [|ring].
  rewrite <- sqrt_0. rewrite (map_nth sqrt). rewrite sqrt_0. apply sqrt_sqrt. rewrite Forall_forall in Hv. apply Hv, nth_In. lia.
Qed.
(** Known dense covariance [m]: its own entries, when the Cholesky factor is one. *)
Theorem c86_fixed_dense m g x mult i j : new_grw chol names sel (Some (CDense m)) false tr = Ok g ->
  (forall c, chol m = Ok c -> forall i j, (i < length m)%nat -> (j < length m)%nat -> Sum (length m) (fun k => mat_entry c i k * mat_entry c j k) = mat_entry m i j) ->
  (forall w, length (z w) = length m) -> standardised Ex (length m) (fun k w => nth k (z w) 0) -> (i < length m)%nat -> (j < length m)%nat ->
  Cov Ex (walk_step g x mult i) (walk_step g x mult j) = mult ^ 2 * mat_entry m i j.
Proof.
  intros H Hc. pose proof (new_walk_ok _ _ _ _ _ _ _ H chol_shape) as Hw. apply new_grw_ok in H. destruct H as (l & l' & _ & _ & _ & _ & _ & _ & G3 & _ & _ & G6).
  assert (G : g_n_rw g = length m /\ exists c, g_cov g = FixDense c /\ chol m = Ok c).
  { destruct (g_cov g) as [| |s|c]; try (destruct G6 as (? & _); discriminate); destruct G6 as (m' & Ev & G6); [discriminate|]. injection Ev as <-.
    destruct G6 as (_ & _ & Hch & Hl). split; [congruence|]. now exists c. }
  destruct G as [Gn (c & Gc & Hch)]. rewrite <- Gn. intros Hl Hs Hi Hj. destruct (step_cov g x mult i j Hw Hl Hs Hi Hj) as (_ & _ & ->). f_equal.
  unfold walk_factor. rewrite Gc, Gn. apply Hc; [assumption|congruence|congruence].
Qed.
(** Learned diagonal covariance: each model walks with the standard deviations stored in its own appended parameters. *)
Theorem c86_learned_diagonal g x mult i j : new_grw chol names sel None true tr = Ok g ->
  (forall w, length (z w) = g_n_rw g) -> standardised Ex (g_n_rw g) (fun k w => nth k (z w) 0) -> (i < g_n_rw g)%nat -> (j < g_n_rw g)%nat ->
  Cov Ex (walk_step g x mult i) (walk_step g x mult j) = mult ^ 2 * (if Nat.eqb i j then nth (length names + i) x 0 ^ 2 else 0).
Proof.
  intros H. pose proof (new_walk_ok _ _ _ _ _ _ _ H chol_shape) as Hw. apply new_grw_ok in H. destruct H as (l & l' & _ & _ & _ & _ & G1 & _ & G3 & _ & _ & G6).
  assert (Gc : g_cov g = LearnDiag).
  { destruct (g_cov g) as [| |s|c]; [reflexivity| | |]; [destruct G6 as (_ & ? & _); discriminate| |]; destruct G6 as (v' & Ev & G6); discriminate. }
  intros Hl Hs Hi Hj. destruct (step_cov g x mult i j Hw Hl Hs Hi Hj) as (_ & _ & ->). f_equal. unfold walk_factor. rewrite Gc, diag_sum, G1 by assumption.
  rewrite (Nat.eqb_sym j i). destruct (Nat.eqb_spec i j) as [->|]; ring.
Qed.
(** Learned dense covariance: T Tᵀ for the lower triangular T stored row by row in the appended parameters. *)
Theorem c86_learned_dense g x mult i j : new_grw chol names sel None false tr = Ok g ->
  (forall w, length (z w) = g_n_rw g) -> standardised Ex (g_n_rw g) (fun k w => nth k (z w) 0) -> (i < g_n_rw g)%nat -> (j < g_n_rw g)%nat ->
  let T i k := if Nat.leb k i then nth (length names + i * (i + 1) / 2 + k) x 0 else 0 in
  Cov Ex (walk_step g x mult i) (walk_step g x mult j) = mult ^ 2 * Sum (g_n_rw g) (fun k => T i k * T j k).
Proof.
  intros H. pose proof (new_walk_ok _ _ _ _ _ _ _ H chol_shape) as Hw. apply new_grw_ok in H. destruct H as (l & l' & _ & _ & _ & _ & G1 & _ & G3 & _ & _ & G6).
  assert (Gc : g_cov g = LearnDense).
  { destruct (g_cov g) as [| |s|c]; [|reflexivity| |]; [destruct G6 as (_ & ? & _); discriminate| |]; destruct G6 as (v' & Ev & G6); discriminate. }
  intros Hl Hs Hi Hj T. destruct (step_cov g x mult i j Hw Hl Hs Hi Hj) as (_ & _ & ->). f_equal. unfold walk_factor, T, tri. rewrite Gc, G1. reflexivity.
Qed.
(** est_update_covariance reports the covariance of a unit step, averaged over the given models. *)
Theorem c86_estimate fixed diagonal g mps i j : new_grw chol names sel fixed diagonal tr = Ok g -> mps <> [] ->
  (forall w, length (z w) = g_n_rw g) -> standardised Ex (g_n_rw g) (fun k w => nth k (z w) 0) -> (i < g_n_rw g)%nat -> (j < g_n_rw g)%nat ->
  grw_est_cov g mps i j = rsum (map (fun x => Cov Ex (walk_step g x 1 i) (walk_step g x 1 j)) mps) / INR (length mps).
Proof.
  intros H Hm Hl Hs Hi Hj. pose proof (new_walk_ok _ _ _ _ _ _ _ H chol_shape) as Hw.
  assert (Hn : INR (length mps) <> 0). { apply not_0_INR. destruct mps; [easy|discriminate]. }
  assert (C : forall a, rsum (map (fun _ : list R => a) mps) / INR (length mps) = a).
  { intro a. exact (ex_const (mean_of mps) (mean_of_expectation mps Hm) a). }
  rewrite (rsum_map_ext _ (fun x => Sum (g_n_rw g) (fun k => walk_factor g x i k * walk_factor g x j k))).
  2:{ intros x _. destruct (step_cov g x 1 i j Hw Hl Hs Hi Hj) as (_ & _ & ->). ring. }
  unfold grw_est_cov, walk_factor, walk_ok in *. destruct (g_cov g) as [| |s|c].
  - rewrite (rsum_map_ext _ (fun x => if Nat.eqb i j then nth (nth i (g_srw_idxs g) 0%nat) x 0 ^ 2 else 0)).
    2:{ intros x _. rewrite diag_sum by assumption. rewrite Hw, seq_nth by assumption. rewrite (Nat.eqb_sym j i). destruct (Nat.eqb_spec i j) as [->|]; ring. }
    destruct (Nat.eqb i j); [unfold mean; now rewrite map_length|]. now rewrite C.
  - unfold mean. rewrite map_length. f_equal. apply rsum_map_ext. intros x _. unfold gram. rewrite <- Sum_rsum. apply Sum_ext. intros k Hk.
    assert (Hent : forall a, (a < g_n_rw g)%nat -> mat_entry (tri_matrix (g_n_rw g) (map (fun k => nth k x 0) (g_srw_idxs g))) a k = if Nat.leb k a then nth (g_n g + tri a + k) x 0 else 0).
    { intros a Ha. unfold mat_entry, tri_matrix. rewrite (MiscProofs2.nth_map_seq (fun i => map (fun j => tri_entry (g_n_rw g) (map (fun k => nth k x 0) (g_srw_idxs g)) i j) (seq 0 (g_n_rw g)))) by assumption.
      rewrite (MiscProofs2.nth_map_seq (fun j => tri_entry _ _ a j)) by assumption. rewrite Hw, tri_entry_value by (rewrite ?map_length, ?seq_length; auto).
      destruct (Nat.leb_spec k a) as [L|L]; [|reflexivity]. rewrite nth_map_seq'; [f_equal; lia|]. unfold tri at 2. rewrite <- (tril_length (g_n_rw g)). apply nth_error_Some.
      rewrite (proj2 (tril_nth (g_n_rw g) (tri a + k) a k)) by lia. discriminate. }
    now rewrite !Hent.
  - rewrite C, diag_sum by assumption. rewrite (Nat.eqb_sym j i). destruct (Nat.eqb_spec i j) as [->|]; ring.
  - rewrite C. unfold gram. now rewrite <- Sum_rsum.
Qed.
End Walk.
(** Two fair signs are standardised, and a two-parameter walk with a learned dense covariance exists. *)
Definition signs2 : list (list R) := [[1; 1]; [1; -1]; [-1; 1]; [-1; -1]].
Lemma signs2_standard : standardised (mean_of signs2) 2 (fun k w => nth k w 0).
Proof.
  unfold mean_of, signs2. cbn [length map]. split.
  - intros [|[|i]] Hi; try lia; cbn [nth]; unfold rsum; cbn; lra.
  - intros [|[|i]] [|[|j]] Hi Hj; try lia; cbn [nth Nat.eqb]; unfold rsum; cbn; lra.
Qed.
Example c86_hypotheses : exists g, new_grw (fun m => Ok m) [10; 11]%nat SelAll None false None = Ok g /\ g_n_rw g = 2%nat /\
  (forall w : list R, In w signs2 -> length w = g_n_rw g) /\ expectation (mean_of signs2) /\ standardised (mean_of signs2) (g_n_rw g) (fun k w => nth k w 0).
Proof.
  eexists. split; [reflexivity|]. split; [reflexivity|]. split; [intros w Hw; repeat (destruct Hw as [<-|Hw]; [reflexivity|]); destruct Hw|].
  split; [apply mean_of_expectation; discriminate|exact signs2_standard].
Qed.

(** ** C37, simulated outcomes: given the underlying outcome, mean and variance are the stored hyperparameters. *)
Theorem c37_simulated_moments {W} (Ex : (W -> R) -> R) (z : W -> R) n x (b : bool) : expectation Ex -> Ex z = 0 -> Ex (fun w => z w ^ 2) = 1 ->
  let u := if b then 1%nat else 0%nat in 0 <= nth (n + 2 + u) x 0 ->
  Ex (fun w => hyper_outcome n x b (z w)) = nth (n + u) x 0 /\ Var Ex (fun w => hyper_outcome n x b (z w)) = nth (n + 2 + u) x 0.
Proof.
  intros HE H1 H2 u Hp. assert (M : Ex (fun w => hyper_outcome n x b (z w)) = nth (n + u) x 0).
  { unfold hyper_outcome. fold u. rewrite (ex_affine Ex HE), H1. ring. }
  split; [exact M|]. unfold Var, Cov. rewrite M. unfold hyper_outcome. fold u.
  rewrite (ex_ext _ HE _ (fun w => nth (n + 2 + u) x 0 * z w ^ 2)).
  - rewrite (ex_scal _ HE), H2. ring.
  - intro w. rewrite <- (sqrt_sqrt (nth (n + 2 + u) x 0)) at 3 by assumption. ring.
Qed.

(** ** C87 Samplers.  [w] is the random source of one call; entry (i, j) of the result is a random variable. *)
Definition entry (r : res arr) (i j : nat) : ext := match r with Ok (A2 _ rows) => nth j (nth i rows []) NaN | _ => NaN end.
(** The random variable sampled at (i, j) is finite and equal to [X]. *)
Definition sampled {W} (d : dist) (n : nat) (w : W -> source) (i j : nat) (X : W -> R) : Prop := forall o, entry (sample d n (w o)) i j = Fin (X o).

(** A draw used for row [i], and two rows with uncorrelated draws. *)
Inductive drawn := DRaw | DUnif (j : nat) | DGauss (j : nat).
Definition draw_at (d : draws) (i : nat) (v : drawn) : R := match v with DRaw => raw d i | DUnif j => unif d i j | DGauss j => gauss d i j end.
Definition rows_uncorrelated {W} (Ex : (W -> R) -> R) (w : W -> source) (i i' : nat) : Prop :=
  forall u v, Cov Ex (fun o => draw_at (here (w o)) i u) (fun o => draw_at (here (w o)) i' v) = 0.
(** The distributions named in the property *)
Inductive affine_sampler : dist -> Prop :=
| AS_normal m v : affine_sampler (normal_dist m v)
| AS_gamma b : affine_sampler (gamma_dist b)
| AS_truncated m v : affine_sampler (truncnorm_dist m v)
| AS_uniform rs : affine_sampler (Uniform rs)
| AS_slanted rs weight : affine_sampler (Slanted rs weight)
| AS_mvnormal m root : length root = length m -> Forall (fun r => length r = length m) root -> affine_sampler (MVNormal m root).

Section Samplers.
Context {W : Type} (Ex : (W -> R) -> R) (HE : expectation Ex) (w : W -> source) (n : nat).

Lemma rows_nth {A} (f : nat -> A) i d : (i < n)%nat -> nth i (map f (nrange n)) d = f i.
Proof. apply MiscProofs2.nth_map_seq. Qed.
Lemma scalar_entry g i : (i < n)%nat -> sampled (Scalar g) n w i 0 (fun o => g (raw (here (w o)) i)).
Proof. intros Hi o. unfold entry. cbn [sample]. now rewrite rows_nth. Qed.

(** Normal: mean and variance as given; different samples are uncorrelated. *)
Theorem c87_normal m v : 0 <= v -> standardised Ex n (fun i o => raw (here (w o)) i) ->
  exists X, (forall i, (i < n)%nat -> sampled (normal_dist m v) n w i 0 (X i)) /\
    forall i j, (i < n)%nat -> (j < n)%nat -> Ex (X i) = m /\ Cov Ex (X i) (X j) = if Nat.eqb i j then v else 0.
Proof.
  intros Hv [H1 H2]. exists (fun i o => m + sqrt v * raw (here (w o)) i). split; [intros i Hi; now apply scalar_entry|].
  intros i j Hi Hj. assert (M : forall i, (i < n)%nat -> Ex (fun o => m + sqrt v * raw (here (w o)) i) = m) by (intros k Hk; rewrite (ex_affine Ex HE), H1 by assumption; ring).
  split; [now apply M|]. unfold Cov. rewrite !M by assumption. rewrite (ex_ext _ HE _ (fun o => v * (raw (here (w o)) i * raw (here (w o)) j))).
  - rewrite (ex_scal _ HE), H2 by assumption. destruct (Nat.eqb i j); ring.
  - intro o. rewrite <- (sqrt_sqrt v) at 3 by assumption. ring.
Qed.
(** Gamma: from unit-rate draws of mean and variance alpha. *)
Theorem c87_gamma a b i : 0 < b -> (i < n)%nat -> Ex (fun o => raw (here (w o)) i) = a -> Var Ex (fun o => raw (here (w o)) i) = a ->
  exists X, sampled (gamma_dist b) n w i 0 X /\ Ex X = sh_mean (gamma_of_shapes a b) /\ Var Ex X = sh_var (gamma_of_shapes a b).
Proof.
  intros Hb Hi H1 H2. exists (fun o => raw (here (w o)) i / b). split; [now apply scalar_entry|].
  assert (M : Ex (fun o => raw (here (w o)) i / b) = a / b).
  { rewrite (ex_ext _ HE _ (fun o => / b * raw (here (w o)) i)) by (intro o; unfold Rdiv; ring). rewrite (ex_scal _ HE), H1. unfold Rdiv; ring. }
  split; [exact M|]. unfold Var, Cov in *. rewrite M. rewrite H1 in H2. cbn [sh_var gamma_of_shapes].
  rewrite (ex_ext _ HE _ (fun o => / b ^ 2 * ((raw (here (w o)) i - a) * (raw (here (w o)) i - a)))) by (intro o; field; lra). rewrite (ex_scal _ HE), H2. field. lra.
Qed.
(** Truncated normal: always between the truncation limits. *)
Theorem c87_truncated m v low high i a b : 0 < v -> trunc_limits m v low high = (a, b) -> (i < n)%nat ->
  (forall o, xle a (Fin (raw (here (w o)) i)) /\ xle (Fin (raw (here (w o)) i)) b) ->
  exists X, sampled (truncnorm_dist m v) n w i 0 X /\ forall o, low <= X o <= high.
Proof.
  intros Hv Hab Hi Hr. exists (fun o => m + sqrt v * raw (here (w o)) i). split; [now apply scalar_entry|].
  assert (Hs : 0 < sqrt v) by now apply sqrt_lt_R0. intro o. destruct (Hr o) as [A B]. unfold trunc_limits in Hab. cbv zeta in Hab.
  rewrite !xdiv_Fin in Hab by lra. injection Hab as <- <-. apply xle_Fin in A, B.
  apply (Rmult_le_compat_l (sqrt v)) in A, B; try lra. replace (sqrt v * ((low - m) / sqrt v)) with (low - m) in A by (field; lra).
  replace (sqrt v * ((high - m) / sqrt v)) with (high - m) in B by (field; lra). lra.
Qed.

(** Uniform on a box: centre and side squared over twelve; different coordinates are uncorrelated. *)
Lemma nth_ranges {B} (f : R * R -> nat -> B) (rs : list (R * R)) j d : (j < length rs)%nat -> nth j (map2 f rs (seq 0 (length rs))) d = f (nth j rs (0, 0)) j.
Proof. intro Hj. rewrite (nth_map2 _ _ _ _ (0, 0) 0%nat d) by (rewrite ?seq_length; auto). now rewrite seq_nth. Qed.
Lemma len_ranges {B} (f : R * R -> nat -> B) (rs : list (R * R)) : length (map2 f rs (seq 0 (length rs))) = length rs.
Proof. apply map2_length. now rewrite seq_length. Qed.
Lemma uniform_entry rs i j : (i < n)%nat -> (j < length rs)%nat -> sampled (Uniform rs) n w i j (fun o => fst (nth j rs (0, 0)) + unif (here (w o)) i j * (snd (nth j rs (0, 0)) - fst (nth j rs (0, 0)))).
Proof.
  intros Hi Hj o. unfold entry. cbn [sample]. rewrite rows_nth by assumption. unfold uniform_row. rewrite (nth_indep _ NaN (Fin 0)) by (rewrite map_length, len_ranges; assumption).
  rewrite (map_nth Fin), nth_ranges by assumption. reflexivity.
Qed.
Theorem c87_uniform rs i : (i < n)%nat -> uniform_moments Ex (length rs) (fun j o => unif (here (w o)) i j) ->
  exists X, (forall j, (j < length rs)%nat -> sampled (Uniform rs) n w i j (X j)) /\
    forall j k, (j < length rs)%nat -> (k < length rs)%nat -> let r := nth j rs (0, 0) in
      Ex (X j) = (fst r + snd r) / 2 /\ Cov Ex (X j) (X k) = if Nat.eqb j k then (snd r - fst r) ^ 2 / 12 else 0.
Proof.
  intros Hi [H1 H2]. set (lo j := fst (nth j rs (0, 0))). set (dl j := snd (nth j rs (0, 0)) - fst (nth j rs (0, 0))).
  exists (fun j o => lo j + unif (here (w o)) i j * dl j). split; [intros j Hj; now apply uniform_entry|]. intros j k Hj Hk r.
  assert (M : forall j, (j < length rs)%nat -> Ex (fun o => lo j + unif (here (w o)) i j * dl j) = lo j + dl j / 2).
  { intros l Hl. rewrite (ex_ext _ HE _ (fun o => lo l + dl l * unif (here (w o)) i l)) by (intros; ring). rewrite (ex_affine Ex HE), H1 by assumption. field. }
  split; [rewrite M by assumption; unfold lo, dl, r; field|]. unfold Cov. rewrite !M by assumption.
  rewrite (ex_ext _ HE _ (fun o => (dl j * dl k / 4 + (- dl j * dl k / 2) * unif (here (w o)) i j) + ((- dl j * dl k / 2) * unif (here (w o)) i k + dl j * dl k * (unif (here (w o)) i j * unif (here (w o)) i k)))) by (intros; field).
  rewrite (ex_add _ HE), (ex_affine Ex HE), (ex_add _ HE), !(ex_scal _ HE), !H1, H2 by assumption.
  destruct (Nat.eqb_spec j k) as [->|]; [unfold dl, r; field|field].
Qed.

Lemma slanted_entry rs weight i j : (i < n)%nat -> (j < length rs)%nat ->
  sampled (Slanted rs weight) n w i j (fun o => fst (nth j rs (0, 0)) + weight * gauss (here (w o)) i j + unif (here (w o)) i j * (snd (nth j rs (0, 0)) - fst (nth j rs (0, 0)))).
Proof.
  intros Hi Hj o. unfold entry. cbn [sample]. rewrite rows_nth by assumption. unfold slanted_row. rewrite (nth_indep _ NaN (Fin 0)) by (rewrite map_length, len_ranges; assumption).
  rewrite (map_nth Fin), nth_ranges by assumption. reflexivity.
Qed.
Lemma mvnormal_entry m root i j : length root = length m -> Forall (fun r => length r = length m) root -> (i < n)%nat -> (j < length m)%nat ->
  sampled (MVNormal m root) n w i j (fun o => Sum (length m) (fun l => mat_entry root j l * gauss (here (w o)) i l) + nth j m 0).
Proof.
  intros Hl Hf Hi Hj o. set (d := length m) in *. unfold entry. cbn [sample]. rewrite Hl. unfold d. rewrite Nat.eqb_refl. fold d. cbn [andb].
  replace (forallb _ root) with true by (symmetry; apply forallb_forall; intros r Hr; rewrite Forall_forall in Hf; rewrite (Hf r Hr); apply Nat.eqb_refl).
  rewrite rows_nth by assumption. unfold mvnormal_row. fold d. assert (L : length (matvec root (map (gauss (here (w o)) i) (seq 0 d))) = d) by (unfold matvec; now rewrite map_length).
  rewrite (nth_indep _ NaN (Fin 0)) by (rewrite map_length, map2_length; unfold d in *; congruence). rewrite (map_nth Fin). f_equal.
  rewrite (nth_map2 _ _ _ _ 0 0 0) by (unfold d in *; congruence). f_equal. unfold matvec.
  rewrite (nth_indep _ 0 (rdot [] (map (gauss (here (w o)) i) (seq 0 d)))) by (rewrite map_length; unfold d in *; congruence).
  rewrite (map_nth (fun r => rdot r (map (gauss (here (w o)) i) (seq 0 d)))). unfold mat_entry. rewrite (rdot_Sum d).
  + apply Sum_ext. intros l Hl'. f_equal. now rewrite (MiscProofs2.nth_map_seq (gauss (here (w o)) i)).
  + rewrite Forall_forall in Hf. apply Hf, nth_In. rewrite Hl. exact Hj.
  + now rewrite map_length, seq_length.
Qed.

(** Uniform plus normal noise: the variances add, the noise has variance weight squared. *)
Theorem c87_slanted rs weight i : (i < n)%nat -> uniform_moments Ex (length rs) (fun j o => unif (here (w o)) i j) ->
  standardised Ex (length rs) (fun j o => gauss (here (w o)) i j) ->
  (forall j k, (j < length rs)%nat -> (k < length rs)%nat -> Ex (fun o => gauss (here (w o)) i j * unif (here (w o)) i k) = 0) ->
  exists X, (forall j, (j < length rs)%nat -> sampled (Slanted rs weight) n w i j (X j)) /\
    forall j k, (j < length rs)%nat -> (k < length rs)%nat -> let r := nth j rs (0, 0) in
      Ex (X j) = (fst r + snd r) / 2 /\ Cov Ex (X j) (X k) = if Nat.eqb j k then (snd r - fst r) ^ 2 / 12 + weight ^ 2 else 0.
Proof.
  intros Hi [H1 H2] [G1 G2] C. set (lo j := fst (nth j rs (0, 0))). set (dl j := snd (nth j rs (0, 0)) - fst (nth j rs (0, 0))).
  exists (fun j o => lo j + weight * gauss (here (w o)) i j + unif (here (w o)) i j * dl j). split.
  - intros j Hj. now apply slanted_entry.
  - intros j k Hj Hk r. assert (M : forall j, (j < length rs)%nat -> Ex (fun o => lo j + weight * gauss (here (w o)) i j + unif (here (w o)) i j * dl j) = lo j + dl j / 2).
    { intros l Hl. rewrite (ex_ext _ HE _ (fun o => (lo l + dl l * unif (here (w o)) i l) + weight * gauss (here (w o)) i l)) by (intros; ring).
      rewrite (ex_add _ HE), (ex_affine Ex HE), (ex_scal _ HE), H1, G1 by assumption. field. }
    split; [rewrite M by assumption; unfold lo, dl, r; field|]. unfold Cov. rewrite !M by assumption.
    rewrite (ex_ext _ HE _ (fun o => ((dl j * dl k / 4 + (- dl j * dl k / 2) * unif (here (w o)) i j) + ((- dl j * dl k / 2) * unif (here (w o)) i k + dl j * dl k * (unif (here (w o)) i j * unif (here (w o)) i k)))
      + ((weight ^ 2 * (gauss (here (w o)) i j * gauss (here (w o)) i k) + weight * dl k * (gauss (here (w o)) i j * unif (here (w o)) i k))
         + (weight * dl j * (gauss (here (w o)) i k * unif (here (w o)) i j) + (- weight * dl k / 2 * gauss (here (w o)) i j + - weight * dl j / 2 * gauss (here (w o)) i k))))) by (intros; field).
    rewrite !(ex_add _ HE), (ex_const Ex HE), !(ex_scal _ HE), !H1, !G1, !C, H2, G2 by assumption.
    destruct (Nat.eqb_spec j k) as [->|]; [unfold dl, r; field|field].
Qed.

(** Multivariate normal: mean [m] and covariance [cov], for a symmetric square root of [cov]. *)
Theorem c87_multivariate_normal m root cov i : (i < n)%nat -> length root = length m -> Forall (fun r => length r = length m) root ->
  (forall j k, (j < length m)%nat -> (k < length m)%nat -> mat_entry root j k = mat_entry root k j) ->
  (forall j k, (j < length m)%nat -> (k < length m)%nat -> Sum (length m) (fun l => mat_entry root j l * mat_entry root l k) = mat_entry cov j k) ->
  standardised Ex (length m) (fun j o => gauss (here (w o)) i j) ->
  exists X, (forall j, (j < length m)%nat -> sampled (MVNormal m root) n w i j (X j)) /\
    forall j k, (j < length m)%nat -> (k < length m)%nat -> Ex (X j) = nth j m 0 /\ Cov Ex (X j) (X k) = mat_entry cov j k.
Proof.
  intros Hi Hl Hf Hs Hc Hz. set (d := length m) in *.
  exists (fun j o => Sum d (fun l => mat_entry root j l * gauss (here (w o)) i l) + nth j m 0). split.
  - intros j Hj. now apply mvnormal_entry.
  - intros j k Hj Hk.
    assert (M : forall j, (j < d)%nat -> Ex (fun o => Sum d (fun l => mat_entry root j l * gauss (here (w o)) i l) + nth j m 0) = nth j m 0).
    { intros a Ha. rewrite (ex_add _ HE), (ex_const Ex HE), (linear_mean Ex HE d (fun l o => gauss (here (w o)) i l)) by assumption. ring. }
    split; [now apply M|]. unfold Cov. rewrite !M by assumption.
    rewrite (ex_ext _ HE _ (fun o => Sum d (fun l => mat_entry root j l * gauss (here (w o)) i l) * Sum d (fun l => mat_entry root k l * gauss (here (w o)) i l))) by (intros; ring).
    rewrite (linear_product Ex HE d (fun l o => gauss (here (w o)) i l)) by assumption. rewrite <- Hc by assumption. apply Sum_ext. intros l Hl'. now rewrite (Hs l k).
Qed.
(** Different samples: if the draws of two rows are uncorrelated, so are the samples made from them, in all coordinates. *)
Lemma uncorrelated_moments f g : Cov Ex f g = 0 <-> Ex (fun o => f o * g o) = Ex f * Ex g.
Proof. rewrite (cov_moments Ex HE). lra. Qed.
Lemma uncorrelated_const f c : Cov Ex f (fun _ => c) = 0.
Proof. apply uncorrelated_moments. rewrite (ex_const Ex HE). rewrite (ex_ext _ HE _ (fun o => c * f o)) by (intro; ring). rewrite (ex_scal _ HE). ring. Qed.
Lemma uncorrelated_sym f g : Cov Ex f g = 0 -> Cov Ex g f = 0.
Proof. unfold Cov. intro H. rewrite <- H. apply (ex_ext _ HE). intro; ring. Qed.
Lemma uncorrelated_add f g h : Cov Ex f g = 0 -> Cov Ex f h = 0 -> Cov Ex f (fun o => g o + h o) = 0.
Proof.
  rewrite !uncorrelated_moments. intros A B. rewrite (ex_add _ HE). rewrite (ex_ext _ HE _ (fun o => f o * g o + f o * h o)) by (intro; ring).
  rewrite (ex_add _ HE), A, B. ring.
Qed.
Lemma uncorrelated_scal f g c : Cov Ex f g = 0 -> Cov Ex f (fun o => c * g o) = 0.
Proof.
  rewrite !uncorrelated_moments. intro A. rewrite (ex_scal _ HE). rewrite (ex_ext _ HE _ (fun o => c * (f o * g o))) by (intro; ring). rewrite (ex_scal _ HE), A. ring.
Qed.
Lemma uncorrelated_ext f g g' : (forall o, g o = g' o) -> Cov Ex f g = 0 -> Cov Ex f g' = 0.
Proof. intros E H. unfold Cov in *. rewrite <- (ex_ext _ HE g g' E). rewrite <- H. apply (ex_ext _ HE). intro o. now rewrite E. Qed.
Lemma uncorrelated_Sum f m (g : nat -> W -> R) : (forall k, (k < m)%nat -> Cov Ex f (g k) = 0) -> Cov Ex f (fun o => Sum m (fun k => g k o)) = 0.
Proof.
  revert g. induction m as [|m IH]; intros g H; [apply (uncorrelated_ext f (fun _ => 0)); [intro; reflexivity|apply uncorrelated_const]|].
  apply (uncorrelated_ext f (fun o => g 0%nat o + Sum m (fun k => g (S k) o))); [intro o; now rewrite Sum_S|].
  apply uncorrelated_add; [apply H; lia|]. apply (IH (fun k => g (S k))). intros k Hk. apply H. lia.
Qed.
(** The samples are affine functions of the draws of their row. *)
Inductive affine_in (i : nat) : (W -> R) -> Prop :=
| Aff_const c : affine_in i (fun _ => c)
| Aff_draw v : affine_in i (fun o => draw_at (here (w o)) i v)
| Aff_add f g : affine_in i f -> affine_in i g -> affine_in i (fun o => f o + g o)
| Aff_scal c f : affine_in i f -> affine_in i (fun o => c * f o)
| Aff_Sum m f : (forall k, (k < m)%nat -> affine_in i (f k)) -> affine_in i (fun o => Sum m (fun k => f k o))
| Aff_ext f g : affine_in i f -> (forall o, f o = g o) -> affine_in i g.
Lemma affine_right i f : affine_in i f -> forall g, (forall v, Cov Ex g (fun o => draw_at (here (w o)) i v) = 0) -> Cov Ex g f = 0.
Proof.
  induction 1; intros h H'; [apply uncorrelated_const|apply H'|apply uncorrelated_add; auto|apply uncorrelated_scal; auto|apply uncorrelated_Sum; auto|].
  eapply uncorrelated_ext; eauto.
Qed.
Lemma affine_uncorrelated i i' f g : rows_uncorrelated Ex w i i' -> affine_in i f -> affine_in i' g -> Cov Ex f g = 0.
Proof.
  intros H Hf Hg. apply (affine_right i' g Hg). intro v. apply uncorrelated_sym, (affine_right i f Hf). intro u. apply uncorrelated_sym, H.
Qed.
Lemma sampled_unique d i j X Y : sampled d n w i j X -> sampled d n w i j Y -> forall o, Y o = X o.
Proof. intros A B o. specialize (A o). specialize (B o). rewrite A in B. now injection B as ->. Qed.
Lemma affine_sample d i j X : affine_sampler d -> (i < n)%nat -> (j < n_rvs d)%nat -> sampled d n w i j X -> affine_in i X.
Proof.
  intros Hd Hi Hj HX. destruct Hd as [m v|b|m v|rs|rs weight|m root Hl Hf]; cbn [n_rvs normal_dist gamma_dist truncnorm_dist] in Hj.
  - destruct j; [|cbn in Hj; lia]. eapply Aff_ext; [apply (Aff_add i (fun _ => m) (fun o => sqrt v * draw_at (here (w o)) i DRaw)); [constructor|apply Aff_scal; constructor]|].
    intro o. symmetry. exact (sampled_unique _ _ _ _ _ (scalar_entry (fun z => m + sqrt v * z) i Hi) HX o).
  - destruct j; [|cbn in Hj; lia]. eapply Aff_ext; [apply (Aff_scal i (/ b) (fun o => draw_at (here (w o)) i DRaw)); constructor|].
    intro o. rewrite (sampled_unique _ _ _ _ _ (scalar_entry (fun x => x / b) i Hi) HX o). cbn [draw_at]. unfold Rdiv. ring.
  - destruct j; [|cbn in Hj; lia]. eapply Aff_ext; [apply (Aff_add i (fun _ => m) (fun o => sqrt v * draw_at (here (w o)) i DRaw)); [constructor|apply Aff_scal; constructor]|].
    intro o. symmetry. exact (sampled_unique _ _ _ _ _ (scalar_entry (fun z => m + sqrt v * z) i Hi) HX o).
  - eapply Aff_ext; [apply (Aff_add i (fun _ => fst (nth j rs (0, 0))) (fun o => (snd (nth j rs (0, 0)) - fst (nth j rs (0, 0))) * draw_at (here (w o)) i (DUnif j))); [constructor|apply Aff_scal; constructor]|].
    intro o. rewrite (sampled_unique _ _ _ _ _ (uniform_entry rs i j Hi Hj) HX o). cbn [draw_at]. ring.
  - eapply Aff_ext; [apply (Aff_add i (fun o => fst (nth j rs (0, 0)) + (snd (nth j rs (0, 0)) - fst (nth j rs (0, 0))) * draw_at (here (w o)) i (DUnif j)) (fun o => weight * draw_at (here (w o)) i (DGauss j)));
      [apply (Aff_add i (fun _ => fst (nth j rs (0, 0)))); [constructor|apply Aff_scal; constructor]|apply Aff_scal; constructor]|].
    intro o. rewrite (sampled_unique _ _ _ _ _ (slanted_entry rs weight i j Hi Hj) HX o). cbn [draw_at]. ring.
  - eapply Aff_ext; [apply (Aff_add i (fun o => Sum (length m) (fun l => mat_entry root j l * draw_at (here (w o)) i (DGauss l))) (fun _ => nth j m 0));
      [apply Aff_Sum; intros k _; apply Aff_scal; constructor|constructor]|].
    intro o. rewrite (sampled_unique _ _ _ _ _ (mvnormal_entry m root i j Hl Hf Hi Hj) HX o). reflexivity.
Qed.
Theorem c87_different_samples d i i' j k X Y : affine_sampler d -> (i < n)%nat -> (i' < n)%nat -> (j < n_rvs d)%nat -> (k < n_rvs d)%nat ->
  rows_uncorrelated Ex w i i' -> sampled d n w i j X -> sampled d n w i' k Y -> Cov Ex X Y = 0.
Proof. intros Hd Hi Hi' Hj Hk H HX HY. apply (affine_uncorrelated i i'); [exact H|now apply (affine_sample d i j)|now apply (affine_sample d i' k)]. Qed.
End Samplers.
(** Draws meeting the moment hypotheses: two equally likely values for each variate. *)
Definition demo_draws (z : R) (u : R) : draws := {| unif := fun _ _ => u; gauss := fun _ _ => z; raw := fun _ => z; rawrow := fun _ _ => []; bits := fun _ => 0%nat; counts := fun _ _ => []; shuffled := fun _ => [] |}.
Example c87_hypotheses : let ws := [1; -1] in let w o := fun _ : list nat => demo_draws o 0 in
  expectation (mean_of ws) /\ standardised (mean_of ws) 1 (fun i o => raw (here (w o)) i).
Proof.
  split; [apply mean_of_expectation; discriminate|]. unfold mean_of. cbn [here demo_draws raw length map]. split.
  - intros [|i] Hi; [|lia]. unfold rsum. cbn. lra.
  - intros [|i] [|j] Hi Hj; try lia. cbn [Nat.eqb]. unfold rsum. cbn. lra.
Qed.
Example c87_uniform_hypotheses : let a := 1 / 2 + / sqrt 12 in let b := 1 / 2 - / sqrt 12 in let ws := [a; b] in let w o := fun _ : list nat => demo_draws 0 o in
  uniform_moments (mean_of ws) 1 (fun j o => unif (here (w o)) 0 j).
Proof.
  cbv zeta. unfold mean_of. cbn [here demo_draws unif length map]. assert (Hs : sqrt 12 * sqrt 12 = 12) by (apply sqrt_sqrt; lra). assert (Hp : 0 < sqrt 12) by (apply sqrt_lt_R0; lra).
  assert (Hi : / sqrt 12 * / sqrt 12 = / 12) by (rewrite <- Rinv_mult, Hs; reflexivity). set (t := / sqrt 12) in *. clearbody t. split.
  - intros [|i] Hi'; [|lia]. unfold rsum. cbn. lra.
  - intros [|i] [|j] Hi' Hj; try lia. cbn [Nat.eqb]. unfold rsum. cbn. nra.
Qed.
(** Two rows with independent signs: all draws of the two rows are uncorrelated. *)
Definition row_draws (o : list R) : draws := {| unif := fun i _ => nth i o 0; gauss := fun i _ => nth i o 0; raw := fun i => nth i o 0; rawrow := fun _ _ => []; bits := fun _ => 0%nat; counts := fun _ _ => []; shuffled := fun _ => [] |}.
Example c87_rows : rows_uncorrelated (mean_of signs2) (fun o => fun _ : list nat => row_draws o) 0 1 /\
  Cov (mean_of signs2) (fun o => raw (row_draws o) 0) (fun o => raw (row_draws o) 0) = 1.
Proof.
  assert (H : Cov (mean_of signs2) (fun o => nth 0 o 0) (fun o => nth 1 o 0) = 0).
  { rewrite (cov_moments (mean_of signs2)) by (apply mean_of_expectation; discriminate). unfold mean_of, signs2. cbn [length map nth]. unfold rsum. cbn. lra. }
  split; [intros [|j|j] [|k|k]; exact H|].
  rewrite (cov_moments (mean_of signs2)) by (apply mean_of_expectation; discriminate). unfold mean_of, signs2. cbn [length map nth row_draws raw]. unfold rsum. cbn. lra.
Qed.

Print Assumptions c86_zero_mean.
Print Assumptions c86_fixed_diagonal.
Print Assumptions c86_fixed_dense.
Print Assumptions c86_learned_diagonal.
Print Assumptions c86_learned_dense.
Print Assumptions c86_estimate.
Print Assumptions c37_simulated_moments.
Print Assumptions c87_normal.
Print Assumptions c87_gamma.
Print Assumptions c87_truncated.
Print Assumptions c87_uniform.
Print Assumptions c87_slanted.
Print Assumptions c87_multivariate_normal.
Print Assumptions c87_different_samples.
