(** Tomography properties C60-C64. *)
From Verif Require Import Base RList Ext Sums Cplx TwoModel TomoModel TomoSpec TomoProofs TomoProofs2 TomoProofs3.

(** ** C60: for every dimension d >= 1, [gell_mann_basis d] is d^2 Hermitian matrices, orthonormal under Tr(A^dagger B), the first I/sqrt d, the others traceless, and complete. *)
Theorem c60_gell_mann d : (0 < d)%nat -> exists b, gell_mann_basis d = Ok b /\ bdim b = d /\ length (bdata b) = (d ^ 2)%nat
  /\ (forall a, (a < d ^ 2)%nat -> hermitian d (bnth b a))
  /\ (forall a c, (a < d ^ 2)%nat -> (c < d ^ 2)%nat -> inner d (bnth b a) (bnth b c) = if Nat.eqb a c then c1 else c0)
  /\ (forall i j, (i < d)%nat -> (j < d)%nat -> bnth b 0 i j = if Nat.eqb i j then rc (1 / sqrt (INR d)) else c0)
  /\ (forall a, (0 < a < d ^ 2)%nat -> mtrace d (bnth b a) = c0)
  /\ (forall X i j, (i < d)%nat -> (j < d)%nat -> X i j = csum (d ^ 2) (fun a => cmul (inner d (bnth b a) X) (bnth b a i j))).
Proof.
  intros Hd. destruct (gell_mann_basis d) as [b|e] eqn:E.
  - exists b. destruct (gell_mann_tomographic d b E) as [Hb Ht]. assert (Hl := tg_len b Ht). rewrite Hb in Hl. split; [reflexivity|]. split; [exact Hb|]. split; [exact Hl|].
    rewrite <- Hl. split; [|split; [|split; [|split]]].
    + intros a Ha. rewrite <- Hb. now apply (tg_herm b Ht).
    + intros a c Ha Hc. rewrite <- Hb. now apply (tg_orth b Ht).
    + intros i j Hi Hj. rewrite (tg_first b Ht) by (rewrite Hb; assumption). rewrite Hb. unfold delta. destruct (Nat.eqb i j); apply C_eq; cbn; ring.
    + intros a Ha. rewrite <- Hb. apply (tg_traceless b Ht); lia.
    + intros X i j Hi Hj. assert (H := tg_comp b Ht X i j). rewrite Hb in H. now apply H.
  - unfold gell_mann_basis in E. destruct (Nat.eqb_spec d 0); [lia|discriminate].
Qed.
(** No linear dependence: the d^2 matrices determine their coefficients. *)
Theorem c60_gell_mann_independent d b (x : nat -> C) : gell_mann_basis d = Ok b ->
  (forall i j, (i < d)%nat -> (j < d)%nat -> csum (d ^ 2) (fun a => cmul (x a) (bnth b a i j)) = c0) -> forall a, (a < d ^ 2)%nat -> x a = c0.
Proof.
  intros E H a Ha. destruct (gell_mann_tomographic d b E) as [Hb Ht]. assert (Hl := tg_len b Ht). rewrite Hb in Hl.
  assert (Hz : inner d (bnth b a) (fun i j => csum (d ^ 2) (fun a => cmul (x a) (bnth b a i j))) = c0).
  { unfold inner. apply csum_zero. intros i Hi. apply csum_zero. intros j Hj. rewrite H by assumption. ring. }
  rewrite <- Hz. unfold inner.
  transitivity (csum d (fun i => csum d (fun j => csum (d ^ 2) (fun c => cmul (x c) (cmul (conj (bnth b a i j)) (bnth b c i j)))))).
  - transitivity (csum (d ^ 2) (fun c => cmul (x c) (inner d (bnth b a) (bnth b c)))).
    + rewrite (csum_single _ a); [|exact Ha|].
      * rewrite <- Hb, (tg_orth b Ht), delta_same by (rewrite Hl; exact Ha). ring.
      * intros c Hc Hca. rewrite <- Hb, (tg_orth b Ht), delta_diff by (first [congruence | rewrite Hl; assumption]). ring.
    + unfold inner. transitivity (csum d (fun i => csum (d ^ 2) (fun c => csum d (fun j => cmul (x c) (cmul (conj (bnth b a i j)) (bnth b c i j)))))).
      * rewrite csum_swap. apply csum_ext. intros c _. rewrite <- csum_scal. apply csum_ext. intros i _. now rewrite csum_scal.
      * apply csum_ext. intros i _. apply csum_swap.
  - apply csum_ext. intros i _. apply csum_ext. intros j _. rewrite <- csum_scal. apply csum_ext. intros c _. ring.
Qed.
(** The qubit case is the Pauli matrices over sqrt 2, in the order I, Z, X, Y. *)
Example c60_qubit : exists b, gell_mann_basis 2 = Ok b
  /\ bnth b 1 0%nat 0%nat = rc (1 / sqrt (1 + 1 ^ 2)) /\ bnth b 1 1%nat 1%nat = rc (-1 / sqrt (1 + 1 ^ 2))
  /\ bnth b 2 0%nat 1%nat = rc (1 / sqrt 2) /\ bnth b 3 1%nat 0%nat = mkC 0 (1 / sqrt 2) /\ bnth b 3 0%nat 1%nat = mkC 0 (- (1 / sqrt 2)).
Proof. eexists. split; [reflexivity|]. repeat split. Qed.
Example c60_zero : gell_mann_basis 0 = Err IndexError. Proof. reflexivity. Qed.

(** ** C61: tensor products of tomographic bases are tomographic, of the product dimension; with no factor the call fails. *)
Theorem c61_tensor_product bs : bs <> [] -> Forall tomographic bs ->
  exists b, tensor_product_basis bs = Ok b /\ tomographic b /\ bdim b = fold_right Nat.mul 1%nat (map bdim bs).
Proof.
  intros Hne Hf. destruct bs as [|b0 bs]; [congruence|]. inversion Hf; subst. exists (fold_left tensor2 bs b0). split; [now apply tensor_product_fold|]. split; [now apply fold_tensor_tomographic|].
  rewrite <- fold_dims. apply fold_symmetric; intros; lia.
Qed.
(** Its elements are exactly the Kronecker products of one element of each factor, in row-major order of the factor indices. *)
Theorem c61_tensor_elements b1 b2 : tomographic b1 -> tomographic b2 -> exists b, tensor_product_basis [b1; b2] = Ok b /\
  forall a c i j k l, (a < length (bdata b1))%nat -> (c < length (bdata b2))%nat -> (i < bdim b1)%nat -> (j < bdim b2)%nat -> (k < bdim b1)%nat -> (l < bdim b2)%nat ->
    bnth b (a * length (bdata b2) + c)%nat (i * bdim b2 + j)%nat (k * bdim b2 + l)%nat = cmul (bnth b1 a i k) (bnth b2 c j l).
Proof.
  intros H1 H2. eexists. split; [now apply tensor_product_fold; [|constructor]|]. cbn [fold_left]. intros a c i j k l Ha Hc Hi Hj Hk Hl. rewrite tensor2_nth by assumption.
  unfold kron. destruct (divmod_pair (bdim b2) i j Hj) as [-> ->]. destruct (divmod_pair (bdim b2) k l Hl) as [-> ->]. reflexivity.
Qed.
Theorem c61_pauli nq : (0 < nq)%nat -> exists b, pauli_basis nq = Ok b /\ tomographic b /\ bdim b = (2 ^ nq)%nat /\ length (bdata b) = (4 ^ nq)%nat.
Proof.
  intros Hn. unfold pauli_basis. destruct pauli_factor as [p|] eqn:E; [|discriminate]. cbn [bind]. destruct (pauli_factor_tomographic p E) as [Hp Ht].
  destruct (c61_tensor_product (repeat p nq)) as (b & Eb & Hb & Hd).
  - destruct nq; [lia|discriminate].
  - apply Forall_forall. intros x Hx. apply repeat_spec in Hx. now subst.
  - assert (Hdim : bdim b = (2 ^ nq)%nat).
    { rewrite Hd. clear -Hp. induction nq as [|n IH]; [reflexivity|]. cbn. rewrite Hp, IH. lia. }
    exists b. split; [exact Eb|]. split; [exact Hb|]. split; [exact Hdim|]. rewrite (tg_len b Hb), Hdim. clear. rewrite <- Nat.pow_mul_r, Nat.mul_comm, Nat.pow_mul_r. reflexivity.
Qed.
(** One qubit: I, X, Y, Z over sqrt 2 in this order. *)
Theorem c61_pauli_one : exists b, pauli_basis 1 = Ok b
  /\ (forall i j, (i < 2)%nat -> (j < 2)%nat -> bnth b 0 i j = cmul (rc (1 / sqrt 2)) (if Nat.eqb i j then c1 else c0))
  /\ (forall i j, (i < 2)%nat -> (j < 2)%nat -> bnth b 1 i j = cmul (rc (1 / sqrt 2)) (if Nat.eqb i j then c0 else c1))
  /\ (forall i j, (i < 2)%nat -> (j < 2)%nat -> bnth b 2 i j = cmul (rc (1 / sqrt 2)) (if Nat.eqb i j then c0 else if Nat.eqb i 0 then copp ci else ci))
  /\ (forall i j, (i < 2)%nat -> (j < 2)%nat -> bnth b 3 i j = cmul (rc (1 / sqrt 2)) (if Nat.eqb i j then if Nat.eqb i 0 then c1 else copp c1 else c0)).
Proof.
  assert (Hs : INR 1 + INR 1 ^ 2 = 2) by (cbn; lra). assert (Hs2 : INR 2 = 2) by (cbn; lra).
  destruct pauli_factor as [p|] eqn:E; [|discriminate]. destruct (pauli_factor_tomographic p E) as [Hd Ht]. assert (H := tensor_product_fold p [] Ht (Forall_nil _)). cbn [fold_left] in H.
  exists p. split; [unfold pauli_basis; rewrite E; exact H|].
  unfold pauli_factor in E. cbn in E. injection E as <-. cbn [bnth bdata nth].
  repeat split; intros i j Hi Hj; destruct i as [|[|i]]; try lia; destruct j as [|[|j]]; try lia; unfold bnth; cbn [nth bdata]; unfold gm_assignments, gm_diag, set_plane, set_pair, mzero; cbn -[INR Rdiv sqrt pow]; rewrite ?Hs, ?Hs2; apply C_eq; cbn -[sqrt Rdiv]; unfold Rdiv; try replace (1 + 1) with 2 by ring; ring.
Qed.
Example c61_no_factor : tensor_product_basis [] = Err TypeError /\ pauli_basis 0 = Err TypeError. Proof. split; reflexivity. Qed.
(** TensorProductDistribution passes its factors as one generator, so its constructor fails on every input. *)
Theorem c61_tensor_distribution_refuted factors : tensor_product_distribution_init factors = Err AttributeError.
Proof. reflexivity. Qed.

(** ** C62 *)
Theorem c62_params_roundtrip b x : orthonormal b -> length x = length (bdata b) ->
  exists rho, modelparams_to_state b x = Ok rho /\ state_to_modelparams b rho = x.
Proof. intros Ho Hl. exists (synth b x). split; [now apply modelparams_to_state_Ok|]. now apply params_roundtrip. Qed.
Theorem c62_state_roundtrip b rho : all_hermitian b -> complete b -> hermitian (bdim b) rho ->
  exists sigma, modelparams_to_state b (state_to_modelparams b rho) = Ok sigma /\ forall i j, (i < bdim b)%nat -> (j < bdim b)%nat -> sigma i j = rho i j.
Proof. intros Hh Hc Hr. exists (synth b (state_to_modelparams b rho)). split; [apply modelparams_to_state_Ok, stm_length|]. intros. now apply state_roundtrip. Qed.
(** Born rule: probability of outcome 1 is Tr(M rho); outcome 0 gets the rest. *)
Theorem c62_born b M rho : all_hermitian b -> complete b -> hermitian (bdim b) M -> hermitian (bdim b) rho ->
  0 <= re (mtrace (bdim b) (mmul (bdim b) M rho)) <= 1 ->
  tomo_like (state_to_modelparams b M) (state_to_modelparams b rho) 1 = re (mtrace (bdim b) (mmul (bdim b) M rho))
  /\ tomo_like (state_to_modelparams b M) (state_to_modelparams b rho) 0 = 1 - re (mtrace (bdim b) (mmul (bdim b) M rho))
  /\ im (mtrace (bdim b) (mmul (bdim b) M rho)) = 0.
Proof.
  intros Hh Hc HM Hr Hp. rewrite (born b M rho) in * by assumption. cbn [re im rc] in *. unfold tomo_like, pr0_like. cbn. rewrite clip_id by assumption. split; [ring|]. split; [reflexivity|reflexivity].
Qed.
(** With diffusion the rate, which comes last, plays no part: the Born rule holds for the state that precedes it. *)
Theorem c62_diffusive_born b M rho rate : all_hermitian b -> complete b -> hermitian (bdim b) M -> hermitian (bdim b) rho ->
  0 <= re (mtrace (bdim b) (mmul (bdim b) M rho)) <= 1 ->
  diff_like (state_to_modelparams b M) (state_to_modelparams b rho ++ [rate]) 1 = re (mtrace (bdim b) (mmul (bdim b) M rho))
  /\ diff_like (state_to_modelparams b M) (state_to_modelparams b rho ++ [rate]) 0 = 1 - re (mtrace (bdim b) (mmul (bdim b) M rho)).
Proof. intros Hh Hc HM Hr Hp. unfold diff_like. rewrite removelast_last. destruct (c62_born b M rho Hh Hc HM Hr Hp) as (A & B & _). now split. Qed.
(** The covariance superoperator: contracting it with an observable M on both sides gives the variance m^T Cov m of the coefficient vector. *)
Theorem c62_covariance_superop b cov M : all_hermitian b -> hermitian (bdim b) M ->
  let m := fun a => nth a (state_to_modelparams b M) 0 in
  csum (bdim b) (fun i => csum (bdim b) (fun j => csum (bdim b) (fun k => csum (bdim b) (fun l => cmul (cmul (M i j) (covariance_mtx_to_superop b cov i j k l)) (conj (M k l))))))
  = rc (Sum (length (bdata b)) (fun a => Sum (length (bdata b)) (fun c => m a * cov a c * m c))).
Proof.
  intros Hh HM m. set (n := length (bdata b)). set (d := bdim b).
  assert (Em : forall a, (a < n)%nat -> csum d (fun i => csum d (fun j => cmul (conj (bnth b a i j)) (M i j))) = rc (m a)).
  { intros a Ha. unfold m. rewrite stm_nth by assumption. symmetry. apply rc_re. apply inner_herm_real; [now apply Hh|assumption]. }
  assert (Em2 : forall a, (a < n)%nat -> csum d (fun k => csum d (fun l => cmul (bnth b a k l) (conj (M k l)))) = rc (m a)).
  { intros a Ha. rewrite <- conj_rc, <- (Em a Ha). rewrite csum_conj. apply csum_ext. intros k _. rewrite csum_conj. apply csum_ext. intros l _. now rewrite conj_mul, conj_conj. }
  rewrite <- csum_rc.
  transitivity (csum n (fun a => csum n (fun c => cmul (rc (cov a c)) (cmul (csum d (fun i => csum d (fun j => cmul (conj (bnth b a i j)) (M i j)))) (csum d (fun k => csum d (fun l => cmul (bnth b c k l) (conj (M k l))))))))).
  2:{ apply csum_ext. intros a Ha. rewrite <- csum_rc. apply csum_ext. intros c Hc. rewrite Em, Em2 by assumption. rewrite !rc_mul. ring. }
  transitivity (csum d (fun i => csum d (fun j => csum d (fun k => csum d (fun l => csum n (fun a => csum n (fun c => cmul (rc (cov a c)) (cmul (cmul (conj (bnth b a i j)) (M i j)) (cmul (bnth b c k l) (conj (M k l))))))))))).
  - apply csum_ext. intros i _. apply csum_ext. intros j _. apply csum_ext. intros k _. apply csum_ext. intros l _. unfold covariance_mtx_to_superop. fold n.
    rewrite <- csum_scal, <- csum_scal_r. rewrite csum_swap. apply csum_ext. intros c _.
    rewrite <- csum_scal_r, <- csum_scal, <- csum_scal_r. apply csum_ext. intros a _. ring.
  - symmetry. transitivity (csum n (fun a => csum n (fun c => csum d (fun i => csum d (fun j => csum d (fun k => csum d (fun l => cmul (rc (cov a c)) (cmul (cmul (conj (bnth b a i j)) (M i j)) (cmul (bnth b c k l) (conj (M k l))))))))))).
    + apply csum_ext. intros a _. apply csum_ext. intros c _. rewrite <- csum_scal_r, <- csum_scal. apply csum_ext. intros i _. rewrite <- csum_scal_r, <- csum_scal. apply csum_ext. intros j _.
      rewrite <- csum_scal, <- csum_scal. apply csum_ext. intros k _. rewrite <- csum_scal, <- csum_scal. reflexivity.
    + transitivity (csum n (fun a => csum d (fun i => csum d (fun j => csum d (fun k => csum d (fun l => csum n (fun c => cmul (rc (cov a c)) (cmul (cmul (conj (bnth b a i j)) (M i j)) (cmul (bnth b c k l) (conj (M k l))))))))))).
      * apply csum_ext. intros a _. rewrite csum_swap. apply csum_ext. intros i _. rewrite csum_swap. apply csum_ext. intros j _. rewrite csum_swap. apply csum_ext. intros k _. apply csum_swap.
      * rewrite csum_swap. apply csum_ext. intros i _. rewrite csum_swap. apply csum_ext. intros j _. rewrite csum_swap. apply csum_ext. intros k _. apply csum_swap.
Qed.
(** The hypotheses hold for every basis built by the library. *)
Example c62_nonvacuous d : (0 < d)%nat -> exists b, gell_mann_basis d = Ok b /\ orthonormal b /\ all_hermitian b /\ complete b /\ hermitian (bdim b) meye.
Proof.
  intros Hd. destruct (c60_gell_mann d Hd) as (b & E & _). exists b. destruct (gell_mann_tomographic d b E) as [_ Ht]. split; [exact E|]. split; [apply (tg_orth b Ht)|]. split; [apply (tg_herm b Ht)|]. split; [apply (tg_comp b Ht)|].
  intros i j _ _. unfold meye, delta. rewrite (Nat.eqb_sym j i). destruct (Nat.eqb i j); apply C_eq; cbn; ring.
Qed.

(** ** C63 *)
Lemma F2_length {A B} (P : A -> B -> Prop) l m : Forall2 P l m -> length l = length m.
Proof. induction 1; cbn; congruence. Qed.
(** Whatever the eigensolver returns, canonicalised rows represent states of trace one. *)
Theorem c63_unit_trace eig b mps ys y : tomographic b -> canonicalize eig b false mps = Ok ys -> In y ys ->
  exists rho, modelparams_to_state b y = Ok rho /\ mtrace (bdim b) rho = c1.
Proof.
  intros Hb H Hy. destruct (canonical_unit_trace eig b mps ys y Hb H Hy) as [Hl Ht]. exists (synth b y). split; [|exact Ht]. apply modelparams_to_state_Ok. now rewrite (tg_len b Hb).
Qed.
Theorem c63_one_row_each eig b sub mps ys : canonicalize eig b sub mps = Ok ys -> length ys = length mps.
Proof.
  unfold canonicalize. destruct (apply_along_axis (trunc_neg_eigs eig b) mps) as [ts|] eqn:E; [|discriminate]. assert (E' : map_res (trunc_neg_eigs eig b) mps = Ok ts) by (destruct mps; [discriminate|exact E]).
  apply map_res_Forall2, F2_length in E'. cbn [bind]. destruct sub; [congruence|]. unfold renormalize. destruct (existsb _ ts); [discriminate|]. intros H. assert (Hy : ys = map (fun x => map (fun e => e / rownorm (bdim b) x) x) ts) by congruence. rewrite Hy, map_length. congruence.
Qed.
(** With a correct eigensolver the result is a density operator, density operators are unchanged, and no assertion fails
    as long as every state has some positive expectation value. *)
Definition good_eig (d : nat) (eig : mat -> (nat -> C) * mat) : Prop := forall m, hermitian d m -> eigendecomposition d m (fst (eig m)) (snd (eig m)).
Theorem c63_density eig b mps ys y : tomographic b -> good_eig (bdim b) eig -> canonicalize eig b false mps = Ok ys -> In y ys ->
  exists rho, modelparams_to_state b y = Ok rho /\ density (bdim b) rho.
Proof.
  intros Hb He H Hy. exists (synth b y). split; [|now apply (canonical_density eig b mps ys y)]. apply modelparams_to_state_Ok. destruct (canonical_unit_trace eig b mps ys y Hb H Hy) as [-> _]. now rewrite (tg_len b Hb).
Qed.
Theorem c63_density_fixed eig b mps : tomographic b -> good_eig (bdim b) eig -> mps <> [] ->
  (forall x, In x mps -> exists rho, modelparams_to_state b x = Ok rho /\ density (bdim b) rho) -> canonicalize eig b false mps = Ok mps.
Proof.
  intros Hb He Hne H. apply canonical_density_id; try assumption. apply Forall_forall. intros x Hx. destruct (H x Hx) as (rho & E & Hd). unfold modelparams_to_state, tensordot in E.
  destruct (Nat.eqb_spec (length x) (length (bdata b))) as [El|]; [|discriminate]. split; [now rewrite El, (tg_len b Hb)|]. assert (Hr : rho = synth b x) by (unfold synth, bnth; congruence). now rewrite <- Hr.
Qed.
Theorem c63_accepts eig b mps : tomographic b -> good_eig (bdim b) eig -> mps <> [] ->
  (forall x, In x mps -> exists rho u, modelparams_to_state b x = Ok rho /\ 0 < re (quad (bdim b) rho u)) -> exists ys, canonicalize eig b false mps = Ok ys.
Proof.
  intros Hb He Hne H. apply canonicalize_accepts; try assumption. apply Forall_forall. intros x Hx. destruct (H x Hx) as (rho & u & E & Hu). unfold modelparams_to_state, tensordot in E.
  destruct (Nat.eqb_spec (length x) (length (bdata b))) as [El|]; [|discriminate]. split; [now rewrite El, (tg_len b Hb)|]. exists u. assert (Hr : rho = synth b x) by (unfold synth, bnth; congruence). now rewrite <- Hr.
Qed.
(** Every tomographic parameter vector counts as valid; with diffusion exactly those with a positive rate. *)
Theorem c63_validity mps n x : nth_error mps n = Some x -> nth_error (tomo_models_valid mps) n = Some true /\
  exists v, nth_error (diff_models_valid mps) n = Some v /\ (v = true <-> 0 < last x 0).
Proof.
  intros H. unfold tomo_models_valid, diff_models_valid. rewrite !nth_error_map, H. cbn [option_map]. split; [reflexivity|]. eexists. split; [reflexivity|]. cbn [andb].
  destruct (Rltb_spec 0 (last x 0)); split; intros; try discriminate; try lra; reflexivity.
Qed.
Example c63_validity_example : nth_error (diff_models_valid [[1; 0; 0; 0; -1]; [1; 0; 0; 0; 1]]) 0 = Some false /\ nth_error (diff_models_valid [[1; 0; 0; 0; -1]; [1; 0; 0; 0; 1]]) 1 = Some true.
Proof.
  destruct (c63_validity [[1; 0; 0; 0; -1]; [1; 0; 0; 0; 1]] 0 _ eq_refl) as (_ & v & -> & V). destruct (c63_validity [[1; 0; 0; 0; -1]; [1; 0; 0; 0; 1]] 1 _ eq_refl) as (_ & w & -> & W). cbn in V, W.
  split; f_equal; [destruct v; [exfalso; pose proof (proj1 V eq_refl); lra|reflexivity]|apply W; lra].
Qed.
(** Diffusion: the raw step changes neither the trace parameter nor the rate. *)
Theorem c63_diffusion_raw t x z : (2 <= length x)%nat -> length (diff_step t x z) = length x /\ nth 0 (diff_step t x z) 0 = nth 0 x 0 /\ last (diff_step t x z) 0 = last x 0.
Proof.
  intros Hl. assert (Hlen : length (diff_step t x z) = length x) by (unfold diff_step; now rewrite map_length, seq_length).
  assert (Hnth : forall k, (k < length x)%nat -> nth k (diff_step t x z) 0 = nth k x 0 + (if Nat.eqb k 0 || Nat.eqb k (length x - 1) then 0 else last x 0 * sqrt t * nth k z 0)).
  { intros k Hk. unfold diff_step. set (f := fun k => _ + _). rewrite (nth_indep _ 0 (f 0%nat)) by (now rewrite map_length, seq_length). rewrite (map_nth f). rewrite seq_nth by assumption. reflexivity. }
  assert (Hlast : forall l : list R, l <> [] -> last l 0 = nth (length l - 1) l 0).
  { induction l as [|a l IH]; [congruence|]. intros _. destruct l as [|c l]; [reflexivity|]. change (last (a :: c :: l) 0) with (last (c :: l) 0). rewrite IH by discriminate. cbn [length]. replace (S (S (length l)) - 1)%nat with (S (S (length l) - 1)) by lia. reflexivity. }
  split; [exact Hlen|]. split; [rewrite Hnth by lia; cbn; ring|].
  rewrite Hlast by (intros E; rewrite E in Hlen; cbn in Hlen; lia). rewrite Hlen, Hnth by lia. rewrite Nat.eqb_refl, orb_true_r, Rplus_0_r. symmetry. apply Hlast. intros E; rewrite E in Hl; cbn in Hl; lia.
Qed.
(** A whole update: every experiment, every model: the rate is kept and the state has trace one. *)
Lemma nth_map2_in {A B D} (f : A -> B -> D) l m n da db dd : length l = length m -> (n < length l)%nat -> nth n (map2 f l m) dd = f (nth n l da) (nth n m db).
Proof. revert m n; induction l as [|a l IH]; intros [|c m] [|n] Hl Hn; cbn in *; try lia; [reflexivity|]. apply IH; lia. Qed.
Theorem c63_diffusion eig b mps zs ts outs : tomographic b -> length zs = length mps -> Forall (fun x => length x = S (bdim b ^ 2)) mps ->
  diff_update_timestep eig b false mps zs ts = Ok outs ->
  length outs = length ts /\ forall e n, (e < length ts)%nat -> (n < length mps)%nat ->
    let y := nth n (nth e outs []) [] in
    length (nth e outs []) = length mps /\ last y 0 = last (nth n mps []) 0 /\ exists rho, modelparams_to_state b (removelast y) = Ok rho /\ mtrace (bdim b) rho = c1.
Proof.
  intros Hb Hz Hrows H. unfold diff_update_timestep in H. apply map_res_Forall2 in H. split; [symmetry; now apply F2_length in H|].
  intros e n He Hn.
  assert (Hrow : exists t, diff_canonicalize eig b false (map2 (diff_step t) mps zs) = Ok (nth e outs [])).
  { clear -H He. revert e He. induction H as [|t o ts outs H1 H2 IH]; intros e He; [cbn in He; lia|]. destruct e as [|e]; [now exists t|]. apply IH. cbn in He. lia. }
  destruct Hrow as [t Ht]. unfold diff_canonicalize in Ht. set (raw := map2 (diff_step t) mps zs) in *.
  destruct (canonicalize eig b false (map (fun x => removelast x) raw)) as [cs|] eqn:Ec; [|discriminate]. cbn [bind] in Ht. injection Ht as Ht. assert (Hlc := c63_one_row_each _ _ _ _ _ Ec). rewrite map_length in Hlc.
  assert (Hraw : length raw = length mps) by (unfold raw; now rewrite map2_length).
  rewrite <- Ht. cbv zeta. split; [rewrite map2_length by assumption; congruence|].
  rewrite (nth_map2_in _ cs raw n [] []) by lia.
  split.
  - rewrite last_last. unfold raw. rewrite (nth_map2_in _ mps zs n [] []) by lia. apply c63_diffusion_raw. rewrite Forall_forall in Hrows. rewrite Hrows by (now apply nth_In). assert (Hd := tg_dim b Hb). cbn. nia.
  - rewrite removelast_last. apply (c63_unit_trace eig b _ cs _ Hb Ec). apply nth_In. lia.
Qed.
(** In between, every parameter moves by its own draw times the rate and the root of the time. *)
Theorem c63_diffusion_components t x z k : (0 < k)%nat -> (S k < length x)%nat -> nth k (diff_step t x z) 0 = nth k x 0 + last x 0 * sqrt t * nth k z 0.
Proof.
  intros H0 Hk. unfold diff_step. set (f := fun k => _ + _). rewrite (nth_indep _ 0 (f 0%nat)) by (rewrite map_length, seq_length; lia). rewrite (map_nth f), seq_nth by lia. unfold f. cbn [Nat.add].
  destruct (Nat.eqb_spec k 0); [lia|]. destruct (Nat.eqb_spec k (length x - 1)); [lia|]. reflexivity.
Qed.
(** With a correct eigensolver all states are density operators again after the step, and they are the displaced ones wherever those are
    density operators themselves. *)
Theorem c63_diffusion_density eig b mps zs ts outs : tomographic b -> good_eig (bdim b) eig -> length zs = length mps -> Forall (fun x => length x = S (bdim b ^ 2)) mps ->
  diff_update_timestep eig b false mps zs ts = Ok outs -> forall e n, (e < length ts)%nat -> (n < length mps)%nat ->
    let y := nth n (nth e outs []) [] in
    (exists rho, modelparams_to_state b (removelast y) = Ok rho /\ density (bdim b) rho) /\
    ((forall m, (m < length mps)%nat -> exists rho, modelparams_to_state b (removelast (diff_step (nth e ts 0) (nth m mps []) (nth m zs []))) = Ok rho /\ density (bdim b) rho) ->
     y = diff_step (nth e ts 0) (nth n mps []) (nth n zs [])).
Proof.
  intros Hb Hg Hz Hrows H e n He Hn. unfold diff_update_timestep in H. apply map_res_Forall2 in H.
  assert (Ht : diff_canonicalize eig b false (map2 (diff_step (nth e ts 0)) mps zs) = Ok (nth e outs [])).
  { clear -H He. revert e He. induction H as [|t o ts outs H1 H2 IH]; intros e He; [cbn in He; lia|]. destruct e as [|e]; [exact H1|]. apply IH. cbn in He. lia. }
  unfold diff_canonicalize in Ht. set (raw := map2 (diff_step (nth e ts 0)) mps zs) in *.
  destruct (canonicalize eig b false (map (fun x => removelast x) raw)) as [cs|] eqn:Ec; [|discriminate]. cbn [bind] in Ht. injection Ht as Ht. assert (Hlc := c63_one_row_each _ _ _ _ _ Ec). rewrite map_length in Hlc.
  assert (Hraw : length raw = length mps) by (unfold raw; now rewrite map2_length).
  assert (Hnr : forall m, (m < length mps)%nat -> nth m raw [] = diff_step (nth e ts 0) (nth m mps []) (nth m zs [])) by (intros m Hm; unfold raw; now apply nth_map2_in).
  rewrite <- Ht. cbv zeta. rewrite (nth_map2_in _ cs raw n [] []) by lia. rewrite removelast_last. split.
  - apply (c63_density eig b _ cs _ Hb Hg Ec). apply nth_In. lia.
  - intros Hd. rewrite (c63_density_fixed eig b _ Hb Hg) in Ec.
    + injection Ec as <-. rewrite (nth_indep _ [] (removelast [])) by (rewrite map_length; lia). rewrite (map_nth (fun x => removelast x)), Hnr by exact Hn.
      symmetry. apply app_removelast_last. intros Z. rewrite Forall_forall in Hrows. pose proof (Hrows (nth n mps []) (nth_In _ _ Hn)) as Hl.
      assert (Hs : length (diff_step (nth e ts 0) (nth n mps []) (nth n zs [])) = length (nth n mps [])) by (unfold diff_step; now rewrite map_length, seq_length). rewrite Z, Hl in Hs. discriminate.
    + intros Z. apply (f_equal (@length _)) in Z. rewrite map_length in Z. cbn in Z. lia.
    + intros x Hx. apply in_map_iff in Hx as (r & <- & Hr). apply (In_nth _ _ []) in Hr as (m & Hm & <-). rewrite Hnr by lia. apply Hd. lia.
Qed.
(** The theorems are about calls that return.  A negative semidefinite state trips the assertion. *)
Example c63_negative_raises : canonicalize (fun m => (fun _ => m 0%nat 0%nat, fun _ _ => c1)) {| bdim := 1; bdata := [fun _ _ => c1] |} false [[-1]] = Err AssertionError.
Proof.
  unfold canonicalize, apply_along_axis, map_res, trunc_neg_eigs, tensordot. cbn [length map bdata Nat.eqb bind bdim seq forallb].
  match goal with |- context [c_ge0 ?t] => set (z := t) end.
  assert (E : z = rc (-1)) by (unfold z; rewrite csum_S, csum_0; apply C_eq; cbn; ring). clearbody z.
  assert (Eg : c_ge0 z = false) by (rewrite E; unfold c_ge0; cbn [re im rc]; destruct (Rltb_spec 0 (-1)); [lra|]; destruct (Reqb_spec (-1) 0); [lra|]; reflexivity).
  rewrite Eg. cbn [andb].
  assert (Et : trunc_arr 1 (fun _ => z) (fun _ _ => c1) 0%nat 0%nat = c0) by (unfold trunc_arr; rewrite csum_S, csum_0, Eg, conj_c1; ring).
  set (m := trunc_arr 1 _ _) in *. rewrite !csum_S, !csum_0, Et. cbn -[Rltb]. rb; [lra|reflexivity].
Qed.
(** A good eigensolver exists for dimension 1, and an accepted call: the one-dimensional state 2 becomes 1. *)
Example c63_nonvacuous : exists b, gell_mann_basis 1 = Ok b /\ tomographic b /\ good_eig 1 (fun m => (fun _ => m 0%nat 0%nat, fun _ _ => c1)).
Proof.
  destruct (c60_gell_mann 1 ltac:(lia)) as (b & E & _). exists b. split; [exact E|]. split; [apply (gell_mann_tomographic 1 b E)|].
  intros m Hm. cbn [fst snd]. split; [|split; [|split]].
  - intros k Hk. apply conj_real. symmetry. now apply Hm; lia.
  - intros i k Hi Hk. assert (i = 0%nat) by lia. subst. rewrite csum_S, csum_0. ring.
  - intros i j Hi Hj. assert (i = 0%nat) by lia. assert (j = 0%nat) by lia. subst. rewrite csum_S, csum_0, delta_same, conj_c1. ring.
  - intros k Hk. unfold norm2, cabs2. rewrite Sum_S. unfold Sum. cbn. ring.
Qed.

(** ** C64 *)
(** The smallest Rayleigh quotient bounds 1/d. *)
Definition min_eigenvalue (d : nat) (m : mat) (lam : R) : Prop := forall u, lam * norm2 d u <= re (quad d m u).
Theorem c64_lambda_range d mean lam : (0 < d)%nat -> density d mean -> min_eigenvalue d mean lam -> lam <= 1 / INR d.
Proof.
  intros Hd [Hp Ht] Hm. assert (Hdp := lt_0_INR d Hd).
  assert (H : Sum d (fun _ => 1 * lam) <= re (mtrace d mean)).
  { cbn. apply Sum_le. intros i Hi. rewrite <- (quad_unit d mean i Hi). specialize (Hm (delta i)). assert (En : norm2 d (delta i) = 1).
    { unfold norm2. assert (E : rc (Sum d (fun k => cabs2 (delta i k))) = rc 1); [|now injection E].
      rewrite <- csum_rc. rewrite (csum_single d i); [rewrite delta_same; apply C_eq; cbn; unfold cabs2; cbn; ring|assumption|]. intros k Hk Hki. rewrite (delta_diff i k) by congruence. apply C_eq; cbn; unfold cabs2; cbn; ring. }
    rewrite En in Hm. lra. }
  rewrite Ht in H. cbn [re c1] in H. rewrite Sum_scal_r, (Sum_ones d (fun _ => 1)) in H by reflexivity. apply (Rmult_le_reg_l (INR d)); [assumption|]. replace (INR d * (1 / INR d)) with 1 by (field; lra). lra.
Qed.
(** For lambda_min strictly between 0 and 1/d the constructor succeeds, rho_star is a density operator ... *)
Lemma gadfli_init_Ok d eigs mean : (2 <= d)%nat -> eigs <> [] -> 0 < lmin eigs < 1 / INR d ->
  let lam := lmin eigs in
  gadfli_init d eigs mean = Ok (Fin (INR d * lam / (1 - INR d * lam)), gadfli_star d (Fin (INR d * lam / (1 - INR d * lam))) mean)
  /\ 0 < INR d * lam / (1 - INR d * lam) /\ 0 < 1 - INR d * lam.
Proof.
  intros Hd He Hl lam. assert (Hdp : 2 <= INR d) by (apply (le_INR 2); assumption).
  assert (H1 : INR d * lam < 1). { unfold lam. assert (H := Rmult_lt_compat_l (INR d) (lmin eigs) (1 / INR d) ltac:(lra) (proj2 Hl)). replace (INR d * (1 / INR d)) with 1 in H by (field; lra). exact H. }
  assert (Hpos : 0 < INR d * lam) by (unfold lam; nra).
  assert (H2 : 0 < INR d * lam / (1 - INR d * lam)) by (apply Rdiv_lt_0_compat; lra).
  split; [|split; [exact H2|lra]]. unfold gadfli_init. destruct (Nat.eqb_spec (length eigs) 0) as [E|_]; [destruct eigs; [congruence|discriminate]|]. fold lam.
  destruct (Rltb_spec lam 0); [unfold lam in *; lra|].
  assert (Eb : gadfli_beta d lam = Fin (INR d * lam / (1 - INR d * lam))).
  { unfold gadfli_beta. destruct (Rltb_spec (1 / 2) lam) as [H|H]; [nra|]. unfold xdiv. destruct (Reqb_spec (1 - INR d * lam) 0); [lra|reflexivity]. }
  rewrite Eb. cbn [xltb]. destruct (Rltb_spec (INR d * lam / (1 - INR d * lam)) 0); [lra|reflexivity].
Qed.
Definition star_mat (d : nat) (beta : R) (mean : mat) : mat := fun i j => cmul (rc (1 + beta)) (cadd (mean i j) (copp (cmul (rc (beta / (1 + beta) * (1 / INR d))) (delta i j)))).
Lemma gadfli_star_Fin d beta mean i j : 0 < beta -> gadfli_star d (Fin beta) mean i j = (Fin (re (star_mat d beta mean i j)), Fin (im (star_mat d beta mean i j))).
Proof.
  intros Hb. unfold gadfli_star, xdiv, xadd. destruct (Reqb_spec 1 0); [lra|]. destruct (Reqb_spec (1 + beta) 0); [lra|]. unfold star_mat, delta. generalize (1 / INR d); intros id. destruct (Nat.eqb i j); cbn; f_equal; f_equal; field; lra.
Qed.
Lemma quad_add d A B u : quad d (fun i j => cadd (A i j) (B i j)) u = cadd (quad d A u) (quad d B u).
Proof. unfold quad. rewrite <- csum_add. apply csum_ext. intros i _. rewrite <- csum_add. apply csum_ext. intros j _. ring. Qed.
Lemma quad_delta d u : quad d delta u = rc (norm2 d u).
Proof.
  unfold quad, norm2. rewrite <- csum_rc. apply csum_ext. intros i Hi. rewrite (csum_single d i) by (first [assumption | intros k Hk Hki; rewrite (delta_diff i k) by congruence; ring]). rewrite delta_same, <- cmul_conj_re. ring.
Qed.
Theorem c64_extreme_point d eigs mean : (2 <= d)%nat -> eigs <> [] -> density d mean -> min_eigenvalue d mean (lmin eigs) -> 0 < lmin eigs < 1 / INR d ->
  exists beta star S, gadfli_init d eigs mean = Ok (Fin beta, star) /\ 0 < beta /\ density d S
    /\ (forall i j, star i j = (Fin (re (S i j)), Fin (im (S i j))))
    /\ (forall fid eps, exists s, gadfli_sample (Fin beta) star fid eps = Ok s).
Proof.
  intros Hd He [[Hh _] Ht] Hm Hl. destruct (gadfli_init_Ok d eigs mean Hd He Hl) as (E & Hb & H1). cbv zeta in *. set (lam := lmin eigs) in *. set (beta := INR d * lam / (1 - INR d * lam)) in *.
  assert (Hdp : 2 <= INR d) by (apply (le_INR 2); assumption).
  assert (Es : (1 + beta) = 1 / (1 - INR d * lam)) by (unfold beta; field; lra). assert (Eg : beta / (1 + beta) * (1 / INR d) = lam) by (rewrite Es; unfold beta; field; lra).
  assert (Hsp : 0 < 1 + beta) by lra.
  exists beta, (gadfli_star d (Fin beta) mean), (star_mat d beta mean). split; [exact E|]. split; [exact Hb|]. split; [|split].
  - split.
    + assert (Hst : psd d (fun i j => cmul (rc (1 + beta)) (cadd (mean i j) (cmul (rc (- lam)) (delta i j))))).
      { apply psd_scal; [lra|]. split.
        - intros i j Hi Hj. rewrite (Hh i j) by assumption. rewrite conj_add, conj_mul, conj_rc. f_equal. f_equal. unfold delta. rewrite (Nat.eqb_sym j i). destruct (Nat.eqb i j); apply C_eq; cbn; ring.
        - intros u. rewrite quad_add, quad_scal, quad_delta. specialize (Hm u). set (q := quad d mean u) in *. clearbody q. cbn. lra. }
      revert Hst. apply psd_ext. intros i j _ _. unfold star_mat. rewrite Eg. f_equal. f_equal. apply C_eq; cbn; ring.
    + unfold mtrace, star_mat. rewrite Eg, csum_scal, csum_add. fold (mtrace d mean). rewrite Ht. rewrite (csum_ext d _ (fun _ => rc (1 * - lam))) by (intros; rewrite delta_same; apply C_eq; cbn; ring).
      rewrite csum_rc, Sum_scal_r, (Sum_ones d (fun _ => 1)) by reflexivity. apply C_eq; cbn; [|ring]. rewrite Es. field. lra.
  - intros i j. now apply gadfli_star_Fin.
  - intros fid eps. unfold gadfli_sample. cbn [xleb]. destruct (Rleb_spec beta 0); [lra|]. eexists. reflexivity.
Qed.
(** ... and the samples average to the requested mean.  Finitely supported fiducial states F_i with probabilities p_i averaging to I/d,
    and damping draws e_j with probabilities q_j whose mean is that of Beta(1, beta), drawn independently. *)
Theorem c64_mean d eigs mean (p : nat -> R) (F : nat -> mat) n (q e : nat -> R) m beta star :
  (2 <= d)%nat -> eigs <> [] -> 0 < lmin eigs < 1 / INR d -> gadfli_init d eigs mean = Ok (Fin beta, star) ->
  (forall k, (k < n)%nat -> 0 <= p k) -> Sum n p = 1 -> (forall k, (k < m)%nat -> 0 <= q k) -> Sum m q = 1 ->
  (forall i j, (i < d)%nat -> (j < d)%nat -> csum n (fun k => cmul (rc (p k)) (F k i j)) = cmul (rc (1 / INR d)) (delta i j)) ->
  Sum m (fun k => q k * e k) = 1 / (1 + beta) ->
  exists smp : nat -> nat -> mat,
    (forall k l, (k < n)%nat -> (l < m)%nat -> exists s, gadfli_sample (Fin beta) star (F k) (e l) = Ok s /\ forall i j, s i j = (Fin (re (smp k l i j)), Fin (im (smp k l i j))))
    /\ forall i j, (i < d)%nat -> (j < d)%nat -> csum n (fun k => csum m (fun l => cmul (rc (p k * q l)) (smp k l i j))) = mean i j.
Proof.
  intros Hd He Hl E _ Hp _ Hq HF Hm. destruct (gadfli_init_Ok d eigs mean Hd He Hl) as (E' & Hb & H1). cbv zeta in *. rewrite E' in E. assert (Eb : INR d * lmin eigs / (1 - INR d * lmin eigs) = beta) by congruence. assert (Es : gadfli_star d (Fin (INR d * lmin eigs / (1 - INR d * lmin eigs))) mean = star) by congruence. clear E. subst beta star. set (lam := lmin eigs) in *. set (beta := INR d * lam / (1 - INR d * lam)) in *.
  assert (Hdp : 2 <= INR d) by (apply (le_INR 2); assumption).
  exists (fun k l i j => cadd (cmul (rc (1 - e l)) (F k i j)) (cmul (rc (e l)) (star_mat d beta mean i j))). split.
  - intros k l Hk Hl'. unfold gadfli_sample. cbn [xleb]. destruct (Rleb_spec beta 0); [lra|]. eexists. split; [reflexivity|]. intros i j. cbv beta. rewrite gadfli_star_Fin by assumption. cbn [fst snd xmul xadd]. f_equal; f_equal; set (zs := star_mat d beta mean i j); cbn; ring.
  - intros i j Hi Hj.
    transitivity (cadd (cmul (csum n (fun k => cmul (rc (p k)) (F k i j))) (rc (Sum m (fun l => q l * (1 - e l))))) (cmul (rc (Sum n p * Sum m (fun l => q l * e l))) (star_mat d beta mean i j))).
    + rewrite rc_mul, <- csum_rc, <- csum_rc, <- csum_rc. rewrite <- csum_scal_r. rewrite <- (csum_scal_r n), <- (csum_scal_r n), <- csum_add. apply csum_ext. intros k _. rewrite <- csum_scal, <- csum_scal, <- csum_scal_r, <- csum_add. apply csum_ext. intros l _. rewrite !rc_mul. unfold Rminus. rewrite !rc_add. ring.
    + rewrite HF by assumption. rewrite (Sum_ext m _ (fun l => q l - q l * e l)) by (intros; ring). rewrite Sum_minus, Hp, Hq, Hm. unfold star_mat.
      set (z := mean i j). clearbody z. apply C_eq; unfold delta; destruct (Nat.eqb i j); cbn; field; lra.
Qed.
(** Not every density operator is accepted: the maximally mixed mean gives an infinite beta and a NaN extreme point, in every dimension ... *)
Theorem c64_maximally_mixed_refuted d eigs : (2 <= d)%nat -> eigs <> [] -> lmin eigs = 1 / INR d ->
  forall mean, exists star, gadfli_init d eigs mean = Ok (PInf, star) /\ forall i, star i i = (NaN, NaN).
Proof.
  intros Hd He Hl mean. assert (Hdp : 2 <= INR d) by (apply (le_INR 2); assumption). exists (gadfli_star d PInf mean). split; [|intros i; unfold gadfli_star; rewrite Nat.eqb_refl; cbn; rb; [lra|]; destruct (inf_times 1); reflexivity].
  assert (Hlo : 0 < 1 / INR d) by (apply Rdiv_lt_0_compat; lra). assert (Hhi : 1 / INR d <= 1 / 2) by (apply Rmult_le_compat_l; [lra|]; apply Rinv_le_contravar; lra). assert (Hone : INR d * (1 / INR d) = 1) by (field; lra).
  unfold gadfli_init. destruct (Nat.eqb_spec (length eigs) 0) as [E|_]; [destruct eigs; [congruence|discriminate]|]. rewrite Hl. destruct (Rltb_spec (1 / INR d) 0); [lra|].
  assert (Eb : gadfli_beta d (1 / INR d) = PInf).
  { unfold gadfli_beta. destruct (Rltb_spec (1 / 2) (1 / INR d)); [lra|]. rewrite Hone. unfold xdiv. destruct (Reqb_spec (1 - 1) 0); [|lra]. unfold inf_times. destruct (Rltb_spec 0 1); [reflexivity|lra]. }
  rewrite Eb. reflexivity.
Qed.
(** ... and every mean without full rank can be constructed but never sampled. *)
Theorem c64_rank_deficient_refuted d eigs mean : (1 <= d)%nat -> eigs <> [] -> lmin eigs = 0 ->
  exists star, gadfli_init d eigs mean = Ok (Fin 0, star) /\ forall fid eps, gadfli_sample (Fin 0) star fid eps = Err ValueError.
Proof.
  intros Hd He Hl. exists (gadfli_star d (Fin 0) mean). split.
  - unfold gadfli_init. destruct (Nat.eqb_spec (length eigs) 0) as [E|_]; [destruct eigs; [congruence|discriminate]|]. rewrite Hl. destruct (Rltb_spec 0 0); [lra|].
    assert (Eb : gadfli_beta d 0 = Fin 0).
    { unfold gadfli_beta. destruct (Rltb_spec (1 / 2) 0); [lra|]. unfold xdiv. rewrite Rmult_0_r. destruct (Reqb_spec (1 - 0) 0); [lra|]. f_equal. field. }
    rewrite Eb. cbn [xltb]. destruct (Rltb_spec 0 0); [lra|reflexivity].
  - intros fid eps. unfold gadfli_sample. cbn [xleb]. destruct (Rleb_spec 0 0); [reflexivity|lra].
Qed.
(** Concrete mean meeting the hypotheses: diag(3/4, 1/4). *)
Example c64_nonvacuous : let mean := fun i j => cmul (rc (if Nat.eqb i 0 then 3 / 4 else 1 / 4)) (delta i j) in
  density 2 mean /\ min_eigenvalue 2 mean (lmin [1 / 4; 3 / 4]) /\ 0 < lmin [1 / 4; 3 / 4] < 1 / INR 2.
Proof.
  assert (El : lmin [1 / 4; 3 / 4] = 1 / 4) by (cbn; apply Rmin_left; lra). rewrite El. cbv zeta. split; [split; [split|]|split].
  - intros i j Hi Hj. destruct i as [|[|i]], j as [|[|j]]; try lia; apply C_eq; cbn; ring.
  - intros v. unfold quad. rewrite !csum_S, !csum_0. unfold delta. cbn. nra.
  - unfold mtrace. rewrite !csum_S, !csum_0. apply C_eq; unfold delta; cbn; field.
  - intros u. unfold quad, norm2, cabs2. rewrite !csum_S, !csum_0, !Sum_S. unfold delta, Sum. cbn. nra.
  - cbn. lra.
Qed.
Print Assumptions c60_gell_mann.
Print Assumptions c60_gell_mann_independent.
Print Assumptions c61_tensor_product.
Print Assumptions c61_tensor_elements.
Print Assumptions c61_pauli.
Print Assumptions c61_pauli_one.
Print Assumptions c61_tensor_distribution_refuted.
Print Assumptions c62_params_roundtrip.
Print Assumptions c62_state_roundtrip.
Print Assumptions c62_born.
Print Assumptions c62_covariance_superop.
Print Assumptions c63_unit_trace.
Print Assumptions c63_one_row_each.
Print Assumptions c63_density.
Print Assumptions c63_density_fixed.
Print Assumptions c63_accepts.
Print Assumptions c63_diffusion_raw.
Print Assumptions c63_diffusion.
Print Assumptions c64_lambda_range.
Print Assumptions c64_extreme_point.
Print Assumptions c64_mean.
Print Assumptions c64_maximally_mixed_refuted.
Print Assumptions c64_rank_deficient_refuted.
Print Assumptions c63_validity.
Print Assumptions c62_diffusive_born.
Print Assumptions c63_diffusion_components.
Print Assumptions c63_diffusion_density.
