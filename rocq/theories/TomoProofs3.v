(** Proofs for the tomography properties: conversions, canonicalisation, diffusion and the GADFLI prior. *)
From Verif Require Import Base RList Ext Sums Cplx TwoModel TomoModel TomoSpec TomoProofs TomoProofs2.

(** ** conversions, continued *)
Lemma state_roundtrip b rho i j : all_hermitian b -> complete b -> hermitian (bdim b) rho -> (i < bdim b)%nat -> (j < bdim b)%nat ->
  synth b (state_to_modelparams b rho) i j = rho i j.
Proof.
  intros Hh Hc Hr Hi Hj. rewrite (Hc rho i j Hi Hj). unfold synth. apply csum_ext. intros a Ha. f_equal. rewrite stm_nth by assumption. apply rc_re. apply inner_herm_real; [now apply Hh|assumption].
Qed.
Lemma inner_ext d A A' B B' : (forall i j, (i < d)%nat -> (j < d)%nat -> A i j = A' i j) -> (forall i j, (i < d)%nat -> (j < d)%nat -> B i j = B' i j) -> inner d A B = inner d A' B'.
Proof. intros HA HB. apply csum_ext. intros i Hi. apply csum_ext. intros j Hj. now rewrite HA, HB. Qed.
Lemma trace_mmul d M rho : hermitian d M -> mtrace d (mmul d M rho) = inner d M rho.
Proof.
  intros HM. unfold mtrace, mmul, inner. rewrite csum_swap. apply csum_ext. intros j Hj. apply csum_ext. intros i Hi. rewrite (HM i j) by assumption. reflexivity.
Qed.
Lemma rdot_Sum (x y : list R) n : length x = n -> length y = n -> rdot x y = Sum n (fun a => nth a x 0 * nth a y 0).
Proof.
  revert y n; induction x as [|a x IH]; intros y n Hx Hy; subst n; destruct y as [|c y]; try discriminate; [reflexivity|]. cbn [length]. rewrite rdot_cons, Sum_S. cbn [nth]. f_equal. apply IH; [reflexivity|]. cbn in Hy. congruence.
Qed.
Lemma born b M rho : all_hermitian b -> complete b -> hermitian (bdim b) M -> hermitian (bdim b) rho ->
  mtrace (bdim b) (mmul (bdim b) M rho) = rc (rdot (state_to_modelparams b M) (state_to_modelparams b rho)).
Proof.
  intros Hh Hc HM Hr. rewrite trace_mmul by assumption.
  rewrite (inner_ext _ M M rho (synth b (state_to_modelparams b rho))) by (intros; rewrite ?state_roundtrip by assumption; reflexivity).
  rewrite inner_synth. rewrite (rdot_Sum _ _ (length (bdata b))) by apply stm_length. rewrite <- csum_rc. apply csum_ext. intros a Ha.
  rewrite Rmult_comm, rc_mul. f_equal. rewrite stm_nth by assumption.
  rewrite inner_conj. rewrite <- (rc_re (inner (bdim b) (bnth b a) M)) by (apply inner_herm_real; [now apply Hh|assumption]). apply conj_rc.
Qed.
Lemma synth_hermitian b x : all_hermitian b -> hermitian (bdim b) (synth b x).
Proof.
  intros Hh i j Hi Hj. unfold synth. rewrite csum_conj. apply csum_ext. intros a Ha. rewrite conj_mul, conj_rc. f_equal. now apply Hh.
Qed.
Lemma synth_trace b x : tomographic b -> mtrace (bdim b) (synth b x) = rc (nth 0 x 0 * sqrt (INR (bdim b))).
Proof.
  intros Hb. unfold mtrace, synth. rewrite csum_swap. assert (Hd := tg_dim b Hb). assert (Hl := tg_len b Hb).
  rewrite (csum_single _ 0%nat).
  - rewrite csum_scal. rewrite (csum_ext _ _ (fun _ => rc (1 * (1 / sqrt (INR (bdim b)))))).
    + rewrite csum_rc, <- rc_mul. f_equal. f_equal. rewrite Sum_scal_r, (Sum_ones _ (fun _ => 1)) by reflexivity.
      assert (Hp := lt_0_INR _ Hd). rewrite <- (sqrt_sqrt (INR (bdim b))) at 1 by lra. field. intros E. apply sqrt_eq_0 in E; lra.
    + intros i Hi. rewrite (tg_first b Hb) by assumption. rewrite delta_same. apply C_eq; cbn; ring.
  - rewrite Hl. cbn. nia.
  - intros a Ha Ha0. rewrite csum_scal. fold (mtrace (bdim b) (bnth b a)). rewrite (tg_traceless b Hb) by lia. ring.
Qed.

(** ** positivity *)
Lemma csum_re n f : re (csum n f) = Sum n (fun i => re (f i)). Proof. reflexivity. Qed.
Lemma cmul_conj_re (z : C) : cmul z (conj z) = rc (cabs2 z). Proof. apply C_eq; cbn; unfold cabs2; ring. Qed.
Lemma cabs2_nonneg z : 0 <= cabs2 z. Proof. unfold cabs2. nra. Qed.
(** quadratic form of v diag(w) v^dagger *)
Definition vwv (d : nat) (w : nat -> R) (v : mat) : mat := fun i j => csum d (fun k => cmul (cmul (v i k) (rc (w k))) (conj (v j k))).
Definition proj (d : nat) (v : mat) (u : nat -> C) (k : nat) : C := csum d (fun j => cmul (conj (v j k)) (u j)).
Lemma quad_vwv d w v u : quad d (vwv d w v) u = rc (Sum d (fun k => w k * cabs2 (proj d v u k))).
Proof.
  unfold quad, vwv. rewrite <- csum_rc.
  transitivity (csum d (fun i => csum d (fun j => csum d (fun k => cmul (rc (w k)) (cmul (cmul (conj (u i)) (v i k)) (cmul (conj (v j k)) (u j))))))).
  - apply csum_ext. intros i _. apply csum_ext. intros j _. rewrite <- csum_scal, <- csum_scal_r. apply csum_ext. intros k _. ring.
  - transitivity (csum d (fun k => csum d (fun i => csum d (fun j => cmul (rc (w k)) (cmul (cmul (conj (u i)) (v i k)) (cmul (conj (v j k)) (u j))))))).
    + rewrite csum_swap. transitivity (csum d (fun j => csum d (fun k => csum d (fun i => cmul (rc (w k)) (cmul (cmul (conj (u i)) (v i k)) (cmul (conj (v j k)) (u j))))))).
      * apply csum_ext. intros j _. apply csum_swap.
      * rewrite csum_swap. apply csum_ext. intros k _. apply csum_swap.
    + apply csum_ext. intros k _. rewrite rc_mul.
      transitivity (csum d (fun i => cmul (cmul (rc (w k)) (cmul (conj (u i)) (v i k))) (proj d v u k))).
      * apply csum_ext. intros i _. unfold proj. rewrite <- csum_scal. apply csum_ext. intros j _. ring.
      * rewrite csum_scal_r, csum_scal. rewrite <- cmul_conj_re. unfold proj at 3. rewrite csum_conj.
        rewrite (csum_ext d (fun i => cmul (conj (u i)) (v i k)) (fun i => conj (cmul (conj (v i k)) (u i)))) by (intros; rewrite conj_mul, conj_conj; ring). ring.
Qed.
Lemma vwv_hermitian d w v : hermitian d (vwv d w v).
Proof. intros i j _ _. unfold vwv. rewrite csum_conj. apply csum_ext. intros k _. rewrite !conj_mul, conj_conj, conj_rc. ring. Qed.
Lemma vwv_psd d w v : (forall k, (k < d)%nat -> 0 <= w k) -> psd d (vwv d w v).
Proof.
  intros H. split; [apply vwv_hermitian|]. intros u. rewrite quad_vwv. cbn. apply Sum_nonneg. intros k Hk. apply Rmult_le_pos; [now apply H|apply cabs2_nonneg].
Qed.
Definition mconj (A : mat) : mat := fun i j => conj (A i j).
Lemma quad_mconj d A u : quad d (mconj A) u = conj (quad d A (fun i => conj (u i))).
Proof. unfold quad, mconj. rewrite csum_conj. apply csum_ext. intros i _. rewrite csum_conj. apply csum_ext. intros j _. rewrite !conj_mul, !conj_conj. ring. Qed.
Lemma psd_mconj d A : psd d A -> psd d (mconj A).
Proof.
  intros [H1 H2]. split.
  - intros i j Hi Hj. unfold mconj. rewrite (H1 i j) by assumption. reflexivity.
  - intros u. rewrite quad_mconj. apply (H2 (fun i => conj (u i))).
Qed.
Lemma quad_ext d A B u : (forall i j, (i < d)%nat -> (j < d)%nat -> A i j = B i j) -> quad d A u = quad d B u.
Proof. intros H. apply csum_ext. intros i Hi. apply csum_ext. intros j Hj. now rewrite H. Qed.
Lemma psd_ext d A B : (forall i j, (i < d)%nat -> (j < d)%nat -> A i j = B i j) -> psd d A -> psd d B.
Proof.
  intros H [H1 H2]. split.
  - intros i j Hi Hj. rewrite <- !H by assumption. now apply H1.
  - intros u. rewrite <- (quad_ext d A B u H). apply H2.
Qed.
Lemma eigendecomposition_vwv d m w v : eigendecomposition d m w v -> forall i j, (i < d)%nat -> (j < d)%nat -> m i j = vwv d (fun k => re (w k)) v i j.
Proof.
  intros (Hw & He & Hv & _) i j Hi Hj. unfold vwv.
  transitivity (csum d (fun l => cmul (m i l) (csum d (fun k => cmul (v l k) (conj (v j k)))))).
  - rewrite (csum_single d j) by (first [assumption | intros l Hl Hlj; rewrite Hv, delta_diff by assumption; ring]). rewrite Hv, delta_same by assumption. ring.
  - rewrite (csum_ext d _ (fun l => csum d (fun k => cmul (cmul (m i l) (v l k)) (conj (v j k))))) by (intros; rewrite <- csum_scal; apply csum_ext; intros; ring).
    rewrite csum_swap. apply csum_ext. intros k Hk. rewrite csum_scal_r, He by assumption. rewrite (rc_re (w k)) by (now apply Hw). ring.
Qed.
Lemma mtrace_vwv d w v : (forall k, (k < d)%nat -> norm2 d (fun i => v i k) = 1) -> mtrace d (vwv d w v) = rc (Sum d w).
Proof.
  intros H. unfold mtrace, vwv. rewrite csum_swap, <- csum_rc. apply csum_ext. intros k Hk.
  rewrite (csum_ext d _ (fun i => cmul (rc (w k)) (rc (cabs2 (v i k))))) by (intros; rewrite <- cmul_conj_re; ring).
  rewrite csum_scal, csum_rc. change (Sum d (fun i => cabs2 (v i k))) with (norm2 d (fun i => v i k)). rewrite H by assumption. apply C_eq; cbn; ring.
Qed.

(** ** trunc_neg_eigs *)
Lemma tensordot_conj b x : length x = length (bdata b) ->
  exists arr, tensordot x (map (fun (m : mat) i j => conj (m i j)) (bdata b)) = Ok arr /\ forall i j, arr i j = mconj (synth b x) i j.
Proof.
  intros H. unfold tensordot. rewrite map_length, H, Nat.eqb_refl. eexists. split; [reflexivity|]. intros i j. unfold mconj, synth. rewrite csum_conj. apply csum_ext. intros a Ha. rewrite conj_mul, conj_rc. f_equal.
  rewrite (nth_indep _ mzero ((fun (m : mat) i j => conj (m i j)) mzero)) by (now rewrite map_length). rewrite (map_nth (fun (m : mat) i j => conj (m i j))). reflexivity.
Qed.
Definition wplus (w : nat -> C) (k : nat) : R := if c_ge0 (w k) then re (w k) else 0.
Lemma wplus_nonneg w k : 0 <= wplus w k.
Proof. unfold wplus, c_ge0. destruct (Rltb_spec 0 (re (w k))); cbn; [lra|]. destruct (Reqb_spec (re (w k)) 0) as [->|]; cbn; [|lra]. destruct (Rleb 0 (im (w k))); lra. Qed.
Lemma trunc_arr_vwv d w v : (forall k, (k < d)%nat -> im (w k) = 0) -> forall i j, trunc_arr d w v i j = vwv d (wplus w) v i j.
Proof. intros H i j. unfold trunc_arr, vwv, wplus. apply csum_ext. intros k Hk. destruct (c_ge0 (w k)); [rewrite (rc_re (w k)) by (now apply H); reflexivity|reflexivity]. Qed.
(** the parameters computed from new_arr are those of the complex conjugate of new_arr *)
Lemma trunc_params b m : map (fun B : mat => re (csum (bdim b) (fun i => csum (bdim b) (fun j => cmul (B i j) (m i j))))) (bdata b) = state_to_modelparams b (mconj m).
Proof.
  unfold state_to_modelparams, mconj. apply map_ext. intros B. unfold csum at 1 3. cbn [re]. apply Sum_ext. intros i _. cbn [re csum]. apply Sum_ext. intros j _. cbn. ring.
Qed.
(** What [trunc_neg_eigs] returns. *)
Lemma trunc_cases eig b x y : trunc_neg_eigs eig b x = Ok y ->
  length x = length (bdata b) /\ exists arr, (forall i j, arr i j = mconj (synth b x) i j) /\ (tensordot x (map (fun (m : mat) i j => conj (m i j)) (bdata b)) = Ok arr) /\
  ((y = x /\ forall k, (k < bdim b)%nat -> c_ge0 (fst (eig arr) k) = true)
   \/ (y = state_to_modelparams b (mconj (trunc_arr (bdim b) (fst (eig arr)) (snd (eig arr)))) /\ 0 < nth 0 y 0 /\ exists k, (k < bdim b)%nat /\ c_ge0 (fst (eig arr) k) = false)).
Proof.
  unfold trunc_neg_eigs. destruct (Nat.eq_dec (length x) (length (bdata b))) as [Hl|Hl].
  - destruct (tensordot_conj b x Hl) as (arr & E & Harr). rewrite E. cbn [bind]. destruct (eig arr) as [w v] eqn:Ew. intros H. split; [assumption|]. exists arr. split; [assumption|]. split; [reflexivity|]. rewrite Ew. cbn [fst snd].
    destruct (forallb (fun k => c_ge0 (w k)) (seq 0 (bdim b))) eqn:Ef.
    + left. injection H as <-. split; [reflexivity|]. intros k Hk. rewrite forallb_forall in Ef. apply Ef. apply in_seq. lia.
    + right. rewrite trunc_params in H. set (new := state_to_modelparams b _) in *. destruct new as [|x0 l] eqn:En; [discriminate|]. destruct (Rltb_spec 0 x0) as [Hx0|]; [|discriminate]. injection H as <-. split; [reflexivity|]. split; [exact Hx0|].
      assert (Hex : existsb (fun k => negb (c_ge0 (w k))) (seq 0 (bdim b)) = true).
      { clear -Ef. induction (seq 0 (bdim b)) as [|k l IH]; [discriminate|]. cbn in *. destruct (c_ge0 (w k)); cbn in *; [now apply IH|reflexivity]. }
      apply existsb_exists in Hex. destruct Hex as (k & Hk & Hk2). apply in_seq in Hk. exists k. split; [lia|]. now apply negb_true_iff in Hk2.
  - unfold tensordot. rewrite map_length. rewrite (proj2 (Nat.eqb_neq _ _) Hl). discriminate.
Qed.
Lemma trunc_length eig b x y : trunc_neg_eigs eig b x = Ok y -> length y = length (bdata b).
Proof. intros H. destruct (trunc_cases _ _ _ _ H) as (Hl & arr & _ & _ & [(-> & _)|(-> & _)]); [assumption|apply stm_length]. Qed.
Lemma map_res_Forall2 {A B} (f : A -> res B) l m : map_res f l = Ok m -> Forall2 (fun a b => f a = Ok b) l m.
Proof.
  revert m; induction l as [|a l IH]; intros m H; cbn in H; [injection H as <-; constructor|]. destruct (f a) as [b|] eqn:Ea; [|discriminate]. cbn in H. destruct (map_res f l) as [bs|] eqn:E; [|discriminate]. cbn in H. injection H as <-. constructor; [assumption|]. now apply IH.
Qed.
Lemma map_res_Ok {A B} (f : A -> res B) l : (forall a, In a l -> exists b, f a = Ok b) -> exists m, map_res f l = Ok m.
Proof.
  induction l as [|a l IH]; intros H; [now exists []|]. destruct (H a (or_introl eq_refl)) as [b Hb]. destruct IH as [m Hm]; [intros; apply H; now right|]. exists (b :: m). cbn. now rewrite Hb, Hm.
Qed.
Lemma rownorm_nth d x : rownorm d x = nth 0 x 0 * sqrt (INR d). Proof. destruct x; reflexivity. Qed.
Lemma canonicalize_rows eig b mps ys : canonicalize eig b false mps = Ok ys ->
  Forall2 (fun x y => exists t, trunc_neg_eigs eig b x = Ok t /\ rownorm (bdim b) t <> 0 /\ y = map (fun e => e / rownorm (bdim b) t) t) mps ys.
Proof.
  unfold canonicalize. destruct (apply_along_axis (trunc_neg_eigs eig b) mps) as [ts|] eqn:E; [|discriminate]. cbn [bind]. unfold renormalize.
  destruct (existsb (fun x => Reqb (rownorm (bdim b) x) 0) ts) eqn:Ex; [discriminate|]. intros H. injection H as <-.
  assert (E' : map_res (trunc_neg_eigs eig b) mps = Ok ts) by (destruct mps; [discriminate|exact E]). apply map_res_Forall2 in E'.
  assert (Hall : forall t, In t ts -> rownorm (bdim b) t <> 0).
  { intros t Ht Hz. assert (H : existsb (fun x => Reqb (rownorm (bdim b) x) 0) ts = true); [|congruence]. apply existsb_exists. exists t. split; [assumption|]. destruct (Reqb_spec (rownorm (bdim b) t) 0); [reflexivity|contradiction]. }
  clear E Ex. induction E' as [|x t mps ts H1 H2 IH]; [constructor|]. cbn. constructor.
  - exists t. split; [assumption|]. split; [apply Hall; now left|reflexivity].
  - apply IH. intros u Hu. apply Hall. now right.
Qed.
Lemma nth0_map_div (l : list R) c : nth 0 (map (fun e => e / c) l) 0 = nth 0 l 0 / c \/ l = [].
Proof. destruct l; [now right|left; reflexivity]. Qed.
Lemma synth_div b x c i j : length x = length (bdata b) -> synth b (map (fun e => e / c) x) i j = cmul (rc (/ c)) (synth b x i j).
Proof.
  intros Hl. unfold synth. rewrite <- csum_scal. apply csum_ext. intros a Ha.
  rewrite (nth_indep _ 0 ((fun e => e / c) 0)) by (rewrite map_length; lia). rewrite (map_nth (fun e => e / c)). unfold Rdiv. rewrite rc_mul. ring.
Qed.
Lemma canonical_unit_trace eig b mps ys y : tomographic b -> canonicalize eig b false mps = Ok ys -> In y ys ->
  length y = (bdim b ^ 2)%nat /\ mtrace (bdim b) (synth b y) = c1.
Proof.
  intros Hb H Hy. apply canonicalize_rows in H. apply In_nth with (d := []) in Hy. destruct Hy as (n & Hn & <-).
  assert (Hx : exists x, exists t, trunc_neg_eigs eig b x = Ok t /\ rownorm (bdim b) t <> 0 /\ nth n ys [] = map (fun e => e / rownorm (bdim b) t) t).
  { clear -H Hn. revert n Hn. induction H as [|x y l l' H1 H2 IH]; intros n Hn; [cbn in Hn; lia|]. destruct n as [|n]; [now exists x|]. apply IH. cbn in Hn. lia. }
  destruct Hx as (x & t & Ht & Hne & ->). assert (Hlt := trunc_length _ _ _ _ Ht). assert (Hl := tg_len b Hb). split; [rewrite map_length; congruence|].
  rewrite synth_trace by assumption. destruct (nth0_map_div t (rownorm (bdim b) t)) as [->| ->].
  - apply C_eq; cbn; [|reflexivity]. rewrite rownorm_nth in *. field. split; intros E; apply Hne; rewrite E; ring.
  - cbn in Hlt. assert (Hd := tg_dim b Hb). rewrite Hl in Hlt. cbn in Hlt. nia.
Qed.

(** positivity *)
Lemma c_ge0_real w : im w = 0 -> c_ge0 w = true <-> 0 <= re w.
Proof.
  intros H. unfold c_ge0. rewrite H. destruct (Rltb_spec 0 (re w)); cbn; [split; [lra|reflexivity]|]. destruct (Reqb_spec (re w) 0); cbn.
  - destruct (Rleb_spec 0 0); [split; [lra|reflexivity]|lra].
  - split; [discriminate|lra].
Qed.
Lemma trunc_psd eig b x y : tomographic b -> (forall m, hermitian (bdim b) m -> eigendecomposition (bdim b) m (fst (eig m)) (snd (eig m))) ->
  trunc_neg_eigs eig b x = Ok y -> psd (bdim b) (synth b y).
Proof.
  intros Hb He H. destruct (trunc_cases _ _ _ _ H) as (Hl & arr & Harr & _ & Hc).
  assert (Hah : hermitian (bdim b) arr).
  { intros i j Hi Hj. rewrite !Harr. unfold mconj. rewrite (synth_hermitian b x (tg_herm b Hb) i j) by assumption. reflexivity. }
  specialize (He arr Hah). assert (Hwv := eigendecomposition_vwv _ _ _ _ He). destruct He as (Hw & _ & _ & Hn).
  destruct Hc as [(-> & Hk)|(-> & _ & _)].
  - assert (Hp : psd (bdim b) arr).
    { apply (psd_ext _ (vwv (bdim b) (fun k => re (fst (eig arr) k)) (snd (eig arr)))); [intros; symmetry; now apply Hwv|]. apply vwv_psd. intros k Hkd. apply c_ge0_real; [now apply Hw|now apply Hk]. }
    apply psd_mconj in Hp. revert Hp. apply psd_ext. intros i j Hi Hj. unfold mconj at 1. rewrite Harr. unfold mconj. apply conj_conj.
  - assert (Hp : psd (bdim b) (mconj (trunc_arr (bdim b) (fst (eig arr)) (snd (eig arr))))).
    { apply psd_mconj. apply (psd_ext _ (vwv (bdim b) (wplus (fst (eig arr))) (snd (eig arr)))); [intros; symmetry; now apply trunc_arr_vwv|]. apply vwv_psd. intros; apply wplus_nonneg. }
    revert Hp. intros Hp. refine (psd_ext _ _ _ _ Hp). intros i j Hi Hj. symmetry. apply state_roundtrip; try assumption; [apply (tg_herm b Hb)|apply (tg_comp b Hb)|apply Hp].
Qed.
Lemma quad_unit d A i : (i < d)%nat -> quad d A (delta i) = A i i.
Proof.
  intros Hi. unfold quad. rewrite (csum_single d i) by (first [assumption | intros k Hk Hki; apply csum_zero; intros; rewrite (delta_diff i k) by congruence; rewrite conj_c0; ring]).
  rewrite (csum_single d i) by (first [assumption | intros k Hk Hki; rewrite (delta_diff i k) by congruence; ring]). rewrite delta_same, conj_c1. ring.
Qed.
Lemma psd_trace_nonneg d A : psd d A -> 0 <= re (mtrace d A).
Proof. intros [_ H]. cbn. apply Sum_nonneg. intros i Hi. rewrite <- (quad_unit d A i Hi). apply H. Qed.
Lemma quad_scal d c A u : quad d (fun i j => cmul c (A i j)) u = cmul c (quad d A u).
Proof. unfold quad. rewrite <- csum_scal. apply csum_ext. intros i _. rewrite <- csum_scal. apply csum_ext. intros j _. ring. Qed.
Lemma psd_scal d c A : 0 <= c -> psd d A -> psd d (fun i j => cmul (rc c) (A i j)).
Proof.
  intros Hc [H1 H2]. split.
  - intros i j Hi Hj. rewrite (H1 i j) by assumption. now rewrite conj_mul, conj_rc.
  - intros u. rewrite quad_scal. specialize (H2 u). set (q := quad d A u) in *. clearbody q. cbn. nra.
Qed.
Lemma canonical_density eig b mps ys y : tomographic b -> (forall m, hermitian (bdim b) m -> eigendecomposition (bdim b) m (fst (eig m)) (snd (eig m))) ->
  canonicalize eig b false mps = Ok ys -> In y ys -> density (bdim b) (synth b y).
Proof.
  intros Hb He H Hy. split; [|now apply (canonical_unit_trace eig b mps ys y Hb H Hy)].
  apply canonicalize_rows in H. apply In_nth with (d := []) in Hy. destruct Hy as (n & Hn & <-).
  assert (Hx : exists x, exists t, trunc_neg_eigs eig b x = Ok t /\ rownorm (bdim b) t <> 0 /\ nth n ys [] = map (fun e => e / rownorm (bdim b) t) t).
  { clear -H Hn. revert n Hn. induction H as [|x y l l' H1 H2 IH]; intros n Hn; [cbn in Hn; lia|]. destruct n as [|n]; [now exists x|]. apply IH. cbn in Hn. lia. }
  destruct Hx as (x & t & Ht & Hne & ->). assert (Hp := trunc_psd _ _ _ _ Hb He Ht). assert (Hlt := trunc_length _ _ _ _ Ht).
  assert (Htr := psd_trace_nonneg _ _ Hp). rewrite synth_trace in Htr by assumption. cbn in Htr. rewrite <- rownorm_nth in Htr.
  apply (psd_ext _ (fun i j => cmul (rc (/ rownorm (bdim b) t)) (synth b t i j))); [intros; now rewrite synth_div|]. apply psd_scal; [|assumption]. left. apply Rinv_0_lt_compat. lra.
Qed.
(** density operators are left alone *)
Lemma quad_column d m w v k : eigendecomposition d m w v -> (k < d)%nat -> quad d m (fun i => v i k) = w k.
Proof.
  intros (Hw & He & _ & Hn) Hk. unfold quad.
  rewrite (csum_ext d _ (fun i => cmul (w k) (rc (cabs2 (v i k))))).
  - rewrite csum_scal, csum_rc. change (Sum d (fun i => cabs2 (v i k))) with (norm2 d (fun i => v i k)). rewrite Hn by assumption. apply C_eq; cbn; ring.
  - intros i Hi. rewrite (csum_ext d _ (fun j => cmul (conj (v i k)) (cmul (m i j) (v j k)))) by (intros; ring). rewrite csum_scal, He by assumption. rewrite <- cmul_conj_re. ring.
Qed.
Lemma trunc_psd_id eig b x : tomographic b -> (forall m, hermitian (bdim b) m -> eigendecomposition (bdim b) m (fst (eig m)) (snd (eig m))) ->
  length x = length (bdata b) -> psd (bdim b) (synth b x) -> trunc_neg_eigs eig b x = Ok x.
Proof.
  intros Hb He Hl Hp. unfold trunc_neg_eigs. destruct (tensordot_conj b x Hl) as (arr & E & Harr). rewrite E. cbn [bind].
  assert (Hpa : psd (bdim b) arr) by (apply (psd_ext _ (mconj (synth b x))); [intros; symmetry; apply Harr|now apply psd_mconj]).
  specialize (He arr (proj1 Hpa)). destruct (eig arr) as [w v] eqn:Ew. cbn [fst snd] in He.
  assert (Hf : forallb (fun k => c_ge0 (w k)) (seq 0 (bdim b)) = true).
  { apply forallb_forall. intros k Hk. apply in_seq in Hk. apply c_ge0_real; [apply He; lia|]. rewrite <- (quad_column _ _ _ _ k He) by lia. apply Hpa. }
  now rewrite Hf.
Qed.
Lemma canonical_density_id eig b mps : tomographic b -> (forall m, hermitian (bdim b) m -> eigendecomposition (bdim b) m (fst (eig m)) (snd (eig m))) ->
  mps <> [] -> Forall (fun x => length x = (bdim b ^ 2)%nat /\ density (bdim b) (synth b x)) mps -> canonicalize eig b false mps = Ok mps.
Proof.
  intros Hb He Hne Hall. unfold canonicalize.
  assert (E : apply_along_axis (trunc_neg_eigs eig b) mps = Ok mps).
  { assert (E : map_res (trunc_neg_eigs eig b) mps = Ok mps); [|destruct mps; [congruence|exact E]]. clear Hne.
    induction Hall as [|x l [Hx Hd] Hl IH]; [reflexivity|]. cbn. rewrite trunc_psd_id by (first [assumption | rewrite Hx; symmetry; apply (tg_len b Hb) | apply Hd]). cbn. rewrite IH. reflexivity. }
  rewrite E. cbn [bind]. unfold renormalize.
  assert (Hone : forall x, In x mps -> rownorm (bdim b) x = 1).
  { intros x Hx. rewrite Forall_forall in Hall. destruct (Hall x Hx) as [_ [_ Ht]]. rewrite synth_trace in Ht by assumption. apply (f_equal re) in Ht. cbn in Ht. now rewrite rownorm_nth. }
  assert (Hex : existsb (fun x => Reqb (rownorm (bdim b) x) 0) mps = false).
  { apply not_true_is_false. intros H. apply existsb_exists in H. destruct H as (x & Hx & H). rewrite (Hone x Hx) in H. destruct (Reqb_spec 1 0); [lra|discriminate]. }
  rewrite Hex. f_equal. rewrite <- (map_id mps) at 2. apply map_ext_in. intros x Hx. rewrite (Hone x Hx). rewrite <- (map_id x) at 2. apply map_ext. intros; field.
Qed.
(** no assertion fails when every state has some positive expectation value *)
Lemma trunc_accepts eig b x : tomographic b -> (forall m, hermitian (bdim b) m -> eigendecomposition (bdim b) m (fst (eig m)) (snd (eig m))) ->
  length x = length (bdata b) -> (exists u, 0 < re (quad (bdim b) (synth b x) u)) -> exists y, trunc_neg_eigs eig b x = Ok y /\ 0 < rownorm (bdim b) y.
Proof.
  intros Hb He Hl [u Hu]. unfold trunc_neg_eigs. destruct (tensordot_conj b x Hl) as (arr & E & Harr). rewrite E. cbn [bind].
  assert (Hah : hermitian (bdim b) arr).
  { intros i j Hi Hj. rewrite !Harr. unfold mconj. rewrite (synth_hermitian b x (tg_herm b Hb) i j) by assumption. reflexivity. }
  specialize (He arr Hah). destruct (eig arr) as [w v] eqn:Ew. cbn [fst snd] in He. assert (Hwv := eigendecomposition_vwv _ _ _ _ He).
  assert (Hpos : exists k, (k < bdim b)%nat /\ 0 < re (w k)).
  { assert (Hq : 0 < Sum (bdim b) (fun k => re (w k) * cabs2 (proj (bdim b) v (fun i => conj (u i)) k))).
    { assert (Eq : quad (bdim b) arr (fun i => conj (u i)) = conj (quad (bdim b) (synth b x) u)).
      { rewrite (quad_ext _ arr (mconj (synth b x))) by (intros; apply Harr). rewrite quad_mconj. f_equal. apply csum_ext. intros i _. apply csum_ext. intros j _. now rewrite !conj_conj. }
      rewrite (quad_ext _ arr _ _ Hwv), quad_vwv in Eq. apply (f_equal re) in Eq. cbn [re rc conj] in Eq. rewrite Eq. exact Hu. }
    destruct (Exists_dec (fun k => 0 < re (w k)) (seq 0 (bdim b))) as [Hex|Hno]; [intros k; destruct (Rlt_dec 0 (re (w k))); [now left|now right]| |].
    - apply Exists_exists in Hex. destruct Hex as (k & Hk & H). apply in_seq in Hk. exists k. split; [lia|assumption].
    - exfalso. assert (Hle : Sum (bdim b) (fun k => re (w k) * cabs2 (proj (bdim b) v (fun i => conj (u i)) k)) <= Sum (bdim b) (fun _ => 0)).
      { apply Sum_le. intros k Hk. assert (Hk0 : re (w k) <= 0) by (apply Rnot_lt_le; intros H; apply Hno, Exists_exists; exists k; split; [apply in_seq; lia|assumption]). assert (H := cabs2_nonneg (proj (bdim b) v (fun i => conj (u i)) k)). nra. }
      rewrite (Sum_zero _ (fun _ => 0)) in Hle by reflexivity. lra. }
  destruct Hpos as (k0 & Hk0 & Hpos). assert (Hdd := lt_0_INR _ (tg_dim b Hb)). assert (Hs : 0 < sqrt (INR (bdim b))) by (now apply sqrt_lt_R0). destruct He as (Hw & He' & Hv & Hn).
  assert (Hsum : forall g : nat -> R, (forall k, (k < bdim b)%nat -> 0 <= g k) -> 0 < g k0 -> 0 < Sum (bdim b) g).
  { intros g Hg0 Hg. apply Rlt_le_trans with (Sum (bdim b) (fun k => if Nat.eqb k k0 then g k0 else 0)).
    - clear -Hk0 Hg. generalize (bdim b) Hk0. intros n Hn. induction n as [|n IH]; [lia|]. rewrite Sum_lastR. destruct (Nat.eq_dec n k0) as [->|Hne].
      + rewrite Nat.eqb_refl. rewrite Sum_zero; [lra|]. intros i Hi. destruct (Nat.eqb_spec i k0); [lia|reflexivity].
      + destruct (Nat.eqb_spec n k0); [contradiction|]. specialize (IH ltac:(lia)). lra.
    - apply Sum_le. intros k Hk. destruct (Nat.eqb_spec k k0) as [->|]; [lra|now apply Hg0]. }
  destruct (forallb (fun k => c_ge0 (w k)) (seq 0 (bdim b))) eqn:Ef.
  - exists x. split; [reflexivity|]. rewrite rownorm_nth. 
    assert (Ht : re (mtrace (bdim b) (synth b x)) = Sum (bdim b) (fun k => re (w k))).
    { assert (Em : mtrace (bdim b) (mconj (synth b x)) = rc (Sum (bdim b) (fun k => re (w k)))).
      { rewrite <- (mtrace_vwv _ (fun k => re (w k)) v Hn). apply csum_ext. intros i Hi. rewrite <- Harr. now apply Hwv. }
      apply (f_equal re) in Em. cbn [re rc] in Em. rewrite <- Em. reflexivity. }
    rewrite synth_trace in Ht by assumption. cbn [re rc] in Ht. rewrite Ht. apply Hsum; [|assumption]. intros k Hk. rewrite forallb_forall in Ef. apply c_ge0_real; [now apply Hw|]. apply Ef, in_seq. lia.
  - rewrite trunc_params. set (m := mconj (trunc_arr (bdim b) w v)).
    assert (Hm : hermitian (bdim b) m).
    { assert (Hp : psd (bdim b) m); [|apply Hp]. apply psd_mconj. apply (psd_ext _ (vwv (bdim b) (wplus w) v)); [intros; symmetry; now apply trunc_arr_vwv|]. apply vwv_psd. intros; apply wplus_nonneg. }
    assert (Ht : nth 0 (state_to_modelparams b m) 0 * sqrt (INR (bdim b)) = Sum (bdim b) (wplus w)).
    { assert (H1 := synth_trace b (state_to_modelparams b m) Hb). assert (H2 : mtrace (bdim b) (synth b (state_to_modelparams b m)) = mtrace (bdim b) m).
      { apply csum_ext. intros i Hi. apply state_roundtrip; try assumption; [apply (tg_herm b Hb)|apply (tg_comp b Hb)]. }
      rewrite H2 in H1. apply (f_equal re) in H1. cbn [re rc] in H1. rewrite <- H1.
      assert (H3 := mtrace_vwv _ (wplus w) v Hn). apply (f_equal re) in H3. cbn [re rc] in H3. rewrite <- H3. cbn [re mtrace csum]. apply Sum_ext. intros i Hi. unfold m, mconj. cbn [re conj]. f_equal. now apply trunc_arr_vwv. }
    assert (Hps : 0 < Sum (bdim b) (wplus w)).
    { apply Hsum; [intros; apply wplus_nonneg|]. unfold wplus. rewrite (proj2 (c_ge0_real (w k0) (Hw k0 Hk0))); lra. }
    rewrite <- Ht in Hps. assert (Hx0 : 0 < nth 0 (state_to_modelparams b m) 0) by nra.
    destruct (state_to_modelparams b m) as [|x0 l] eqn:En; [cbn in Hx0; lra|]. cbn [nth] in Hx0. destruct (Rltb_spec 0 x0); [|lra]. exists (x0 :: l). split; [reflexivity|]. rewrite rownorm_nth. exact Hps.
Qed.
Lemma canonicalize_accepts eig b mps : tomographic b -> (forall m, hermitian (bdim b) m -> eigendecomposition (bdim b) m (fst (eig m)) (snd (eig m))) ->
  mps <> [] -> Forall (fun x => length x = (bdim b ^ 2)%nat /\ exists u, 0 < re (quad (bdim b) (synth b x) u)) mps -> exists ys, canonicalize eig b false mps = Ok ys.
Proof.
  intros Hb He Hne Hall. unfold canonicalize.
  assert (Hrow : forall x, In x mps -> exists y, trunc_neg_eigs eig b x = Ok y /\ 0 < rownorm (bdim b) y).
  { intros x Hx. rewrite Forall_forall in Hall. destruct (Hall x Hx) as [H1 H2]. apply trunc_accepts; try assumption. rewrite H1. symmetry. apply (tg_len b Hb). }
  destruct (map_res_Ok (trunc_neg_eigs eig b) mps) as [ts Hts]; [intros x Hx; destruct (Hrow x Hx) as (y & Hy & _); now exists y|].
  assert (E : apply_along_axis (trunc_neg_eigs eig b) mps = Ok ts) by (destruct mps; [congruence|exact Hts]). rewrite E. cbn [bind]. unfold renormalize.
  assert (Hex : existsb (fun x => Reqb (rownorm (bdim b) x) 0) ts = false).
  { apply not_true_is_false. intros H. apply existsb_exists in H. destruct H as (t & Ht & H). apply map_res_Forall2 in Hts.
    assert (Hx : exists x, In x mps /\ trunc_neg_eigs eig b x = Ok t).
    { clear -Hts Ht. induction Hts as [|x y l l' H1 H2 IH]; [destruct Ht|]. destruct Ht as [<-|Ht]; [exists x; split; [now left|assumption]|]. destruct (IH Ht) as (z & Hz & Hz2). exists z. split; [now right|assumption]. }
    destruct Hx as (x & Hx & Hxt). destruct (Hrow x Hx) as (y & Hy & Hpos). rewrite Hxt in Hy. injection Hy as <-. destruct (Reqb_spec (rownorm (bdim b) t) 0); [lra|discriminate]. }
  rewrite Hex. now eexists.
Qed.
