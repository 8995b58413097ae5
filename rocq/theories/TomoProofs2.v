(** Proofs for the tomography properties: tensor products, conversions, canonicalisation and GADFLI. *)
From Verif Require Import Base RList Ext Sums Cplx TwoModel TomoModel TomoSpec TomoProofs.

(** ** tensor products *)
Definition tensor2 (b c : basis) : basis := {| bdim := (bdim b * bdim c)%nat; bdata := flat_map (fun A => map (kron (bdim c) A) (bdata c)) (bdata b) |}.
Lemma nth_flat_uniform {A B} (f : A -> list B) l m da db i j : (forall a, In a l -> length (f a) = m) -> (i < length l)%nat -> (j < m)%nat ->
  nth (i * m + j) (flat_map f l) db = nth j (f (nth i l da)) db.
Proof.
  revert i; induction l as [|a l IH]; intros i H Hi Hj; [cbn in Hi; lia|]. cbn [flat_map]. destruct i as [|i].
  - cbn. apply app_nth1. rewrite H by (now left). assumption.
  - rewrite app_nth2; rewrite H by (now left); [|lia]. replace (S i * m + j - m)%nat with (i * m + j)%nat by lia. rewrite IH; [reflexivity| |cbn in Hi; lia|assumption]. intros; apply H; now right.
Qed.
Lemma length_flat_uniform {A B} (f : A -> list B) l m : (forall a, In a l -> length (f a) = m) -> length (flat_map f l) = (length l * m)%nat.
Proof. induction l as [|a l IH]; intros H; [reflexivity|]. cbn. rewrite app_length, IH, H by (try (now left); intros; apply H; now right). reflexivity. Qed.
Lemma tensor2_length b c : length (bdata (tensor2 b c)) = (length (bdata b) * length (bdata c))%nat.
Proof. cbn. apply length_flat_uniform. intros. apply map_length. Qed.
Lemma tensor2_nth b c i j : (i < length (bdata b))%nat -> (j < length (bdata c))%nat -> bnth (tensor2 b c) (i * length (bdata c) + j) = kron (bdim c) (bnth b i) (bnth c j).
Proof.
  intros Hi Hj. unfold bnth. cbn. rewrite (nth_flat_uniform _ _ (length (bdata c)) mzero) by (first [assumption | intros; apply map_length]).
  rewrite (nth_indep _ mzero (kron (bdim c) (nth i (bdata b) mzero) mzero)) by (now rewrite map_length). apply map_nth.
Qed.
Lemma divmod_pair q i j : (j < q)%nat -> ((i * q + j) / q = i /\ (i * q + j) mod q = j)%nat.
Proof. intros H. split; [rewrite Nat.div_add_l by lia; rewrite Nat.div_small by assumption; lia|]. rewrite Nat.add_comm, Nat.mod_add by lia. now apply Nat.mod_small. Qed.
Lemma inner_kron p q A B A' B' : inner (p * q) (kron q A B) (kron q A' B') = cmul (inner p A A') (inner q B B').
Proof.
  unfold inner. rewrite <- csum_prod.
  transitivity (csum p (fun i => csum q (fun j => csum p (fun k => csum q (fun l => cmul (cmul (conj (A i k)) (A' i k)) (cmul (conj (B j l)) (B' j l))))))).
  - apply csum_ext. intros i Hi. apply csum_ext. intros j Hj. rewrite <- csum_prod. apply csum_ext. intros k Hk. apply csum_ext. intros l Hl.
    unfold kron. destruct (divmod_pair q i j Hj) as [-> ->]. destruct (divmod_pair q k l Hl) as [-> ->]. rewrite conj_mul. ring.
  - rewrite <- csum_scal_r. apply csum_ext. intros i _. 
    transitivity (csum q (fun j => cmul (csum p (fun k => cmul (conj (A i k)) (A' i k))) (csum q (fun l => cmul (conj (B j l)) (B' j l))))).
    + apply csum_ext. intros j _. rewrite <- csum_scal_r. apply csum_ext. intros k _. now rewrite csum_scal.
    + now rewrite csum_scal.
Qed.
Lemma mtrace_kron p q A B : mtrace (p * q) (kron q A B) = cmul (mtrace p A) (mtrace q B).
Proof.
  unfold mtrace. rewrite <- csum_prod, <- csum_scal_r. apply csum_ext. intros i _. rewrite <- csum_scal. apply csum_ext. intros j Hj. unfold kron. destruct (divmod_pair q i j Hj) as [-> ->]. reflexivity.
Qed.
Lemma delta_pair m i j k l : (j < m)%nat -> (l < m)%nat -> delta (i * m + j) (k * m + l) = cmul (delta i k) (delta j l).
Proof.
  intros Hj Hl. unfold delta. destruct (Nat.eqb_spec i k) as [->|Hik], (Nat.eqb_spec j l) as [->|Hjl].
  - rewrite Nat.eqb_refl. ring.
  - destruct (Nat.eqb_spec (k * m + j) (k * m + l)); [lia|ring].
  - destruct (Nat.eqb_spec (i * m + l) (k * m + l)); [nia|ring].
  - destruct (Nat.eqb_spec (i * m + j) (k * m + l)) as [E|E]; [|ring]. exfalso. apply Hik. destruct (divmod_pair m i j Hj) as [<- _]. destruct (divmod_pair m k l Hl) as [<- _]. now rewrite E.
Qed.
Lemma split_index n m a : (a < n * m)%nat -> exists i j, (i < n)%nat /\ (j < m)%nat /\ a = (i * m + j)%nat.
Proof.
  intros H. assert (m <> 0)%nat by (intros ->; lia). exists (a / m)%nat, (a mod m)%nat. split; [apply Nat.div_lt_upper_bound; lia|]. split; [now apply Nat.mod_upper_bound|]. rewrite (Nat.mul_comm _ m). now apply Nat.div_mod.
Qed.
Lemma delta_divmod q p r : delta p r = cmul (delta (p / q) (r / q)) (delta (p mod q) (r mod q)) \/ q = 0%nat.
Proof.
  destruct (Nat.eq_dec q 0) as [->|Hq]; [now right|left].
  rewrite (Nat.div_mod p q Hq) at 1. rewrite (Nat.div_mod r q Hq) at 1. rewrite !(Nat.mul_comm q). apply delta_pair; now apply Nat.mod_upper_bound.
Qed.
Theorem tensor2_tomographic b c : tomographic b -> tomographic c -> tomographic (tensor2 b c).
Proof.
  intros Hb Hc. assert (Hp := tg_dim b Hb). assert (Hq := tg_dim c Hc).
  assert (HL := tensor2_length b c).
  constructor.
  - cbn. nia.
  - rewrite HL, (tg_len b Hb), (tg_len c Hc). cbn. nia.
  - intros a Ha. rewrite HL in Ha. destruct (split_index _ _ _ Ha) as (i & j & Hi & Hj & ->). rewrite tensor2_nth by assumption.
    intros r s Hr Hs. cbn [tensor2 bdim] in *. unfold kron. rewrite (tg_herm b Hb i Hi (r / bdim c)%nat (s / bdim c)%nat), (tg_herm c Hc j Hj (r mod bdim c)%nat (s mod bdim c)%nat).
    + now rewrite conj_mul.
    + apply Nat.mod_upper_bound. lia.
    + apply Nat.mod_upper_bound. lia.
    + apply Nat.div_lt_upper_bound; lia.
    + apply Nat.div_lt_upper_bound; lia.
  - intros a a' Ha Ha'. rewrite HL in Ha, Ha'. destruct (split_index _ _ _ Ha) as (i & j & Hi & Hj & ->). destruct (split_index _ _ _ Ha') as (k & l & Hk & Hl & ->).
    rewrite !tensor2_nth by assumption. cbn [tensor2 bdim]. rewrite inner_kron, (tg_orth b Hb i k Hi Hk), (tg_orth c Hc j l Hj Hl). now rewrite delta_pair.
  - apply resolution_complete. intros r s k l Hr Hs Hk Hl. rewrite HL. cbn [tensor2 bdim] in *. rewrite <- csum_prod.
    transitivity (cmul (csum (length (bdata b)) (fun i => cmul (conj (bnth b i (r / bdim c)%nat (s / bdim c)%nat)) (bnth b i (k / bdim c)%nat (l / bdim c)%nat)))
                       (csum (length (bdata c)) (fun j => cmul (conj (bnth c j (r mod bdim c)%nat (s mod bdim c)%nat)) (bnth c j (k mod bdim c)%nat (l mod bdim c)%nat)))).
    + rewrite <- csum_scal_r. apply csum_ext. intros i Hi. rewrite <- csum_scal. apply csum_ext. intros j Hj. change {| bdim := (bdim b * bdim c)%nat; bdata := flat_map (fun A => map (kron (bdim c) A) (bdata c)) (bdata b) |} with (tensor2 b c).
      rewrite tensor2_nth by assumption. unfold kron. rewrite conj_mul. ring.
    + assert (Hdl : forall x, (x < bdim b * bdim c)%nat -> (x / bdim c < bdim b)%nat) by (intros; apply Nat.div_lt_upper_bound; lia).
      assert (Hml : forall x, (x mod bdim c < bdim c)%nat) by (intros; apply Nat.mod_upper_bound; lia).
      rewrite (complete_resolution b (tg_comp b Hb)) by (now apply Hdl). rewrite (complete_resolution c (tg_comp c Hc)) by apply Hml.
      destruct (delta_divmod (bdim c) r k) as [->|?]; [|lia]. destruct (delta_divmod (bdim c) s l) as [->|?]; [|lia]. ring.
  - intros r s Hr Hs. cbn [tensor2 bdim] in *. assert (Hlb := tg_len b Hb). assert (Hlc := tg_len c Hc).
    replace 0%nat with (0 * length (bdata c) + 0)%nat by lia. change {| bdim := (bdim b * bdim c)%nat; bdata := flat_map (fun A => map (kron (bdim c) A) (bdata c)) (bdata b) |} with (tensor2 b c).
    rewrite tensor2_nth by (rewrite ?Hlb, ?Hlc; cbn; nia). unfold kron. rewrite (tg_first b Hb), (tg_first c Hc).
    + destruct (delta_divmod (bdim c) r s) as [->|?]; [|lia].
      rewrite mult_INR, sqrt_mult by apply pos_INR.
      assert (E : rc (1 / (sqrt (INR (bdim b)) * sqrt (INR (bdim c)))) = cmul (rc (1 / sqrt (INR (bdim b)))) (rc (1 / sqrt (INR (bdim c))))).
      { rewrite <- rc_mul. f_equal. field. split; intros E; apply sqrt_eq_0 in E; try apply pos_INR; assert (H1 := lt_0_INR _ Hp); assert (H2 := lt_0_INR _ Hq); lra. }
      rewrite E. ring.
    + apply Nat.mod_upper_bound. lia.
    + apply Nat.mod_upper_bound. lia.
    + apply Nat.div_lt_upper_bound; lia.
    + apply Nat.div_lt_upper_bound; lia.
  - intros a Ha0 Ha. rewrite HL in Ha. destruct (split_index _ _ _ Ha) as (i & j & Hi & Hj & ->). rewrite tensor2_nth by assumption. cbn [tensor2 bdim]. rewrite mtrace_kron.
    destruct (Nat.eq_dec i 0) as [->|Hi0].
    + rewrite (tg_traceless c Hc j) by lia. ring.
    + rewrite (tg_traceless b Hb i) by lia. ring.
Qed.

Lemma flat_map_flat_map {A B D} (f : A -> list B) (g : B -> list D) l : flat_map g (flat_map f l) = flat_map (fun a => flat_map g (f a)) l.
Proof. induction l as [|a l IH]; [reflexivity|]. cbn. now rewrite flat_map_app, IH. Qed.
Lemma map_flat_map' {A B D} (g : A -> B) (f : B -> list D) l : flat_map f (map g l) = flat_map (fun a => f (g a)) l.
Proof. induction l as [|a l IH]; [reflexivity|]. cbn. now rewrite IH. Qed.
Lemma it_product_snoc {A} (ls : list (list A)) l : it_product (ls ++ [l]) = flat_map (fun t => map (fun x => t ++ [x]) l) (it_product ls).
Proof.
  induction ls as [|l0 ls IH].
  - cbn. rewrite app_nil_r, flat_map_singl. reflexivity.
  - cbn [app it_product]. rewrite IH, flat_map_flat_map. apply flat_map_ext'. intros x. rewrite flat_map_map, map_flat_map'. apply flat_map_ext'. intros t. now rewrite map_map.
Qed.
Lemma it_product_nonempty {A} (l : list A) ls t : In t (it_product (l :: ls)) -> exists f fs, t = f :: fs.
Proof. cbn. intros H. apply in_flat_map in H. destruct H as (x & _ & H). apply in_map_iff in H. destruct H as (y & <- & _). now exists x, y. Qed.
Definition plane_of (fs : list (nat * mat)) : list mat := match reduce_kron fs with Ok f => [snd f] | Err _ => [] end.
Lemma flat_map_ext_in {A B} (f g : A -> list B) l : (forall a, In a l -> f a = g a) -> flat_map f l = flat_map g l.
Proof. induction l as [|a l IH]; intros H; [reflexivity|]. cbn. rewrite H by (now left). f_equal. apply IH. intros; apply H; now right. Qed.
Lemma tp_planes_snoc b0 bs c : tp_planes (b0 :: bs ++ [c]) = flat_map (fun A => map (kron (bdim c) A) (bdata c)) (tp_planes (b0 :: bs)).
Proof.
  unfold tp_planes. fold plane_of. rewrite app_comm_cons, map_app. cbn [map]. 
  set (T := fun b => map (fun m => (bdim b, m)) (bdata b)). change (map (fun m => (bdim c, m)) (bdata c)) with (T c).
  change ((map (fun m => (bdim b0, m)) (bdata b0) :: map T bs)) with (T b0 :: map T bs).
  rewrite it_product_snoc, !flat_map_flat_map. apply flat_map_ext_in. intros t Ht. apply it_product_nonempty in Ht. destruct Ht as (f & fs & ->).
  rewrite map_flat_map'. change (plane_of (f :: fs)) with [snd (fold_left kron2 fs f)]. cbn [flat_map]. rewrite app_nil_r. unfold T.
  rewrite map_flat_map'. rewrite <- flat_map_singl. apply flat_map_ext'. intros m. unfold plane_of. cbn. rewrite fold_left_app. reflexivity.
Qed.
Lemma tp_planes_fold b0 bs : tp_planes (b0 :: bs) = bdata (fold_left tensor2 bs b0).
Proof.
  induction bs as [|c bs IH] using rev_ind.
  - unfold tp_planes. cbn. rewrite map_flat_map', flat_map_flat_map. cbn. rewrite flat_map_singl. apply map_id.
  - rewrite tp_planes_snoc, fold_left_app, IH. reflexivity.
Qed.
Lemma fold_dims b0 bs : fold_left Nat.mul (map bdim (b0 :: bs)) 1%nat = bdim (fold_left tensor2 bs b0).
Proof.
  induction bs as [|c bs IH] using rev_ind.
  - cbn. lia.
  - rewrite app_comm_cons, map_app, !fold_left_app, IH. reflexivity.
Qed.
Lemma fold_tensor_tomographic bs b0 : tomographic b0 -> Forall tomographic bs -> tomographic (fold_left tensor2 bs b0).
Proof. revert b0; induction bs as [|c bs IH]; intros b0 H0 Hf; [assumption|]. inversion Hf; subst. cbn. apply IH; [|assumption]. now apply tensor2_tomographic. Qed.
Theorem tensor_product_fold b0 bs : tomographic b0 -> Forall tomographic bs -> tensor_product_basis (b0 :: bs) = Ok (fold_left tensor2 bs b0).
Proof.
  intros H0 Hf. unfold tensor_product_basis. rewrite fold_dims, tp_planes_fold. set (r := fold_left tensor2 bs b0).
  assert (Hr : tomographic r) by (now apply fold_tensor_tomographic). rewrite (tg_len r Hr). rewrite Nat.ltb_irrefl, Nat.sub_diag. cbn [repeat]. rewrite app_nil_r. destruct r; reflexivity.
Qed.

(** ** the Pauli basis *)
Definition perm4 (a : nat) : nat := nth a [0; 2; 3; 1]%nat 0%nat.
Lemma pauli_factor_tomographic p : pauli_factor = Ok p -> bdim p = 2%nat /\ tomographic p.
Proof.
  unfold pauli_factor. destruct (gell_mann_basis 2) as [g|] eqn:Eg; [|discriminate]. cbn [bind]. intros E. injection E as <-.
  destruct (gell_mann_tomographic 2 g Eg) as [Hd Hg]. split; [reflexivity|].
  assert (Hl : length (bdata g) = 4%nat) by (rewrite (tg_len g Hg), Hd; reflexivity).
  set (p := {| bdim := 2; bdata := [bnth g 0; bnth g 2; bnth g 3; bnth g 1] |}).
  assert (Hn : forall a, (a < 4)%nat -> bnth p a = bnth g (perm4 a) /\ (perm4 a < 4)%nat).
  { intros a Ha. do 4 (destruct a as [|a]; [split; [reflexivity|cbn; lia]|]). lia. }
  constructor.
  - cbn. lia.
  - reflexivity.
  - intros a Ha. change (a < 4)%nat in Ha. destruct (Hn a Ha) as [-> Hpa]. change (bdim p) with 2%nat. rewrite <- Hd. apply (tg_herm g Hg). lia.
  - intros a c Ha Hc. change (a < 4)%nat in Ha. change (c < 4)%nat in Hc. destruct (Hn a Ha) as [-> Hpa]. destruct (Hn c Hc) as [-> Hpc]. change (bdim p) with 2%nat. rewrite <- Hd.
    rewrite (tg_orth g Hg) by lia. do 4 (destruct a as [|a]; [do 4 (destruct c as [|c]; [reflexivity|]); lia|]). lia.
  - intros X i j Hi Hj. change (bdim p) with 2%nat in *. rewrite (tg_comp g Hg X i j) by lia. rewrite Hl, Hd. change (length (bdata p)) with 4%nat.
    rewrite !csum_S, !csum_0. change (bnth p 0) with (bnth g 0). change (bnth p 1) with (bnth g 2). change (bnth p 2) with (bnth g 3). change (bnth p 3) with (bnth g 1). ring.
  - intros i j Hi Hj. change (bnth p 0) with (bnth g 0). change (bdim p) with 2%nat in *. rewrite <- Hd. apply (tg_first g Hg); rewrite Hd; assumption.
  - intros a Ha0 Ha. change (a < 4)%nat in Ha. destruct (Hn a Ha) as [-> Hpa]. change (bdim p) with 2%nat. rewrite <- Hd. apply (tg_traceless g Hg); [|lia].
    do 4 (destruct a as [|a]; [cbn; lia|]). lia.
Qed.

(** ** conversions *)
Definition synth (b : basis) (x : list R) : mat := fun i j => csum (length (bdata b)) (fun a => cmul (rc (nth a x 0)) (bnth b a i j)).
Lemma modelparams_to_state_Ok b x : length x = length (bdata b) -> modelparams_to_state b x = Ok (synth b x).
Proof. intros H. unfold modelparams_to_state, tensordot. rewrite H, Nat.eqb_refl. reflexivity. Qed.
Lemma stm_length b rho : length (state_to_modelparams b rho) = length (bdata b). Proof. apply map_length. Qed.
Lemma stm_nth b rho a : (a < length (bdata b))%nat -> nth a (state_to_modelparams b rho) 0 = re (inner (bdim b) (bnth b a) rho).
Proof.
  intros H. unfold state_to_modelparams. set (f := fun B : mat => re (csum (bdim b) (fun i => csum (bdim b) (fun j => cmul (conj (B i j)) (rho i j))))). rewrite (nth_indep _ 0 (f mzero)) by (now rewrite map_length). rewrite map_nth. reflexivity.
Qed.
Lemma inner_synth b x A : inner (bdim b) A (synth b x) = csum (length (bdata b)) (fun a => cmul (rc (nth a x 0)) (inner (bdim b) A (bnth b a))).
Proof.
  unfold inner, synth. transitivity (csum (bdim b) (fun i => csum (bdim b) (fun j => csum (length (bdata b)) (fun a => cmul (rc (nth a x 0)) (cmul (conj (A i j)) (bnth b a i j)))))).
  - apply csum_ext. intros i _. apply csum_ext. intros j _. rewrite <- csum_scal. apply csum_ext. intros a _. ring.
  - transitivity (csum (bdim b) (fun i => csum (length (bdata b)) (fun a => csum (bdim b) (fun j => cmul (rc (nth a x 0)) (cmul (conj (A i j)) (bnth b a i j)))))).
    + apply csum_ext. intros i _. apply csum_swap.
    + rewrite csum_swap. apply csum_ext. intros a _. rewrite <- csum_scal. apply csum_ext. intros i _. now rewrite csum_scal.
Qed.
Lemma list_eq_nth (l m : list R) : length l = length m -> (forall i, (i < length l)%nat -> nth i l 0 = nth i m 0) -> l = m.
Proof. intros H H'. now apply nth_ext with (d := 0) (d' := 0). Qed.
Lemma params_roundtrip b x : orthonormal b -> length x = length (bdata b) -> state_to_modelparams b (synth b x) = x.
Proof.
  intros Ho Hl. apply list_eq_nth; rewrite stm_length; [now symmetry|]. intros a Ha. rewrite stm_nth by assumption. rewrite inner_synth.
  rewrite (csum_single _ a); [rewrite Ho, delta_same by assumption; cbn; ring|assumption|]. intros c Hc Hca. rewrite Ho, delta_diff by congruence || assumption. ring.
Qed.
Lemma inner_herm_real d A B : hermitian d A -> hermitian d B -> im (inner d A B) = 0.
Proof.
  intros HA HB. apply conj_real. rewrite <- inner_conj. unfold inner. rewrite csum_swap. apply csum_ext. intros j Hj. apply csum_ext. intros i Hi.
  rewrite (HA i j), (HB i j) by assumption. rewrite conj_conj. ring.
Qed.
