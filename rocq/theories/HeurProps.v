(** Theorems for properties C93 (state measurement heuristics), C94 (Heisenberg-Weyl operators), C95 (process heuristics) and C96 (best of k). *)
From Coq Require Import String.
From Verif Require Import Base Ext RList Sums Cplx SmcModel PartModel PartSpec PartProofs TwoModel DesModel TomoModel TomoSpec TomoProofs TomoProofs2 TomoProofs3 TomoProps HeurModel HeurProofs.
From Coq Require Import List.

Definition projector (d : nat) (M : mat) : Prop := hermitian d M /\ forall i j, (i < d)%nat -> (j < d)%nat -> mmul d M M i j = M i j.

(** ** C94 *)
Theorem c94_commutation d r c : (0 < d)%nat -> (r < d)%nat -> (c < d)%nat ->
  mmul d (hw_X d) (hw_Z d) r c = cmul (hw_root d) (mmul d (hw_Z d) (hw_X d) r c).
Proof.
  intros Hd Hr Hc. unfold mmul. rewrite (csum_single d ((r + 1) mod d)); [|now apply modd|intros k Hk Hn; unfold hw_X; destruct (Nat.eqb_spec k ((r + 1) mod d)); [contradiction|ring]].
  rewrite (csum_single d r); [|assumption|intros k Hk Hn; unfold hw_Z; destruct (Nat.eqb_spec r k); [congruence|ring]].
  unfold hw_X, hw_Z. rewrite !Nat.eqb_refl. rewrite (Nat.eqb_sym ((r + 1) mod d)). destruct (Nat.eqb_spec c ((r + 1) mod d)) as [->|]; [|ring].
  rewrite <- root_mod by assumption. replace (r + 1)%nat with (S r) by lia. cbn [cpow]. ring.
Qed.
Lemma hw_list d ops : heisenberg_weyl_operators d = Ok ops -> (0 < d)%nat /\ length ops = (d * d)%nat /\
  forall i j, (i < d)%nat -> (j < d)%nat -> nth (i * d + j) ops mzero = hw d i j.
Proof.
  unfold heisenberg_weyl_operators. destruct (Nat.eqb_spec d 0); [discriminate|]. intros E. injection E as <-. split; [lia|].
  assert (L : forall a, In a (seq 0 d) -> length (map (fun j => mmul d (mpow d (hw_X d) a) (mpow d (hw_Z d) j)) (seq 0 d)) = d) by (intros; now rewrite map_length, seq_length).
  split; [rewrite (length_flat_uniform _ _ d) by assumption; now rewrite seq_length|]. intros i j Hi Hj.
  rewrite (nth_flat_uniform _ _ d 0%nat mzero) by (try assumption; now rewrite seq_length). rewrite seq_nth by assumption. cbn [plus].
  rewrite (nth_indep _ mzero (mmul d (mpow d (hw_X d) i) (mpow d (hw_Z d) 0))) by (now rewrite map_length, seq_length).
  rewrite (map_nth (fun j => mmul d (mpow d (hw_X d) i) (mpow d (hw_Z d) j))). rewrite seq_nth by assumption. reflexivity.
Qed.
(** They exist in every positive dimension: *)
Theorem c94_defined d : (exists ops, heisenberg_weyl_operators d = Ok ops) <-> (0 < d)%nat.
Proof. unfold heisenberg_weyl_operators. destruct (Nat.eqb_spec d 0) as [->|]; split; [intros [? ?]; discriminate|lia|lia|eauto]. Qed.
(** d*d operators, mutually orthogonal with squared norm d *)
Theorem c94_orthogonal d ops a b : heisenberg_weyl_operators d = Ok ops -> (a < length ops)%nat -> (b < length ops)%nat ->
  length ops = (d * d)%nat /\ inner d (nth a ops mzero) (nth b ops mzero) = if Nat.eqb a b then rc (INR d) else c0.
Proof.
  intros E Ha Hb. destruct (hw_list d ops E) as (Hd & L & H). split; [exact L|]. rewrite L in *. destruct (split_index d d a Ha) as (i & j & Hi & Hj & ->). destruct (split_index d d b Hb) as (k & l & Hk & Hl & ->).
  rewrite !H, hw_inner by assumption. destruct (Nat.eqb_spec i k) as [->|Hn], (Nat.eqb_spec j l) as [->|Hm]; cbn [andb]; rewrite ?Nat.eqb_refl; try reflexivity.
  - destruct (Nat.eqb_spec (k * d + j) (k * d + l)); [lia|reflexivity].
  - destruct (Nat.eqb_spec (i * d + l) (k * d + l)); [nia|reflexivity].
  - destruct (Nat.eqb_spec (i * d + j) (k * d + l)) as [E'|]; [|reflexivity]. exfalso. apply Hn. destruct (divmod_pair d i j Hj) as [<- _]. destruct (divmod_pair d k l Hl) as [<- _]. now rewrite E'.
Qed.
(** closed under multiplication up to a phase: the product of the operators (i, j) and (k, l) is a d-th root of unity times the operator (i+k mod d, j+l mod d) *)
Theorem c94_group d ops i j k l : heisenberg_weyl_operators d = Ok ops -> (i < d)%nat -> (j < d)%nat -> (k < d)%nat -> (l < d)%nat ->
  exists phase, cpow phase d = c1 /\ cabs2 phase = 1 /\ forall r c, (r < d)%nat -> (c < d)%nat ->
  mmul d (nth (i * d + j) ops mzero) (nth (k * d + l) ops mzero) r c = cmul phase (nth ((i + k) mod d * d + (j + l) mod d) ops mzero r c).
Proof.
  intros E Hi Hj Hk Hl. destruct (hw_list d ops E) as (Hd & L & H). exists (cpow (conj (hw_root d)) (j * k)). rewrite !H by (try assumption; now apply modd).
  assert (CJ : forall z n, cpow (conj z) n = conj (cpow z n)) by (intros z n; induction n as [|n IH]; [symmetry; apply conj_c1|cbn [cpow]; now rewrite conj_mul, IH]).
  split; [rewrite cpow_mul, CJ, root_mult by assumption; apply conj_c1|]. split; [apply cpow_unit; unfold cabs2; cbn; pose proof (root_unit d) as U; unfold cabs2 in U; cbn in U; nra|].
  intros r c Hr Hc. now apply hw_mul.
Qed.
(** unitary *)
Theorem c94_unitary d ops a : heisenberg_weyl_operators d = Ok ops -> (a < length ops)%nat -> forall r c, (r < d)%nat -> (c < d)%nat ->
  csum d (fun k => cmul (conj (nth a ops mzero k r)) (nth a ops mzero k c)) = delta r c.
Proof.
  intros E Ha r c Hr Hc. destruct (hw_list d ops E) as (Hd & L & H). rewrite L in *. destruct (split_index d d a Ha) as (i & j & Hi & Hj & ->). rewrite H by assumption.
  rewrite (csum_single d ((r + (d - i)) mod d)); [|now apply modd|].
  - assert (Ei : r = (((r + (d - i)) mod d + i) mod d)%nat) by (apply (preimage d Hd i r); [lia|now apply modd|assumption|reflexivity]).
    rewrite !hw_entry by (try assumption; now apply modd). rewrite <- Ei, Nat.eqb_refl. unfold delta. rewrite (Nat.eqb_sym r c). destruct (Nat.eqb_spec c r) as [->|]; [|ring].
    transitivity (cmul (cpow (hw_root d) (j * r)) (conj (cpow (hw_root d) (j * r)))); [ring|]. rewrite cmul_conj_re, cpow_unit by (apply root_unit). reflexivity.
  - intros k Hk Hn. rewrite hw_entry by assumption. destruct (Nat.eqb_spec r ((k + i) mod d)) as [E'|]; [|rewrite conj_c0; ring]. exfalso. apply Hn. apply (preimage d Hd i r k); [lia|assumption|assumption|exact E'].
Qed.
(** For qubits: the identity, Z, X and XZ. *)
Example c94_qubit : exists ops, heisenberg_weyl_operators 2 = Ok ops /\ length ops = 4%nat /\
  (forall i j, (i < 2)%nat -> (j < 2)%nat -> nth 1 ops mzero i j = if Nat.eqb i j then if Nat.eqb i 0 then c1 else copp c1 else c0) /\
  (forall i j, (i < 2)%nat -> (j < 2)%nat -> nth 2 ops mzero i j = if Nat.eqb i j then c0 else c1).
Proof.
  destruct (heisenberg_weyl_operators 2) as [ops|] eqn:E; [|discriminate]. exists ops. destruct (hw_list 2 ops E) as (Hd & L & H). split; [reflexivity|]. split; [exact L|].
  assert (W : hw_root 2 = copp c1). { unfold hw_root. replace (2 * PI / INR 2) with PI by (cbn; field). rewrite cos_PI, sin_PI. apply C_eq; cbn; ring. }
  split; intros i j Hi Hj.
  - specialize (H 0%nat 1%nat ltac:(lia) ltac:(lia)). cbn [Nat.mul plus] in H. rewrite H, hw_entry by lia. rewrite W. destruct i as [|[|i]]; try lia; destruct j as [|[|j]]; try lia; apply C_eq; cbn; ring.
  - specialize (H 1%nat 0%nat ltac:(lia) ltac:(lia)). cbn [Nat.mul plus] in H. rewrite H, hw_entry by lia. destruct i as [|[|i]]; try lia; destruct j as [|[|j]]; try lia; apply C_eq; cbn; ring.
Qed.

(** ** C93 *)
Lemma projector_prob d M rho : projector d M -> psd d rho -> 0 <= re (mtrace d (mmul d M rho)).
Proof.
  intros [Hh Hp] [_ Hr].
  assert (E : mtrace d (mmul d M rho) = csum d (fun i => quad d rho (fun k => M k i))).
  { transitivity (csum d (fun i => csum d (fun k => cmul (mmul d M M i k) (rho k i)))).
    - unfold mtrace, mmul at 1. apply csum_ext. intros i Hi. apply csum_ext. intros k Hk. now rewrite Hp.
    - transitivity (csum d (fun i => csum d (fun k => csum d (fun l => cmul (cmul (M i l) (M l k)) (rho k i))))).
      + apply csum_ext. intros i Hi. apply csum_ext. intros k Hk. unfold mmul. now rewrite csum_scal_r.
      + transitivity (csum d (fun i => csum d (fun l => csum d (fun k => cmul (cmul (M i l) (M l k)) (rho k i))))); [apply csum_ext; intros; apply csum_swap|]. rewrite csum_swap. apply csum_ext. intros l Hl.
        unfold quad. rewrite csum_swap. apply csum_ext. intros k Hk. apply csum_ext. intros i Hi. rewrite <- (Hh l k) by assumption. ring. }
  rewrite E, csum_re. apply Sum_nonneg. intros i _. apply Hr.
Qed.
Lemma projector_complement d M : projector d M -> projector d (fun i j => csub (delta i j) (M i j)).
Proof.
  intros [Hh Hp]. split.
  - intros i j Hi Hj. unfold csub. rewrite (Hh i j) by assumption. unfold delta. rewrite (Nat.eqb_sym j i). destruct (Nat.eqb i j); apply C_eq; cbn; ring.
  - intros i j Hi Hj. unfold mmul.
    rewrite (csum_ext d _ (fun k => cadd (cmul (delta i k) (csub (delta k j) (M k j))) (cadd (cmul (copp (M i k)) (delta k j)) (cmul (M i k) (M k j))))) by (intros; ring).
    rewrite !csum_add. rewrite (csum_single d i); [|assumption|intros k Hk Hn; rewrite delta_diff by congruence; ring]. rewrite (csum_single d j); [|assumption|intros k Hk Hn; rewrite delta_diff by congruence; ring].
    fold (mmul d M M i j). rewrite Hp by assumption. rewrite !delta_same. ring.
Qed.
(** A projective measurement in parameter form: the likelihood of the tomography model is Born's rule. *)
Theorem c93_born b M rho : tomographic b -> projector (bdim b) M -> density (bdim b) rho ->
  let p := re (mtrace (bdim b) (mmul (bdim b) M rho)) in
  0 <= p <= 1 /\ tomo_like (state_to_modelparams b M) (state_to_modelparams b rho) 1 = p /\ tomo_like (state_to_modelparams b M) (state_to_modelparams b rho) 0 = 1 - p.
Proof.
  intros Hb HM [Hr Ht] p. assert (B : 0 <= p <= 1).
  { split; [now apply projector_prob|]. assert (C := projector_prob _ _ _ (projector_complement _ _ HM) Hr).
    assert (E : mtrace (bdim b) (mmul (bdim b) (fun i j => csub (delta i j) (M i j)) rho) = csub c1 (mtrace (bdim b) (mmul (bdim b) M rho))).
    { rewrite <- Ht. unfold mtrace, mmul. unfold csub. replace (copp (csum (bdim b) (fun i => csum (bdim b) (fun k => cmul (M i k) (rho k i))))) with (cmul (copp c1) (csum (bdim b) (fun i => csum (bdim b) (fun k => cmul (M i k) (rho k i))))) by ring.
      rewrite <- csum_scal, <- csum_add. apply csum_ext. intros i Hi. rewrite <- csum_scal.
      rewrite (csum_ext (bdim b) _ (fun k => cadd (cmul (delta i k) (rho k i)) (cmul (copp c1) (cmul (M i k) (rho k i))))) by (intros; ring). rewrite csum_add. f_equal.
      rewrite (csum_single (bdim b) i); [rewrite delta_same; ring|assumption|intros k Hk Hn; rewrite delta_diff by congruence; ring]. }
    rewrite E in C. unfold p. set (z := mtrace (bdim b) (mmul (bdim b) M rho)) in *. clearbody z. cbn in C. lra. }
  split; [exact B|]. destruct (c62_born b M rho) as (E1 & E2 & _); try assumption; try (apply (tg_herm b Hb)); try (apply (tg_comp b Hb)); [apply HM|apply Hr|]. now split.
Qed.

(** Pauli measurements: in every qubit dimension and for every choice, a projector of half rank whose expansion is one Pauli axis. *)
Theorem c93_pauli nq : (0 < nq)%nat -> let dim := (2 ^ nq)%nat in exists pb, pauli_init dim = Ok pb /\ length (bdata pb) = (dim ^ 2)%nat /\
  forall k, (k < dim ^ 2 - 1)%nat -> let m := pauli_next dim pb k in
  fst m = dim /\ projector dim (snd m) /\ mtrace dim (snd m) = rc (INR dim / 2) /\
  forall a, (a < dim ^ 2)%nat -> nth a (state_to_modelparams pb (snd m)) 0 = if Nat.eqb a 0 || Nat.eqb a (1 + k) then sqrt (INR dim) / 2 else 0.
Proof.
  intros Hn dim. destruct (c61_pauli nq Hn) as (pb & E & T & D & L). exists pb. assert (I : pauli_init dim = Ok pb) by (unfold pauli_init, dim; rewrite Nat.log2_pow2, Nat.eqb_refl by lia; exact E).
  split; [exact I|]. assert (L2 : length (bdata pb) = (dim ^ 2)%nat) by (rewrite (tg_len pb T), D; reflexivity). split; [exact L2|]. intros k Hk m. fold dim in D.
  assert (Pd : (0 < dim)%nat) by (rewrite <- D; apply (tg_dim pb T)). assert (Pr : 0 < INR dim) by (now apply lt_0_INR). assert (Sq := sqrt_sqrt (INR dim) ltac:(lra)). assert (Sp := sqrt_lt_R0 _ Pr).
  assert (SQ := pauli_squares nq pb Hn E). unfold squares in SQ. rewrite L2, D in SQ.
  assert (B0 : forall i j, (i < dim)%nat -> (j < dim)%nat -> bnth pb 0 i j = cmul (rc (1 / sqrt (INR dim))) (delta i j)) by (intros i j Hi Hj; rewrite <- D; apply (tg_first pb T); rewrite D; assumption).
  split; [exact D|]. split; [split|split].
  - intros i j Hi Hj. cbn [snd m pauli_next]. unfold mscal, mplus. rewrite conj_mul, conj_add, conj_rc. rewrite <- !(tg_herm pb T) by (rewrite ?L2, ?D; lia). reflexivity.
  - intros i j Hi Hj. cbn [snd m pauli_next]. unfold mmul, mscal, mplus. set (s := sqrt (INR dim)) in *. set (P := bnth pb (1 + k)) in *.
    rewrite (csum_ext dim _ (fun l => cadd (cmul (rc (1 / 4)) (delta i l * delta l j)%C) (cadd (cmul (cmul (rc (s / 4)) (P l j)) (delta i l)) (cadd (cmul (cmul (rc (s / 4)) (P i l)) (delta l j)) (cmul (rc (INR dim / 4)) (cmul (P i l) (P l j))))))).
    + rewrite !csum_add, csum_scal. rewrite (csum_single dim i (fun l => (delta i l * delta l j)%C)); [|assumption|intros l Hl Hx; rewrite (delta_diff i l) by congruence; ring].
      rewrite (csum_single dim i (fun l => cmul (cmul (rc (s / 4)) (P l j)) (delta i l))); [|assumption|intros l Hl Hx; rewrite (delta_diff i l) by congruence; ring].
      rewrite (csum_single dim j (fun l => cmul (cmul (rc (s / 4)) (P i l)) (delta l j))); [|assumption|intros l Hl Hx; rewrite (delta_diff l j) by congruence; ring].
      rewrite csum_scal. fold (mmul dim P P i j). unfold P at 3 4. rewrite SQ by (try assumption; lia). rewrite !delta_same, B0 by assumption.
      assert (F1 : INR dim / 4 * / INR dim = 1 / 4) by (field; lra). assert (F2 : s / 2 * (1 / s) = 1 / 2) by (field; lra).
      replace (cmul (rc (INR dim / 4)) (cmul (rc (/ INR dim)) (delta i j))) with (cmul (rc (1 / 4)) (delta i j)) by (rewrite <- F1, rc_mul; ring).
      replace (cmul (rc (s / 2)) (cadd (cmul (rc (1 / s)) (delta i j)) (P i j))) with (cadd (cmul (rc (1 / 2)) (delta i j)) (cmul (rc (s / 2)) (P i j))) by (rewrite <- F2, rc_mul; ring).
      apply C_eq; cbn; field.
    + intros l Hl. rewrite !B0 by assumption. assert (F2 : s / 2 * (1 / s) = 1 / 2) by (field; lra). assert (F3 : s / 2 * (s / 2) = INR dim / 4) by (rewrite <- Sq; field).
      replace (cmul (cmul (rc (s / 2)) (cadd (cmul (rc (1 / s)) (delta i l)) (P i l))) (cmul (rc (s / 2)) (cadd (cmul (rc (1 / s)) (delta l j)) (P l j)))) with
        (cadd (cmul (cmul (rc (s / 2 * (1 / s))) (rc (s / 2 * (1 / s)))) (delta i l * delta l j)%C) (cadd (cmul (rc (s / 2)) (cmul (rc (s / 2 * (1 / s))) (cmul (P l j) (delta i l)))) (cadd (cmul (rc (s / 2)) (cmul (rc (s / 2 * (1 / s))) (cmul (P i l) (delta l j)))) (cmul (rc (s / 2 * (s / 2))) (cmul (P i l) (P l j)))))) by (rewrite !rc_mul; ring).
      rewrite F2, F3. apply C_eq; cbn; field.
  - cbn [snd m pauli_next]. unfold mtrace, mscal, mplus. rewrite csum_scal, csum_add. change (csum dim (fun i => bnth pb (1 + k) i i)) with (mtrace dim (bnth pb (1 + k))). rewrite <- D at 3. rewrite (tg_traceless pb T) by (rewrite ?L2; lia).
    rewrite (csum_ext dim _ (fun _ => rc (1 / sqrt (INR dim)))) by (intros i Hi; rewrite B0, delta_same by assumption; ring). rewrite csum_rc.
    assert (SC : forall n c, Sum n (fun _ => c) = INR n * c) by (intros n c; rewrite Sum_rsum, rsum_map_const, seq_length; reflexivity). rewrite SC. apply C_eq; cbn [re im rc cmul cadd c0]; field; lra.
  - intros a Ha. rewrite stm_nth by (now rewrite L2). rewrite D. cbn [snd m pauli_next].
    assert (EI : inner dim (bnth pb a) (mscal (rc (sqrt (INR dim) / 2)) (mplus (bnth pb 0) (bnth pb (1 + k)))) = cmul (rc (sqrt (INR dim) / 2)) (cadd (inner dim (bnth pb a) (bnth pb 0)) (inner dim (bnth pb a) (bnth pb (1 + k))))).
    { unfold inner. rewrite <- csum_add, <- csum_scal. apply csum_ext. intros i _. rewrite <- csum_add, <- csum_scal. apply csum_ext. intros j _. unfold mscal, mplus. ring. }
    rewrite EI. assert (OO := tg_orth pb T). unfold orthonormal in OO. rewrite L2, D in OO. rewrite !OO by lia. unfold delta. destruct (Nat.eqb_spec a 0), (Nat.eqb_spec a (1 + k)); try lia; cbn; ring.
Qed.
Theorem c93_qubits_only dim : (forall n, dim <> (2 ^ n)%nat) -> pauli_init dim = Err ValueError.
Proof. intros H. unfold pauli_init. destruct (Nat.eqb_spec (2 ^ Nat.log2 dim) dim) as [E|]; [exfalso; now apply (H (Nat.log2 dim))|reflexivity]. Qed.

(** Stabilizer measurements: whatever group element and eigenvector are chosen, a rank-one projector of trace one. *)
Theorem c93_stabilizer eigenstates b group g k m : (forall U v, In v (eigenstates U) -> norm2 (bdim b) v = 1) ->
  stabilizer_init b = Ok group -> stabilizer_next eigenstates b group g k = Ok m ->
  fst m = bdim b /\ projector (bdim b) (snd m) /\ mtrace (bdim b) (snd m) = c1 /\ (g < bdim b * bdim b)%nat /\
  exists v, In v (eigenstates (nth g group mzero)) /\ forall i j, snd m i j = cmul (v i) (conj (v j)).
Proof.
  intros Hn Hi H. destruct (hw_list _ _ Hi) as (_ & L & _). unfold stabilizer_next in H. destruct (nth_error group g) as [U|] eqn:E; [|discriminate]. destruct (nth_error (eigenstates U) k) as [v|] eqn:Ev; [|discriminate]. injection H as <-. cbn [fst snd].
  assert (Iv : In v (eigenstates U)) by (eapply nth_error_In; exact Ev). assert (N := Hn U v Iv).
  assert (S1 : csum (bdim b) (fun l => cmul (conj (v l)) (v l)) = c1).
  { rewrite (csum_ext _ _ (fun l => rc (cabs2 (v l)))) by (intros; apply C_eq; unfold cabs2; cbn; ring). rewrite csum_rc. unfold norm2 in N. now rewrite N. }
  split; [reflexivity|]. split; [split|].
  - intros i j _ _. unfold ket2dm. rewrite conj_mul, conj_conj. ring.
  - intros i j _ _. unfold mmul, ket2dm. rewrite (csum_ext _ _ (fun l => cmul (cmul (v i) (conj (v j))) (cmul (conj (v l)) (v l)))) by (intros; ring). rewrite csum_scal, S1. ring.
  - split; [unfold mtrace, ket2dm; rewrite <- S1; apply csum_ext; intros; ring|]. split; [rewrite <- L; apply nth_error_Some; congruence|].
    exists v. split; [|reflexivity]. now rewrite (nth_error_nth _ _ mzero E).
Qed.
(** What is stored: a record whose 'meas' field is the parameter vector of the operator, the other fields as given. *)
Lemma assign_all_other dt fs e e' f : assign_all dt fs e = Ok e' -> ~ In f (map fst fs) -> e' f = e f.
Proof.
  revert e. induction fs as [|[g v] fs IH]; cbn [assign_all map fst]; intros e H Hn; [congruence|]. destruct (assign dt g v e) as [e1|] eqn:E; [|discriminate]. cbn [bind] in H. rewrite (IH e1 H) by (intro; apply Hn; now right).
  unfold assign in E. destruct (kind_of dt g); [|discriminate]. destruct (cast k v); [|discriminate]. cbn [bind] in E. injection E as <-. unfold put. destruct (String.eqb_spec f g) as [->|]; [exfalso; apply Hn; now left|reflexivity].
Qed.
Lemma meas_record_ok dt other n v e : kind_of dt "meas" = Some (KVec n) -> length v = n -> ~ In "meas"%string (map fst other) -> meas_record dt other (Ok v) = Ok e -> e "meas"%string = VVec (map Fin v).
Proof.
  intros Hk Hv Ho H. unfold meas_record in H. cbn [bind] in H. unfold assign in H. rewrite Hk in H. unfold cast, vec_value in H. rewrite map_length, Hv, Nat.eqb_refl in H. cbn [bind] in H.
  rewrite (assign_all_other _ _ _ _ _ H Ho). unfold put. now rewrite String.eqb_refl.
Qed.
Theorem c93_record dt other b m e : kind_of dt "meas" = Some (KVec (bdim b ^ 2)) -> tomographic b -> ~ In "meas"%string (map fst other) -> state_call dt other b m = Ok e ->
  fst m = bdim b /\ e "meas"%string = VVec (map Fin (state_to_modelparams b (snd m))).
Proof.
  intros Hk Hb Ho H. unfold state_call, params_of in H. destruct (Nat.eqb_spec (bdim b) (fst m)) as [E|]; [|discriminate]. split; [congruence|]. eapply meas_record_ok; [exact Hk| |exact Ho|exact H]. now rewrite stm_length, (tg_len b Hb).
Qed.
Theorem c93_no_other_fields dt b m : kind_of dt "meas" = Some (KVec (bdim b ^ 2)) -> tomographic b -> fst m = bdim b -> exists e, state_call dt [] b m = Ok e.
Proof.
  intros Hk Hb E. unfold state_call, params_of. rewrite E, Nat.eqb_refl. unfold meas_record. cbn [bind]. unfold assign. rewrite Hk. unfold cast, vec_value. rewrite map_length, stm_length, (tg_len b Hb), Nat.eqb_refl. cbn [bind assign_all]. eauto.
Qed.

(** ** C95: process heuristics *)
(** A linear map on operators of size D, and its Choi operator of trace one (input first). *)
Definition unit_mat (i j : nat) : mat := fun r c => cmul (delta r i) (delta c j).
Definition linear_map (D : nat) (L : mat -> mat) : Prop := forall A a b, (a < D)%nat -> (b < D)%nat ->
  L A a b = csum D (fun i => csum D (fun j => cmul (A i j) (L (unit_mat i j) a b))).
Definition choi (D : nat) (L : mat -> mat) : mat := fun r c => cmul (rc (/ INR D)) (L (unit_mat (r / D) (c / D)) (r mod D)%nat (c mod D)%nat).
Definition transpose (A : mat) : mat := fun i j => A j i.
Lemma choi_trace D L rho E : (0 < D)%nat -> linear_map D L ->
  cmul (rc (INR D)) (mtrace (D * D) (mmul (D * D) (kron D rho E) (choi D L))) = mtrace D (mmul D E (L (transpose rho))).
Proof.
  intros HD HL. assert (Hp : INR D <> 0) by (apply not_0_INR; lia).
  unfold mtrace, mmul. rewrite <- csum_prod.
  transitivity (csum D (fun i => csum D (fun a => csum D (fun j => csum D (fun b => cmul (cmul (rho i j) (E a b)) (L (unit_mat j i) b a)))))).
  - rewrite <- csum_scal. apply csum_ext. intros i Hi. rewrite <- csum_scal. apply csum_ext. intros a Ha. rewrite <- csum_prod, <- csum_scal. apply csum_ext. intros j Hj. rewrite <- csum_scal. apply csum_ext. intros b Hb.
    unfold kron, choi. destruct (divmod_pair D i a Ha) as [-> ->]. destruct (divmod_pair D j b Hb) as [-> ->].
    replace (cmul (rc (INR D)) (cmul (cmul (rho i j) (E a b)) (cmul (rc (/ INR D)) (L (unit_mat j i) b a)))) with (cmul (rc (INR D * / INR D)) (cmul (cmul (rho i j) (E a b)) (L (unit_mat j i) b a))) by (rewrite rc_mul; ring). rewrite Rinv_r by assumption. apply C_eq; cbn; ring.
  - transitivity (csum D (fun a => csum D (fun b => cmul (E a b) (csum D (fun j => csum D (fun i => cmul (rho i j) (L (unit_mat j i) b a))))))).
    + rewrite csum_swap. apply csum_ext. intros a Ha.
      transitivity (csum D (fun i => csum D (fun b => csum D (fun j => cmul (cmul (rho i j) (E a b)) (L (unit_mat j i) b a))))); [apply csum_ext; intros; apply csum_swap|]. rewrite csum_swap. apply csum_ext. intros b Hb. rewrite <- csum_scal. rewrite csum_swap. apply csum_ext. intros j Hj. rewrite <- csum_scal. apply csum_ext. intros i Hi. ring.
    + apply csum_ext. intros a Ha. apply csum_ext. intros b Hb. f_equal. rewrite HL by assumption. reflexivity.
Qed.
(** The experiment requested by a process heuristic: a vector whose inner product with the parameters of a channel's Choi state is the probability of the
    measurement outcome when the (transposed) preparation is sent through the channel. *)
Theorem c95_process dt other cb D prep meas L e : tomographic cb -> bdim cb = (D * D)%nat -> (0 < D)%nat -> kind_of dt "meas" = Some (KVec (bdim cb ^ 2)) -> ~ In "meas"%string (map fst other) ->
  fst prep = D -> fst meas = D -> hermitian D (snd prep) -> hermitian D (snd meas) -> linear_map D L -> hermitian (D * D) (choi D L) ->
  process_call dt other cb (prep, meas) = Ok e ->
  exists v, e "meas"%string = VVec (map Fin v) /\ rc (rdot v (state_to_modelparams cb (choi D L))) = mtrace D (mmul D (snd meas) (L (transpose (snd prep)))).
Proof.
  intros Hc HD H0 Hk Ho Ep Em Hp Hm HL HJ H. destruct prep as [n1 P], meas as [n2 M]. cbn [fst snd] in *. subst n1 n2. unfold process_call in H. cbn [fst snd tensor] in H. unfold params_of in H. cbn [fst snd] in H. rewrite HD, Nat.eqb_refl in H.
  set (T := mscal (rc (sqrt (INR (D * D)))) (kron D P M)) in *. exists (state_to_modelparams cb T). split; [eapply meas_record_ok; [exact Hk| |exact Ho|exact H]; now rewrite stm_length, (tg_len cb Hc)|].
  assert (HT : hermitian (D * D) T).
  { intros i j Hi Hj. unfold T, mscal, kron. rewrite !conj_mul, conj_rc. f_equal. assert (D <> 0)%nat by lia. f_equal; [apply Hp|apply Hm]; try (apply Nat.div_lt_upper_bound; lia); now apply Nat.mod_upper_bound. }
  rewrite <- born; try apply (tg_herm cb Hc); try apply (tg_comp cb Hc); rewrite ?HD; try assumption. rewrite <- choi_trace by assumption.
  assert (S2 : sqrt (INR (D * D)) = INR D) by (rewrite mult_INR; apply sqrt_square, pos_INR). unfold T. rewrite S2. unfold mtrace, mmul, mscal. rewrite <- csum_scal. apply csum_ext. intros i _. rewrite <- csum_scal. apply csum_ext. intros j _. ring.
Qed.
(** Preparations are normalised to trace one (QuTiP's trace norm of a positive operator is its trace). *)
Theorem c95_preparation tracenorm d P m : (forall A, psd d A -> tracenorm (d, A) = re (mtrace d A)) -> psd d P -> 0 < re (mtrace d P) ->
  density d (snd (fst (product_next tracenorm (d, P) m))) /\ snd (product_next tracenorm (d, P) m) = m.
Proof.
  intros HN HP Ht. split; [|reflexivity]. cbn [product_next unit_op fst snd]. rewrite HN by assumption. split.
  - apply psd_scal; [left; now apply Rinv_0_lt_compat|assumption].
  - unfold mtrace, mscal. rewrite csum_scal. assert (I : im (csum d (fun i => P i i)) = 0) by (apply conj_real; rewrite csum_conj; apply csum_ext; intros i Hi; symmetry; now apply (proj1 HP)).
    rewrite <- (rc_re (csum d (fun i => P i i))) at 2 by assumption. rewrite <- rc_mul. fold (mtrace d P). rewrite Rinv_l by lra. reflexivity.
Qed.
(** A ProductHeuristic built with RandomPauliHeuristic never produces an experiment: that class takes its dimension from the model, which is the channel's. *)
Theorem c95_product_pauli_refuted dt other cb sb D n tracenorm : bdim cb = (D * D)%nat -> bdim sb = D -> D = (2 ^ n)%nat -> (0 < n)%nat ->
  exists pb, product_pauli_init cb sb = Ok pb /\
  forall k p, fst p = D \/ fst p = (D * D)%nat ->
    process_call dt other cb (product_next tracenorm p (pauli_next (bdim cb) pb k)) = Err ValueError /\ process_call dt other cb (product_next tracenorm (pauli_next (bdim cb) pb k) p) = Err ValueError.
Proof.
  intros Hc Hs HD Hn. assert (H2 : (2 <= D)%nat) by (rewrite HD; change 2%nat with (2 ^ 1)%nat at 1; apply Nat.pow_le_mono_r; lia).
  destruct (c61_pauli (n + n) ltac:(lia)) as (pb & E & T & B & L). assert (ED : (D * D = 2 ^ (n + n))%nat) by (rewrite HD; now rewrite Nat.pow_add_r).
  exists pb. split; [unfold product_pauli_init, pauli_init; rewrite Hc, ED, Nat.log2_pow2, Nat.eqb_refl by lia; exact E|].
  intros k p Hp. unfold process_call, params_of, product_next, tensor, unit_op, pauli_next. cbn [fst snd]. rewrite B, <- ED, Hc.
  split; (match goal with |- context [Nat.eqb (D * D) ?x] => destruct (Nat.eqb_spec (D * D) x) as [E'|] end; [exfalso; destruct Hp as [Hp|Hp]; rewrite Hp in E'; nia|reflexivity]).
Qed.
(** With RandomStabilizerStateHeuristic for both, an experiment is produced, whatever is drawn. *)
Theorem c95_product_stabilizer eigenstates tracenorm dt cb sb D group g k g' k' p m : bdim cb = (D * D)%nat -> bdim sb = D -> tomographic cb -> kind_of dt "meas" = Some (KVec (bdim cb ^ 2)) ->
  product_stabilizer_init cb sb = Ok group -> stabilizer_next eigenstates sb group g k = Ok p -> stabilizer_next eigenstates sb group g' k' = Ok m ->
  exists e, process_call dt [] cb (product_next tracenorm p m) = Ok e.
Proof.
  intros Hc Hs Hb Hk Hi Hp Hm.
  assert (F : forall g k p, stabilizer_next eigenstates sb group g k = Ok p -> fst p = D).
  { intros g0 k0 p0 H. unfold stabilizer_next in H. destruct (nth_error group g0); [|discriminate]. destruct (nth_error _ k0); [|discriminate]. injection H as <-. exact Hs. }
  assert (F1 := F _ _ _ Hp). assert (F2 := F _ _ _ Hm). destruct p as [dp P], m as [dm M]. cbn [fst] in *. subst dp dm. unfold process_call, product_next, tensor, unit_op, params_of. cbn [fst snd]. rewrite Hc, Nat.eqb_refl. unfold meas_record. cbn [bind]. unfold assign. rewrite Hk. unfold cast, vec_value. rewrite map_length, stm_length, (tg_len cb Hb), Nat.eqb_refl. cbn [bind assign_all]. eauto.
Qed.

(** ** C96 *)
Lemma argmax_from_spec l best ib i : let k := argmax_from best ib i l in
  (k = ib /\ (forall j, (j < length l)%nat -> nth j l 0 <= best)) \/ ((i <= k < i + length l)%nat /\ best < nth (k - i) l 0 /\ (forall j, (j < length l)%nat -> nth j l 0 <= nth (k - i) l 0)).
Proof.
  revert best ib i. induction l as [|x l IH]; intros best ib i; cbn [argmax_from length].
  - left. split; [reflexivity|]. intros; lia.
  - destruct (Rltb_spec best x) as [Hx|Hx].
    + specialize (IH x i (S i)). cbv zeta in *. set (k := argmax_from x i (S i) l) in *. clearbody k. right. destruct IH as [[-> H]|(Hk & Hb & H)].
      * rewrite Nat.sub_diag. cbn [nth]. split; [lia|]. split; [assumption|]. intros [|j] Hj; [lra|]. cbn. apply H. lia.
      * replace (k - i)%nat with (S (k - S i)) by lia. cbn [nth]. split; [lia|]. split; [lra|]. intros [|j] Hj; cbn; [lra|]. apply H. lia.
    + specialize (IH best ib (S i)). cbv zeta in *. set (k := argmax_from best ib (S i) l) in *. clearbody k. destruct IH as [[-> H]|(Hk & Hb & H)].
      * left. split; [reflexivity|]. intros [|j] Hj; cbn; [lra|]. apply H. lia.
      * right. replace (k - i)%nat with (S (k - S i)) by lia. cbn [nth]. split; [lia|]. split; [lra|]. intros [|j] Hj; cbn; [lra|]. apply H. lia.
Qed.
Lemma argmax_spec l k : argmax l = Ok k -> (k < length l)%nat /\ forall j, (j < length l)%nat -> nth j l 0 <= nth k l 0.
Proof.
  destruct l as [|x l]; [discriminate|]. cbn [argmax]. intros H. injection H as <-. destruct (argmax_from_spec l x 0 1) as [[E H]|(Hk & Hb & H)]; cbv zeta in *.
  - rewrite E. cbn [length nth]. split; [lia|]. intros [|j] Hj; [lra|]. apply H. lia.
  - set (k := argmax_from x 0 1 l) in *. clearbody k. cbn [length]. split; [lia|]. destruct k as [|k]; [lia|]. cbn [Nat.sub] in *. rewrite Nat.sub_0_r in *. cbn [nth]. intros [|j] Hj; [lra|]. apply H. lia.
Qed.
(** The posterior variance of the expectation value of the measurement [m] *)
Definition predicted_variance (w : list R) (l : list (list R)) (m : list R) : R :=
  covar (length w) (fun i => nth i w 0) (fun i => rdot m (nth i l [])) (fun i => rdot m (nth i l [])).

Lemma rsum_as_Sum (l : list R) : rsum l = Sum (length l) (fun i => nth i l 0).
Proof. induction l as [|a l IH]; [reflexivity|]. cbn [length]. rewrite Sum_S, rsum_cons, IH. reflexivity. Qed.
Lemma quad_form_variance d w l m : prob_vector w -> length w = length l -> length m = d -> Forall (fun x => length x = d) l ->
  quad_form m (est_cov d w l) = predicted_variance w l m.
Proof.
  intros Hp Hl Hm HF.
  assert (LC : length (est_cov d w l) = d) by (unfold est_cov; now rewrite map_length, seq_length).
  assert (E1 : quad_form m (est_cov d w l) = Sum d (fun a => Sum d (fun b => nth a m 0 * nth b m 0 * covar (length w) (fun i => nth i w 0) (coord l a) (coord l b)))).
  { unfold quad_form. assert (Ls : length (map2 (fun a row => a * rdot row m) m (est_cov d w l)) = d) by (rewrite map2_length; lia).
    rewrite rsum_as_Sum, Ls. apply Sum_ext. intros a Ha. rewrite nth_map2 with (da := 0) (db := []) by lia.
    rewrite (rdot_Sum _ _ d); [|unfold est_cov; rewrite (nth_indep _ [] (map (fun n => particle_cov w l 0 n) (seq 0 d))) by (now rewrite map_length, seq_length); rewrite (map_nth (fun m => map (fun n => particle_cov w l m n) (seq 0 d))); now rewrite map_length, seq_length|assumption].
    rewrite <- Sum_scal. apply Sum_ext. intros b Hb. rewrite nth_est_cov by assumption. rewrite cov_covar; [ring|assumption|apply Hp]. }
  rewrite E1, (PartProofs.quad_form d). unfold predicted_variance, covar, expect.
  assert (RD : forall i, (i < length w)%nat -> rdot m (nth i l []) = Sum d (fun a => nth a m 0 * coord l a i)).
  { intros i Hi. rewrite Forall_forall in HF. rewrite (rdot_Sum _ _ d); [reflexivity|assumption|apply HF, nth_In; lia]. }
  assert (MU : Sum (length w) (fun i => nth i w 0 * rdot m (nth i l [])) = Sum d (fun a => nth a m 0 * Sum (length w) (fun i => nth i w 0 * coord l a i))).
  { rewrite (Sum_ext _ _ (fun i => Sum d (fun a => nth a m 0 * (nth i w 0 * coord l a i)))) by (intros i Hi; rewrite RD by assumption; rewrite <- Sum_scal; apply Sum_ext; intros; ring). rewrite Sum_swap. apply Sum_ext. intros a _. now rewrite Sum_scal. }
  apply Sum_ext. intros i Hi. rewrite MU, RD by assumption. f_equal.
  assert (D : Sum d (fun a => nth a m 0 * coord l a i) - Sum d (fun a => nth a m 0 * Sum (length w) (fun i => nth i w 0 * coord l a i)) = Sum d (fun a => nth a m 0 * (coord l a i - Sum (length w) (fun i => nth i w 0 * coord l a i)))).
  { rewrite <- Sum_minus. apply Sum_ext. intros; ring. }
  rewrite D. ring.
Qed.

(** Best of k: among the experiments drawn from the base heuristic, the one whose expectation value has the greatest variance under the posterior;
    then the fields given. *)
Theorem c96_best meas dt other d w l drawn e : prob_vector w -> length w = length l -> Forall (fun x => length x = d) l ->
  best_of_k meas dt other (est_cov d w l) drawn = Ok e ->
  exists e0, In e0 drawn /\ assign_all dt other e0 = Ok e /\ length (meas e0) = d /\ forall e', In e' drawn -> predicted_variance w l (meas e') <= predicted_variance w l (meas e0).
Proof.
  intros Hp Hl HF H. unfold best_of_k in H. assert (LC : length (est_cov d w l) = d) by (unfold est_cov; now rewrite map_length, seq_length). rewrite LC in H.
  destruct (forallb _ drawn) eqn:EF; [|discriminate]. rewrite forallb_forall in EF. assert (LM : forall x, In x drawn -> length (meas x) = d) by (intros x Hx; apply Nat.eqb_eq; now apply EF).
  destruct (argmax _) as [k|] eqn:Ek; [|discriminate]. cbn [bind] in H. destruct (nth_error drawn k) as [e0|] eqn:E0; [|discriminate]. exists e0. assert (I0 := nth_error_In _ _ E0). split; [exact I0|]. split; [exact H|]. split; [now apply LM|].
  intros e' He'. destruct (argmax_spec _ _ Ek) as [Hk HM]. rewrite map_length in *. apply In_nth_error in He'. destruct He' as [j Ej]. assert (Hj : (j < length drawn)%nat) by (apply nth_error_Some; congruence). specialize (HM j Hj).
  assert (V : forall i x, nth_error drawn i = Some x -> nth i (map (fun e => quad_form (meas e) (est_cov d w l)) drawn) 0 = predicted_variance w l (meas x)).
  { intros i x Hx. erewrite nth_error_nth; [|apply map_nth_error; exact Hx]. apply quad_form_variance; try assumption. apply LM. eapply nth_error_In; exact Hx. }
  now rewrite (V j e' Ej), (V k e0 E0) in HM.
Qed.
Theorem c96_succeeds meas dt d w l drawn : drawn <> [] -> (forall e, In e drawn -> length (meas e) = d) -> exists e, best_of_k meas dt [] (est_cov d w l) drawn = Ok e.
Proof.
  intros Hd Hm. unfold best_of_k. assert (LC : length (est_cov d w l) = d) by (unfold est_cov; now rewrite map_length, seq_length). rewrite LC.
  assert (EF : forallb (fun e => Nat.eqb (length (meas e)) d) drawn = true) by (apply forallb_forall; intros x Hx; apply Nat.eqb_eq; now apply Hm). rewrite EF.
  destruct (argmax (map (fun e => quad_form (meas e) (est_cov d w l)) drawn)) as [k|] eqn:Ek; [|destruct drawn; [congruence|discriminate]]. cbn [bind].
  destruct (argmax_spec _ _ Ek) as [Hk _]. rewrite map_length in Hk. destruct (nth_error drawn k) eqn:E0; [cbn; eauto|]. apply nth_error_None in E0. lia.
Qed.
(** With k = 0 nothing is drawn and the call raises. *)
Theorem c96_no_draws meas dt other cov : best_of_k meas dt other cov [] = Err ValueError.
Proof. reflexivity. Qed.
(** For a diffusive tomography model the covariance has one more row than a measurement has entries: every call raises. *)
Theorem c96_diffusive_refuted meas dt other d w l drawn : drawn <> [] -> (forall e, In e drawn -> length (meas e) = (d ^ 2)%nat) ->
  best_of_k meas dt other (est_cov (d ^ 2 + 1) w l) drawn = Err ValueError.
Proof.
  intros Hd Hm. unfold best_of_k. assert (LC : length (est_cov (d ^ 2 + 1) w l) = (d ^ 2 + 1)%nat) by (unfold est_cov; now rewrite map_length, seq_length). rewrite LC.
  destruct drawn as [|e drawn]; [congruence|]. cbn [forallb]. rewrite (Hm e) by (now left). destruct (Nat.eqb_spec (d ^ 2) (d ^ 2 + 1)); [lia|reflexivity].
Qed.
(** Two particles that differ in the second coordinate only: the second of the two measurements is chosen. *)
Example c96_case : let w := [1/2; 1/2] in let l := [[1; 0]; [1; 2]] in predicted_variance w l [1; 0] = 0 /\ predicted_variance w l [0; 1] = 1.
Proof. cbv zeta. unfold predicted_variance, covar, expect, rdot, rsum. cbn. split; lra. Qed.
Example c95_case : linear_map 2 (fun A => A) /\ hermitian (2 * 2) (choi 2 (fun A => A)).
Proof.
  split.
  - intros A a b Ha Hb. rewrite (csum_single 2 a); [|assumption|].
    + rewrite (csum_single 2 b); [|assumption|intros j Hj Hn; unfold unit_mat; rewrite (delta_diff b j) by congruence; ring]. unfold unit_mat. rewrite !delta_same. ring.
    + intros i Hi Hn. apply csum_zero. intros j Hj. unfold unit_mat. rewrite (delta_diff a i) by congruence. ring.
  - intros i j Hi Hj. unfold choi, unit_mat. assert (R : forall x y, conj (delta x y) = delta x y) by (intros x y; unfold delta; destruct (Nat.eqb x y); [apply conj_c1|apply conj_c0]).
    assert (Sy : forall x y, delta x y = delta y x) by (intros x y; unfold delta; now rewrite Nat.eqb_sym). rewrite !conj_mul, conj_rc, !R. rewrite (Sy (j mod 2)), (Sy (i mod 2)). ring.
Qed.
Print Assumptions c94_commutation.
Print Assumptions c94_orthogonal.
Print Assumptions c94_group.
Print Assumptions c94_unitary.
Print Assumptions c93_born.
Print Assumptions c93_pauli.
Print Assumptions c93_qubits_only.
Print Assumptions c93_stabilizer.
Print Assumptions c93_record.
Print Assumptions c93_no_other_fields.
Print Assumptions c95_process.
Print Assumptions c95_preparation.
Print Assumptions c95_product_pauli_refuted.
Print Assumptions c95_product_stabilizer.
Print Assumptions c96_best.
Print Assumptions c96_succeeds.
Print Assumptions c96_no_draws.
Print Assumptions c96_diffusive_refuted.
Print Assumptions c94_defined.
