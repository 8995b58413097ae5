(** Proofs for the tomography properties: the Gell-Mann basis. *)
From Verif Require Import Base RList Sums Cplx TomoModel TomoSpec.

(** ** sequences of plane assignments *)
Lemma set_plane_other us B a : ~ In a (map fst us) -> fold_left set_plane us B a = B a.
Proof.
  revert B; induction us as [|u us IH]; intros B H; [reflexivity|]. cbn in *. rewrite IH by tauto. unfold set_plane.
  destruct (Nat.eqb_spec a (fst u)); [subst; tauto|reflexivity].
Qed.
Lemma set_plane_in us B u : NoDup (map fst us) -> In u us -> fold_left set_plane us B (fst u) = snd u (B (fst u)).
Proof.
  revert B; induction us as [|v us IH]; intros B Hn Hin; [destruct Hin|]. cbn in *. inversion Hn as [|x l Hx Hl]; subst. destruct Hin as [->|Hin].
  - rewrite set_plane_other by assumption. unfold set_plane. now rewrite Nat.eqb_refl.
  - rewrite IH by assumption. unfold set_plane. destruct (Nat.eqb_spec (fst u) (fst v)) as [E|E]; [|reflexivity].
    exfalso. apply Hx. rewrite <- E. now apply in_map.
Qed.

(** ** kinds of Gell-Mann matrices *)
Inductive kind := KI | KD (k : nat) | KS (i j : nat) | KA (i j : nat).
Definition kvalid (d : nat) (x : kind) : Prop :=
  match x with KI => True | KD k => (1 <= k < d)%nat | KS i j | KA i j => (j < i < d)%nat end.
Definition kidx (d : nat) (x : kind) : nat :=
  match x with KI => 0 | KD k => k | KS i j => (i - 1) * i / 2 + j + d | KA i j => (i - 1) * i / 2 + j + d + d * (d - 1) / 2 end%nat.
Definition ident_mat (d : nat) : mat := fun r c => if Nat.eqb r c then rc (1 / sqrt (INR d)) else c0.
Definition s2 : R := 1 / sqrt 2.
Definition kupd (d : nat) (x : kind) : mat -> mat :=
  match x with
  | KI => fun _ => ident_mat d
  | KD k => fun _ => gm_diag k
  | KS i j => set_pair i j (rc s2) (rc s2)
  | KA i j => set_pair i j (mkC 0 s2) (mkC 0 (- s2))
  end.
Definition kmat d x : mat := kupd d x mzero.
Definition kpairs (i : nat) : list kind := flat_map (fun j => [KS i j; KA i j]) (seq 0 i).
Definition kinds (d : nat) : list kind := [KI] ++ map KD (seq 1 (d - 1)) ++ flat_map kpairs (seq 1 (d - 1)).

Lemma flat_map_map {A B D} (g : B -> D) (f : A -> list B) l : map g (flat_map f l) = flat_map (fun a => map g (f a)) l.
Proof. induction l as [|a l IH]; [reflexivity|]. cbn. now rewrite map_app, IH. Qed.
Lemma flat_map_ext' {A B} (f g : A -> list B) l : (forall a, f a = g a) -> flat_map f l = flat_map g l.
Proof. intros H. induction l; cbn; congruence. Qed.
Lemma gm_assignments_kinds d : gm_assignments d = map (fun x => (kidx d x, kupd d x)) (kinds d).
Proof.
  unfold gm_assignments, kinds. rewrite !map_app, map_map. f_equal. f_equal. rewrite flat_map_map. apply flat_map_ext'. intros i.
  unfold gm_offdiag, kpairs. rewrite flat_map_map. apply flat_map_ext'. intros j. reflexivity.
Qed.
Lemma kinds_valid d x : In x (kinds d) -> kvalid d x.
Proof.
  unfold kinds. rewrite !in_app_iff. intros [H|[H|H]].
  - destruct H as [<-|[]]. exact I.
  - apply in_map_iff in H. destruct H as (k & <- & Hk). apply in_seq in Hk. cbn. lia.
  - apply in_flat_map in H. destruct H as (i & Hi & H). apply in_seq in Hi. unfold kpairs in H. apply in_flat_map in H. destruct H as (j & Hj & H). apply in_seq in Hj.
    destruct H as [<-|[<-|[]]]; cbn; lia.
Qed.
Lemma tri_step n : (n * S n / 2 + S n = S n * S (S n) / 2)%nat.
Proof.
  replace (S n * S (S n))%nat with (n * S n + (S n) * 2)%nat by lia. now rewrite Nat.div_add by lia.
Qed.
Lemma tri_seq d n : flat_map (fun i => map (fun j => ((i - 1) * i / 2 + j + d)%nat) (seq 0 i)) (seq 1 n) = seq d (n * S n / 2).
Proof.
  induction n as [|n IH]; [reflexivity|]. rewrite seq_S, flat_map_app, IH. cbn [flat_map]. rewrite app_nil_r.
  rewrite <- tri_step, (seq_app (n * S n / 2)). f_equal. replace (1 + n)%nat with (S n) by lia. replace (S n - 1)%nat with n by lia.
  rewrite (map_ext _ (fun j => (d + n * S n / 2) + j)%nat) by (intros; lia).
  clear. generalize (d + n * S n / 2)%nat. intros m. generalize (S n). intros k.
  revert m. induction k as [|k IH]; intros m; [reflexivity|]. cbn [seq map]. f_equal; [lia|]. rewrite <- (IH (S m)). rewrite <- seq_shift, map_map. apply map_ext. intros; lia.
Qed.
Lemma perm_flat_app {A B} (f g : A -> list B) l : Permutation (flat_map (fun a => f a ++ g a) l) (flat_map f l ++ flat_map g l).
Proof.
  induction l as [|a l IH]; [constructor|]. cbn. rewrite IH. rewrite <- !app_assoc. apply Permutation_app_head.
  rewrite !app_assoc. apply Permutation_app_tail. apply Permutation_app_comm.
Qed.
Lemma flat_map_singl {A B} (f : A -> B) l : flat_map (fun a => [f a]) l = map f l.
Proof. induction l; cbn; congruence. Qed.
Lemma Permutation_flat_map' {A B} (f g : A -> list B) l : (forall a, Permutation (f a) (g a)) -> Permutation (flat_map f l) (flat_map g l).
Proof. intros H. induction l as [|a l IH]; [constructor|]. cbn. now apply Permutation_app. Qed.
Lemma kidx_perm d : (0 < d)%nat -> Permutation (map (kidx d) (kinds d)) (seq 0 (d ^ 2)).
Proof.
  intros Hd. unfold kinds. rewrite !map_app, map_map, flat_map_map. cbn [map kidx].
  rewrite (map_id (seq 1 (d - 1))).
  assert (Hp : Permutation (flat_map (fun a => map (kidx d) (kpairs a)) (seq 1 (d - 1)))
                           (seq d (d * (d - 1) / 2) ++ seq (d + d * (d - 1) / 2) (d * (d - 1) / 2))).
  { eapply Permutation_trans.
    - apply Permutation_flat_map'. intros i. unfold kpairs. rewrite flat_map_map. cbn [map kidx].
      apply (perm_flat_app (fun j => [((i - 1) * i / 2 + j + d)%nat]) (fun j => [((i - 1) * i / 2 + j + d + d * (d - 1) / 2)%nat])).
    - eapply Permutation_trans; [apply (perm_flat_app (fun i => flat_map (fun j => [((i - 1) * i / 2 + j + d)%nat]) (seq 0 i)))|].
      apply Permutation_app.
      + rewrite (flat_map_ext' _ (fun i => map (fun j => ((i - 1) * i / 2 + j + d)%nat) (seq 0 i))) by (intros; apply flat_map_singl).
        rewrite tri_seq. replace (S (d - 1)) with d by lia. rewrite (Nat.mul_comm (d - 1)). apply Permutation_refl.
      + rewrite (flat_map_ext' _ (fun i => map (fun j => ((i - 1) * i / 2 + j + (d + d * (d - 1) / 2))%nat) (seq 0 i))).
        * rewrite tri_seq. replace (S (d - 1)) with d by lia. rewrite (Nat.mul_comm (d - 1)). apply Permutation_refl.
        * intros i. rewrite flat_map_singl. apply map_ext. intros; lia. }
  rewrite Hp. rewrite <- seq_app.
  assert (E : (d ^ 2 = 1 + ((d - 1) + (d * (d - 1) / 2 + d * (d - 1) / 2)))%nat).
  { destruct d as [|n]; [lia|]. replace (S n - 1)%nat with n by lia. rewrite (Nat.mul_comm (S n) n).
    assert (He : (n * S n = 2 * (n * S n / 2))%nat).
    { assert (Hev : Nat.Even (n * S n)) by (destruct (Nat.Even_or_Odd n) as [[m ->]|[m ->]]; [exists (m * S (2 * m))%nat | exists ((2 * m + 1) * (m + 1))%nat]; lia).
      destruct Hev as [m ->]. rewrite (Nat.mul_comm 2 m), Nat.div_mul by lia. lia. }
    cbn [Nat.pow]. lia. }
  rewrite E. rewrite (seq_app 1), (seq_app (d - 1)). cbn [Nat.add seq app]. rewrite E at 0 || idtac.
  replace (S (d - 1)) with d by lia. apply Permutation_refl.
Qed.
Lemma kidx_NoDup d : (0 < d)%nat -> NoDup (map (kidx d) (kinds d)).
Proof. intros Hd. eapply Permutation_NoDup; [apply Permutation_sym, kidx_perm, Hd|apply seq_NoDup]. Qed.

(** the array at the end *)
Definition gm_final d : stack := fold_left set_plane (gm_assignments d) (fun _ => mzero).
Lemma gm_final_kind d x : (0 < d)%nat -> In x (kinds d) -> gm_final d (kidx d x) = kmat d x.
Proof.
  intros Hd Hx. unfold gm_final. rewrite gm_assignments_kinds.
  apply (set_plane_in _ (fun _ => mzero) (kidx d x, kupd d x)).
  - rewrite map_map. cbn. now apply kidx_NoDup.
  - now apply (in_map (fun x => (kidx d x, kupd d x))).
Qed.
Lemma gm_kind_of d a : (0 < d)%nat -> (a < d ^ 2)%nat -> exists x, In x (kinds d) /\ kidx d x = a.
Proof.
  intros Hd Ha. assert (H : In a (map (kidx d) (kinds d))).
  { eapply Permutation_in; [apply Permutation_sym, kidx_perm, Hd|]. apply in_seq. lia. }
  apply in_map_iff in H. destruct H as (x & E & H). now exists x.
Qed.
Lemma gm_sum d f : (0 < d)%nat -> csum (d ^ 2) (fun a => f (gm_final d a)) = csumL (kinds d) (fun x => f (kmat d x)).
Proof.
  intros Hd. transitivity (csumL (seq 0 (d ^ 2)) (fun a => f (gm_final d a))).
  - rewrite (csumL_csum _ _ 0%nat), seq_length. apply csum_ext. intros i Hi. now rewrite seq_nth.
  - rewrite <- (csumL_perm _ _ _ (kidx_perm d Hd)). rewrite csumL_map. apply csumL_ext. intros x Hx. now rewrite gm_final_kind.
Qed.

(** ** entries *)
Lemma s2_sq : s2 * s2 = 1 / 2.
Proof. unfold s2. assert (H := sqrt_sqrt 2 ltac:(lra)). assert (H' : sqrt 2 <> 0) by (intros E; rewrite E in H; lra). field_simplify; [|assumption]. rewrite <- (Rsqr_pow2 (sqrt 2)). unfold Rsqr. rewrite H. reflexivity. Qed.
Lemma kmat_hermitian d x : kvalid d x -> hermitian d (kmat d x).
Proof.
  intros Hv p q Hp Hq. destruct x as [|k|i j|i j]; unfold kmat, kupd, ident_mat, gm_diag, set_pair, mzero in *; cbn in Hv.
  - destruct (Nat.eqb_spec p q) as [->|n]; [rewrite Nat.eqb_refl|destruct (Nat.eqb_spec q p); [congruence|]]; apply C_eq; cbn; ring.
  - destruct (Nat.eqb_spec p q) as [->|n]; [rewrite Nat.eqb_refl|destruct (Nat.eqb_spec q p); [congruence|]]; apply C_eq; cbn; ring.
  - destruct (Nat.eqb_spec p i), (Nat.eqb_spec q j), (Nat.eqb_spec p j), (Nat.eqb_spec q i); cbn; try lia; apply C_eq; cbn; ring.
  - destruct (Nat.eqb_spec p i), (Nat.eqb_spec q j), (Nat.eqb_spec p j), (Nat.eqb_spec q i); cbn; try lia; apply C_eq; cbn; ring.
Qed.
Lemma inner_pair d i j x y X : (j < i < d)%nat -> inner d (set_pair i j x y mzero) X = cadd (cmul (conj x) (X i j)) (cmul (conj y) (X j i)).
Proof.
  intros Hv. unfold inner. rewrite (csum_two d i j); try lia.
  - f_equal.
    + rewrite (csum_single d j); [|lia|].
      * unfold set_pair. now rewrite !Nat.eqb_refl.
      * intros q Hq Hqj. unfold set_pair, mzero. rewrite (proj2 (Nat.eqb_neq q j) Hqj). rewrite andb_false_r. destruct (Nat.eqb_spec i j); [lia|]. cbn. apply C_eq; cbn; ring.
    + rewrite (csum_single d i); [|lia|].
      * unfold set_pair. destruct (Nat.eqb_spec j i); [lia|]. cbn. now rewrite !Nat.eqb_refl.
      * intros q Hq Hqj. unfold set_pair, mzero. destruct (Nat.eqb_spec j i); [lia|]. rewrite (proj2 (Nat.eqb_neq q i) Hqj), andb_false_r. cbn. apply C_eq; cbn; ring.
  - intros r Hr H1 H2. apply csum_zero. intros q Hq. unfold set_pair, mzero. rewrite (proj2 (Nat.eqb_neq r i) H1), (proj2 (Nat.eqb_neq r j) H2). cbn. apply C_eq; cbn; ring.
Qed.
Lemma inner_conj d A B : inner d B A = conj (inner d A B).
Proof.
  unfold inner. rewrite csum_conj. apply csum_ext. intros i _. rewrite csum_conj. apply csum_ext. intros j _. rewrite conj_mul, conj_conj. ring.
Qed.

(** diagonal coefficients *)
Definition dc (k r : nat) : R := if Nat.ltb r k then 1 else if Nat.eqb r k then - INR k else 0.
Definition dn (k : nat) : R := sqrt (INR k + INR k ^ 2).
Lemma dn_sq k : dn k * dn k = INR k + INR k ^ 2.
Proof. unfold dn. apply sqrt_sqrt. assert (H := pos_INR k). nra. Qed.
Lemma dn_pos k : (1 <= k)%nat -> 0 < dn k.
Proof. intros Hk. apply sqrt_lt_R0. assert (H := lt_0_INR k ltac:(lia)). nra. Qed.
Lemma Sum_lastR n f : Sum (S n) f = Sum n f + f n.
Proof. revert f; induction n as [|n IH]; intros f; [cbn; unfold Sum; cbn; rewrite ?rsum_cons; unfold rsum; cbn; ring|]. rewrite Sum_S, IH, (Sum_S n f). ring. Qed.
Lemma dc_above k r : (k < r)%nat -> dc k r = 0.
Proof. intros H. unfold dc. destruct (Nat.ltb_spec r k); [lia|]. destruct (Nat.eqb_spec r k); [lia|reflexivity]. Qed.
Lemma dc_below k r : (r < k)%nat -> dc k r = 1.
Proof. intros H. unfold dc. destruct (Nat.ltb_spec r k); [reflexivity|lia]. Qed.
Lemma dc_at k : dc k k = - INR k.
Proof. unfold dc. rewrite Nat.ltb_irrefl, Nat.eqb_refl. reflexivity. Qed.
Lemma Sum_ones n f : (forall i, (i < n)%nat -> f i = 1) -> Sum n f = INR n.
Proof.
  induction n as [|n IH]; intros H; [reflexivity|]. rewrite Sum_lastR, IH, H, S_INR by (try lia; intros; apply H; lia). reflexivity.
Qed.
Lemma Sum_trunc n d f : (n <= d)%nat -> (forall i, (n <= i < d)%nat -> f i = 0) -> Sum d f = Sum n f.
Proof.
  intros Hn H. induction d as [|d IH]; [replace n with 0%nat by lia; reflexivity|].
  destruct (Nat.eq_dec n (S d)) as [->|Hne]; [reflexivity|]. rewrite Sum_lastR, IH by (try lia; intros; apply H; lia). rewrite H by lia. ring.
Qed.
Lemma dc_sum d k : (k < d)%nat -> Sum d (dc k) = 0.
Proof.
  intros Hk. rewrite (Sum_trunc (S k)) by (try lia; intros; apply dc_above; lia). rewrite Sum_lastR, (Sum_ones k) by (intros; now apply dc_below). rewrite dc_at. ring.
Qed.
Lemma dc_dc d k l : (k < l < d)%nat -> Sum d (fun r => dc k r * dc l r) = 0.
Proof.
  intros H. rewrite (Sum_trunc (S k)) by (try lia; intros; rewrite dc_above by lia; ring). rewrite Sum_lastR.
  rewrite (Sum_ones k) by (intros; rewrite !dc_below by lia; ring). rewrite dc_at, dc_below by lia. ring.
Qed.
Lemma dc_self d k : (k < d)%nat -> Sum d (fun r => dc k r * dc k r) = INR k + INR k ^ 2.
Proof.
  intros H. rewrite (Sum_trunc (S k)) by (try lia; intros; rewrite dc_above by lia; ring). rewrite Sum_lastR.
  rewrite (Sum_ones k) by (intros; rewrite !dc_below by lia; ring). rewrite dc_at. ring.
Qed.
Definition diagm (f : nat -> R) : mat := fun r c => if Nat.eqb r c then rc (f r) else c0.
Lemma inner_diag d f X : inner d (diagm f) X = csum d (fun r => cmul (rc (f r)) (X r r)).
Proof.
  unfold inner. apply csum_ext. intros r Hr. rewrite (csum_single d r) by (first [assumption | intros q Hq Hqr; unfold diagm; destruct (Nat.eqb_spec r q); [congruence|]; apply C_eq; cbn; ring]).
  unfold diagm. rewrite Nat.eqb_refl. now rewrite conj_rc.
Qed.
Lemma inner_diag_diag d f g : inner d (diagm f) (diagm g) = rc (Sum d (fun r => f r * g r)).
Proof. rewrite inner_diag, <- csum_rc. apply csum_ext. intros r _. unfold diagm. rewrite Nat.eqb_refl. now rewrite rc_mul. Qed.
Lemma kmat_KI d : kmat d KI = diagm (fun _ => 1 / sqrt (INR d)). Proof. reflexivity. Qed.
Lemma kmat_KD d k : kmat d (KD k) = diagm (fun r => dc k r / dn k). Proof. reflexivity. Qed.
Lemma diag_off f i j : i <> j -> diagm f i j = c0.
Proof. intros H. unfold diagm. destruct (Nat.eqb_spec i j); [contradiction|reflexivity]. Qed.

Lemma kinner_self d x : (0 < d)%nat -> kvalid d x -> inner d (kmat d x) (kmat d x) = c1.
Proof.
  intros Hd Hv. destruct x as [|k|i j|i j]; cbn [kvalid] in Hv.
  - rewrite kmat_KI, inner_diag_diag. unfold c1, rc. f_equal. rewrite (Sum_ext d _ (fun _ => 1 * (1 / INR d))).
    + rewrite Sum_scal_r, (Sum_ones d) by (intros; reflexivity). field. apply not_0_INR. lia.
    + intros. assert (Hp := lt_0_INR d Hd). rewrite <- (sqrt_sqrt (INR d)) at 3 by lra. field. intros E. apply sqrt_eq_0 in E; lra.
  - rewrite kmat_KD, inner_diag_diag. unfold c1, rc. f_equal. assert (Hn := dn_pos k ltac:(lia)).
    rewrite (Sum_ext d _ (fun r => dc k r * dc k r * (1 / (dn k * dn k)))) by (intros; field; lra).
    rewrite Sum_scal_r, dc_self by lia. rewrite <- dn_sq. field. lra.
  - unfold kmat, kupd. rewrite inner_pair by assumption. unfold set_pair. rewrite !Nat.eqb_refl. destruct (Nat.eqb_spec j i); [lia|]. cbn. assert (H := s2_sq). apply C_eq; cbn; lra.
  - unfold kmat, kupd. rewrite inner_pair by assumption. unfold set_pair. rewrite !Nat.eqb_refl. destruct (Nat.eqb_spec j i); [lia|]. cbn. assert (H := s2_sq). apply C_eq; cbn; lra.
Qed.
Lemma inner_0_sym d A B : inner d A B = c0 -> inner d B A = c0.
Proof. intros H. now rewrite inner_conj, H, conj_c0. Qed.
Ltac pair_entries := unfold set_pair, mzero;
  repeat match goal with |- context [Nat.eqb ?a ?b] => destruct (Nat.eqb_spec a b); subst; cbn [andb orb] end.
Lemma kinner_diff d x y : (0 < d)%nat -> kvalid d x -> kvalid d y -> x <> y -> inner d (kmat d x) (kmat d y) = c0.
Proof.
  intros Hd Hx Hy Hne.
  assert (HD : forall k l, (1 <= k < l)%nat -> (l < d)%nat -> inner d (kmat d (KD k)) (kmat d (KD l)) = c0).
  { intros k l Hk Hl. rewrite !kmat_KD, inner_diag_diag. unfold c0, rc. f_equal. assert (H1 := dn_pos k ltac:(lia)). assert (H2 := dn_pos l ltac:(lia)).
    rewrite (Sum_ext d _ (fun r => dc k r * dc l r * (1 / (dn k * dn l)))) by (intros; field; lra). rewrite Sum_scal_r, dc_dc by lia. ring. }
  assert (HI : forall k, (1 <= k < d)%nat -> inner d (kmat d KI) (kmat d (KD k)) = c0).
  { intros k Hk. rewrite kmat_KD, kmat_KI, inner_diag_diag. unfold c0, rc. f_equal. assert (H1 := dn_pos k ltac:(lia)).
    rewrite (Sum_ext d _ (fun r => dc k r * (1 / sqrt (INR d) / dn k))) by (intros; unfold Rdiv; ring). rewrite Sum_scal_r, dc_sum by lia. ring. }
  assert (HS : forall i j z w f, (j < i < d)%nat -> inner d (set_pair i j z w mzero) (diagm f) = c0).
  { intros i j z w f Hij. rewrite inner_pair by assumption. rewrite !diag_off by lia. ring. }
  destruct x as [|k|i j|i j], y as [|l|i' j'|i' j']; cbn [kvalid] in *; try congruence.
  - now apply HI.
  - apply inner_0_sym. rewrite kmat_KI. now apply HS.
  - apply inner_0_sym. rewrite kmat_KI. now apply HS.
  - apply inner_0_sym. now apply HI.
  - destruct (Nat.lt_trichotomy k l) as [H|[H|H]]; [apply HD; lia|congruence|apply inner_0_sym, HD; lia].
  - apply inner_0_sym. rewrite kmat_KD. now apply HS.
  - apply inner_0_sym. rewrite kmat_KD. now apply HS.
  - rewrite kmat_KI. now apply HS.
  - rewrite kmat_KD. now apply HS.
  - unfold kmat, kupd. rewrite inner_pair by assumption. pair_entries; try lia; try congruence; apply C_eq; cbn; lra.
  - unfold kmat, kupd. rewrite inner_pair by assumption. pair_entries; try lia; try congruence; apply C_eq; cbn; lra.
  - rewrite kmat_KI. now apply HS.
  - rewrite kmat_KD. now apply HS.
  - unfold kmat, kupd. rewrite inner_pair by assumption. pair_entries; try lia; try congruence; apply C_eq; cbn; lra.
  - unfold kmat, kupd. rewrite inner_pair by assumption. pair_entries; try lia; try congruence; apply C_eq; cbn; lra.
Qed.

(** ** resolution of the identity *)
Lemma csumL_seq a n f : csumL (seq a n) f = csum n (fun t => f (a + t)%nat).
Proof. rewrite (csumL_csum _ _ 0%nat), seq_length. apply csum_ext. intros i Hi. now rewrite seq_nth. Qed.
Lemma diag_tele d p k : (p < d)%nat -> (k < d)%nat ->
  1 / INR d + Sum (d - 1) (fun t => dc (1 + t) p * dc (1 + t) k / (INR (1 + t) + INR (1 + t) ^ 2)) = if Nat.eqb p k then 1 else 0.
Proof.
  revert p k. induction d as [|d IH]; intros p k Hp Hk; [lia|]. destruct d as [|d].
  - assert (p = 0%nat) by lia. assert (k = 0%nat) by lia. subst. cbn [Nat.sub Nat.eqb]. unfold Sum; cbn. rewrite ?rsum_nil. unfold rsum. cbn. lra.
  - replace (S (S d) - 1)%nat with (S d) by lia. rewrite Sum_lastR. replace (S d - 1)%nat with d in IH by lia. replace (1 + d)%nat with (S d) by lia.
    assert (Hd := pos_INR d). assert (E2 : INR (S (S d)) = INR d + 2) by (rewrite !S_INR; ring). assert (E1 : INR (S d) = INR d + 1) by (rewrite S_INR; ring).
    assert (Hz : forall q, (q < S (S d))%nat -> (p = S d \/ k = S d) -> Sum d (fun t => dc (1 + t) p * dc (1 + t) k / (INR (1 + t) + INR (1 + t) ^ 2)) = 0).
    { intros q _ H. apply Sum_zero. intros t Ht. destruct H as [->| ->]; [rewrite (dc_above (1 + t) (S d)) by lia|rewrite (dc_above (1 + t) (S d)) by lia]; unfold Rdiv; ring. }
    destruct (Nat.eq_dec p (S d)) as [Ep|Ep], (Nat.eq_dec k (S d)) as [Ek|Ek].
    + rewrite (Hz 0%nat) by (try lia; now left). subst. rewrite Nat.eqb_refl, dc_at, E2, E1. field. nra.
    + rewrite (Hz 0%nat) by (try lia; now left). subst. rewrite dc_at, dc_below by lia. rewrite (proj2 (Nat.eqb_neq _ _)) by lia. rewrite E2, E1. field. nra.
    + rewrite (Hz 0%nat) by (try lia; now right). subst. rewrite dc_at, dc_below by lia. rewrite (proj2 (Nat.eqb_neq _ _)) by lia. rewrite E2, E1. field. nra.
    + rewrite <- (IH p k) by lia. rewrite !dc_below by lia. rewrite E2, E1. field. nra.
Qed.
Definition ind (b : bool) : C := if b then c1 else c0.
Lemma pair_resolution i j p q k l : (j < i)%nat ->
  cadd (cmul (conj (set_pair i j (rc s2) (rc s2) mzero p q)) (set_pair i j (rc s2) (rc s2) mzero k l))
       (cmul (conj (set_pair i j (mkC 0 s2) (mkC 0 (- s2)) mzero p q)) (set_pair i j (mkC 0 s2) (mkC 0 (- s2)) mzero k l))
  = cadd (ind (Nat.eqb p i && Nat.eqb q j && Nat.eqb k i && Nat.eqb l j)) (ind (Nat.eqb p j && Nat.eqb q i && Nat.eqb k j && Nat.eqb l i)).
Proof.
  intros H. assert (Hs := s2_sq). unfold set_pair, mzero, ind.
  destruct (Nat.eqb_spec p i), (Nat.eqb_spec q j), (Nat.eqb_spec p j), (Nat.eqb_spec q i), (Nat.eqb_spec k i), (Nat.eqb_spec l j), (Nat.eqb_spec k j), (Nat.eqb_spec l i); subst; cbn [andb]; try lia; apply C_eq; cbn; lra.
Qed.
Lemma kmat_resolution d p q k l : (p < d)%nat -> (q < d)%nat -> (k < d)%nat -> (l < d)%nat ->
  csumL (kinds d) (fun x => cmul (conj (kmat d x p q)) (kmat d x k l)) = cmul (delta p k) (delta q l).
Proof.
  intros Hp Hq Hk Hl. unfold kinds. rewrite !csumL_app.
  assert (E1 : csumL [KI] (fun x => cmul (conj (kmat d x p q)) (kmat d x k l)) = cmul (conj (kmat d KI p q)) (kmat d KI k l)) by (unfold csumL; cbn; ring).
  rewrite E1. clear E1. rewrite csumL_map, csumL_flat.
  assert (Eo : csumL (seq 1 (d - 1)) (fun a => csumL (kpairs a) (fun x => cmul (conj (kmat d x p q)) (kmat d x k l)))
          = ind (negb (Nat.eqb p q) && Nat.eqb p k && Nat.eqb q l)).
  { transitivity (csumL (seq 1 (d - 1)) (fun i => csumL (seq 0 i) (fun j => cadd (ind (Nat.eqb p i && Nat.eqb q j && Nat.eqb k i && Nat.eqb l j)) (ind (Nat.eqb p j && Nat.eqb q i && Nat.eqb k j && Nat.eqb l i))))).
    - apply csumL_ext. intros i _. unfold kpairs. rewrite csumL_flat. apply csumL_ext. intros j Hj. apply in_seq in Hj. rewrite <- (pair_resolution i j p q k l) by lia. unfold csumL. cbn [fold_right]. unfold kmat, kupd. ring.
    - rewrite csumL_seq.
      assert (Hrow : forall i, csumL (seq 0 i) (fun j => cadd (ind (Nat.eqb p i && Nat.eqb q j && Nat.eqb k i && Nat.eqb l j)) (ind (Nat.eqb p j && Nat.eqb q i && Nat.eqb k j && Nat.eqb l i)))
             = cadd (ind (Nat.eqb p i && Nat.ltb q i && Nat.eqb k i && Nat.eqb l q)) (ind (Nat.eqb q i && Nat.ltb p i && Nat.eqb l i && Nat.eqb k p))).
      { intros i. rewrite csumL_add, !csumL_seq. cbn [Nat.add]. f_equal.
        - destruct (Nat.ltb_spec q i) as [Hqi|Hqi].
          + rewrite (csum_single i q) by (first [assumption | intros j Hj Hjq; unfold ind; destruct (Nat.eqb_spec q j); [congruence|]; now rewrite andb_false_r]). rewrite Nat.eqb_refl. f_equal. 
          + rewrite csum_zero by (intros j Hj; unfold ind; destruct (Nat.eqb_spec q j); [lia|]; now rewrite andb_false_r). rewrite andb_false_r. reflexivity.
        - destruct (Nat.ltb_spec p i) as [Hqi|Hqi].
          + rewrite (csum_single i p) by (first [assumption | intros j Hj Hjq; unfold ind; destruct (Nat.eqb_spec p j); [congruence|]; reflexivity]). rewrite Nat.eqb_refl. f_equal. 
            destruct (Nat.eqb q i), (Nat.eqb k p), (Nat.eqb l i); reflexivity.
          + rewrite csum_zero by (intros j Hj; unfold ind; destruct (Nat.eqb_spec p j); [lia|]; reflexivity). rewrite andb_false_r. reflexivity. }
      rewrite (csum_ext _ _ _ (fun t _ => Hrow (1 + t)%nat)). rewrite csum_add.
      assert (Hone : forall P Q K L, (P < d)%nat -> (Q < d)%nat -> csum (d - 1) (fun t => ind (Nat.eqb P (1 + t) && Nat.ltb Q (1 + t) && Nat.eqb K (1 + t) && Nat.eqb L Q)) = ind (Nat.ltb Q P && Nat.eqb P K && Nat.eqb Q L)).
      { intros P Q K L HP HQ. destruct P as [|P].
        - rewrite csum_zero by (intros; reflexivity). destruct (Nat.ltb_spec Q 0); [lia|reflexivity].
        - rewrite (csum_single (d - 1) P); [|lia|].
          + replace (1 + P)%nat with (S P) by lia. rewrite Nat.eqb_refl. cbn [andb]. f_equal. rewrite (Nat.eqb_sym K), (Nat.eqb_sym L). reflexivity.
          + intros t Ht Hne. unfold ind. destruct (Nat.eqb_spec (S P) (1 + t)); [lia|]. reflexivity. }
      rewrite !Hone by assumption. unfold ind.
      destruct (Nat.ltb_spec q p), (Nat.ltb_spec p q), (Nat.eqb_spec p k), (Nat.eqb_spec q l), (Nat.eqb_spec p q); cbn; try lia; apply C_eq; cbn; ring. }
  rewrite Eo.
  assert (Ed : cadd (cmul (conj (kmat d KI p q)) (kmat d KI k l)) (csumL (seq 1 (d - 1)) (fun a => cmul (conj (kmat d (KD a) p q)) (kmat d (KD a) k l)))
      = ind (Nat.eqb p q && Nat.eqb k l && Nat.eqb p k)).
  { destruct (Nat.eqb_spec p q) as [->|Hpq]; [destruct (Nat.eqb_spec k l) as [->|Hkl]|].
    - cbn [andb]. rewrite csumL_seq.
      assert (Hpd := lt_0_INR d ltac:(lia)). assert (Hs : sqrt (INR d) <> 0) by (intros E; apply sqrt_eq_0 in E; lra).
      rewrite (csum_ext _ _ (fun t => rc (dc (1 + t) q * dc (1 + t) l / (INR (1 + t) + INR (1 + t) ^ 2)))).
      + rewrite csum_rc. rewrite kmat_KI. unfold diagm. rewrite !Nat.eqb_refl, conj_rc, <- rc_mul, <- rc_add.
        replace (1 / sqrt (INR d) * (1 / sqrt (INR d))) with (1 / INR d) by (rewrite <- (sqrt_sqrt (INR d)) at 1 by lra; field; assumption).
        rewrite diag_tele by assumption. unfold ind. destruct (Nat.eqb q l); reflexivity.
      + intros t Ht. rewrite kmat_KD. unfold diagm. rewrite !Nat.eqb_refl, conj_rc, <- rc_mul. f_equal. rewrite <- dn_sq. assert (Hn := dn_pos (1 + t) ltac:(lia)). field. lra.
    - cbn [andb]. rewrite csumL_zero. { rewrite kmat_KI. rewrite (diag_off _ k l) by assumption. unfold ind. ring. }
      intros a _. rewrite kmat_KD, (diag_off _ k l) by assumption. ring.
    - cbn [andb]. rewrite csumL_zero. { rewrite kmat_KI. rewrite (diag_off _ p q) by assumption. unfold ind. rewrite conj_c0. ring. }
      intros a _. rewrite kmat_KD, (diag_off _ p q) by assumption. rewrite conj_c0. ring. }
  transitivity (cadd (cadd (cmul (conj (kmat d KI p q)) (kmat d KI k l)) (csumL (seq 1 (d - 1)) (fun a => cmul (conj (kmat d (KD a) p q)) (kmat d (KD a) k l)))) (ind (negb (Nat.eqb p q) && Nat.eqb p k && Nat.eqb q l))); [ring|].
  rewrite Ed. unfold ind, delta.
  destruct (Nat.eqb_spec p q), (Nat.eqb_spec k l), (Nat.eqb_spec p k), (Nat.eqb_spec q l); subst; cbn; try congruence; apply C_eq; cbn; ring.
Qed.

(** ** resolution of the identity is completeness *)
Definition resolution (b : basis) : Prop :=
  forall p q k l, (p < bdim b)%nat -> (q < bdim b)%nat -> (k < bdim b)%nat -> (l < bdim b)%nat ->
    csum (length (bdata b)) (fun a => cmul (conj (bnth b a p q)) (bnth b a k l)) = cmul (delta p k) (delta q l).
Lemma resolution_complete b : resolution b -> complete b.
Proof.
  intros H X i j Hi Hj. unfold inner.
  transitivity (csum (bdim b) (fun p => csum (bdim b) (fun q => cmul (cmul (delta p i) (delta q j)) (X p q)))).
  - rewrite (csum_single _ i) by (first [assumption | intros p Hp Hpi; apply csum_zero; intros q Hq; rewrite (delta_diff p i) by assumption; ring]).
    rewrite (csum_single _ j) by (first [assumption | intros q Hq Hqj; rewrite (delta_diff q j) by assumption; ring]). rewrite !delta_same. ring.
  - rewrite (csum_ext (length _) _ (fun a => csum (bdim b) (fun p => csum (bdim b) (fun q => cmul (cmul (conj (bnth b a p q)) (bnth b a i j)) (X p q))))).
    + symmetry. rewrite csum_swap. apply csum_ext. intros p Hp. rewrite csum_swap. apply csum_ext. intros q Hq. rewrite csum_scal_r. now rewrite H.
    + intros a _. rewrite <- csum_scal_r. apply csum_ext. intros p _. rewrite <- csum_scal_r. apply csum_ext. intros q _. ring.
Qed.
Lemma complete_resolution b : complete b -> resolution b.
Proof.
  intros H p q k l Hp Hq Hk Hl. rewrite (csum_ext _ _ (fun a => cmul (inner (bdim b) (bnth b a) (fun r c => cmul (delta p r) (delta q c))) (bnth b a k l))).
  - now rewrite <- (H (fun r c => cmul (delta p r) (delta q c)) k l).
  - intros a _. f_equal. unfold inner. rewrite (csum_single _ p) by (first [assumption | intros r Hr Hrp; apply csum_zero; intros c Hc; rewrite (delta_diff p r) by congruence; ring]).
    rewrite (csum_single _ q) by (first [assumption | intros r Hr Hrp; rewrite (delta_diff q r) by congruence; ring]). rewrite !delta_same. ring.
Qed.

Lemma bnth_map d n f a : (a < n)%nat -> bnth {| bdim := d; bdata := map f (seq 0 n) |} a = f a.
Proof. intros H. unfold bnth. cbn. rewrite (nth_indep _ mzero (f 0%nat)) by (now rewrite map_length, seq_length). rewrite (map_nth f (seq 0 n) 0%nat). now rewrite seq_nth. Qed.

Theorem gell_mann_tomographic d b : gell_mann_basis d = Ok b -> bdim b = d /\ tomographic b.
Proof.
  unfold gell_mann_basis. destruct (Nat.eqb_spec d 0) as [|Hd0]; [discriminate|]. assert (Hd : (0 < d)%nat) by lia.
  cbv zeta. fold (gm_final d). intros E. assert (Eb : b = {| bdim := d; bdata := map (gm_final d) (seq 0 (d ^ 2)) |}) by congruence. subst b. clear E. split; [reflexivity|].
  assert (Hk : forall a, (a < d ^ 2)%nat -> exists x, kvalid d x /\ kidx d x = a /\ bnth {| bdim := d; bdata := map (gm_final d) (seq 0 (d ^ 2)) |} a = kmat d x).
  { intros a Ha. rewrite bnth_map by assumption. destruct (gm_kind_of d a Hd Ha) as (x & Hx & E). exists x. split; [now apply kinds_valid|]. split; [assumption|]. rewrite <- E. now apply gm_final_kind. }
  assert (Hlen : length (map (gm_final d) (seq 0 (d ^ 2))) = (d ^ 2)%nat) by (now rewrite map_length, seq_length).
  assert (Ho : orthonormal {| bdim := d; bdata := map (gm_final d) (seq 0 (d ^ 2)) |}).
  { intros a c Ha Hc. cbn [bdata] in *. rewrite Hlen in *. destruct (Hk a Ha) as (x & Hvx & Ex & ->). destruct (Hk c Hc) as (y & Hvy & Ey & ->). cbn [bdim].
    destruct (Nat.eq_dec a c) as [E|E].
    - rewrite <- E, delta_same.  assert (Hxy : kmat d x = kmat d y).
      { rewrite <- (gm_final_kind d x), <- (gm_final_kind d y); try assumption; [now rewrite Ex, Ey, E| |].
        - unfold kinds. rewrite !in_app_iff. destruct y; cbn in Hvy; [left; now left|right; left; apply in_map, in_seq; lia| |];
          (right; right; apply in_flat_map; eexists; split; [apply in_seq; instantiate (1 := i); lia|]; unfold kpairs; apply in_flat_map; exists j; split; [apply in_seq; lia|cbn; tauto]).
        - unfold kinds. rewrite !in_app_iff. destruct x; cbn in Hvx; [left; now left|right; left; apply in_map, in_seq; lia| |];
          (right; right; apply in_flat_map; eexists; split; [apply in_seq; instantiate (1 := i); lia|]; unfold kpairs; apply in_flat_map; exists j; split; [apply in_seq; lia|cbn; tauto]). }
      rewrite Hxy. now apply kinner_self.
    - rewrite delta_diff by assumption. apply kinner_diff; try assumption. intros ->. congruence. }
  constructor.
  - exact Hd.
  - exact Hlen.
  - intros a Ha. assert (Ha2 : (a < d ^ 2)%nat) by (rewrite <- Hlen; exact Ha). destruct (Hk a Ha2) as (x & Hvx & Ex & ->). now apply kmat_hermitian.
  - exact Ho.
  - apply resolution_complete. intros p q k l Hp Hq Hk' Hl. change (length (bdata {| bdim := d; bdata := map (gm_final d) (seq 0 (d ^ 2)) |})) with (length (map (gm_final d) (seq 0 (d ^ 2)))). rewrite Hlen. rewrite (csum_ext _ _ (fun a => (fun m : mat => cmul (conj (m p q)) (m k l)) (gm_final d a))).
    + rewrite (gm_sum d (fun m : mat => cmul (conj (m p q)) (m k l))) by assumption. now apply kmat_resolution.
    + intros a Ha. now rewrite bnth_map.
  - intros i j Hi Hj. cbn [bdim] in *. rewrite bnth_map by (cbn; nia). change 0%nat with (kidx d KI). rewrite gm_final_kind by (first [assumption | now left]).
    rewrite kmat_KI. unfold diagm, delta. destruct (Nat.eqb i j); apply C_eq; cbn; ring.
  - intros a Ha Ha'. assert (Ha2 : (a < d ^ 2)%nat) by (rewrite <- Hlen; exact Ha'). destruct (Hk a Ha2) as (x & Hvx & Ex & ->). cbn [bdim].
    assert (Hz : inner d (kmat d KI) (kmat d x) = c0) by (apply kinner_diff; try assumption; [exact I|]; intros <-; cbn in Ex; lia).
    rewrite kmat_KI, inner_diag in Hz. unfold mtrace. rewrite csum_scal in Hz.
    assert (Hpd := lt_0_INR d Hd). assert (Hs : sqrt (INR d) <> 0) by (intros E; apply sqrt_eq_0 in E; lra).
    replace (csum d (fun i => kmat d x i i)) with (cmul (rc (sqrt (INR d))) (cmul (rc (1 / sqrt (INR d))) (csum d (fun i => kmat d x i i)))).
    + rewrite Hz. ring.
    + apply C_eq; cbn; field; assumption.
Qed.
