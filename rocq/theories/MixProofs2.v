(** Proofs for C117: mixtures of any components. *)
From Coq Require Import FunctionalExtensionality.
From Verif Require Import Base RList Ext Sums DerSpec DerProofs SmcModel LwModel DistModel DistProofs MixModel MixSpec MixProofs MixSpec2.
From Coq Require Import List.

Lemma in_order_lab ns : forall k, in_order k ns = lab k ns.
Proof. induction ns as [|m ns IH]; intros k; [reflexivity|]. cbn [in_order lab]. now rewrite IH. Qed.

(** ** Independent draws *)
Lemma SumL_plus2 {A} (l : list A) f g : SumL l (fun a => f a + g a) = SumL l f + SumL l g.
Proof. induction l as [|a l IH]; unfold SumL in *; cbn [fold_right]; [ring|]. rewrite IH. ring. Qed.
Lemma SumL_exchange {A B} (l : list A) (m : list B) (h : A -> B -> R) : SumL l (fun a => SumL m (fun b => h a b)) = SumL m (fun b => SumL l (fun a => h a b)).
Proof.
  induction l as [|a l IH].
  - change (0 = SumL m (fun _ => 0)). induction m as [|b m IHm]; unfold SumL in *; cbn [fold_right]; [ring|]. rewrite <- IHm. ring.
  - change (SumL m (fun b => h a b) + SumL l (fun a => SumL m (fun b => h a b)) = SumL m (fun b => h a b + SumL l (fun a => h a b))). now rewrite SumL_plus2, IH.
Qed.

Section Laws.
Context {X : Type} (mu : nat -> law X).
Notation ind := (independent mu).
Lemma mean_ext (m : law X) f g : (forall x, f x = g x) -> mean_under m f = mean_under m g.
Proof. intros H. apply SumL_ext. intros a _. now rewrite H. Qed.
Lemma mean_swap (m m' : law X) (f : X -> X -> R) : mean_under m (fun x => mean_under m' (fun y => f x y)) = mean_under m' (fun y => mean_under m (fun x => f x y)).
Proof.
  unfold mean_under. rewrite (SumL_ext _ _ (fun a => SumL m' (fun b => fst a * (fst b * f (snd a) (snd b))))) by (intros; now rewrite SumL_scal).
  rewrite (SumL_ext m' _ (fun b => SumL m (fun a => fst a * (fst b * f (snd a) (snd b))))) by (intros; rewrite <- SumL_scal; apply SumL_ext; intros; ring).
  apply (SumL_exchange m m' (fun a b => fst a * (fst b * f (snd a) (snd b)))).
Qed.
Lemma ind_ext L : forall F G, (forall xs, length xs = length L -> F xs = G xs) -> ind L F = ind L G.
Proof. induction L as [|k L IH]; intros F G H; cbn [independent]; [now apply H|]. apply mean_ext. intros x. apply IH. intros xs Hx. apply H. cbn. now rewrite Hx. Qed.

(** The same with draws by position *)
Definition upd (g : nat -> X) (p : nat) (x : X) : nat -> X := fun q => if Nat.eqb q p then x else g q.
Variables (dflt : nat -> X) (lam : nat -> nat).
Fixpoint by_position (P : list nat) (G : (nat -> X) -> R) : R :=
  match P with [] => G dflt | p :: r => mean_under (mu (lam p)) (fun x => by_position r (fun g => G (upd g p x))) end.
Lemma by_position_ext P : forall G H, (forall g, G g = H g) -> by_position P G = by_position P H.
Proof. induction P as [|p P IH]; intros G H E; cbn [by_position]; [apply E|]. apply mean_ext. intros x. apply IH. intros g. apply E. Qed.
Lemma by_position_perm P Q : Permutation P Q -> NoDup P -> forall G, by_position P G = by_position Q G.
Proof.
  induction 1 as [|p P Q H IH|p q P|P Q S H1 IH1 H2 IH2]; intros N G; [reflexivity| | |].
  - cbn [by_position]. apply mean_ext. intros x. apply IH. now inversion N.
  - cbn [by_position]. rewrite mean_swap. apply mean_ext. intros x. apply mean_ext. intros y. apply by_position_ext. intros g. f_equal. extensionality r. unfold upd.
    inversion N as [|? ? H1 _]; subst. destruct (Nat.eqb_spec r p), (Nat.eqb_spec r q); try reflexivity. subst. exfalso. apply H1. now left.
  - rewrite IH1 by assumption. apply IH2. now apply (Permutation_NoDup H1).
Qed.
Lemma ind_by_position P : NoDup P -> forall F, ind (map lam P) F = by_position P (fun g => F (map g P)).
Proof.
  induction P as [|p P IH]; intros N F; [reflexivity|]. cbn [map independent by_position]. apply mean_ext. intros x. inversion N as [|? ? H1 H2]; subst. rewrite IH by assumption. apply by_position_ext. intros g.
  f_equal. unfold upd at 1. rewrite Nat.eqb_refl. f_equal. apply map_ext_in. intros q Hq. unfold upd. destruct (Nat.eqb_spec q p); [subst; contradiction|reflexivity].
Qed.
End Laws.

Lemma map_nth_all {X} (d : X) l : map (fun i => nth i l d) (seq 0 (length l)) = l.
Proof. induction l as [|x l IH]; [reflexivity|]. cbn [length seq map nth]. rewrite <- seq_shift, map_map. f_equal. exact IH. Qed.
(** Reordering independent draws is the same as drawing by the reordered labels *)
Lemma ind_reorder {X} (mu : nat -> law X) (d : X) L o F : Permutation o (seq 0 (length L)) ->
  independent mu L (fun xs => F (map (fun i => nth i xs d) o)) = independent mu (reorder o L) F.
Proof.
  intros Ho. assert (N : NoDup o) by (apply (Permutation_NoDup (Permutation_sym Ho)), seq_NoDup). set (lam := fun i => nth i L 0%nat).
  transitivity (independent mu (map lam (seq 0 (length L))) (fun xs => F (map (fun i => nth i xs d) o))); [unfold lam; now rewrite (map_nth_all 0%nat L)|].
  rewrite (ind_by_position mu (fun _ => d) lam) by apply seq_NoDup. change (reorder o L) with (map lam o). rewrite (ind_by_position mu (fun _ => d) lam) by assumption.
  rewrite <- (by_position_perm mu (fun _ => d) lam o (seq 0 (length L)) Ho N). apply by_position_ext. intros g. f_equal. apply map_ext_in. intros i Hi. apply (Permutation_in _ Ho) in Hi. apply in_seq in Hi.
  rewrite (nth_indep _ d (g 0%nat)) by (rewrite map_length, seq_length; lia). rewrite map_nth, seq_nth by lia. reflexivity.
Qed.
Lemma us_independent {X} n E (mu : nat -> law X) : uniform_shuffle n E -> forall L (G : list nat -> list X -> R), E (fun o => independent mu L (G o)) = independent mu L (fun xs => E (fun o => G o xs)).
Proof.
  intros U. induction L as [|k L IH]; intros G; cbn [independent]; [reflexivity|]. unfold mean_under. rewrite (us_SumL n E U). apply SumL_ext. intros a _. rewrite (us_scal n E U), IH. reflexivity.
Qed.

(** ** Sampling *)
Section Components.
Variables (d K : nat) (comp : nat -> dist) (row : nat -> row_source -> list ext).
Hypothesis Hrow : forall k, (k < K)%nat -> one_by_one (comp k) d (row k).
Definition rows_by (L : list nat) (xs : list row_source) : list (list ext) := map2 row L xs.
Lemma parts_rows : forall m k ns w (xs : list row_source), (k + m = K)%nat -> length ns = m -> length xs = fold_right Nat.add 0%nat ns ->
  (forall j, (j < m)%nat -> forall p, sub w (k + j) p = feed (nth j (cut ns xs) []) p) ->
  exists ps, parts w k (map comp (seq k m)) ns = Ok ps /\ ((ps = [] /\ lab k ns = []) \/ concat0 ps = Ok (A2 d (rows_by (lab k ns) xs))).
Proof.
  induction m as [|m IH]; intros k ns w xs Hk Hl Hx HW; destruct ns as [|x ns]; simpl in Hl; try lia.
  - exists []. split; [reflexivity|]. now left.
  - cbn [fold_right] in Hx. destruct (IH (S k) ns w (skipn x xs) ltac:(lia) ltac:(lia)) as (ps & Hp & Hps).
    { rewrite skipn_length. lia. }
    { intros j Hj p. replace (S k + j)%nat with (k + S j)%nat by lia. apply HW. lia. }
    cbn [seq map parts lab]. destruct (Nat.eqb_spec x 0) as [->|Hx0].
    + exists ps. split; [exact Hp|exact Hps].
    + rewrite Hp. assert (Ef : sub w k = feed (firstn x xs)) by (extensionality p; pose proof (HW 0%nat ltac:(lia) p) as Q; rewrite Nat.add_0_r in Q; exact Q).
      assert (Lf : length (firstn x xs) = x) by (rewrite firstn_length; lia).
      rewrite Ef. pose proof (Hrow k ltac:(lia) (firstn x xs)) as Q. rewrite Lf in Q. rewrite Q by (intros E; rewrite E in Lf; simpl in Lf; lia). cbn [bind]. eexists. split; [reflexivity|]. right.
      assert (Sp : rows_by (repeat k x ++ lab (S k) ns) xs = map (row k) (firstn x xs) ++ rows_by (lab (S k) ns) (skipn x xs)).
      { rewrite <- (firstn_skipn x xs) at 1. revert Lf. generalize (firstn x xs) (skipn x xs). clear. intros a b E. subst x. unfold rows_by. induction a as [|y a IH]; [reflexivity|]. cbn [length repeat app map]. cbn [map2]. now f_equal. }
      rewrite Sp. destruct Hps as [[-> El]|Hps].
      * rewrite El. cbn [concat0 rows_by map2]. now rewrite app_nil_r.
      * destruct ps as [|p ps]; [discriminate Hps|]. change (concat0 (A2 d (map (row k) (firstn x xs)) :: p :: ps)) with
          (bind (concat0 (p :: ps)) (fun b => match b with A2 d' y => if Nat.eqb d d' then Ok (A2 d (map (row k) (firstn x xs) ++ y)) else Err ValueError | A1 _ => Err ValueError end)).
        rewrite Hps. cbn [bind]. now rewrite Nat.eqb_refl.
Qed.
Lemma sample_components weights shuffle n s o xs : (0 < n)%nat -> In s (strings K n) -> length xs = n -> Permutation o (seq 0 n) ->
  sample (Mixture weights (map comp (seq 0 K)) shuffle) n (mixture_source K s o xs) =
  Ok (A2 d (if shuffle then rows_by (reorder o (lab 0 (DerSpec.counts K s))) (map (fun i => nth i xs no_draws) o) else rows_by (lab 0 (DerSpec.counts K s)) xs)).
Proof.
  intros Hn Hs Hx Ho. destruct (strings_length K n s Hs) as [Hl HF]. assert (HP := lab_counts K s HF).
  assert (HL : length (lab 0 (DerSpec.counts K s)) = n) by (rewrite (Permutation_length HP); exact Hl).
  rewrite sample_mixture. unfold here at 1. cbn [mixture_source DistModel.counts].
  destruct (parts_rows K 0 (DerSpec.counts K s) (mixture_source K s o xs) xs eq_refl) as (ps & Hp & Hps).
  { unfold DerSpec.counts. now rewrite map_length, seq_length. }
  { rewrite <- (lab_length (DerSpec.counts K s) 0), HL. exact Hx. }
  { intros j _ p. reflexivity. }
  rewrite Hp. cbn [bind]. destruct Hps as [[_ Hz]|Hps]; [rewrite Hz in HL; simpl in HL; lia|]. rewrite Hps. cbn [bind]. destruct shuffle; [|reflexivity]. unfold here. cbn [mixture_source shuffled]. do 2 f_equal.
  unfold pick_rows, rows_by, reorder. set (L := lab 0 (DerSpec.counts K s)) in *. clearbody L.
  assert (G : forall P : list nat, (forall i, In i P -> (i < n)%nat) -> map (fun i => nth i (map2 row L xs) []) P = map2 row (map (fun i => nth i L 0%nat) P) (map (fun i => nth i xs no_draws) P)).
  { induction P as [|i P IHP]; intros HI; [reflexivity|]. cbn [map map2]. f_equal; [|apply IHP; intros; apply HI; now right].
    assert (Hi : (i < n)%nat) by (apply HI; now left). rewrite <- Hx in Hi. rewrite <- HL in Hx. clear HI. revert i Hi Hx. clear. revert xs. induction L as [|k L IH]; intros [|x xs] i Hi Hx; simpl in *; try lia. destruct i; [reflexivity|]. apply IH; lia. }
  apply G. intros i Hi. apply (Permutation_in _ Ho) in Hi. apply in_seq in Hi. lia.
Qed.
End Components.

(** ** Distributions that draw row by row *)
Lemma map_nrange {X Y} (g : X -> Y) d xs : map (fun i => g (nth i xs d)) (nrange (length xs)) = map g xs.
Proof. unfold nrange. rewrite <- (map_map (fun i => nth i xs d) g). now rewrite map_nth_all. Qed.

Lemma uniform_rows rs : one_by_one (Uniform rs) (length rs) (fun x => map Fin (uniform_row rs (r_unif (x [])))).
Proof. intros xs _. cbn [sample]. do 2 f_equal. exact (map_nrange (fun x => map Fin (uniform_row rs (r_unif (x [])))) no_draws xs). Qed.
Lemma scalar_rows g : one_by_one (Scalar g) 1 (fun x => [Fin (g (r_raw (x [])))]).
Proof. intros xs _. cbn [sample]. do 2 f_equal. exact (map_nrange (fun x => [Fin (g (r_raw (x [])))]) no_draws xs). Qed.
Lemma constant_rows v : one_by_one (Constant v) (length v) (fun _ => map Fin v).
Proof. intros xs _. cbn [sample]. do 2 f_equal. induction xs as [|x xs IH]; [reflexivity|]. cbn [length repeat map]. now rewrite IH. Qed.
Lemma mvnormal_rows m root : length root = length m -> Forall (fun r => length r = length m) root -> one_by_one (MVNormal m root) (length m) (fun x => map Fin (mvnormal_row m root (r_gauss (x [])))).
Proof.
  intros H1 H2 xs _. cbn [sample]. rewrite H1, Nat.eqb_refl. replace (forallb _ root) with true by (symmetry; apply forallb_forall; intros r Hr; apply Nat.eqb_eq; rewrite Forall_forall in H2; auto). cbn [andb]. do 2 f_equal.
  exact (map_nrange (fun x => map Fin (mvnormal_row m root (r_gauss (x [])))) no_draws xs).
Qed.
Lemma slanted_rows rs weight : one_by_one (Slanted rs weight) (length rs) (fun x => map Fin (slanted_row rs weight (r_gauss (x [])) (r_unif (x [])))).
Proof. intros xs _. cbn [sample]. do 2 f_equal. exact (map_nrange (fun x => map Fin (slanted_row rs weight (r_gauss (x [])) (r_unif (x [])))) no_draws xs). Qed.
Lemma external_rows k : one_by_one (Rows k) k (fun x => map Fin (r_row (x []) k)).
Proof. intros xs _. cbn [sample]. do 2 f_equal. exact (map_nrange (fun x => map Fin (r_row (x []) k)) no_draws xs). Qed.
Lemma constrained_rows f d row desired : one_by_one f d row -> one_by_one (ConstrainedSum f desired) d (fun x => constrain desired (row x)).
Proof. intros H xs Hx. cbn [sample]. rewrite (H xs Hx). cbn [bind]. now rewrite map_map. Qed.
(** Products *)
Lemma feed_sub xs k : sub (feed xs) k = feed (map (fun (x : row_source) p => x (k :: p)) xs).
Proof.
  extensionality p. unfold sub, feed.
  assert (N : forall i, nth i (map (fun (x : row_source) p => x (k :: p)) xs) no_draws p = nth i xs no_draws (k :: p)).
  { intros i. change no_draws with ((fun (x : row_source) p => x (k :: p)) no_draws) at 1. now rewrite map_nth. }
  f_equal; try (extensionality i; now rewrite N). extensionality d. extensionality i. now rewrite N.
Qed.
Definition branch (k : nat) (row : row_source -> list ext) : row_source -> list ext := fun x => row (fun p => x (k :: p)).

Fixpoint product_row (k : nat) (rows : list (row_source -> list ext)) (x : row_source) : list ext :=
  match rows with [] => [] | r :: rs => branch k r x ++ product_row (S k) rs x end.
Lemma product_parts fs ds rows : Forall2 (fun f dr => one_by_one f (fst dr) (snd dr)) fs (combine ds rows) -> length ds = length rows -> fs <> [] -> forall k xs, xs <> [] ->
  exists a ps, factors (length xs) (feed xs) k fs = Ok (a :: ps) /\ (exists c q, a = A2 c q) /\ concat1 (a :: ps) = Ok (A2 (fold_right Nat.add 0%nat ds) (map (product_row k rows) xs)).
Proof.
  revert ds rows. induction fs as [|f fs IH]; intros ds rows H Hl Hf k xs Hx; [contradiction|]. inversion H as [|? [d r] ? q H1 H2 E1 E2]; subst. destruct ds as [|d' ds], rows as [|r' rows]; try discriminate E2. injection E2 as <- <- ->.
  cbn [factors]. rewrite feed_sub. pose proof (H1 (map (fun (x : row_source) p => x (k :: p)) xs)) as Q. rewrite map_length in Q. cbn [fst snd] in Q. rewrite Q by (intros E; apply map_eq_nil in E; contradiction). cbn [bind]. rewrite map_map.
  destruct fs as [|g fs].
  - inversion H2 as [E3|]; subst. destruct ds, rows; simpl in Hl, E3; try discriminate; try lia. cbn [factors bind]. eexists _, _. split; [reflexivity|]. split; [eauto|]. cbn [concat1 fold_right product_row]. rewrite Nat.add_0_r. do 2 f_equal. apply map_ext. intros x. cbn [product_row]. now rewrite app_nil_r.
  - destruct (IH ds rows H2 ltac:(simpl in Hl; lia) ltac:(discriminate) (S k) xs Hx) as (a & ps & Ea & (c & y & ->) & Ec). rewrite Ea. cbn [bind]. eexists _, _. split; [reflexivity|]. split; [eauto|].
    change (concat1 (A2 d (map (fun x : row_source => r (fun p => x (k :: p))) xs) :: A2 c y :: ps)) with
      (bind (concat1 (A2 c y :: ps)) (fun b => match b with A2 e z => if Nat.eqb (length (map (fun x : row_source => r (fun p => x (k :: p))) xs)) (length z) then Ok (A2 (d + e) (map2 (@app ext) (map (fun x : row_source => r (fun p => x (k :: p))) xs) z)) else Err ValueError | A1 _ => Err ValueError end)).
    rewrite Ec. cbn [bind]. rewrite !map_length, Nat.eqb_refl. cbn [fold_right]. do 2 f_equal. clear. induction xs as [|x xs IH]; [reflexivity|]. cbn [map map2 product_row]. now f_equal.
Qed.
Lemma product_rows fs ds rows : Forall2 (fun f dr => one_by_one f (fst dr) (snd dr)) fs (combine ds rows) -> length ds = length rows -> fs <> [] -> one_by_one (Product fs) (fold_right Nat.add 0%nat ds) (product_row 0 rows).
Proof.
  intros H Hl Hf xs Hx. rewrite sample_product. destruct (product_parts fs ds rows H Hl Hf 0%nat xs Hx) as (a & ps & Ea & (c & q & ->) & Ec). rewrite Ea. cbn [bind hstack]. exact Ec.
Qed.
