(** Complex numbers as pairs of reals, finite complex sums, and square complex matrices as functions of two indices. *)
From Coq Require Import Ring.
From Verif Require Import Base RList Sums.

Record C := mkC { re : R; im : R }.
Declare Scope C_scope.
Delimit Scope C_scope with C.
Definition c0 : C := mkC 0 0.
Definition c1 : C := mkC 1 0.
Definition ci : C := mkC 0 1.
Definition rc (x : R) : C := mkC x 0.
Definition cadd (a b : C) : C := mkC (re a + re b) (im a + im b).
Definition copp (a : C) : C := mkC (- re a) (- im a).
Definition csub (a b : C) : C := cadd a (copp b).
Definition cmul (a b : C) : C := mkC (re a * re b - im a * im b) (re a * im b + im a * re b).
Definition conj (a : C) : C := mkC (re a) (- im a).
Infix "+" := cadd : C_scope.
Infix "*" := cmul : C_scope.
Infix "-" := csub : C_scope.
Notation "- a" := (copp a) : C_scope.
Definition cabs2 (a : C) : R := (re a * re a + im a * im a)%R.

Lemma C_eq a b : re a = re b -> im a = im b -> a = b.
Proof. destruct a, b; cbn; congruence. Qed.
Lemma C_ring : ring_theory c0 c1 cadd cmul csub copp eq.
Proof. split; intros; apply C_eq; cbn; ring. Qed.
Add Ring Cring : C_ring.

Lemma conj_conj a : conj (conj a) = a. Proof. apply C_eq; cbn; ring. Qed.
Lemma conj_add a b : conj (cadd a b) = cadd (conj a) (conj b). Proof. apply C_eq; cbn; ring. Qed.
Lemma conj_mul a b : conj (cmul a b) = cmul (conj a) (conj b). Proof. apply C_eq; cbn; ring. Qed.
Lemma conj_rc x : conj (rc x) = rc x. Proof. apply C_eq; cbn; ring. Qed.
Lemma conj_c0 : conj c0 = c0. Proof. apply C_eq; cbn; ring. Qed.
Lemma conj_c1 : conj c1 = c1. Proof. apply C_eq; cbn; ring. Qed.
Lemma rc_add x y : rc (x + y) = cadd (rc x) (rc y). Proof. apply C_eq; cbn; ring. Qed.
Lemma rc_mul x y : rc (x * y) = cmul (rc x) (rc y). Proof. apply C_eq; cbn; ring. Qed.
Lemma rc_re a : im a = 0 -> rc (re a) = a. Proof. intros H. apply C_eq; cbn; congruence. Qed.
Lemma conj_real a : conj a = a -> im a = 0. Proof. intros H. apply (f_equal im) in H. cbn in H. lra. Qed.

(** ** Sums *)
Definition csum (n : nat) (f : nat -> C) : C := mkC (Sum n (fun i => re (f i))) (Sum n (fun i => im (f i))).
Definition csumL {A} (l : list A) (f : A -> C) : C := fold_right (fun a acc => cadd (f a) acc) c0 l.
Lemma csum_ext n f g : (forall i, (i < n)%nat -> f i = g i) -> csum n f = csum n g.
Proof. intros H. apply C_eq; cbn; apply Sum_ext; intros i Hi; now rewrite H. Qed.
Lemma csum_S n f : csum (S n) f = cadd (f 0%nat) (csum n (fun i => f (S i))).
Proof. apply C_eq; cbn [re im csum cadd]; apply Sum_S. Qed.
Lemma csum_0 f : csum 0 f = c0. Proof. reflexivity. Qed.
Lemma csum_last n f : csum (S n) f = cadd (csum n f) (f n).
Proof.
  revert f; induction n as [|n IH]; intros f; [apply C_eq; cbn; ring|]. rewrite csum_S, IH, (csum_S n f). ring.
Qed.
Lemma csum_add n f g : csum n (fun i => cadd (f i) (g i)) = cadd (csum n f) (csum n g).
Proof. apply C_eq; cbn; apply Sum_plus. Qed.
Lemma csum_scal n c f : csum n (fun i => cmul c (f i)) = cmul c (csum n f).
Proof. revert f; induction n as [|n IH]; intros f; [rewrite !csum_0; ring|]. rewrite !csum_S, IH. ring. Qed.
Lemma csum_scal_r n c f : csum n (fun i => cmul (f i) c) = cmul (csum n f) c.
Proof. rewrite (csum_ext n _ (fun i => cmul c (f i))) by (intros; ring). rewrite csum_scal. ring. Qed.
Lemma csum_zero n f : (forall i, (i < n)%nat -> f i = c0) -> csum n f = c0.
Proof. intros H. rewrite (csum_ext n f (fun _ => c0)) by assumption. apply C_eq; cbn; apply Sum_zero; reflexivity. Qed.
Lemma csum_swap n m f : csum n (fun i => csum m (fun j => f i j)) = csum m (fun j => csum n (fun i => f i j)).
Proof. apply C_eq; cbn; apply (Sum_swap n m). Qed.
Lemma csum_conj n f : conj (csum n f) = csum n (fun i => conj (f i)).
Proof. revert f; induction n as [|n IH]; intros f; [apply C_eq; cbn; ring|]. now rewrite !csum_S, conj_add, IH. Qed.
Lemma csum_single n k f : (k < n)%nat -> (forall i, (i < n)%nat -> i <> k -> f i = c0) -> csum n f = f k.
Proof.
  revert k f; induction n as [|n IH]; intros k f Hk H; [lia|]. rewrite csum_S. destruct k as [|k].
  - rewrite csum_zero by (intros; apply H; lia). ring.
  - rewrite (H 0%nat) by lia. rewrite (IH k (fun i => f (S i))) by (try lia; intros; apply H; lia). ring.
Qed.
Lemma csum_two n k l f : (k < n)%nat -> (l < n)%nat -> k <> l -> (forall i, (i < n)%nat -> i <> k -> i <> l -> f i = c0) -> csum n f = cadd (f k) (f l).
Proof.
  intros Hk Hl Hkl H. rewrite (csum_ext n f (fun i => cadd (if Nat.eqb i k then f i else c0) (if Nat.eqb i k then c0 else f i))) by (intros; destruct (Nat.eqb i k); ring).
  rewrite csum_add. f_equal.
  - rewrite (csum_single n k) by (first [assumption | intros i Hi Hik; destruct (Nat.eqb_spec i k); [contradiction|reflexivity]]). now rewrite Nat.eqb_refl.
  - rewrite (csum_single n l (fun i => if Nat.eqb i k then c0 else f i) Hl).
    + destruct (Nat.eqb_spec l k) as [E|E]; [exfalso; apply Hkl; now symmetry|reflexivity].
    + intros i Hi Hil. cbn. destruct (Nat.eqb_spec i k) as [E|E]; [reflexivity|]. now apply H.
Qed.
Lemma csum_prod n m f : csum n (fun i => csum m (fun j => f (i * m + j)%nat)) = csum (n * m) f.
Proof.
  revert f; induction n as [|n IH]; intros f; [reflexivity|]. rewrite csum_last, IH. replace (S n * m)%nat with (n * m + m)%nat by lia.
  generalize (n * m)%nat. intros p. clear. induction m as [|m IH]; [rewrite Nat.add_0_r, csum_0; ring|]. rewrite Nat.add_succ_r, !csum_last. rewrite <- IH. ring.
Qed.
Lemma csum_rc n f : csum n (fun i => rc (f i)) = rc (Sum n f).
Proof. apply C_eq; cbn; [reflexivity|]. now apply Sum_zero. Qed.
Lemma csumL_csum {A} (l : list A) f d : csumL l f = csum (length l) (fun i => f (nth i l d)).
Proof. induction l as [|a l IH]; [reflexivity|]. cbn [length csumL fold_right]. rewrite csum_S. cbn [nth]. f_equal. exact IH. Qed.
Lemma csumL_app {A} (l m : list A) f : csumL (l ++ m) f = cadd (csumL l f) (csumL m f).
Proof. unfold csumL. induction l as [|a l IH]; cbn [app fold_right]; [ring|]. rewrite IH. ring. Qed.
Lemma csumL_map {A B} (g : A -> B) l f : csumL (map g l) f = csumL l (fun a => f (g a)).
Proof. induction l as [|a l IH]; [reflexivity|]. cbn. unfold csumL in *. cbn. now rewrite IH. Qed.
Lemma csumL_ext {A} (l : list A) f g : (forall a, In a l -> f a = g a) -> csumL l f = csumL l g.
Proof. induction l as [|a l IH]; intros H; [reflexivity|]. unfold csumL in *. cbn. rewrite H by (now left). f_equal. apply IH. intros; apply H; now right. Qed.
Lemma csumL_perm {A} (l m : list A) f : Permutation l m -> csumL l f = csumL m f.
Proof. induction 1; unfold csumL in *; cbn; [reflexivity|congruence|ring|congruence]. Qed.
Lemma csumL_scal {A} (l : list A) c f : csumL l (fun a => cmul c (f a)) = cmul c (csumL l f).
Proof. unfold csumL. induction l as [|a l IH]; cbn; [ring|]. rewrite IH. ring. Qed.
Lemma csumL_scal_r {A} (l : list A) c f : csumL l (fun a => cmul (f a) c) = cmul (csumL l f) c.
Proof. unfold csumL. induction l as [|a l IH]; cbn; [ring|]. rewrite IH. ring. Qed.
Lemma csumL_flat {A B} (g : A -> list B) l f : csumL (flat_map g l) f = csumL l (fun a => csumL (g a) f).
Proof. induction l as [|a l IH]; [reflexivity|]. cbn [flat_map]. rewrite csumL_app, IH. reflexivity. Qed.
Lemma csumL_csum_swap {A} (l : list A) n f : csumL l (fun a => csum n (f a)) = csum n (fun i => csumL l (fun a => f a i)).
Proof. induction l as [|a l IH]; [symmetry; apply csum_zero; reflexivity|]. unfold csumL in *. cbn. rewrite IH. now rewrite <- csum_add. Qed.
Lemma csumL_zero {A} (l : list A) f : (forall a, In a l -> f a = c0) -> csumL l f = c0.
Proof. induction l as [|a l IH]; intros H; [reflexivity|]. unfold csumL in *. cbn. rewrite H by (now left). rewrite IH by (intros; apply H; now right). ring. Qed.
Lemma csumL_add {A} (l : list A) f g : csumL l (fun a => cadd (f a) (g a)) = cadd (csumL l f) (csumL l g).
Proof. unfold csumL. induction l as [|a l IH]; cbn; [ring|]. rewrite IH. ring. Qed.

(** ** Matrices *)
Definition mat := nat -> nat -> C.
Definition delta (i j : nat) : C := if Nat.eqb i j then c1 else c0.
Definition mscal (c : C) (A : mat) : mat := fun i j => cmul c (A i j).
Definition mplus (A B : mat) : mat := fun i j => cadd (A i j) (B i j).
Definition mzero : mat := fun _ _ => c0.
Definition meye : mat := delta.
Definition mtrace (d : nat) (A : mat) : C := csum d (fun i => A i i).
Definition mmul (d : nat) (A B : mat) : mat := fun i j => csum d (fun k => cmul (A i k) (B k j)).
Definition hermitian (d : nat) (A : mat) : Prop := forall i j, (i < d)%nat -> (j < d)%nat -> A i j = conj (A j i).
(** The trace inner product Tr(A^dagger B) *)
Definition inner (d : nat) (A B : mat) : C := csum d (fun i => csum d (fun j => cmul (conj (A i j)) (B i j))).
Definition quad (d : nat) (A : mat) (v : nat -> C) : C := csum d (fun i => csum d (fun j => cmul (cmul (conj (v i)) (A i j)) (v j))).
(** Positive semidefinite *)
Definition psd (d : nat) (A : mat) : Prop := hermitian d A /\ forall v, 0 <= re (quad d A v).
Definition norm2 (d : nat) (v : nat -> C) : R := Sum d (fun i => cabs2 (v i)).
Lemma delta_same i : delta i i = c1. Proof. unfold delta. now rewrite Nat.eqb_refl. Qed.
Lemma delta_diff i j : i <> j -> delta i j = c0. Proof. intros H. unfold delta. destruct (Nat.eqb_spec i j); [contradiction|reflexivity]. Qed.
