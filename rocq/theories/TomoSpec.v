(** Vocabulary for the tomography properties, independent of how bases are built. *)
From Verif Require Import Base RList Sums Cplx TomoModel.

(** What a tomographic basis is supposed to be (docstring of TomographyBasis). *)
Definition orthonormal (b : basis) : Prop :=
  forall a c, (a < length (bdata b))%nat -> (c < length (bdata b))%nat -> inner (bdim b) (bnth b a) (bnth b c) = delta a c.
Definition all_hermitian (b : basis) : Prop := forall a, (a < length (bdata b))%nat -> hermitian (bdim b) (bnth b a).
(** Every operator is the combination of the basis elements weighted by its inner products with them. *)
Definition complete (b : basis) : Prop :=
  forall (X : mat) i j, (i < bdim b)%nat -> (j < bdim b)%nat ->
    X i j = csum (length (bdata b)) (fun a => cmul (inner (bdim b) (bnth b a) X) (bnth b a i j)).
Record tomographic (b : basis) : Prop := {
  tg_dim : (0 < bdim b)%nat;
  tg_len : length (bdata b) = (bdim b ^ 2)%nat;
  tg_herm : all_hermitian b;
  tg_orth : orthonormal b;
  tg_comp : complete b;
  tg_first : forall i j, (i < bdim b)%nat -> (j < bdim b)%nat -> bnth b 0 i j = cmul (rc (1 / sqrt (INR (bdim b)))) (delta i j);
  tg_traceless : forall a, (0 < a)%nat -> (a < length (bdata b))%nat -> mtrace (bdim b) (bnth b a) = c0 }.
(** A density operator: positive semidefinite with trace one. *)
Definition density (d : nat) (rho : mat) : Prop := psd d rho /\ mtrace d rho = c1.
(** (w, v) is a unitary eigendecomposition of [m]: w real, m v_k = w_k v_k, the columns resolve the identity and have unit norm. *)
Definition eigendecomposition (d : nat) (m : mat) (w : nat -> C) (v : mat) : Prop :=
  (forall k, (k < d)%nat -> im (w k) = 0)
  /\ (forall i k, (i < d)%nat -> (k < d)%nat -> csum d (fun j => cmul (m i j) (v j k)) = cmul (w k) (v i k))
  /\ (forall i j, (i < d)%nat -> (j < d)%nat -> csum d (fun k => cmul (v i k) (conj (v j k))) = delta i j)
  /\ (forall k, (k < d)%nat -> norm2 d (fun i => v i k) = 1).
