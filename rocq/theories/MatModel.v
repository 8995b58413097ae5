(** Matrix helpers of utils.py: square root of a positive semidefinite matrix, outer product, ellipsoid volume. Complex matrices are
    functions of two indices (Cplx.v), real ones as in LinAlg.v; dimensions are passed separately. *)
From Verif Require Import Base Sums Cplx LinAlg.

(** utils.py 593-607 [sqrtm_psd]. scipy's [eigh] is an argument: eigenvalues and a matrix whose columns are the eigenvectors. *)
Definition root_vals (w : nat -> R) : nat -> R := fun k => sqrt (if Rleb (w k) 0 then 0 else w k).
Definition sqrtm_root (eigh : nat -> mat -> (nat -> R) * mat) (d : nat) (A : mat) : mat :=
  let (w, v) := eigh d A in fun i j => csum d (fun k => cmul (cmul (v i k) (rc (root_vals w k))) (conj (v j k))).
(** np.linalg.norm(M, 'fro') *)
Definition fro (d : nat) (M : mat) : R := sqrt (Sum d (fun i => Sum d (fun j => cabs2 (M i j)))).
(** utils.py 604-607: root and error estimate, or the root alone *)
Definition sqrtm_psd (eigh : nat -> mat -> (nat -> R) * mat) (d : nat) (A : mat) (est_error : bool) : mat * option R :=
  let S := sqrtm_root eigh d A in
  (S, if est_error then Some (fro d (fun i j => csub (mmul d S S i j) (A i j))) else None).

(** utils.py 205-214 [outer_product]: of a vector with itself, or of a matrix with c columns with its transpose *)
Definition outer_vec (v : vec) : rmat := fun i j => v i * v j.
Definition outer_mat (c : nat) (M : rmat) : rmat := fun i j => Sum c (fun k => M i k * M j k).

(** utils.py 290-307 [ellipsoid_volume]. [inv] as in LinAlg.v, [det] is numpy's, [sqrtm] scipy's principal square root, [gamma] scipy's. *)
Section Volume.
  Variable inv : nat -> rmat -> option rmat.
  Variable det : nat -> rmat -> R.
  Variable sqrtm : nat -> rmat -> rmat.
  Variable gamma : R -> R.
  (** line 305; n/2 is a true division (from __future__ import division, line 40) *)
  Definition unit_volume (n : nat) : R := Rpower PI (INR n / 2) / gamma (1 + INR n / 2).
  Definition ellipsoid_volume (A invA : option (nat * rmat)) : res R :=
    match A, invA with
    | None, None => Err ValueError
    | _, Some (n, Y) => Ok (unit_volume n * det n (sqrtm n Y))
    | Some (n, X), None => match inv n X with Some Y => Ok (unit_volume n * det n (sqrtm n Y)) | None => Err ValueError (* LinAlgError *) end
    end.
End Volume.
