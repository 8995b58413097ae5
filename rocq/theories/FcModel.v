(** Means and covariances in IEEE double arithmetic (src/qinfer/distributions.py 337-399 and 446-453, src/qinfer/resamplers.py 283-295,
    src/qinfer/utils.py 593-602).  [rnd] and orders of summation are those of FltModel.v; products and sums are rounded one by one
    (no fused multiply-add), no overflow. *)
From Flocq Require Import Core.
From Coq Require Import List ZArith.
From Verif Require Import Base Ext SmcModel PartModel FltModel.
Import ListNotations.

(** entry [k] of particle [i] *)
Definition at_ (l : list loc) (k i : nat) : R := nth k (nth i l []) 0.
(** distributions.py 337-348: [np.dot(weights, locations)], component [k] *)
Definition f_mean (t : stree) (w : list R) (l : list loc) (k : nat) : R := fsum t (fun i => rnd (nth i w 0 * at_ l k i)).
(** distributions.py 386: [np.einsum('i,mi,ni', ws, xs, xs)], the three factors multiplied from left to right *)
Definition f_second (t : stree) (w : list R) (l : list loc) (m n : nat) : R :=
  fsum t (fun i => rnd (rnd (nth i w 0 * at_ l m i) * at_ l n i)).
(** distributions.py 373-390; [t] and [tm] are the orders of summation of [einsum] and of [np.dot] *)
Definition f_cov (t : stree) (tm : nat -> stree) (w : list R) (l : list loc) (m n : nat) : R :=
  rnd (f_second t w l m n - rnd (f_mean (tm m) w l m * f_mean (tm n) w l n)).

Definition xrnd (a : ext) : ext := match a with Fin x => Fin (rnd x) | _ => a end.
(** distributions.py 449-451: correlation matrix *)
Definition f_corr (cov : nat -> nat -> R) (m n : nat) : ext :=
  let dstd k := xrnd (xsqrt (Fin (cov k k))) in
  xrnd (xdiv (Fin (cov m n)) (xrnd (xmul (dstd m) (dstd n)))).

(** distributions.py 396 for one parameter (the eigenvalue of a 1x1 matrix is its entry) *)
Definition f_psd_warning1 (c : R) : bool := negb (Rleb 0 c).
(** resamplers.py 283-295 with utils.py 593-602, for one parameter: zero norm is replaced, negative eigenvalues are cut off *)
Definition f_lw_sqrt1 (zero_cov_comp c : R) : R :=
  let c' := if Reqb (Rabs c) 0 then zero_cov_comp else c in
  if Rleb c' 0 then 0 else rnd (sqrt c').
