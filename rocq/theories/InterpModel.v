(** Models of utils.compactspace, InterpolatedUnivariateDistribution and the grad_log_pdf methods of
    src/qinfer/distributions.py.  Floating-point rounding is not modelled: the last entry of the tabulated CDF is exactly one. *)
From Verif Require Import Base Ext RoModel.

(** src/qinfer/utils.py:452-461; scipy's logistic(scale).ppf(q) is scale * log(q / (1 - q)) for scale > 0 *)
Definition logit (scale q : R) : R := scale * ln (q / (1 - q)).
Definition compactspace (scale : R) (n : nat) : list R := map (logit scale) (firstn n (skipn 1 (linspace 0 1 (n + 2)))).

(** Areas of the trapezoids of np.trapz and scipy's cumtrapz *)
Fixpoint trapezoids (fs xs : list R) : list R :=
  match fs, xs with
  | f0 :: ((f1 :: _) as fs'), x0 :: ((x1 :: _) as xs') => (x1 - x0) * (f1 + f0) / 2 :: trapezoids fs' xs'
  | _, _ => []
  end.
Definition trapz (fs xs : list R) : R := rsum (trapezoids fs xs).
Definition cumtrapz (fs xs : list R) : list R := 0 :: cumsum (trapezoids fs xs).

(** distributions.py:1374-1382, given the grid *)
Definition cdf_table (pdf : R -> R) (xs : list R) : list R :=
  let pdfs := map pdf xs in cumtrapz (map (fun f => f / trapz pdfs xs) pdfs) xs.
(** 1388-1389, one sample from one uniform draw; interp1d(..., bounds_error=False) gives NaN outside the table, and a zero norm gives NaN *)
Definition inv_cdf (pdf : R -> R) (xs : list R) (u : R) : ext :=
  let cs := cdf_table pdf xs in
  if Reqb (trapz (map pdf xs) xs) 0 then NaN
  else if Rltb u (hd 0 cs) || Rltb (last cs 0) u then NaN else Fin (interp1d cs xs u).
(** 1368-1372 and 1388-1389 *)
Definition interpolated_sample (pdf : R -> R) (scale : R) (n : nat) (u : R) : ext := inv_cdf pdf (compactspace scale n) u.

(** ** grad_log_pdf *)
(** 821-827, UniformDistribution; rows of [var] are models.  One row gives an array of shape (n_rvs,). *)
Inductive garr := G1 (r : list ext) | G2 (rows : list (list ext)).
Definition uniform_grad (delta : list R) (var : list (list R)) : garr :=
  match var with
  | [_] => G1 (map (fun d => xdiv (Fin 12) (Fin (d ^ 2))) delta)
  | _ => G2 (map (map (fun _ => Fin 0)) var)
  end.
(** 879-880, NormalDistribution *)
Definition normal_grad (mean var x : R) : ext := xdiv (Fin (- (x - mean))) (Fin var).
(** 907-908, MultivariateNormalDistribution, one row *)
Definition mvn_grad (mean : list R) (invcov : list (list R)) (x : list R) : list R :=
  map (fun r => - rdot r (map2 Rminus x mean)) invcov.
(** 1349-1350, PostselectedDistribution *)
Definition postselected_grad {A B} (grad : A -> B) (x : A) : B := grad x.
