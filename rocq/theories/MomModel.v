(** Truncated form of src/qinfer/distributions.py NormalDistribution; the untruncated form is [normal_dist] of DistModel. *)
From Verif Require Import Base Ext DistModel.

(** 862-867: the limits handed to scipy's truncnorm, in units of the standard deviation (division as in numpy) *)
Definition trunc_limits (mean var low high : R) : ext * ext :=
  let sigma := sqrt var in (xdiv (Fin (low - mean)) (Fin sigma), xdiv (Fin (high - mean)) (Fin sigma)).
(** 868 and 876-877: scipy's truncnorm(a, b, loc, scale) draws [loc + scale * t] with [t] between [a] and [b] *)
Definition truncnorm_dist (mean var : R) : dist := Scalar (fun t => mean + sqrt var * t).
