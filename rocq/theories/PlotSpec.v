(** Specification vocabulary for drawn ellipses. *)
From Verif Require Import Base.
From Verif Require Import RList Sums SmcModel PartModel PlotModel.
From Coq Require Import List.

(** The points of an ellipse patch: the unit disc, stretched to the half axes, turned anticlockwise by the angle, moved to the centre. *)
Definition inside (e : ellipse) (x : R * R) : Prop :=
  let t := e_angle e * PI / 180 in
  exists u v, u ^ 2 + v ^ 2 <= 1 /\
    fst x = fst (e_xy e) + (cos t * (e_width e / 2 * u) - sin t * (e_height e / 2 * v)) /\
    snd x = snd (e_xy e) + (sin t * (e_width e / 2 * u) + cos t * (e_height e / 2 * v)).
(** [e] is an eigendecomposition of the symmetric matrix a b / b c with orthonormal columns. *)
Definition eig_of (a b c : R) (e : eig2) : Prop :=
  let '(p, q) := vec0 e in let '(r, s) := vec1 e in
  p ^ 2 + q ^ 2 = 1 /\ r ^ 2 + s ^ 2 = 1 /\ p * r + q * s = 0 /\
  a = val0 e * p ^ 2 + val1 e * r ^ 2 /\ b = val0 e * (p * q) + val1 e * (r * s) /\ c = val0 e * q ^ 2 + val1 e * s ^ 2.
(** (x - pos)^T cov^(-1) (x - pos) times det cov, for cov = a b / b c. *)
Definition scaled_distance2 (a b c : R) (pos x : R * R) : R :=
  let dx := fst x - fst pos in let dy := snd x - snd pos in c * dx ^ 2 - 2 * b * (dx * dy) + a * dy ^ 2.
