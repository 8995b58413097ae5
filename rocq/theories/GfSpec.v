(** Vocabulary for the smoothing properties; independent of GfModel.v. *)
From Verif Require Import Base Sums.

(** The samples continued beyond both ends by mirror images: y is the mirror extension of x *)
Definition mirror_extension (n : nat) (x : nat -> R) (y : Z -> R) : Prop :=
  (forall i, (i < n)%nat -> y (Z.of_nat i) = x i) /\
  (forall j, y (-1 - j)%Z = y j) /\
  (forall j, y (j + 2 * Z.of_nat n)%Z = y j).

(** Sum over the offsets -r .. r *)
Definition SumZ (r : nat) (f : Z -> R) : R := Sum (2 * r + 1) (fun t => f (Z.of_nat t - Z.of_nat r)%Z).

(** Gaussian bell with standard deviation [sd], not normalised *)
Definition bell (sd x : R) : R := exp (- (x * x) / (2 * (sd * sd))).

(** [q] is the smoothing of [p] (spacing [h]) by a Gaussian of standard deviation [sd] cut off after [r] steps *)
Definition gaussian_average (n : nat) (p q : nat -> R) (h sd : R) (r : nat) : Prop :=
  exists y, mirror_extension n p y /\
    forall i, (i < n)%nat -> q i = SumZ r (fun k => bell sd (IZR k * h) * y (Z.of_nat i + k)%Z) / SumZ r (fun k => bell sd (IZR k * h)).
