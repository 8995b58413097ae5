(** Vocabulary for the read-out properties; independent of RoModel.v. *)
From Verif Require Import Base Sums.

(** Weighted Euclidean distance *)
Definition wdist (d : nat) (Q : nat -> R) (x y : list R) : R :=
  sqrt (Sum d (fun k => Q k * ((nth k x 0 - nth k y 0) * (nth k x 0 - nth k y 0)))).

(** Posterior mass at or below x of a weighted sample (entry [idx] of every row) *)
Definition cdf (w : list R) (l : list (list R)) (idx : nat) (x : R) : R :=
  Sum (length w) (fun i => if Rleb (nth idx (nth i l []) 0) x then nth i w 0 else 0).

(** Trapezoid rule for equally spaced samples *)
Definition trapz (h : R) (f : list R) : R :=
  Sum (length f - 1) (fun i => h * (nth i f 0 + nth (S i) f 0) / 2).


(** A range end is the requested one or the extreme location *)
Definition is_min (n : nat) (f : nat -> R) (a : R) : Prop := (exists i, (i < n)%nat /\ f i = a) /\ forall i, (i < n)%nat -> a <= f i.
Definition is_max (n : nat) (f : nat -> R) (b : R) : Prop := (exists i, (i < n)%nat /\ f i = b) /\ forall i, (i < n)%nat -> f i <= b.
Definition endpoint (o : option R) (extreme : R -> Prop) (a : R) : Prop := match o with Some r => a = r | None => extreme a end.

(** Kernel density estimate with isotropic kernel [K] and bandwidth [delta] of the points y, weights v *)
Definition kde (K : R -> R) (delta : R) (n : nat) (v dist : nat -> R) : R := Sum n (fun j => v j * (K (dist j / delta) / delta)).

(** Two-dimensional Gaussian kernel density estimate *)
Definition gauss (sigma x : R) : R := exp (- (x * x) / (2 * (sigma * sigma))) / (sigma * sqrt (2 * PI)).
Definition gauss_kde2 (sigma : R) (w : list R) (l : list (list R)) (i1 i2 : nat) (x y : R) : R :=
  Sum (length w) (fun i => nth i w 0 * (gauss sigma (x - nth i1 (nth i l []) 0) * gauss sigma (y - nth i2 (nth i l []) 0))).
