(** Vocabulary for the credible-region properties; independent of RegModel.v. *)
From Verif Require Import Base Sums LinAlg.

(** A probability vector given as a function on the first N indices *)
Definition weights_on (N : nat) (u : nat -> R) : Prop := (forall a, (a < N)%nat -> 0 <= u a) /\ Sum N u = 1.

(** The point with a coordinate 1 appended *)
Definition lifted (d : nat) (p : vec) : vec := fun i => if Nat.ltb i d then p i else 1.
(** The N points span the whole d-dimensional space affinely: the second-moment matrix of the
    lifted points is invertible. *)
Definition spanning (N d : nat) (p : nat -> vec) : Prop :=
  exists Y, is_inv (S d) (fun i j => Sum N (fun a => lifted d (p a) i * (1 / INR N) * lifted d (p a) j)) Y.

(** (x - c)^T B (x - c) *)
Definition dist2 (d : nat) (B : rmat) (c x : vec) : R := rquad d B (fun i => x i - c i).

(** x is a convex combination of the N points p *)
Definition in_hull (N d : nat) (p : nat -> vec) (x : vec) : Prop :=
  exists u, weights_on N u /\ forall i, (i < d)%nat -> x i = Sum N (fun a => u a * p a i).

(** How far outside the unit ellipsoid a point may be when the iteration stops at tolerance tol *)
Definition slack (d : nat) (tol : R) : R :=
  let n := INR d + 1 in let s := tol * n / INR d in (1 + s * n / INR d) / (1 - s * n).

(** Rows of an array as points *)
Definition pts_of (l : list (list R)) : nat -> vec := fun a i => nth i (nth a l []) 0.
(** Contract of scipy.spatial.Delaunay(points).find_simplex: the simplices fill the convex hull *)
Definition delaunay_ok (d : nat) (find_simplex : list (list R) -> vec -> Z) : Prop :=
  forall pts x, (0 <= find_simplex pts x)%Z <-> in_hull (length pts) d (pts_of pts) x.
(** Contract of scipy.spatial.ConvexHull(points).vertices: valid indices, without repetition, whose
    points have the same hull *)
Definition hull_ok (d : nat) (hull_vertices : list (list R) -> list nat) : Prop :=
  forall pts, NoDup (hull_vertices pts) /\ (forall i, In i (hull_vertices pts) -> (i < length pts)%nat) /\
    forall a, (a < length pts)%nat ->
      in_hull (length (hull_vertices pts)) d (fun b => pts_of pts (nth b (hull_vertices pts) 0%nat)) (pts_of pts a).
