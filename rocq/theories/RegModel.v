(** Credible regions: utils.py mvee / in_ellipsoid and the region estimators of
    ParticleDistribution (distributions.py).  Arrays of reals are index functions with the shape
    passed separately; [la.inv] is an argument that returns [None] for a singular matrix. *)
From Verif Require Import Base Sums SmcModel PartModel LinAlg.
From Coq Require String.

Section Mvee.
  Variable inv : nat -> rmat -> option rmat.

  (** utils.py 326-330: Q holds the points with a row of ones below them, shape (d+1, N) *)
  Definition mvee_Q (d : nat) (points : nat -> vec) : rmat :=
    fun i a => if Nat.ltb i d then points a i else 1.
  (** utils.py 340 *)
  Definition mvee_X (N d : nat) (points : nat -> vec) (u : vec) : rmat :=
    let Q := mvee_Q d points in rmul N (rmul N Q (rdiag u)) (rtr Q).
  (** utils.py 341, given the inverse of X *)
  Definition mvee_M (d : nat) (points : nat -> vec) (Y : rmat) : vec :=
    let Q := mvee_Q d points in fun a => rmul (S d) (rmul (S d) (rtr Q) Y) Q a a.
  (** utils.py 343 *)
  Definition step_size (d : nat) (m : R) : R := (m - INR d - 1) / ((INR d + 1) * (m - 1)).
  (** utils.py 344-345 *)
  Definition new_u (s : R) (j : nat) (u : vec) : vec :=
    fun a => if Nat.eqb a j then (1 - s) * u a + s else (1 - s) * u a.
  (** utils.py 347: [la.norm] *)
  Definition vnorm (N : nat) (v : vec) : R := sqrt (Sum N (fun a => v a * v a)).

  (** One pass of the loop body, 338-348: the new (err, u).  LinAlgError is a subclass of ValueError. *)
  Definition mvee_body (N d : nat) (points : nat -> vec) (u : vec) : res (R * vec) :=
    match inv (S d) (mvee_X N d points u) with
    | None => Err ValueError
    | Some Y =>
        let M := mvee_M d points Y in
        let j := argmaxf N M in
        let u' := new_u (step_size d (M j)) j u in
        Ok (vnorm N (fun a => u' a - u a), u')
    end.
  (** utils.py 338: [while err > tol], stopped after [fuel] passes ([None]) *)
  Fixpoint mvee_loop (fuel : nat) (N d : nat) (points : nat -> vec) (tol err : R) (u : vec) : option (res vec) :=
    if Rltb tol err then
      match fuel with
      | O => None
      | S f => match mvee_body N d points u with
               | Err e => Some (Err e)
               | Ok (err', u') => mvee_loop f N d points tol err' u'
               end
      end
    else Some (Ok u).
  (** utils.py 350-353 *)
  Definition mvee_c (N : nat) (points : nat -> vec) (u : vec) : vec := fun i => Sum N (fun a => points a i * u a).
  Definition mvee_S (N : nat) (points : nat -> vec) (u : vec) : rmat :=
    let P := fun i a => points a i in
    let c := mvee_c N points u in
    fun i j => rmul N (rmul N P (rdiag u)) (rtr P) i j - router c c i j.
  Definition mvee_result (N d : nat) (points : nat -> vec) (u : vec) : res (rmat * vec) :=
    match inv d (mvee_S N points u) with
    | None => Err ValueError
    | Some Z => Ok (fun i j => 1 / INR d * Z i j, mvee_c N points u)
    end.
  (** utils.py 314-353, for a points array of shape (N, d) with N, d > 0 *)
  Definition mvee (fuel N d : nat) (points : nat -> vec) (tol : R) : option (res (rmat * vec)) :=
    match mvee_loop fuel N d points tol 1 (fun _ => 1 / INR N) with
    | None => None
    | Some (Err e) => Some (Err e)
    | Some (Ok u) => Some (mvee_result N d points u)
    end.

  (** utils.py 355-374 (the branch for a single point computes the same thing for that point) *)
  Definition in_ellipsoid (d : nat) (xs : list vec) (B : rmat) (c : vec) : res (list bool) :=
    match inv d B with
    | None => Err ValueError
    | Some Y => Ok (map (fun x => Rleb (rquad d Y (fun i => c i - x i)) 1) xs)
    end.
End Mvee.

(** Rows of a 2-D array as index functions *)
Definition rows_of (l : list (list R)) : nat -> vec := fun a i => nth i (nth a l []) 0.

(** utils.py uniquify(seq): first occurrences, in order (distributions.py 641) *)
Fixpoint uniquify_nat (l : list nat) : list nat :=
  match l with [] => [] | x :: l' => x :: filter (fun y => negb (Nat.eqb y x)) (uniquify_nat l') end.

Section Region.
  Import String.
  Local Open Scope string_scope.
  Variable inv : nat -> rmat -> option rmat.
  (** [scipy.stats.chi2.ppf(level, k)] *)
  Variable chi2_ppf : R -> nat -> R.
  (** [scipy.spatial.ConvexHull(points).vertices], indices into points *)
  Variable hull_vertices : list (list R) -> list nat.
  (** [scipy.spatial.Delaunay(points).find_simplex(x)]: a simplex index, or -1 *)
  Variable find_simplex : list (list R) -> vec -> Z.

  (** scipy refuses points with fewer than two coordinates ("Need at least 2-D data") both in
      ConvexHull and in Delaunay. *)
  Definition qhull_check (d : nat) : res unit := if Nat.ltb d 2 then Err ValueError else Ok tt.

  (** distributions.py 635-641, second component.  [asc] is the sorting permutation of the weights
      used by est_credible_region, [slice] the column selection. *)
  Definition region_est_hull_vertices (d : nat) (asc : list nat) (slice : loc -> loc) (w : list R) (l : list loc)
      (level : R) : res (list (list R)) :=
    bind (est_credible_region asc slice w l level) (fun cr => let points := fst cr in
    bind (qhull_check d) (fun _ =>
    Ok (map (fun i => nth i points []) (uniquify_nat (hull_vertices points))))).
  (** distributions.py 661-664; d is the number of selected columns *)
  Definition region_est_ellipsoid (fuel d : nat) (asc : list nat) (slice : loc -> loc) (w : list R) (l : list loc)
      (level tol : R) : option (res (rmat * vec)) :=
    match region_est_hull_vertices d asc slice w l level with
    | Err e => Some (Err e)
    | Ok vs => mvee inv fuel (List.length vs) d (rows_of vs) tol
    end.

  (** distributions.py 721-751.  [cols] lists the columns the slice selects (all of them by default);
      None for the whole call means that mvee has not stopped within [fuel] passes. *)
  Definition in_credible_region (fuel nmp : nat) (cols : list nat) (asc : list nat) (w : list R) (l : list loc)
      (points : list vec) (level : R) (method : string) (tol : option R) : option (res (list bool)) :=
    let slice := fun x : loc => map (fun j => nth j x 0) cols in
    if String.eqb method "pce" then
      let cov := est_cov nmp w l in
      let B : rmat := fun i j => nth (nth j cols 0%nat) (nth (nth i cols 0%nat) cov []) 0 in
      let c : vec := fun i => nth (nth i cols 0%nat) (est_mean nmp w l) 0 in
      let mult := chi2_ppf level (List.length cols) in
      Some (in_ellipsoid inv (List.length cols) points (fun i j => mult * B i j) c)
    else if String.eqb method "hpd-mvee" then
      let tol := match tol with None => 1 / 10000 | Some t => t end in
      match region_est_ellipsoid fuel (List.length cols) asc slice w l level tol with
      | None => None
      | Some (Err e) => Some (Err e)
      | Some (Ok (B, c)) =>
          Some (match inv (List.length cols) B with
                | None => Err ValueError
                | Some Bi => in_ellipsoid inv (List.length cols) points Bi c
                end)
      end
    else if String.eqb method "hpd-hull" then
      Some (bind (est_credible_region asc slice w l level) (fun cr =>
            bind (qhull_check (List.length cols)) (fun _ =>
            Ok (map (fun x => Z.leb 0 (find_simplex (fst cr) x)) points))))
    else Some (Err UnboundLocalError).   (* 751: results was never bound *)
End Region.
