(** Read-out of a particle distribution: distances and divergences between particle sets,
    marginals, meshes and the cluster metric.  No proofs here. *)
From Verif Require Import Base Ext SmcModel PartModel.

(** ** metrics.py 72-106.  A side of the distance is a plain location array, a ParticleDistribution
    or an SMCUpdater with the scale vector of its model. *)
Inductive side : Type :=
| Locs (l : list loc)
| Dist (l : list loc)
| Updater (l : list loc) (Q : list R).
Definition side_locs (p : side) : list loc := match p with Locs l => l | Dist l => l | Updater l _ => l end.
(** 97: the scale comes from [p] only, and is 1 unless [p] is an updater *)
Definition side_Q (p : side) : nat -> R := match p with Updater _ Q => fun k => nth k Q 0 | _ => fun _ => 1 end.
Definition rescaled_distance (d : nat) (p q : side) (i j : nat) : R :=
  let x := nth i (side_locs p) [] in
  let y := nth j (side_locs q) [] in
  sqrt (rsum (map (fun k => (sqrt (side_Q p k) * (nth k x 0 - nth k y 0)) * (sqrt (side_Q p k) * (nth k x 0 - nth k y 0))) (seq 0 d))).

(** ** distributions.py 466-487.  The logarithm may meet a vanishing kernel sum, hence extended numbers. *)
Definition kl_divergence (d : nat) (kernel : R -> R) (delta : R) (p : side) (w : list R) (other : side) (other_w : list R) : ext :=
  let K i j := kernel (rescaled_distance d p other i j / delta) in
  let inner i := rsum (map (fun j => nth j other_w 0 * K i j) (seq 0 (length other_w))) in
  xsub (Fin (- est_entropy w))
       (xmul (Fin (1 / delta)) (xsum (map (fun i => xmul (Fin (nth i w 0)) (xln (Fin (inner i)))) (seq 0 (length w))))).

(** ** numpy.linspace(a, b, res) *)
Definition linspace (a b : R) (res : nat) : list R :=
  map (fun i => if Nat.eqb res 1 then a else a + INR i * ((b - a) / INR (res - 1))) (seq 0 res).
(** [scipy.interpolate.interp1d(xs, ys, bounds_error=False, fill_value=0, assume_sorted=True)] at x:
    linear interpolation (np.interp) for sorted xs, the fill value outside. *)
Definition interp1d (xs ys : list R) (x : R) : R :=
  if Rltb x (hd 0 xs) || Rltb (last xs 0) x then 0
  else let j := (searchsorted_right xs x - 1)%nat in
       if Nat.eqb j (length xs - 1) then nth j ys 0
       else (nth (S j) ys 0 - nth j ys 0) / (nth (S j) xs 0 - nth j xs 0) * (x - nth j xs 0) + nth j ys 0.
(** [np.gradient(f, h)] for at least two samples; division by h = 0 gives NaN or inf *)
Definition gradient (f : list R) (h : R) : list ext :=
  let n := length f in
  map (fun i =>
    if Nat.eqb i 0 then xdiv (Fin (nth 1 f 0 - nth 0 f 0)) (Fin h)
    else if Nat.eqb i (n - 1) then xdiv (Fin (nth (n - 1) f 0 - nth (n - 2) f 0)) (Fin h)
    else xdiv (Fin (nth (i + 1) f 0 - nth (i - 1) f 0)) (Fin (2 * h))) (seq 0 n).
Definition lmin1 (l : list R) : R := match l with [] => 0 | x :: l' => fold_left Rmin l' x end.
Definition lmax1 (l : list R) : R := match l with [] => 0 | x :: l' => fold_left Rmax l' x end.

(** ** smc.py 672-716 without the smoothing step, which is in GfModel.v.  [s] is np.argsort of the parameter's column.
    [ps[1]] fails for res < 2; np.min of an empty array raises ValueError. *)
Definition posterior_marginal (s : list nat) (w : list R) (l : list loc) (idx n_res : nat) (range_min range_max : option R)
    : res (list R * list ext) :=
  let locs := map (fun i => nth idx (nth i l []) 0) s in
  match locs with
  | [] => Err ValueError
  | _ =>
    let r_min := match range_min with None => lmin1 locs | Some r => r end in
    let r_max := match range_max with None => lmax1 locs | Some r => r end in
    let ps := linspace r_min r_max n_res in
    let xs := locs ++ [r_max + Rabs (r_max - r_min)] in
    let ys := cumsum (map (fun i => nth i w 0) s) ++ [1] in
    if Nat.ltb n_res 2 then Err IndexError
    else Ok (ps, gradient (map (interp1d xs ys) ps) (nth 1 ps 0 - nth 0 ps 0))
  end.

(** ** smc.py 795-838 *)
(** [scipy.stats.norm.pdf(x, loc, scale)] *)
Definition norm_pdf (x mu scale : R) : R := exp (- ((x - mu) / scale * ((x - mu) / scale)) / 2) / (sqrt (2 * PI) * scale).
Definition kde2 (w : list R) (xs ys : list R) (scale : R) (x y : R) : R :=
  rsum (map (fun i => norm_pdf x (nth i xs 0) scale * norm_pdf y (nth i ys 0) scale * nth i w 0) (seq 0 (length w))).
(** meshgrid(g1, g2): both of shape (res2, res1) *)
Definition mesh1 (g1 : list R) (a b : nat) : R := nth b g1 0.
Definition mesh2 (g2 : list R) (a b : nat) : R := nth a g2 0.
(** 822: [np.array([p1s, p2s]).T.reshape(...)] lists the points with the column index outermost *)
Definition plot_locs (g1 g2 : list R) : list (R * R) :=
  flat_map (fun b => map (fun a => (mesh1 g1 a b, mesh2 g2 a b)) (seq 0 (length g2))) (seq 0 (length g1)).
(** 824-836: density at every listed point, reshaped to (res2, res1) in row-major order *)
Definition posterior_mesh (w : list R) (l : list loc) (i1 i2 res1 res2 : nat) (smoothing : R) : (nat -> nat -> R) * (nat -> nat -> R) * (nat -> nat -> R) :=
  let xs := col i1 l in let ys := col i2 l in
  let g1 := linspace (lmin1 xs) (lmax1 xs) res1 in
  let g2 := linspace (lmin1 ys) (lmax1 ys) res2 in
  let flat := map (fun p => kde2 w xs ys smoothing (fst p) (snd p)) (plot_locs g1 g2) in
  (mesh1 g1, mesh2 g2, fun a b => nth (a * res1 + b) flat 0).

(** ** distributions.py 548-555, for parameter m *)
Definition est_cluster_metric (dbscan : list Z) (w : list R) (l : list loc) (m : nat) : res ext :=
  bind (est_cluster_covs dbscan w l m m) (fun t => let '(wcv, bcv, tv) := t in Ok (xdiv (Fin bcv) (Fin tv))).

(** ** metrics.py 108-125 with base metric [D] (scikit-learn's pairwise_distances); [x ** w_pow] of a
    non-negative x *)
Definition np_pow (x p : R) : ext :=
  if Reqb x 0 then (if Rltb 0 p then Fin 0 else if Reqb p 0 then Fin 1 else PInf) else Fin (Rpower x p).
Definition weighted_pairwise_distance (D : nat -> nat -> R) (w : list R) (w_pow : R) (i j : nat) : ext :=
  xdiv (Fin (D i j)) (np_pow (nth i w 0 * nth j w 0 * (INR (length w) * INR (length w))) w_pow).
