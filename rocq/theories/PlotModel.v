(** Model of the geometry drawn by src/qinfer/tomography/plotting_tools.py: error ellipses and rebit points.  Colours, labels and the
    figure itself are left out. *)
From Verif Require Import Base RList Sums SmcModel PartModel.
From Coq Require Import List.

(** np.arctan2 (signed zeros are not distinguished). *)
Definition arctan2 (y x : R) : R :=
  if Rltb 0 x then atan (y / x)
  else if Rltb x 0 then (if Rleb 0 y then atan (y / x) + PI else atan (y / x) - PI)
  else if Rltb 0 y then PI / 2 else if Rltb y 0 then - (PI / 2) else 0.
Definition degrees (t : R) : R := t * 180 / PI.

(** What np.linalg.eigh returns for a two by two matrix: two eigenvalues, two columns. *)
Record eig2 := { val0 : R; val1 : R; vec0 : R * R; vec1 : R * R }.
(** plotting_tools.py:137-140 [eigsorted]: reversed ascending argsort, applied to values and columns. *)
Definition eigsorted (e : eig2) : eig2 :=
  let '(first, second) := if Rltb (val1 e) (val0 e) then (1%nat, 0%nat) else (0%nat, 1%nat) in
  let v := fun k => if Nat.eqb k 0 then val0 e else val1 e in
  let c := fun k => if Nat.eqb k 0 then vec0 e else vec1 e in
  {| val0 := v second; val1 := v first; vec0 := c second; vec1 := c first |}.

(** Matplotlib's Ellipse patch: centre, full width, full height, angle in degrees. *)
Record ellipse := { e_xy : R * R; e_width : R; e_height : R; e_angle : R }.
(** 119-153 [plot_cov_ellipse]; [e] is eigh(cov). *)
Definition plot_cov_ellipse (e : eig2) (pos : R * R) (nstd : R) : ellipse :=
  let s := eigsorted e in
  let theta := degrees (arctan2 (snd (vec0 s)) (fst (vec0 s))) in
  {| e_xy := pos; e_width := 2 * nstd * sqrt (val0 s); e_height := 2 * nstd * sqrt (val1 s); e_angle := theta |}.

(** 80-92 [plot_rebit_modelparams]: where the point of one model parameter vector is drawn; the axes are in range. *)
Definition rebit_point (ax : nat * nat) (mp : loc) : R * R := (nth (fst ax) mp 0 * sqrt 2, nth (snd ax) mp 0 * sqrt 2).
(** 74 [REBIT_AXES] *)
Definition rebit_axes : nat * nat := (1%nat, 2%nat).
(** 258-271: the matrix whose ellipse [plot_rebit_posterior] draws (entries 00, 01, 10, 11), and its centre. *)
Definition rebit_cov (d : nat) (ax : nat * nat) (w : list R) (l : list loc) : R * R * R * R :=
  let c := fun m n => 2 * nth n (nth m (est_cov d w l) []) 0 in
  let '(i, j) := ax in (c i i, c i j, c j i, c j j).
Definition rebit_ellipse (e : eig2) (d : nat) (ax : nat * nat) (w : list R) (l : list loc) (n_std : R) : ellipse :=
  plot_cov_ellipse e (rebit_point ax (est_mean d w l)) n_std.
