(** Model of the plotting methods of SMCUpdater (src/qinfer/smc.py:718-790, 840-858): what is added to the figure, in order, and where
    an exception stops the drawing.

    Simplifications: matplotlib and mpltools are not modelled beyond the arguments they are called with; an array handed to
    [mpls.hinton] must have two dimensions.  Styles are left out. *)
From Coq Require Import ZArith String List.
From Verif Require Import Base Ext SmcModel PartModel RoModel GfModel.
Import ListNotations.
Open Scope R_scope.

Inductive mark :=
| Curve (xs : list R) (ys : list ext)
| XName (s : string)
| VLine (x lo hi : R)
| YLimits (lo hi : R)
| Hinton (rows cols : nat) (entry : nat -> nat -> ext)
| XTicks (at_ : list nat) (labels : list string)
| YTicks (at_ : list nat) (labels : list string)
| TicksOnTop
| Contour (rows cols : nat) (x y z : nat -> nat -> R).
Inductive failure := NoMpltools | Raised (e : exn).
(** The marks added, and what stopped the drawing *)
Definition drawing := (list mark * option failure)%type.
Definition draw (m : mark) : drawing := ([m], None).
Definition skip : drawing := ([], None).
Definition fail (e : exn) : drawing := ([], Some (Raised e)).
Definition seqd (a b : drawing) : drawing := match a with (m, None) => (m ++ fst b, snd b) | (m, Some e) => (m, Some e) end.
Notation "a ;; b" := (seqd a b) (at level 60, right associativity).
Definition attempt {A} (r : res A) (k : A -> drawing) : drawing := match r with Ok a => k a | Err e => fail e end.

(** ['${}$'.format(name)] *)
Definition math (name : string) : string := ("$" ++ name ++ "$")%string.

(** ** smc.py:718-752 [plot_posterior_marginal].  A true model is a vector or a table; other arrays are left out.
    [ylim] are the limits matplotlib chose for the curve, [d] is the number of columns of particle_locations and [s] np.argsort of the column. *)
Inductive truth := NoTruth | Vector (x : list R) | Table (rows : list (list R)).
Definition plot_posterior_marginal (names : list string) (d : nat) (s : list nat) (w : list R) (l : list loc) (idx n_res : nat) (smoothing : R)
    (range_min range_max : option R) (label_xaxis : bool) (ylim : R * R) (true_model : truth) : drawing :=
  attempt (if Nat.ltb idx d then posterior_marginal_smoothed s w l idx n_res smoothing range_min range_max else Err IndexError) (fun '(ps, pr) => draw (Curve ps pr)) ;;
  (if label_xaxis then match nth_error names idx with Some n => draw (XName (math n)) | None => fail IndexError end else skip) ;;
  (match true_model with
   | NoTruth => skip
   | _ => match (match true_model with Table [] => None | Table (r :: _) => nth_error r idx | Vector x => nth_error x idx | NoTruth => None end) with
          | None => fail IndexError
          | Some x => draw (VLine x (fst ylim - 1 / 10) (snd ylim + 1 / 10)) ;; draw (YLimits (fst ylim) (snd ylim))
          end
   end).

(** ** smc.py:754-790 [plot_covariance] *)
(** [slice.indices]: the indices that a slice selects from a sequence of length n, as in PySlice_AdjustIndices; ValueError for step 0 *)
Record slice := { s_start : option Z; s_stop : option Z; s_step : option Z }.
Definition adjust (n lower upper : Z) (z : Z) : Z :=
  (if z <? 0 then (if z + n <? lower then lower else z + n) else if upper <? z then upper else z)%Z.
Definition slice_indices (n : nat) (s : slice) : res (list nat) :=
  let n := Z.of_nat n in
  let step := match s_step s with None => 1%Z | Some z => z end in
  if Z.eqb step 0 then Err ValueError else
  let lower := if Z.ltb step 0 then (-1)%Z else 0%Z in
  let upper := if Z.ltb step 0 then (n - 1)%Z else n in
  let start := match s_start s with Some z => adjust n lower upper z | None => if Z.ltb step 0 then upper else lower end in
  let stop := match s_stop s with Some z => adjust n lower upper z | None => if Z.ltb step 0 then lower else upper end in
  let len := if Z.ltb step 0 then (if Z.ltb stop start then (start - stop - 1) / (- step) + 1 else 0)%Z
             else (if Z.ltb start stop then (stop - start - 1) / step + 1 else 0)%Z in
  Ok (map (fun i => Z.to_nat (start + Z.of_nat i * step)) (seq 0 (Z.to_nat len))).
(** param_slice: nothing, a slice, one index or a list of indices *)
Inductive selection := All | Slice (s : slice) | One (z : Z) | Several (zs : list Z).
Definition list_index {A} (l : list A) (z : Z) : res A :=
  let k := (if z <? 0 then z + Z.of_nat (length l) else z)%Z in
  if Z.ltb k 0 then Err IndexError else match nth_error l (Z.to_nat k) with Some a => Ok a | None => Err IndexError end.
Definition pick {A} (dflt : A) (l : list A) (is : list nat) : list A := map (fun i => nth i l dflt) is.
(** [mpltools] says whether mpltools could be imported.  A slice indexes the list of names and both axes of the matrix; a list of indices
    cannot index the list of names, and with one index the matrix becomes a number, over whose shape hinton fails. *)
Definition plot_covariance (mpltools : bool) (names : list string) (d : nat) (w : list R) (l : list loc) (corr : bool) (param_slice : selection)
    (tick_labels : option (list string)) : drawing :=
  if negb mpltools then ([], Some NoMpltools) else
  let m := if corr then est_corr d w l else map (map Fin) (est_cov d w l) in
  let with_slice (s : slice) :=
    attempt (slice_indices (length names) s) (fun is =>
    let ticks := seq 0 (length is) in
    let labels := match tick_labels with Some ls => ls | None => map math (pick ""%string names is) end in
    attempt (slice_indices d s) (fun js =>
    draw (Hinton (length js) (length js) (fun a b => nth (nth b js 0%nat) (nth (nth a js 0%nat) m []) NaN)) ;;
    draw (XTicks ticks labels) ;; draw (YTicks ticks labels) ;; draw TicksOnTop)) in
  match param_slice with
  | All => with_slice {| s_start := None; s_stop := None; s_step := None |}
  | Slice s => with_slice s
  | One z => attempt (list_index names z) (fun _ => attempt (list_index m z) (fun _ => fail ValueError))
  | Several _ => fail TypeError
  end.

(** ** smc.py:840-858 [plot_posterior_contour]; the mesh has res2 rows and res1 columns, and contour refuses fewer than two of either *)
Definition plot_posterior_contour (d : nat) (w : list R) (l : list loc) (i1 i2 res1 res2 : nat) (smoothing : R) : drawing :=
  if negb (Nat.ltb i1 d && Nat.ltb i2 d) then fail IndexError
  else match l with
  | [] => fail ValueError
  | _ => if Nat.ltb res1 2 || Nat.ltb res2 2 then fail TypeError
         else let '(x, y, z) := posterior_mesh w l i1 i2 res1 res2 smoothing in draw (Contour res2 res1 x y z)
  end.

(** ** smc.py:667-668 [risk]: [np.array([(x0,)], dtype=expparams_dtype)], for a structured dtype with the given fields; the only record is the
    tuple, which must have as many entries as there are fields. *)
Definition risk {X V : Type} (bayes_risk : list (list (string * X)) -> res V) (fields : list string) (x0 : X) : res V :=
  match fields with
  | [f] => bayes_risk [[(f, x0)]]
  | _ => Err ValueError
  end.
