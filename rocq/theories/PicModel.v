(** Model of the rebit plots of src/qinfer/tomography/plotting_tools.py:80-291: what is added to the figure, in order, and where an
    exception stops the drawing.

    Simplifications: marks carry their positions and labels; colours, sizes, line widths and z-orders are left out except that colours
    are looked up in the palette; eigh and the vertices of the convex hull are parameters. *)
From Coq Require Import String List.
From Verif Require Import Base SmcModel PartModel PlotModel Cplx TomoModel.
Import ListNotations.
Open Scope R_scope.

Inductive mark :=
| Points (label : string) (pts : list (R * R))
| Patch (e : ellipse)
| Outline (corners : list (R * R))
| Circle (centre : R * R) (radius : R)
| Window (xlim ylim : R * R)
| AxisNames (x y : string)
| Legend.
(** The marks added, and the exception that stopped the drawing *)
Definition drawing := (list mark * option exn)%type.
Definition draw (m : mark) : drawing := ([m], None).
Definition skip : drawing := ([], None).
Definition fail (e : exn) : drawing := ([], Some e).
Definition seqd (a b : drawing) : drawing := match a with (m, None) => (m ++ fst b, snd b) | (m, Some e) => (m, Some e) end.
Notation "a ;; b" := (seqd a b) (at level 60, right associativity).
Definition attempt {A} (r : res A) (k : A -> drawing) : drawing := match r with Ok a => k a | Err e => fail e end.

(** Model parameters given to a plot: nothing, a single vector, or one row per state *)
Inductive params := Nothing | Single (x : loc) | Rows (l : list loc).
Definition axes := (nat * nat)%type.
(** 80-92 [plot_rebit_modelparams]: [modelparams[:, rebit_axes] * np.sqrt(2)] for arrays with [width] columns *)
Definition plot_rebit_modelparams (width : nat) (ps : params) (ax : axes) (label : string) : drawing :=
  match ps with
  | Nothing => fail TypeError
  | Single _ => fail IndexError
  | Rows l => if Nat.ltb (fst ax) width && Nat.ltb (snd ax) width then draw (Points label (map (rebit_point ax) l)) else fail IndexError
  end.

(** A basis as far as the plots use it *)
Record drawn_basis := { basis_of : basis; names_of : list string }.
Definition axis_name (s : string) : string := ("$\langle\!\langle " ++ s ++ " | \rho \rangle\!\rangle$")%string.
(** 94-117 [plot_decorate_rebits] *)
Definition plot_decorate_rebits (b : option drawn_basis) (ax : axes) : drawing :=
  (match b with
   | None => skip
   | Some b => match nth_error (names_of b) (fst ax), nth_error (names_of b) (snd ax) with
               | Some x, Some y => draw (AxisNames (axis_name x) (axis_name y))
               | _, _ => fail IndexError
               end
   end) ;; draw (Circle (0, 0) 1) ;; draw (Window (- (11 / 10), 11 / 10) (- (11 / 10), 11 / 10)).

(** [plt.rcParams['axes.color_cycle']]: the number of colours, or nothing where matplotlib has no such parameter *)
Definition palette := option nat.
Definition colours (p : palette) : res nat := match p with Some n => Ok n | None => Err KeyError end.
Definition colour (n k : nat) (d : drawing) : drawing := if Nat.ltb k n then d else fail IndexError.

(** A prior over states: the rows that [sample(n)] returns, its mean if it has one (GADFLIDistribution), its basis *)
Record prior := { p_sample : nat -> list loc; p_mean : option mat; p_basis : drawn_basis }.
Definition width_of (b : drawn_basis) : nat := length (bdata (basis_of b)).
(** 156-202 [plot_rebit_prior] *)
Definition plot_rebit_prior (pal : palette) (p : prior) (ax : axes) (n_samples : nat) (true_state : params) (force_mean : option mat)
    (legend : bool) (mean_colour : nat) : drawing :=
  let b := p_basis p in let w := width_of b in
  attempt (colours pal) (fun n =>
  colour n 0 (plot_rebit_modelparams w (Rows (p_sample p n_samples)) ax "Prior") ;;
  (match true_state with
   | Nothing => skip
   | _ => colour n 1 (plot_rebit_modelparams w true_state ax "True")
   end) ;;
  (match (match force_mean with Some m => Some m | None => p_mean p end) with
   | None => skip
   | Some m => colour n mean_colour (plot_rebit_modelparams w (Rows [state_to_modelparams (basis_of b) m]) ax "Mean")
   end) ;;
  plot_decorate_rebits (Some b) ax ;;
  (if legend then draw Legend else skip)).

(** 205-291 [plot_rebit_posterior]; [region] is region_est_method, [eig] the decomposition of the covariance matrix of lines 258-261,
    [hull] the vertices that region_est_hull returns, already restricted to the axes. *)
Definition plot_rebit_posterior (pal : palette) (w : list R) (l : list loc) (b : drawn_basis) (p : option prior) (true_state : params)
    (n_std : R) (ax : axes) (legend : bool) (region : option string) (eig : eig2) (hull : res (list (R * R))) : drawing :=
  let d := width_of b in
  attempt (colours pal) (fun n =>
  colour n 0 (plot_rebit_modelparams d (Rows l) ax "Posterior") ;;
  colour n 1 (plot_rebit_modelparams d true_state ax "True") ;;
  (match p with
   | None => skip
   | Some p => match p_mean p with
               | None => fail AttributeError
               | Some m => colour n 3 (plot_rebit_modelparams (width_of (p_basis p)) (Rows [state_to_modelparams (basis_of (p_basis p)) m]) ax "Prior Mean")
               end
   end) ;;
  colour n 2 (plot_rebit_modelparams d (Rows [est_mean d w l]) ax "Posterior Mean") ;;
  (match region with
   | Some r =>
       if String.eqb r "cov" then draw (Patch (rebit_ellipse eig d ax w l n_std))
       else if String.eqb r "hull" then attempt hull (fun vs => draw (Outline (map (fun v => (fst v * sqrt 2, snd v * sqrt 2)) vs)))
       else skip
   | None => skip
   end) ;;
  plot_decorate_rebits (Some b) ax ;;
  (if legend then draw Legend else skip)).
