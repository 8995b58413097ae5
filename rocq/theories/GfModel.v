(** Model of the smoothing step of [SMCUpdater.posterior_marginal] (src/qinfer/smc.py 711-712):
    [gaussian_filter1d(pr, res*smoothing/(np.abs(r_max-r_min)), output=pr)].
    [gaussian_filter1d] is scipy.ndimage's; it is modelled from its documentation with the
    default arguments order=0, mode='reflect', truncate=4.0, over real numbers.  The filter
    reads its input line from a copy, so writing to [pr] itself is harmless. *)
From Verif Require Import Base Ext SmcModel PartModel RoModel.

(** scipy's mode='reflect': the input is extended as (d c b a | a b c d | d c b a) *)
Definition reflect_index (n : nat) (i : Z) : nat :=
  let m := (i mod (2 * Z.of_nat n))%Z in
  if (m <? Z.of_nat n)%Z then Z.to_nat m else Z.to_nat (2 * Z.of_nat n - 1 - m).

(** scipy: [lw = int(truncate * sd + 0.5)] *)
Definition kernel_radius (sigma : R) : nat := Z.to_nat (Int_part (4 * sigma + 1 / 2)).
(** scipy: [phi_x = exp(-0.5 / sigma2 * x ** 2); phi_x / phi_x.sum()] for x in [-lw .. lw] *)
Definition kernel (sigma : R) : list R :=
  let lw := kernel_radius sigma in
  let phi := map (fun t => let x := IZR (Z.of_nat t - Z.of_nat lw) in exp (- (1 / 2) / (sigma * sigma) * (x * x))) (seq 0 (2 * lw + 1)) in
  map (fun p => p / rsum phi) phi.
(** scipy: [correlate1d(input, weights)] with the centre of the weights at entry [lw] *)
Definition correlate1d (x : list ext) (weights : list R) : list ext :=
  let lw := (length weights / 2)%nat in
  map (fun i => xsum (map (fun t => xmul (Fin (nth t weights 0))
                                      (nth (reflect_index (length x) (Z.of_nat i + Z.of_nat t - Z.of_nat lw)) x NaN))
                       (seq 0 (length weights)))) (seq 0 (length x)).
(** scipy: the weights are reversed, since the filter is a correlation *)
Definition gaussian_filter1d (x : list ext) (sigma : R) : list ext := correlate1d x (rev (kernel sigma)).

(** ** smc.py 695-697: the ends of the axis *)
Definition marginal_range (s : list nat) (l : list loc) (idx : nat) (range_min range_max : option R) : R * R :=
  let locs := map (fun i => nth idx (nth i l []) 0) s in
  (match range_min with None => lmin1 locs | Some r => r end, match range_max with None => lmax1 locs | Some r => r end).

(** ** smc.py 672-716 with the smoothing step.  A range of length zero makes the kernel width
    infinite, and scipy's [int(inf)] raises OverflowError. *)
Definition posterior_marginal_smoothed (s : list nat) (w : list R) (l : list loc) (idx n_res : nat) (smoothing : R)
    (range_min range_max : option R) : res (list R * list ext) :=
  bind (posterior_marginal s w l idx n_res range_min range_max) (fun '(ps, pr) =>
    if Rltb 0 smoothing then
      let '(r_min, r_max) := marginal_range s l idx range_min range_max in
      if Reqb (Rabs (r_max - r_min)) 0 then Err OverflowError
      else Ok (ps, gaussian_filter1d pr (INR n_res * smoothing / Rabs (r_max - r_min)))
    else Ok (ps, pr)).
