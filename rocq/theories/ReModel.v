(** The resampler as the updater calls it. *)
From Verif Require Import Base Ext SmcModel PartModel LwModel.
From Coq Require Import List.

(** A finite weight as a number (resampled weights are always finite, see c21_shape_weights_and_calls). *)
Definition finite_part (x : ext) : R := match x with Fin v => v | _ => 0 end.

(** smc.py:491-530 [resample] calls [self.resampler(self.model, self)] without a particle number and without precomputed moments
    (resamplers.py:256-392) and takes over the weights and locations of the returned distribution.  [r] lists, for each new
    particle, the uniform number that picks its ancestor (resamplers.py:318-321) and the kernel vector of the first pass
    (resamplers.py:331-333); vectors of later passes, needed only if proposals are rejected, are zero here, and so are vectors
    beyond the end of the list. *)
Definition lw_rsmp (valid : loc -> bool) (postselect : bool) (sqrtm : list (list R) -> list (list R) * ext) (cfg : lw_config)
    (d : nat) (junk : nat -> loc) (r : list (R * list R)) (w : list R) (l : list loc) : res (list R * list loc) :=
  let kernel t i := match t with 0%nat => snd (nth i r (0, repeat 0 d)) | S _ => repeat 0 d end in
  match lw_call valid postselect kernel sqrtm cfg d w l None None None (map fst r) junk with
  | Ok (dist, _, _) => Ok (map finite_part (snd dist), fst dist)
  | Err x => Err x
  end.
