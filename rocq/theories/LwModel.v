(** Model of LiuWestResampler (src/qinfer/resamplers.py:172-392) and of
    ClusteringResampler.__call__ (97-169). *)
From Verif Require Import Base Ext SmcModel PartModel.

(** resamplers.py:223-252: the attributes [_a], [_h], [_override_h]. *)
Record lw_params := { p_a : R; p_h : ext; p_override : bool }.
(** 244-252, the setter of [a] *)
Definition set_a (s : lw_params) (new_a : R) : lw_params :=
  {| p_a := new_a;
     p_h := if p_override s then p_h s else xsqrt (Fin (1 - new_a ^ 2));
     p_override := p_override s |}.
(** 223-238, [__init__]; before it the class attribute [_override_h = False] is in force and
    [_h] does not exist (any value will do). *)
Definition lw_new (a : R) (h : option R) : lw_params :=
  let s := set_a {| p_a := 0; p_h := NaN; p_override := false |} a in
  match h with
  | None => s
  | Some x => {| p_a := p_a s; p_h := Fin x; p_override := true |}
  end.

(** Elementwise vector operations. *)
Definition vadd (x y : loc) : loc := map2 Rplus x y.
Definition vscale (k : R) (x : loc) : loc := map (fun t => k * t) x.
(** [np.dot(S, z)] for a matrix given by rows *)
Definition matvec (S : list (list R)) (z : list R) : loc := map (fun row => rdot row z) S.

(** Assignment [a[idxs, :] = vals], idxs in range. *)
Fixpoint set_at {A} (i : nat) (v : A) (l : list A) : list A :=
  match l, i with
  | [], _ => []
  | _ :: r, 0%nat => v :: r
  | x :: r, S i' => x :: set_at i' v r
  end.
Fixpoint scatter {A} (idxs : list nat) (vals : list A) (l : list A) : list A :=
  match idxs, vals with
  | i :: idxs', v :: vals' => scatter idxs' vals' (set_at i v l)
  | _, _ => l
  end.

Section LiuWest.
Variable valid : loc -> bool.                (* model.are_models_valid, row by row *)
Variable postselect : bool.                  (* self._postselect *)
Variable kernel : nat -> nat -> list R.      (* column k of the kernel draw of iteration t *)

(** Local variables of the loop; [calls] counts evaluations of are_models_valid. *)
Record lw_state := { new_locs : list loc; idxs : list nat; js : list nat; mus : list loc; n_calls : nat }.

(** resamplers.py:327-372, one pass *)
Definition lw_pass (S : list (list R)) (t : nat) (s : lw_state) : lw_state :=
  let prop := map2 (fun mu k => vadd mu (matvec S (kernel t k))) (mus s) (seq 0 (length (mus s))) in
  let locs := scatter (idxs s) prop (new_locs s) in
  let resample_locs := map (fun i => nth i locs []) (idxs s) in
  let mask := if postselect then map valid resample_locs else map (fun _ => true) resample_locs in
  let rest := select (map negb mask) (idxs s) in
  {| new_locs := locs; idxs := rest; js := select (map negb mask) (js s);
     mus := firstn (length rest) (mus s);
     n_calls := n_calls s + (if postselect then 1 else 0) |}.

(** 327: [while idxs_to_resample.size and n_iters < self._maxiter]; [left] = maxiter - n_iters,
    [t] = n_iters *)
Fixpoint lw_loop (S : list (list R)) (left t : nat) (s : lw_state) : lw_state :=
  match left with
  | 0%nat => s
  | Datatypes.S left' =>
      match idxs s with
      | [] => s
      | _ => lw_loop S left' (Datatypes.S t) (lw_pass S t s)
      end
  end.

(** Constructor arguments used by the call, and the external matrix square root
    (utils.py:593-607, [sqrtm_psd], computed by scipy's eigh): root and error estimate. *)
Variable sqrtm : list (list R) -> list (list R) * ext.
Record lw_config := { c_a : R; c_h : R; c_maxiter : nat; c_comp : R; c_default_n : option nat }.
Variable c : lw_config.

(** Scaled identity [k * np.eye(d)] *)
Definition eye (k : R) (d : nat) : list (list R) :=
  map (fun i => map (fun j => if Nat.eqb i j then k else 0) (seq 0 d)) (seq 0 d).
Definition fro2 (m : list (list R)) : R := rsum (map (fun row => rsum (map (fun x => x * x) row)) m).

(** resamplers.py:256-392, [__call__].  [us] are the uniform draws, [junk] the initial contents
    of the array made by np.empty, [d] the number of model parameters.  Returns the new
    distribution, the indices of the particles that stayed invalid (a warning is given if
    there are any) and the number of calls of are_models_valid. *)
Definition lw_call (d : nat) (w : list R) (l : list loc) (n_arg : option nat)
    (pre_mean : option (list R)) (pre_cov : option (list (list R))) (us : list R) (junk : nat -> loc)
  : res ((list loc * list ext) * list nat * nat) :=
  let mean := match pre_mean with Some m => m | None => est_mean d w l end in
  let cov := match pre_cov with Some m => m | None => est_cov d w l end in
  let n := match n_arg with
           | Some n => n
           | None => match c_default_n c with Some n => n | None => length l end
           end in
  let cov' := if Reqb (sqrt (fro2 cov)) 0 then eye (c_comp c) (length cov) else cov in
  let '(S0, S_err) := sqrtm cov' in
  if negb (isfinite S_err) then Err ResamplerError else
  let S := map (vscale (c_h c)) S0 in
  let js0 := map (searchsorted_right (cumsum w)) us in
  bind (take l js0) (fun anc =>
  let mus0 := map (fun x => vadd (vscale (c_a c) x) (vscale (1 - c_a c) mean)) anc in
  let s := lw_loop S (c_maxiter c) 0
     {| new_locs := map junk (seq 0 n); idxs := seq 0 n; js := js0; mus := mus0; n_calls := 0 |} in
  bind (pd_init None (Some (new_locs s)) (Some (uniform_weights n))) (fun dist =>
  Ok (dist, idxs s, n_calls s))).
End LiuWest.

(** resamplers.py:122-169: the name [clustering] is never bound in the module (only
    [import qinfer.clustering] is executed, line 61), so evaluating the loop's iterator raises. *)
Definition clustering_call (w : list R) (l : list loc) : res (list R * list loc) := Err NameError.
