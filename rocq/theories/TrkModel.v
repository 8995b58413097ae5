(** Model of what an updater reports besides its posterior: tracked divergences, warnings and debug messages
    (src/qinfer/smc.py 149, 168, 252-277, 388-457, 459-487 and 491-551).  The updater itself is the one of SmcModel.v; every method is
    written out again with these outputs.  Simplified: warnings are recorded in order and do not stop the program, as with Python's
    filters other than [error]; repeated warnings are not suppressed. *)
From Verif Require Import Base RList Ext SmcModel PartModel RoModel.

Inductive warning :=
| WSmall       (* 267-273, ApproximationWarning: n_ess at most ten *)
| WNegative    (* 416-417, ApproximationWarning *)
| WZero        (* 428-429, ApproximationWarning *)
| WReset       (* 432-433, ApproximationWarning *)
| WAgain       (* 496-501, ResamplerWarning *)
| WCache.      (* 533-536, the model's clear_cache raised *)

Section Trk.
Context {O E RND : Type}.

(** [debug_resampling]; the number of model parameters and their scale [model.Q]; [model.clear_cache()], which may raise *)
Record options := { dbg : bool; ndim : nat; scale : list R; clear_cache : RND -> option exn }.
(** [_resampling_divergences] is [None] unless tracking was asked for (168) *)
Record tstate := { base : @state O; divs : option (list ext); warns : list warning; dlog : list (list R * R) }.
Variable c : @config O E RND.
Variable opt : options.

(** st.norm(loc=0, scale=1).pdf, distributions.py 473 *)
Definition std_normal (x : R) : R := norm_pdf x 0 1.
(** distributions.py 466-487 with the default kernel and bandwidth, of the updater against its former particles *)
Definition divergence (new_w : list R) (new_l : list loc) (old_w : list R) (old_l : list loc) : ext :=
  kl_divergence (ndim opt) std_normal (1 / 100) (Updater new_l (scale opt)) new_w (Locs old_l) old_w.
(** np.linalg.norm of the difference of two covariance matrices *)
Definition cov_distance (w : list R) (l : list loc) (w' : list R) (l' : list loc) : R :=
  sqrt (rsum (map (fun m => rsum (map (fun n => (particle_cov w' l' m n - particle_cov w l m n) ^ 2) (seq 0 (ndim opt)))) (seq 0 (ndim opt)))).

(** smc.py 491-551 *)
Definition t_resample (r : RND) (t : tstate) : tstate * option exn :=
  let s := base t in
  let w1 := if jr s then [WAgain] else [] in
  match resample c r s with
  | (s', Some x) => ({| base := s'; divs := divs t; warns := warns t ++ w1; dlog := dlog t |}, Some x)
  | (s', None) =>
    let w2 := match clear_cache opt r with Some _ => [WCache] | None => [] end in
    ({| base := s';
        divs := option_map (fun l => l ++ [divergence (ws s') (ls s') (ws s) (ls s)]) (divs t);
        warns := warns t ++ w1 ++ w2;
        dlog := if dbg opt then dlog t ++ [(map2 Rminus (est_mean (ndim opt) (ws s) (ls s)) (est_mean (ndim opt) (ws s') (ls s')),
                                            cov_distance (ws s) (ls s) (ws s') (ls s'))] else dlog t |}, None)
  end.
Definition add_warn (ws : list warning) (t : tstate) : tstate := {| base := base t; divs := divs t; warns := warns t ++ ws; dlog := dlog t |}.
Definition with_base (s : state) (t : tstate) : tstate := {| base := s; divs := divs t; warns := warns t; dlog := dlog t |}.
(** smc.py 263-277 *)
Definition t_maybe_resample (r : RND) (t : tstate) : tstate * option exn :=
  let ess := n_ess (ws (base t)) in
  let t1 := if xleb ess (Fin 10) then add_warn [WSmall] t else t in
  if xltb ess (Fin (INR (n_particles (base t)) * rthresh c)) then t_resample r t1 else (t1, None).
(** smc.py 441-457 *)
Definition t_install (r : RND) (t : tstate) (w : list R) (N : R) (e : E) (check : bool) : tstate * option exn :=
  let t1 := with_base (fst (install c r (base t) w N e false)) t in
  if check then t_maybe_resample r t1 else (t1, None).
(** smc.py 388-457 *)
Definition t_update (r : RND) (t : tstate) (o : O) (e : E) (check : bool) : tstate * option exn :=
  let s := base t in
  let s0 := {| ws := ws s; ls := ls s; drec := drec s ++ [o]; nrec := nrec s; mness := mness s; rcnt := rcnt s; jr := false; calls := calls s |} in
  match hypothetical_update c s0 [o] [e] with
  | (s1, Err x) => (with_base s1 t, Some x)
  | (s1, Ok h) =>
    match h_weights h, h_norm h with
    | [[w0]], [[N]] =>
      let t1 := if forallb (fun x => Rleb 0 x) w0 then with_base s1 t else add_warn [WNegative] (with_base s1 t) in
      let w := clip_negative w0 in
      if Rleb (rsum w) (zthresh c) then
        match zpolicy c with
        | PIgnore => t_install r t1 w N e check
        | PSkip => (t1, None)
        | PWarn => t_install r (add_warn [WZero] t1) w N e check
        | PError => (t1, Some RuntimeError)
        | PReset => t_install r (with_base (fst (reset c r s1 None None true)) (add_warn [WReset] t1)) w N e check
        | POther => (t1, Some ValueError)
        end
      else t_install r t1 w N e check
    | _, _ => (with_base s1 t, Some IndexError)
    end
  end.
(** smc.py 459-487 *)
Fixpoint t_batch_loop (rs : nat -> RND) (interval : Z) (idx : nat) (data : list (O * E)) (t : tstate) : tstate * option exn :=
  match data with
  | [] => (t, None)
  | (o, e) :: data' =>
    match t_update (rs idx) t o e false with
    | (t1, Some x) => (t1, Some x)
    | (t1, None) =>
      if Z.eqb interval 0 then (t1, Some ZeroDivisionError) else
      if Z.eqb (Z.of_nat (S idx) mod interval) 0 then
        match t_maybe_resample (rs idx) t1 with
        | (t2, Some x) => (t2, Some x)
        | (t2, None) => t_batch_loop rs interval (S idx) data' t2
        end
      else t_batch_loop rs interval (S idx) data' t1
    end
  end.
Definition t_batch_update (rs : nat -> RND) (t : tstate) (os : list O) (es : list E) (interval : Z) : tstate * option exn :=
  if Nat.eqb (length es) (length os) then t_batch_loop rs interval 0 (combine os es) t else (t, Some ValueError).
(** The public operations; [reset] (281-320) and [hypothetical_update] (324-386) report nothing *)
Definition t_step (t : tstate) (x : op) : tstate * option exn :=
  match x with
  | OUpdate r o e check => t_update r t o e check
  | OBatch rs os es interval => t_batch_update rs t os es interval
  | OResample r => t_resample r t
  | OCheck r => t_maybe_resample r t
  | OReset _ _ _ _ | OHyp _ _ => let (s', x') := step c (base t) x in (with_base s' t, x')
  end.
Definition t_run (t : tstate) (xs : list op) : tstate := fold_left (fun t x => fst (t_step t x)) xs t.
(** 123-178: the constructor; [track_resampling_divergence] *)
Definition t_init (r : RND) (n : nat) (both track : bool) : res tstate :=
  bind (init c r n both) (fun s => Ok {| base := s; divs := if track then Some [] else None; warns := []; dlog := [] |}).
End Trk.
