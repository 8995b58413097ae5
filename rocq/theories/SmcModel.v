(** Model of the sequential Monte Carlo updater, src/qinfer/smc.py.

    Simplifications (also listed in DESIGN.md):
    - arithmetic is exact (real numbers) instead of IEEE double;
    - a particle location is a list of reals; the experiment and outcome types, the
      statistical model (likelihood, update_timestep, canonicalize), the prior and the
      resampler are arbitrary functions, the random ones taking an extra argument of an
      arbitrary type [RND] which stands for the state of the random generator;
    - warnings, logging and plotting are left out;
    - multiplying weights and likelihoods of different lengths raises ValueError
      (NumPy's broadcasting of length-one arrays is not modelled here; NdModel2.v runs the same computation on arrays). *)
From Verif Require Import Base Ext.

(** A particle location: one row of [particle_locations]. *)
Notation loc := (list R).

Section Smc.
Context {O E RND : Type}.



(** What the updater calls on its model: abstract_model.py [Model.likelihood] 439-468,
    [Simulatable.update_timestep] 357-374 (whole array, one experiment),
    [Simulatable.canonicalize] 376-395. *)
Record model := {
  lik : O -> loc -> E -> R;
  timestep : RND -> list loc -> E -> list loc;
  canon : list loc -> list loc
}.

(** smc.py:424-436, the [zero_weight_policy] strings. *)
Inductive policy := PIgnore | PSkip | PWarn | PError | PReset | POther.

(** Constructor arguments of SMCUpdater, smc.py:123-130, that stay fixed.  [rsmp] is the
    call [self.resampler(self.model, self)] of line 523. *)
Record config := {
  md : model;
  prior : RND -> nat -> list loc;
  rsmp : RND -> list R -> list loc -> res (list R * list loc);
  rthresh : R;
  zpolicy : policy;
  zthresh : R;
  canonize : bool
}.

(** Mutable attributes of the updater (smc.py:136-178) plus the model's call counter. *)
Record state := {
  ws : list R;            (* particle_weights *)
  ls : list loc;          (* particle_locations *)
  drec : list O;          (* _data_record *)
  nrec : list R;          (* _normalization_record *)
  mness : ext;            (* _min_n_ess *)
  rcnt : nat;             (* _resample_count *)
  jr : bool;              (* _just_resampled *)
  calls : nat             (* model._call_count *)
}.

(** distributions.py:290-296 [n_particles] *)
Definition n_particles (s : state) : nat := length (ls s).

(** distributions.py:299-307 [n_ess] *)
Definition n_ess (w : list R) : ext := xdiv (Fin 1) (Fin (rsum (map (fun x => x * x) w))).

(** distributions.py:337-348 [particle_mean] for [d] model parameters: np.dot(weights, locations) *)
Definition particle_mean (d : nat) (w : list R) (l : list loc) : list R :=
  map (fun j => rdot w (col j l)) (seq 0 d).

(** distributions.py:351-399 [particle_covariance_mtx], entry (m, n). *)
Definition particle_cov (w : list R) (l : list loc) (m n : nat) : R :=
  rsum (map2 (fun wi xi => wi * nth m xi 0 * nth n xi 0) w l)
  - rdot w (col m l) * rdot w (col n l).

Variable c : config.

(** smc.py:263-277 and 491-551.  [resample] marks the step before calling the resampler, so
    a resampler exception leaves the flag and the counter already changed. *)
Definition resample (r : RND) (s : state) : state * option exn :=
  let s1 := {| ws := ws s; ls := ls s; drec := drec s; nrec := nrec s; mness := mness s;
               rcnt := S (rcnt s); jr := true; calls := calls s |} in
  match rsmp c r (ws s) (ls s) with
  | Err e => (s1, Some e)
  | Ok (w', l') =>
      ({| ws := w';
          ls := if canonize c then canon (md c) l' else l';
          drec := drec s; nrec := nrec s; mness := mness s;
          rcnt := S (rcnt s); jr := true; calls := calls s |}, None)
  end.

Definition maybe_resample (r : RND) (s : state) : state * option exn :=
  if xltb (n_ess (ws s)) (Fin (INR (n_particles s) * rthresh c))
  then resample r s else (s, None).

(** Column selection and assignment [a[:, sel]] / [a[:, sel] = b], for in-range [sel]. *)
Definition get_cols (sel : list nat) (rows : list loc) : list loc :=
  map (fun row => map (fun j => nth j row 0) sel) rows.
Fixpoint set_nth (i : nat) (v : R) (row : loc) : loc :=
  match row, i with
  | [], _ => []
  | _ :: row', 0%nat => v :: row'
  | x :: row', S i' => x :: set_nth i' v row'
  end.
Definition set_row (sel : list nat) (row vals : loc) : loc :=
  fold_left (fun acc iv => set_nth (fst iv) (snd iv) acc) (combine sel vals) row.
Definition set_cols (sel : list nat) (rows sub : list loc) : list loc :=
  map2 (set_row sel) rows sub.

(** smc.py:281-320 [reset] *)
Definition reset (r : RND) (s : state) (np : option nat) (only : option (list nat))
           (reset_weights : bool) : state * option exn :=
  match np, only with
  | Some _, Some _ => (s, Some ValueError)
  | _, _ =>
      let n := match np with Some n => n | None => n_particles s end in
      let w' := if reset_weights then uniform_weights n else ws s in
      let samp := prior c r n in
      let l' :=
        match only with
        | None => if canonize c then canon (md c) samp else samp
        | Some sel =>
            let l1 := set_cols sel (ls s) (get_cols sel samp) in
            if canonize c then set_cols sel l1 (canon (md c) (get_cols sel l1)) else l1
        end in
      ({| ws := w'; ls := l'; drec := drec s; nrec := nrec s; mness := mness s;
          rcnt := rcnt s; jr := jr s; calls := calls s |}, None)
  end.

(** smc.py:123-178 [__init__]; [both] says whether [resample_a] and [resampler] were both given. *)
Definition init (r : RND) (n : nat) (both : bool) : res state :=
  if both then Err ValueError else
  let s0 := {| ws := []; ls := []; drec := []; nrec := []; mness := Fin (INR n);
               rcnt := 0; jr := false; calls := 0 |} in
  Ok (fst (reset r s0 (Some n) None true)).

(** smc.py:353-373 for one outcome and one experiment: likelihoods, unnormalised weights,
    scale, and scale with near-zero values replaced by one. *)
Definition L_row (l : list loc) (o : O) (e : E) : list R := map (fun x => lik (md c) o x e) l.
Definition hyp_row (w : list R) (l : list loc) (o : O) (e : E) : list R := map2 Rmult w (L_row l o e).
Definition norm_scale (w : list R) (l : list loc) (o : O) (e : E) : R := rsum (hyp_row w l o e).
Definition fix_norm (N : R) : R := if Rltb (Rabs N) eps then 1 else N.
Definition norm_row (w : list R) (l : list loc) (o : O) (e : E) : list R :=
  let N := fix_norm (norm_scale w l o e) in map (fun x => x / N) (hyp_row w l o e).

(** smc.py:324-386 [hypothetical_update]: arrays indexed [outcome][experiment][particle] and
    [outcome][experiment].  The model's call counter advances (abstract_model.py:466-468). *)
Record hyp_result := { h_weights : list (list (list R)); h_lik : list (list (list R)); h_norm : list (list R) }.
Definition add_calls (k : nat) (s : state) : state :=
  {| ws := ws s; ls := ls s; drec := drec s; nrec := nrec s; mness := mness s;
     rcnt := rcnt s; jr := jr s; calls := calls s + k |}.
Definition hypothetical_update (s : state) (os : list O) (es : list E) : state * res hyp_result :=
  let s' := add_calls (length os * length (ls s) * length es) s in
  if negb (Nat.eqb (length (ws s)) (length (ls s))) then (s', Err ValueError) else
  (s', Ok {| h_weights := map (fun o => map (fun e => norm_row (ws s) (ls s) o e) es) os;
             h_lik := map (fun o => map (fun e => L_row (ls s) o e) es) os;
             h_norm := map (fun o => map (fun e => norm_scale (ws s) (ls s) o e) es) os |}).

(** smc.py:416-418 *)
Definition clip_negative (w : list R) : list R :=
  if forallb (fun x => Rleb 0 x) w then w else map (clip 0 1) w.

(** smc.py:441-457: what happens once the zero-weight check has let the update through. *)
Definition install (r : RND) (s : state) (w : list R) (N : R) (e : E) (check : bool) : state * option exn :=
  let l' := timestep (md c) r (ls s) e in
  let s1 := {| ws := w; ls := l'; drec := drec s; nrec := nrec s ++ [N];
               mness := if xleb (n_ess w) (mness s) then n_ess w else mness s;
               rcnt := rcnt s; jr := jr s; calls := calls s |} in
  if check then maybe_resample r s1 else (s1, None).

(** smc.py:388-457 [update] for a single outcome and a single experiment. *)
Definition update (r : RND) (s : state) (o : O) (e : E) (check : bool) : state * option exn :=
  let s0 := {| ws := ws s; ls := ls s; drec := drec s ++ [o]; nrec := nrec s; mness := mness s;
               rcnt := rcnt s; jr := false; calls := calls s |} in
  match hypothetical_update s0 [o] [e] with
  | (s1, Err x) => (s1, Some x)
  | (s1, Ok h) =>
      match h_weights h, h_norm h with
      | [[w0]], [[N]] =>
          let w := clip_negative w0 in
          if Rleb (rsum w) (zthresh c) then
            match zpolicy c with
            | PIgnore | PWarn => install r s1 w N e check
            | PSkip => (s1, None)
            | PError => (s1, Some RuntimeError)
            | PReset => install r (fst (reset r s1 None None true)) w N e check
            | POther => (s1, Some ValueError)
            end
          else install r s1 w N e check
      | _, _ => (s1, Some IndexError)
      end
  end.

(** smc.py:459-487 [batch_update]; [rs i] is the randomness used by item [i].
    [k % 0] raises ZeroDivisionError. *)
Fixpoint batch_loop (rs : nat -> RND) (interval : Z) (idx : nat) (data : list (O * E)) (s : state)
  : state * option exn :=
  match data with
  | [] => (s, None)
  | (o, e) :: data' =>
      match update (rs idx) s o e false with
      | (s1, Some x) => (s1, Some x)
      | (s1, None) =>
          if Z.eqb interval 0 then (s1, Some ZeroDivisionError) else
          if Z.eqb (Z.of_nat (S idx) mod interval) 0 then
            match maybe_resample (rs idx) s1 with
            | (s2, Some x) => (s2, Some x)
            | (s2, None) => batch_loop rs interval (S idx) data' s2
            end
          else batch_loop rs interval (S idx) data' s1
      end
  end.
Definition batch_update (rs : nat -> RND) (s : state) (os : list O) (es : list E) (interval : Z)
  : state * option exn :=
  if Nat.eqb (length es) (length os) then batch_loop rs interval 0 (combine os es) s
  else (s, Some ValueError).

(** smc.py:215-226 [log_total_likelihood] *)
Definition log_total_likelihood (s : state) : ext := xsum (map (fun N => xln (Fin N)) (nrec s)).

(** The public operations, and histories of them.  An exception returned to the caller is
    assumed to be caught by the caller, who then goes on. *)
Inductive op :=
| OUpdate (r : RND) (o : O) (e : E) (check : bool)
| OBatch (rs : nat -> RND) (os : list O) (es : list E) (interval : Z)
| OResample (r : RND)
| OCheck (r : RND)                     (* _maybe_resample, smc.py:263-277 *)
| OReset (r : RND) (np : option nat) (only : option (list nat)) (reset_weights : bool)
| OHyp (os : list O) (es : list E).

Definition step (s : state) (x : op) : state * option exn :=
  match x with
  | OUpdate r o e check => update r s o e check
  | OBatch rs os es interval => batch_update rs s os es interval
  | OResample r => resample r s
  | OCheck r => maybe_resample r s
  | OReset r np only rw => reset r s np only rw
  | OHyp os es => match hypothetical_update s os es with
                  | (s', Err x) => (s', Some x) | (s', Ok _) => (s', None) end
  end.
Definition run (s : state) (xs : list op) : state := fold_left (fun s x => fst (step s x)) xs s.

End Smc.
