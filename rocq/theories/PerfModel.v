(** Model of the remaining parts of src/qinfer/perf_testing.py (timers, array alignment, record types and progress reports) and of
    the IPython progress bar, src/qinfer/ipy.py. *)
From Coq Require Import String.
From Verif Require Import Base RList MiscModel.
From Coq Require Import List.

(** ** Arrays with any number of axes: the length of each axis, and the entry at each list of positions (only positions in range
    are ever read). *)
Record nd {A} := { shp : list nat; at_ : list nat -> A }.
Arguments nd : clear implicits.
Arguments Build_nd {A}.

(** perf_testing.py:155-159 [promote_dims_left]: new axes of length one on the left. *)
Definition promote_dims_left {A} (ndim : nat) (a : nd A) : nd A :=
  let k := (ndim - length (shp a))%nat in
  if Nat.ltb (length (shp a)) ndim
  then Build_nd (repeat 1%nat k ++ shp a) (fun idx => at_ a (skipn k idx))
  else a.
(** Where the slice [-m:] of an axis of length [n] starts; [-0] is 0. *)
Definition slice_start (n m : nat) : nat := if Nat.eqb m 0 then 0%nat else (n - m)%nat.
(** Indexing by the tuple of slices [-m:], one for each axis (178-180). *)
Definition slice_right {A} (ms : list nat) (a : nd A) : nd A :=
  Build_nd (map2 (fun n m => n - slice_start n m)%nat (shp a) ms)
           (fun idx => at_ a (map2 Nat.add idx (map2 slice_start (shp a) ms))).
Definition list_max1 (l : list nat) : nat := fold_right Nat.max 0%nat l.
Definition list_min1 (l : list nat) : nat := match l with [] => 0%nat | x :: r => fold_right Nat.min x r end.
(** 161-180 [shorten_right].  [max] of no arguments fails. *)
Definition shorten_right_nd {A} (args : list (nd A)) : res (list (nd A)) :=
  match args with
  | [] => Err ValueError
  | _ =>
      let max_dims := list_max1 (map (fun a => length (shp a)) args) in
      let args := map (promote_dims_left max_dims) args in
      let min_shapes := map (fun axis => list_min1 (map (fun a => nth axis (shp a) 0%nat) args)) (seq 0 max_dims) in
      Ok (map (slice_right min_shapes) args)
  end.

(** ** 132-153: the type of the performance records.  A field has a name and a number of entries. *)
Inductive exp_dtype := Simple | Fields (l : list (string * nat)).
Definition perf_dtype : list (string * nat) :=
  [("loss", 1%nat); ("resample_count", 1%nat); ("elapsed_time", 1%nat); ("outcome", 1%nat)]%string.
Definition actual_dtype (n_true n_model : nat) (e : exp_dtype) : list (string * nat) * bool :=
  let model_dtype := [("true", n_true); ("est", n_model)]%string in
  match e with
  | Simple => (perf_dtype ++ model_dtype ++ [("experiment"%string, 1%nat)], true)
  | Fields l => (perf_dtype ++ model_dtype ++ l, false)
  end.
(** NumPy refuses record types in which a name occurs twice (237 and 337, [np.zeros]). *)
Fixpoint distinct_names (l : list string) : bool :=
  match l with [] => true | x :: r => negb (existsb (String.eqb x) r) && distinct_names r end.
Definition zeros_dtype (d : list (string * nat)) : res (list (string * nat)) :=
  if distinct_names (map fst d) then Ok d else Err ValueError.

(** ** 65-112: timers.  The clock is given by its readings. *)
Record timer := { tic : R; toc : option R }.
Definition new_timer (now : R) : timer := {| tic := now; toc := None |}.
Definition stop_timer (now : R) (t : timer) : timer := {| tic := tic t; toc := Some now |}.
Definition delta_t (now : R) (t : timer) : R := match toc t with Some e => e - tic t | None => now - tic t end.
(** 100-112 [timing]: the body runs from clock reading [t0] to [t1].  There is no [finally]: when the body fails the timer is not
    stopped. *)
Definition timing {A} (t0 t1 : R) (body : timer -> res A) : timer * res A :=
  let t := new_timer t0 in
  match body t with
  | Ok a => (stop_timer t1 t, Ok a)
  | Err x => (t, Err x)
  end.

(** ** ipy.py:56-122.  [W] is the state of the widget; each use of it (assigning, displaying, closing, reading) may fail. *)
Record widget {W} := {
  w_set_max : nat -> W -> res W; w_display : W -> res W; w_set_value : nat -> W -> res W;
  w_close : W -> res W; w_set_desc : string -> W -> res W; w_desc : W -> res string
}.
Arguments widget : clear implicits.
Section Ipy.
Context {W : Type} (v : widget W).
(** 83-86 *)
Definition ipy_description (s : W) : option string := match w_desc v s with Ok d => Some d | Err _ => None end.
(** 88-92 *)
Definition ipy_set_description (d : string) (s : W) : W := match w_set_desc v d s with Ok s' => s' | Err _ => s end.
(** 94-104: two statements in the [try] *)
Definition ipy_start (m : nat) (s : W) : W :=
  match w_set_max v m s with
  | Ok s1 => match w_display v s1 with Ok s2 => s2 | Err _ => s1 end
  | Err _ => s
  end.
(** 106-113 *)
Definition ipy_update (n : nat) (s : W) : W := match w_set_value v n s with Ok s' => s' | Err _ => s end.
(** 115-122 *)
Definition ipy_finished (s : W) : W := match w_close v s with Ok s' => s' | Err _ => s end.
End Ipy.

(** ** perf_testing.py:339-384: trials with a progress bar.  [P] is the state of the bar; what is done to it may fail, and what it
    did before failing stays done. *)
Record bar {P} := {
  b_start : nat -> P -> P * res unit; b_update : nat -> P -> P * res unit;
  b_describe : option (string -> P -> P * res unit);   (** only if the bar has a description *)
  b_finished : P -> P * res unit
}.
Arguments bar : clear implicits.
Section Trials.
Context {A P : Type} (b : bar P) (text : nat -> string).
Definition describe (k : nat) (p : P) : P * res unit :=
  match b_describe b with Some f => f (text k) p | None => (p, Ok tt) end.
(** 367-372 *)
Definition report (k : nat) (p : P) : P * res unit :=
  match b_update b k p with
  | (p1, Ok _) => describe k p1
  | (p1, Err x) => (p1, Err x)
  end.
(** 362-378: the results from trial [k] on.  A failure of the bar is treated like a failure of the trial. *)
Fixpoint collect_report (allow : bool) (k : nat) (trials : list (act A)) (p : P) (s : errstate)
  : P * (errstate * res (list (option A))) :=
  match trials with
  | [] => (p, (s, Ok []))
  | t :: ts =>
      let '(p1, s1, r) :=
        match t s with
        | (s1, Ok a) => match report k p with (p1, Ok _) => (p1, s1, Ok a) | (p1, Err x) => (p1, s1, Err x) end
        | (s1, Err x) => (p, s1, Err x)
        end in
      match r with
      | Ok a => let '(p2, (s2, rest)) := collect_report allow (S k) ts p1 s1 in
                (p2, (s2, match rest with Ok l => Ok (Some a :: l) | Err y => Err y end))
      | Err x => if allow
                 then let '(p2, (s2, rest)) := collect_report allow (S k) ts p1 s1 in
                      (p2, (s2, match rest with Ok l => Ok (None :: l) | Err y => Err y end))
                 else (p1, (s1, Err x))
      end
  end.
(** 346-384.  [p0] is the new bar.  The bar is told that it is finished in any case; if that fails, this is the failure seen. *)
Definition perf_multiple_bar (allow : bool) (trials : list (act A)) (p0 : P) (old : errstate)
  : P * (errstate * res (list (option A))) :=
  let '(p1, (s1, r1)) :=
    match b_start b (length trials) p0 with
    | (p1, Err x) => (p1, (old, Err x))
    | (p1, Ok _) =>
        match describe 0 p1 with
        | (p2, Err x) => (p2, (old, Err x))
        | (p2, Ok _) =>
            match collect_report allow 0 trials p2 (with_divide ERaise old) with
            | (p3, (s, Ok l)) => (p3, (old, Ok l))
            | (p3, (s, Err x)) => (p3, (s, Err x))
            end
        end
    end in
  match b_finished b p1 with
  | (p2, Ok _) => (p2, (s1, r1))
  | (p2, Err x) => (p2, (s1, Err x))
  end.
End Trials.
(** The IPython bar as such a bar: nothing it does fails. *)
Definition ipy_bar {W} (v : widget W) : bar W := {|
  b_start := fun n p => (ipy_start v n p, Ok tt); b_update := fun n p => (ipy_update v n p, Ok tt);
  b_describe := Some (fun d p => (ipy_set_description v d p, Ok tt)); b_finished := fun p => (ipy_finished v p, Ok tt) |}.
