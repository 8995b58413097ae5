(** Model of the arrays and lists an updater hands out: which methods of SMCUpdater write into the arrays they hold, and which bind new ones
    (src/qinfer/smc.py 136-178, 193-262, 281-320, 388-457, 459-487, 491-551).  Every method of SmcModel.v is written out again over a store
    of weight arrays, location arrays and lists; an attribute is an index into the store.  Simplified: a resampler and [update_timestep] return
    arrays that nobody else holds, as all those of qinfer do; a fresh location array is described without its zeros. *)
From Verif Require Import Base RList Ext SmcModel.

Section Heap.
Context {O E RND : Type}.

(** What the caller and the updater may both refer to, and the attributes of the updater. *)
Record hstate := {
  wh : list (list R); lh : list (list loc); dh : list (list O); nh : list (list R);
  wa : nat;      (* particle_weights *)
  la : nat;      (* particle_locations *)
  da : nat;      (* _data_record *)
  na : nat;      (* _normalization_record *)
  h_mness : ext; h_rcnt : nat; h_jr : bool; h_calls : nat
}.
Definition store {T} (a : nat) (x : T) (h : list T) : list T := firstn a h ++ x :: skipn (S a) h.
(** writing into the array at an address, whoever does it *)
Definition poke_w (a : nat) (x : list R) (h : hstate) : hstate :=
  {| wh := store a x (wh h); lh := lh h; dh := dh h; nh := nh h; wa := wa h; la := la h; da := da h; na := na h; h_mness := h_mness h; h_rcnt := h_rcnt h; h_jr := h_jr h; h_calls := h_calls h |}.
Definition poke_l (a : nat) (x : list loc) (h : hstate) : hstate :=
  {| wh := wh h; lh := store a x (lh h); dh := dh h; nh := nh h; wa := wa h; la := la h; da := da h; na := na h; h_mness := h_mness h; h_rcnt := h_rcnt h; h_jr := h_jr h; h_calls := h_calls h |}.
Definition poke_d (a : nat) (x : list O) (h : hstate) : hstate :=
  {| wh := wh h; lh := lh h; dh := store a x (dh h); nh := nh h; wa := wa h; la := la h; da := da h; na := na h; h_mness := h_mness h; h_rcnt := h_rcnt h; h_jr := h_jr h; h_calls := h_calls h |}.
Definition poke_n (a : nat) (x : list R) (h : hstate) : hstate :=
  {| wh := wh h; lh := lh h; dh := dh h; nh := store a x (nh h); wa := wa h; la := la h; da := da h; na := na h; h_mness := h_mness h; h_rcnt := h_rcnt h; h_jr := h_jr h; h_calls := h_calls h |}.
(** binding an attribute to a new array *)
Definition bind_w (x : list R) (h : hstate) : hstate :=
  {| wh := wh h ++ [x]; lh := lh h; dh := dh h; nh := nh h; wa := length (wh h); la := la h; da := da h; na := na h; h_mness := h_mness h; h_rcnt := h_rcnt h; h_jr := h_jr h; h_calls := h_calls h |}.
Definition bind_l (x : list loc) (h : hstate) : hstate :=
  {| wh := wh h; lh := lh h ++ [x]; dh := dh h; nh := nh h; wa := wa h; la := length (lh h); da := da h; na := na h; h_mness := h_mness h; h_rcnt := h_rcnt h; h_jr := h_jr h; h_calls := h_calls h |}.
Definition scalars (m : ext) (k : nat) (j : bool) (n : nat) (h : hstate) : hstate :=
  {| wh := wh h; lh := lh h; dh := dh h; nh := nh h; wa := wa h; la := la h; da := da h; na := na h; h_mness := m; h_rcnt := k; h_jr := j; h_calls := n |}.
Definition W (h : hstate) : list R := nth (wa h) (wh h) [].
Definition L (h : hstate) : list loc := nth (la h) (lh h) [].
Definition D (h : hstate) : list O := nth (da h) (dh h) [].
Definition N (h : hstate) : list R := nth (na h) (nh h) [].
(** what the updater itself sees *)
Definition view (h : hstate) : @state O :=
  {| ws := W h; ls := L h; drec := D h; nrec := N h; mness := h_mness h; rcnt := h_rcnt h; jr := h_jr h; calls := h_calls h |}.

Variable c : @config O E RND.

(** smc.py 491-551: the attributes are bound to the arrays of the new distribution (524-525), which is canonicalised in place (529) *)
Definition h_resample (r : RND) (h : hstate) : hstate * option exn :=
  let h1 := scalars (h_mness h) (S (h_rcnt h)) true (h_calls h) h in
  match rsmp c r (W h1) (L h1) with
  | Err x => (h1, Some x)
  | Ok (w', l') =>
    let h2 := bind_l l' (bind_w w' h1) in
    (if canonize c then poke_l (la h2) (canon (md c) (L h2)) h2 else h2, None)
  end.
(** 263-277 *)
Definition h_maybe_resample (r : RND) (h : hstate) : hstate * option exn :=
  if xltb (n_ess (W h)) (Fin (INR (length (L h)) * rthresh c)) then h_resample r h else (h, None).
(** 281-320: new weights (307) and, unless only some parameters are reset, a new location array (312), which is then written to (316, 320) *)
Definition h_reset (r : RND) (h : hstate) (np : option nat) (only : option (list nat)) (reset_weights : bool) : hstate * option exn :=
  match np, only with
  | Some _, Some _ => (h, Some ValueError)
  | _, _ =>
    let n := match np with Some n => n | None => length (L h) end in
    let h1 := if reset_weights then bind_w (uniform_weights n) h else h in
    match only with
    | None =>
      let h2 := bind_l (repeat [] n) h1 in
      let h3 := poke_l (la h2) (prior c r n) h2 in
      (if canonize c then poke_l (la h3) (canon (md c) (L h3)) h3 else h3, None)
    | Some sel =>
      let h3 := poke_l (la h1) (set_cols sel (L h1) (get_cols sel (prior c r n))) h1 in
      (if canonize c then poke_l (la h3) (set_cols sel (L h3) (canon (md c) (get_cols sel (L h3)))) h3 else h3, None)
    end
  end.
(** 324-386: nothing is written but the model's counter *)
Definition h_hyp (h : hstate) (os : list O) (es : list E) : hstate * res hyp_result :=
  let h1 := scalars (h_mness h) (h_rcnt h) (h_jr h) (h_calls h + length os * length (L h) * length es)%nat h in
  (h1, snd (hypothetical_update c (view h) os es)).
(** 441-457: the weights are overwritten in place (441), the normalization is appended in place (444), the locations are bound to a new array (447) *)
Definition h_install (r : RND) (h : hstate) (w : list R) (norm : R) (e : E) (check : bool) : hstate * option exn :=
  let h1 := poke_w (wa h) w h in
  let h2 := poke_n (na h1) (N h1 ++ [norm]) h1 in
  let h3 := bind_l (timestep (md c) r (L h2) e) h2 in
  let h4 := scalars (if xleb (n_ess (W h3)) (h_mness h3) then n_ess (W h3) else h_mness h3) (h_rcnt h3) (h_jr h3) (h_calls h3) h3 in
  if check then h_maybe_resample r h4 else (h4, None).
(** 388-457 *)
Definition h_update (r : RND) (h : hstate) (o : O) (e : E) (check : bool) : hstate * option exn :=
  let h0 := poke_d (da h) (D h ++ [o]) h in
  let h0 := scalars (h_mness h0) (h_rcnt h0) false (h_calls h0) h0 in
  match h_hyp h0 [o] [e] with
  | (h1, Err x) => (h1, Some x)
  | (h1, Ok p) =>
    match h_weights p, h_norm p with
    | [[w0]], [[norm]] =>
      let w := clip_negative w0 in
      if Rleb (rsum w) (zthresh c) then
        match zpolicy c with
        | PIgnore | PWarn => h_install r h1 w norm e check
        | PSkip => (h1, None)
        | PError => (h1, Some RuntimeError)
        | PReset => h_install r (fst (h_reset r h1 None None true)) w norm e check
        | POther => (h1, Some ValueError)
        end
      else h_install r h1 w norm e check
    | _, _ => (h1, Some IndexError)
    end
  end.
(** 459-487 *)
Fixpoint h_batch_loop (rs : nat -> RND) (interval : Z) (idx : nat) (data : list (O * E)) (h : hstate) : hstate * option exn :=
  match data with
  | [] => (h, None)
  | (o, e) :: data' =>
    match h_update (rs idx) h o e false with
    | (h1, Some x) => (h1, Some x)
    | (h1, None) =>
      if Z.eqb interval 0 then (h1, Some ZeroDivisionError) else
      if Z.eqb (Z.of_nat (S idx) mod interval) 0 then
        match h_maybe_resample (rs idx) h1 with
        | (h2, Some x) => (h2, Some x)
        | (h2, None) => h_batch_loop rs interval (S idx) data' h2
        end
      else h_batch_loop rs interval (S idx) data' h1
    end
  end.
Definition h_batch_update (rs : nat -> RND) (h : hstate) (os : list O) (es : list E) (interval : Z) : hstate * option exn :=
  if Nat.eqb (length es) (length os) then h_batch_loop rs interval 0 (combine os es) h else (h, Some ValueError).
Definition h_step (h : hstate) (x : op) : hstate * option exn :=
  match x with
  | OUpdate r o e check => h_update r h o e check
  | OBatch rs os es interval => h_batch_update rs h os es interval
  | OResample r => h_resample r h
  | OCheck r => h_maybe_resample r h
  | OReset r np only rw => h_reset r h np only rw
  | OHyp os es => match h_hyp h os es with (h', Err x) => (h', Some x) | (h', Ok _) => (h', None) end
  end.
Definition h_run (h : hstate) (xs : list op) : hstate := fold_left (fun h x => fst (h_step h x)) xs h.

(** What callers do between the methods: [data_record] (241-250) makes a copy and hands it out; they write into any array or list they were handed.
    [particle_weights], [particle_locations] and [normalization_record] (204-213) hand out [wa], [la] and [na] themselves. *)
Definition data_record (h : hstate) : hstate * nat :=
  ({| wh := wh h; lh := lh h; dh := dh h ++ [D h]; nh := nh h; wa := wa h; la := la h; da := da h; na := na h;
      h_mness := h_mness h; h_rcnt := h_rcnt h; h_jr := h_jr h; h_calls := h_calls h |}, length (dh h)).
Inductive event :=
| EOp (x : @op O E RND)
| EData
| EPokeW (a : nat) (x : list R)
| EPokeL (a : nat) (x : list loc)
| EPokeD (a : nat) (x : list O)
| EPokeN (a : nat) (x : list R).
Definition happen (h : hstate) (v : event) : hstate :=
  match v with
  | EOp x => fst (h_step h x)
  | EData => fst (data_record h)
  | EPokeW a x => poke_w a x h
  | EPokeL a x => poke_l a x h
  | EPokeD a x => poke_d a x h
  | EPokeN a x => poke_n a x h
  end.
Definition live (h : hstate) (vs : list event) : hstate := fold_left happen vs h.
End Heap.
