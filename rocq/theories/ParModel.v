(** Model of DirectViewParallelizedModel (src/qinfer/parallel.py:79-282) and of the OpenCL kernel and its host code
    (src/qinfer/gpu_models.py:79-195). *)
From Verif Require Import Base Ext TwoModel.

(** ** Arrays with three indices, shape included *)
Record tensor (A : Type) := T { dim0 : nat; dim1 : nat; dim2 : nat; cells : list (list (list A)) }.
Arguments T {A} dim0 dim1 dim2 cells.
Arguments dim0 {A} t. Arguments dim1 {A} t. Arguments dim2 {A} t. Arguments cells {A} t.
Definition total_nat (l : list nat) : nat := fold_right Nat.add 0%nat l.
(** np.concatenate along axis 0 and axis 1; the other dimensions must agree *)
Definition concat_axis0 {A} (l : list (tensor A)) : res (tensor A) :=
  match l with
  | [] => Err ValueError
  | t :: _ => if forallb (fun u => Nat.eqb (dim1 u) (dim1 t) && Nat.eqb (dim2 u) (dim2 t)) l
              then Ok (T (total_nat (map dim0 l)) (dim1 t) (dim2 t) (concat (map cells l)))
              else Err ValueError
  end.
Definition concat_axis1 {A} (l : list (tensor A)) : res (tensor A) :=
  match l with
  | [] => Err ValueError
  | t :: _ => if forallb (fun u => Nat.eqb (dim0 u) (dim0 t) && Nat.eqb (dim2 u) (dim2 t)) l
              then Ok (T (dim0 t) (total_nat (map dim1 l)) (dim2 t) (map (fun i => concat (map (fun u => nth i (cells u) []) l)) (seq 0 (dim0 t))))
              else Err ValueError
  end.

(** np.array_split: the first [n mod k] sections get one element more *)
Definition section_sizes (n k : nat) : list nat := repeat (S (n / k)) (n mod k) ++ repeat (n / k)%nat (k - n mod k).
Fixpoint cut {A} (sizes : list nat) (l : list A) : list (list A) :=
  match sizes with [] => [] | s :: r => firstn s l :: cut r (skipn s l) end.
Definition array_split {A} (l : list A) (k : nat) : res (list (list A)) :=
  if Nat.eqb k 0 then Err ValueError else Ok (cut (section_sizes (length l) k) l).

(** DirectView.map_sync: the engines finish in [order]; each result goes to its own slot; map_sync returns the slots. *)
Fixpoint write {B} (i : nat) (b : B) (slots : list (option B)) : list (option B) :=
  match slots, i with [], _ => [] | _ :: s, O => Some b :: s | x :: s, S k => x :: write k b s end.
Fixpoint collect {B} (slots : list (option B)) : option (list B) :=
  match slots with
  | [] => Some []
  | Some b :: s => option_map (cons b) (collect s)
  | None :: _ => None
  end.
Definition map_sync {A B} (order : list nat) (f : nat -> A -> B) (inputs : list A) : option (list B) :=
  collect (fold_left (fun slots i => match nth_error inputs i with Some a => write i (f i a) slots | None => slots end) order (repeat None (length inputs))).

Section Par.
  Context {O M E : Type}.
  (** The serial model's likelihood, an array of shape (outcomes, models, experiments) *)
  Context (serial : list O -> list M -> list E -> tensor R).
  (** 122-135: [dv] is the number of engines of the direct view, or None after unpickling *)
  Definition n_engines (dv : option nat) : nat := match dv with Some k => k | None => 0%nat end.
  Definition threshold (dv : option nat) (serial_threshold : option Z) : Z :=
    match serial_threshold with None => 10 * Z.of_nat (n_engines dv) | Some t => t end.
  (** 187-225 *)
  Definition par_likelihood (dv : option nat) (thr : Z) (order : list nat) (os : list O) (mps : list M) (eps : list E) : res (tensor R) :=
    if (Z.of_nat (length mps) <=? thr)%Z then Ok (serial os mps eps)
    else match dv with
         | None => Err RuntimeError
         | Some k => bind (array_split mps k) (fun chunks =>
             match map_sync order (fun _ c => serial os c eps) chunks with Some L => concat_axis1 L | None => Err RuntimeError end)
         end.
  (** The serial simulation on engine [i] (each engine has its own random state): a lone outcome is returned as a scalar *)
  Inductive sim_result := SScalar (z : Z) | STensor (t : tensor Z).
  Context (sim : nat -> list M -> list E -> nat -> sim_result).
  (** np.concatenate refuses zero-dimensional arrays *)
  Fixpoint tensors (l : list sim_result) : res (list (tensor Z)) :=
    match l with [] => Ok [] | SScalar _ :: _ => Err ValueError | STensor t :: l' => bind (tensors l') (fun r => Ok (t :: r)) end.
  (** 227-282.  Engine number 0 in the serial branches stands for the calling process. *)
  Definition par_simulate (dv : option nat) (thr : Z) (order : list nat) (mps : list M) (eps : list E) (repeat : nat) (by_models : bool) : res sim_result :=
    match dv with
    | None => Err RuntimeError
    | Some k =>
        if by_models then
          if (Z.of_nat (length mps) <=? thr)%Z then Ok (sim 0 mps eps repeat)
          else bind (array_split mps k) (fun chunks =>
               match map_sync order (fun i c => sim (S i) c eps repeat) chunks with
               | Some L => bind (tensors L) (fun ts => bind (concat_axis0 ts) (fun t => Ok (STensor t)))
               | None => Err RuntimeError end)
        else
          if (Z.of_nat (length eps) <=? thr)%Z then Ok (sim 0 mps eps repeat)
          else bind (array_split eps k) (fun chunks =>
               match map_sync order (fun i c => sim (S i) mps c repeat) chunks with
               | Some L => bind (tensors L) (fun ts => bind (concat_axis1 ts) (fun t => Ok (STensor t)))
               | None => Err RuntimeError end)
    end.
End Par.

(** ** gpu_models.py *)
(** The destination buffer is a flat array; work item (i, j) writes one cell (79-93). *)
Fixpoint store {A} (i : nat) (a : A) (mem : list A) : list A :=
  match mem, i with [], _ => [] | _ :: m, O => a :: m | x :: m, S k => x :: store k a m end.
Definition work_item (n_experiments : nat) (models expparams : list R) (mem : list R) (id : nat * nat) : list R :=
  store (fst id * n_experiments + snd id) (gpu_pr0 (nth (fst id) models 0) (nth (snd id) expparams 0)) mem.
(** 147-195: [schedule] is the order in which the work items run, [mem] the uninitialised buffer *)
Definition gpu_likelihood (schedule : list (nat * nat)) (mem : list R) (os : list Z) (models expparams : list R) : tensor R :=
  let final := fold_left (work_item (length expparams) models expparams) schedule mem in
  let pr0 := map (fun i => firstn (length expparams) (skipn (i * length expparams) final)) (seq 0 (length models)) in
  T (length os) (length models) (length expparams) (map (fun o => map (map (fun p => pr0_like p o)) pr0) os).
(** test_models.py:190-200 with 126-148: SimplePrecessionModel.likelihood of a whole array; validity 111-112 and 131-136 *)
Definition precession_likelihood (os : list Z) (models expparams : list R) : tensor R :=
  T (length os) (length models) (length expparams) (map (fun o => map (fun w => map (fun t => prec_like t w o) expparams) models) os).
Definition gpu_valid (w : R) : bool := Rltb 0 w.
