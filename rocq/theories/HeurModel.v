(** Model of src/qinfer/tomography/expdesign.py: heisenberg_weyl_operators and the tomography heuristics.
    Random choices are index arguments; QuTiP's eigenstates and trace norm are arguments. *)
From Coq Require Import String.
From Verif Require Import Base Ext RList Sums Cplx SmcModel PartModel DesModel TomoModel.
From Coq Require Import List.

(** ** heisenberg_weyl_operators, 73-80 *)
Fixpoint cpow (w : C) (n : nat) : C := match n with O => c1 | S n' => cmul w (cpow w n') end.
Fixpoint mpow (d : nat) (A : mat) (n : nat) : mat := match n with O => meye | S n' => mmul d A (mpow d A n') end.
(** 74: np.exp(2 * np.pi * 1j / d) *)
Definition hw_root (d : nat) : C := mkC (cos (2 * PI / INR d)) (sin (2 * PI / INR d)).
(** 75-77: row [idx] is the ket number (idx + 1) % d *)
Definition hw_X (d : nat) : mat := fun i j => if Nat.eqb j ((i + 1) mod d) then c1 else c0.
(** 78: np.diag(w ** np.arange(d)) *)
Definition hw_Z (d : nat) : mat := fun i j => if Nat.eqb i j then cpow (hw_root d) i else c0.
(** 80; complex division by the integer zero raises *)
Definition heisenberg_weyl_operators (d : nat) : res (list mat) :=
  if Nat.eqb d 0 then Err ZeroDivisionError
  else Ok (flat_map (fun i => map (fun j => mmul d (mpow d (hw_X d) i) (mpow d (hw_Z d) j)) (seq 0 d)) (seq 0 d)).

(** ** StateTomographyHeuristic, 84-106 *)
(** An operator travels with the size of its space.  [flat().conj()] dotted with the flattened operator: ValueError when the sizes differ
    (bases.py 333-336). *)
Definition op := (nat * mat)%type.
Definition params_of (b : basis) (m : op) : res (list R) :=
  if Nat.eqb (bdim b) (fst m) then Ok (state_to_modelparams b (snd m)) else Err ValueError.
Definition vec_value (l : list R) : value := VVec (map Fin l).
(** [expparams['meas'][0, :] = ...] on a record of zeros, then the other fields *)
Definition zeros (dt : rdtype) : exp_record := fun f => match kind_of dt f with Some (KVec d) => VVec (repeat (Fin 0) d) | _ => VNum (Fin 0) end.
Definition meas_record (dt : rdtype) (other : list (string * value)) (m : res (list R)) : res exp_record :=
  bind m (fun v => bind (assign dt "meas" (vec_value v) (zeros dt)) (assign_all dt other)).
(** [call dt other basis op]: [__call__] given the operator returned by [_next_measurement] *)
Definition state_call (dt : rdtype) (other : list (string * value)) (b : basis) (m : op) : res exp_record := meas_record dt other (params_of b m).

(** ** RandomStabilizerStateHeuristic, 109-131 *)
(** [ket2dm] *)
Definition ket2dm (v : nat -> C) : mat := fun i j => cmul (v i) (conj (v j)).
(** [eigenstates] gives the list of eigenvectors; [g] and [k] are the two choices.  The group is built from the basis's dimension. *)
Definition stabilizer_init (b : basis) : res (list mat) := heisenberg_weyl_operators (bdim b).
Definition stabilizer_next (eigenstates : mat -> list (nat -> C)) (b : basis) (group : list mat) (g k : nat) : res op :=
  match nth_error group g with
  | None => Err IndexError
  | Some U => match nth_error (eigenstates U) k with None => Err IndexError | Some v => Ok (bdim b, ket2dm v) end
  end.

(** ** RandomPauliHeuristic, 134-160 *)
(** 149-154; [dim] is updater.model.base_model.dim *)
Definition pauli_init (dim : nat) : res basis :=
  let nq := Nat.log2 dim in
  if Nat.eqb (2 ^ nq) dim then pauli_basis nq else Err ValueError.
(** 156-160; [k] is the value of np.random.choice(len(pauli_basis) - 1) *)
Definition pauli_next (dim : nat) (pb : basis) (k : nat) : op :=
  (bdim pb, mscal (rc (sqrt (INR dim) / 2)) (mplus (bnth pb 0) (bnth pb (1 + k)))).

(** ** ProcessTomographyHeuristic and ProductHeuristic, 163-213 *)
(** QuTiP's [tensor] of two operators and [unit] (division by the trace norm) *)
Definition tensor (p m : op) : op := ((fst p * fst m)%nat, kron (fst m) (snd p) (snd m)).
Definition unit_op (tracenorm : op -> R) (p : op) : op := (fst p, mscal (rc (/ tracenorm p)) (snd p)).
(** 208-213 *)
Definition product_next (tracenorm : op -> R) (prep meas : op) : op * op := (unit_op tracenorm prep, meas).
(** 171-178; [cb] is the model's basis *)
Definition process_call (dt : rdtype) (other : list (string * value)) (cb : basis) (pm : op * op) : res exp_record :=
  let t := tensor (fst pm) (snd pm) in
  meas_record dt other (params_of cb (fst t, mscal (rc (sqrt (INR (bdim cb)))) (snd t))).
(** 203-206 with RandomPauliHeuristic and RandomStabilizerStateHeuristic as classes: the dimension seen by either is that of the updater's
    model (91), the basis is the one given. *)
Definition product_pauli_init (cb sb : basis) : res basis := pauli_init (bdim cb).
Definition product_stabilizer_init (cb sb : basis) : res (list mat) := stabilizer_init sb.

(** ** BestOfKMetaheuristic.__call__, 231-245 *)
(** np.argmax: the first of the greatest *)
Fixpoint argmax_from (best : R) (ibest i : nat) (l : list R) : nat :=
  match l with [] => ibest | x :: l' => if Rltb best x then argmax_from x i (S i) l' else argmax_from best ibest (S i) l' end.
Definition argmax (l : list R) : res nat := match l with [] => Err ValueError | x :: l' => Ok (argmax_from x 0 1 l') end.
(** einsum 'ei,ij,ej->e' for one experiment; the lengths of [m] and [cov] must agree *)
Definition quad_form (m : list R) (cov : list (list R)) : R := rsum (map2 (fun a row => a * rdot row m) m cov).
Definition best_of_k (meas : exp_record -> list R) (dt : rdtype) (other : list (string * value)) (cov : list (list R)) (drawn : list exp_record) : res exp_record :=
  if forallb (fun e => Nat.eqb (length (meas e)) (length cov)) drawn then
    bind (argmax (map (fun e => quad_form (meas e) cov) drawn)) (fun i =>
    match nth_error drawn i with None => Err IndexError | Some e => assign_all dt other e end)
  else Err ValueError.
