(** Models of the samplers of quantum states: HilbertSchmidtUniform, HaarUniform, GinibreUniform and SingleSampleMixin of
    src/qinfer/distributions.py; GinibreDistribution, GinibreReditDistribution and rand_dm_ginibre_redit of
    src/qinfer/tomography/distributions.py (qutip's rand_dm_ginibre is an argument).  Normal variates and the result of
    la.qr are arguments. *)
From Coq Require Import String.
From Verif Require Import Base Ext Sums Cplx TomoModel.

(** ** Which classes can be instantiated: abc refuses a class for which some name resolves to an abstract method. *)
Record pyclass := { c_defines : list string; c_abstract : list string }.
(** Method resolution: the classes of the MRO in order. *)
Fixpoint resolves_abstract (mro : list pyclass) (name : string) : bool :=
  match mro with
  | [] => false
  | c :: rest => if existsb (String.eqb name) (c_abstract c) then true
                 else if existsb (String.eqb name) (c_defines c) then false else resolves_abstract rest name
  end.
Definition instantiate (mro : list pyclass) : res unit :=
  if existsb (resolves_abstract mro) (flat_map c_abstract mro) then Err TypeError else Ok tt.
(** 101-127, 129-143 *)
Definition cls_Distribution := {| c_defines := []; c_abstract := ["n_rvs"; "sample"]%string |}.
Definition cls_SingleSample := {| c_defines := ["sample"]%string; c_abstract := ["_sample"]%string |}.
(** 1168-1220, 1223-1267, 1269-1301 *)
Definition mro_HilbertSchmidt := [{| c_defines := ["__init__"; "n_rvs"; "sample"; "make_Paulis"]%string; c_abstract := [] |}; cls_SingleSample; cls_Distribution].
Definition mro_Haar := [{| c_defines := ["__init__"; "n_rvs"; "_sample"]%string; c_abstract := [] |}; cls_SingleSample; cls_Distribution].
Definition mro_GinibreUniform := [{| c_defines := ["__init__"; "n_rvs"; "_sample"]%string; c_abstract := [] |}; cls_SingleSample; cls_Distribution].
(** tomography/distributions.py 88-141, 168-197, 199-219 *)
Definition cls_DensityOperator := {| c_defines := ["__init__"; "n_rvs"; "dim"; "basis"; "_sample"]%string; c_abstract := ["_sample_dm"]%string |}.
Definition mro_DensityOperator := [cls_DensityOperator; cls_SingleSample; cls_Distribution].
Definition mro_Ginibre := {| c_defines := ["__init__"; "__repr__"; "_sample_dm"]%string; c_abstract := [] |} :: mro_DensityOperator.

(** ** Drawing [n] samples one at a time (139-143); a row of the wrong length cannot be assigned (a single entry is broadcast). *)
Definition put_row (n_rvs : nat) (r : list ext) : res (list ext) :=
  if Nat.eqb (length r) n_rvs then Ok r else match r with [x] => Ok (repeat x n_rvs) | _ => Err ValueError end.
Definition single_sample (n_rvs : nat) (f : nat -> res (list ext)) (n : nat) : res (list (list ext)) :=
  map_res (fun i => bind (f i) (put_row n_rvs)) (seq 0 n).

(** ** Single-qubit expectation values; [expect_z], ... of a 2 by 2 matrix are Tr(rho sigma) *)
Definition pauli_z : mat := fun i j => match i, j with O, O => c1 | 1%nat, 1%nat => copp c1 | _, _ => c0 end.
Definition pauli_y : mat := fun i j => match i, j with O, 1%nat => copp ci | 1%nat, O => ci | _, _ => c0 end.
Definition pauli_x : mat := fun i j => match i, j with O, 1%nat => c1 | 1%nat, O => c1 | _, _ => c0 end.
Definition expect (P psi : mat) : R := re (csum 2 (fun i => cmul (conj (psi i 0%nat)) (csum 2 (fun j => cmul (P i j) (psi j 0%nat))))).
Definition cdiv_abs (z : C) : C := mkC (re z / sqrt (cabs2 z)) (im z / sqrt (cabs2 z)).
(** HaarUniform._sample 1249-1267, given q, r = la.qr(z): np.dot(U, [1, 0]) needs dim 2, and needs r[0,0] <> 0 to be a number *)
Definition haar_psi (q r : mat) : mat := fun i _ => cmul (q i 0%nat) (cdiv_abs (r 0%nat 0%nat)).
Definition haar_row (dim : nat) (q r : mat) : res (list ext) :=
  if negb (Nat.eqb dim 2) then Err ValueError
  else if Reqb (cabs2 (r 0%nat 0%nat)) 0 then Ok [NaN; NaN; NaN]
  else let psi := haar_psi q r in Ok [Fin (expect pauli_x psi); Fin (expect pauli_y psi); Fin (expect pauli_z psi)].
(** GinibreUniform._sample 1290-1301; [z] has [dim] rows and [k] columns *)
Definition gram_c (k : nat) (z : mat) : mat := fun i j => csum k (fun l => cmul (z i l) (conj (z j l))).
Definition cdiv (t : C) (m : mat) : mat := fun i j => cmul (m i j) (mkC (re t / cabs2 t) (- im t / cabs2 t)).
Definition ginibre_row (dim k : nat) (z : mat) : res (list ext) :=
  if negb (Nat.eqb dim 2) then Err ValueError
  else let g := gram_c k z in let t := mtrace 2 g in
    if Reqb (cabs2 t) 0 then Ok [NaN; NaN; NaN]
    else let rho := cdiv t g in Ok [Fin (re (mtrace 2 (mmul 2 rho pauli_x))); Fin (re (mtrace 2 (mmul 2 rho pauli_y))); Fin (re (mtrace 2 (mmul 2 rho pauli_z)))].

(** ** tomography/distributions.py *)
(** 79-87: real symmetric; [x] has N rows and [rank] columns; the model is only used for non-zero trace *)
Definition redit_rank (N : nat) (rank : option nat) : nat := match rank with None => N | Some r => r end.
Definition gram_r (k : nat) (x : nat -> nat -> R) : nat -> nat -> R := fun i j => Sum k (fun l => x i l * x j l).
Definition redit (N : nat) (rank : option nat) (x : nat -> nat -> R) : mat :=
  let g := gram_r (redit_rank N rank) x in fun i j => mkC (g i j / Sum N (fun a => g a a)) 0.
(** 180-184 and 212-214: only one of the two constructors checks the rank *)
Definition ginibre_new (dim : nat) (rank : option nat) : res (option nat) :=
  match rank with Some r => if Nat.ltb dim r then Err ValueError else Ok rank | None => Ok rank end.
Definition ginibre_redit_new (dim : nat) (rank : option nat) : res (option nat) := Ok rank.
(** 138-141 with rand_dm_ginibre_redit *)
Definition redit_sample (b : basis) (rank : option nat) (x : nat -> nat -> R) : list R := dm_sample b (redit (bdim b) rank x).
