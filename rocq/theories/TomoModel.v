(** Model of src/qinfer/tomography: bases.py (gell_mann_basis, tensor_product_basis, pauli_basis, TomographyBasis
    conversions), models.py (TomographyModel, DiffusiveTomographyModel) and distributions.py (GADFLIDistribution,
    DensityOperatorDistribution._sample, TensorProductDistribution.__init__).
    Arrays are modelled entry by entry: a stack of matrices is a list of [mat]. Floating point is exact real arithmetic
    except where the code divides by something that can vanish (GADFLI), where extended numbers are used. *)
From Verif Require Import Base RList Ext Sums Cplx TwoModel.

(** ** bases.py *)
(** TomographyBasis: [bdim] is data.shape[1] (equal to prod(dims) for every basis built by the functions below), [bdata] the stack [data].
    Labels, dims lists and names are not modelled. (bases.py 218-232) *)
Record basis := { bdim : nat; bdata : list mat }.
Definition bnth (b : basis) (a : nat) : mat := nth a (bdata b) mzero.

(** A stack under construction: zeros of shape (n,d,d) as a function of the plane index; one assignment [basis[k,...] = ...] replaces plane k. *)
Definition stack := nat -> mat.
Definition set_plane (B : stack) (u : nat * (mat -> mat)) : stack := fun a => if Nat.eqb a (fst u) then snd u (B a) else B a.
(** [m[[i,j],[j,i]] = [x,y]] *)
Definition set_pair (i j : nat) (x y : C) (m : mat) : mat := fun r c => if Nat.eqb r i && Nat.eqb c j then x else if Nat.eqb r j && Nat.eqb c i then y else m r c.
(** [np.diag(np.concatenate([np.ones((k,)), [-k], np.zeros((dim-k-1,))])) / np.sqrt(k + k**2)] (bases.py 95-99) *)
Definition gm_diag (k : nat) : mat := fun r c => if Nat.eqb r c then rc ((if Nat.ltb r k then 1 else if Nat.eqb r k then - INR k else 0) / sqrt (INR k + INR k ^ 2)) else c0.
(** The assignments made by gell_mann_basis, in program order. (bases.py 87-109) *)
Definition gm_offdiag (d : nat) (i : nat) : list (nat * (mat -> mat)) :=
  flat_map (fun j =>
    let idx := ((i - 1) * i / 2 + j + d)%nat in
    [ (idx, set_pair i j (rc (1 / sqrt 2)) (rc (1 / sqrt 2)));
      ((idx + d * (d - 1) / 2)%nat, set_pair i j (mkC 0 (1 / sqrt 2)) (mkC 0 (- (1 / sqrt 2)))) ]) (seq 0 i).
Definition gm_assignments (d : nat) : list (nat * (mat -> mat)) :=
  [ (0%nat, fun _ => fun r c => if Nat.eqb r c then rc (1 / sqrt (INR d)) else c0) ]
  ++ map (fun k => (k, fun _ : mat => gm_diag k)) (seq 1 (d - 1))
  ++ flat_map (gm_offdiag d) (seq 1 (d - 1)).
(** [gell_mann_basis] (bases.py 71-111). For dim = 0 the array has no plane 0 and the first assignment raises IndexError. *)
Definition gell_mann_basis (d : nat) : res basis :=
  if Nat.eqb d 0 then Err IndexError
  else let B := fold_left set_plane (gm_assignments d) (fun _ => mzero) in
       Ok {| bdim := d; bdata := map B (seq 0 (d ^ 2)) |}.

(** [np.kron] of a matrix with a square matrix of size q *)
Definition kron (q : nat) (A B : mat) : mat := fun r c => cmul (A (r / q)%nat (c / q)%nat) (B (r mod q)%nat (c mod q)%nat).
(** [itertools.product] *)
Fixpoint it_product {A} (ls : list (list A)) : list (list A) :=
  match ls with [] => [ [] ] | l :: ls' => flat_map (fun x => map (cons x) (it_product ls')) l end.
(** [reduce(np.kron, factors)]; each factor travels with its size *)
Definition kron2 (A B : nat * mat) : nat * mat := ((fst A * fst B)%nat, kron (fst B) (snd A) (snd B)).
Definition reduce_kron (fs : list (nat * mat)) : res (nat * mat) :=
  match fs with [] => Err TypeError | f :: fs' => Ok (fold_left kron2 fs' f) end.
(** [tensor_product_basis] (bases.py 113-135): zeros((dim**2, dim, dim)), plane idx written with the idx-th product.
    With no factor np.prod([]) is the float 1.0 and np.zeros raises TypeError. More than dim**2 products: IndexError. *)
Definition tp_planes (bs : list basis) : list mat :=
  flat_map (fun fs => match reduce_kron fs with Ok f => [snd f] | Err _ => [] end)
           (it_product (map (fun b => map (fun m => (bdim b, m)) (bdata b)) bs)).
Definition tensor_product_basis (bs : list basis) : res basis :=
  match bs with
  | [] => Err TypeError
  | _ => let dim := fold_left Nat.mul (map bdim bs) 1%nat in
         let ps := tp_planes bs in
         if Nat.ltb (dim ^ 2) (length ps) then Err IndexError
         else Ok {| bdim := dim; bdata := ps ++ repeat mzero (dim ^ 2 - length ps) |}
  end.
(** [pauli_basis(nq)] (bases.py 137-154); data[[0,2,3,1]] reorders the planes. *)
Definition pauli_factor : res basis :=
  bind (gell_mann_basis 2) (fun g => Ok {| bdim := 2; bdata := map (bnth g) [0; 2; 3; 1]%nat |}).
Definition pauli_basis (nq : nat) : res basis := bind pauli_factor (fun p => tensor_product_basis (repeat p nq)).

(** [state_to_modelparams] (bases.py 323-336): np.real(np.dot(flat.conj(), state.flatten())) *)
Definition state_to_modelparams (b : basis) (rho : mat) : list R :=
  map (fun B => re (csum (bdim b) (fun i => csum (bdim b) (fun j => cmul (conj (B i j)) (rho i j))))) (bdata b).
(** [np.tensordot(x, data, 1)]: ValueError when the lengths differ. (bases.py 353-361) *)
Definition tensordot (x : list R) (ms : list mat) : res mat :=
  if Nat.eqb (length x) (length ms) then Ok (fun i j => csum (length ms) (fun a => cmul (rc (nth a x 0)) (nth a ms mzero i j))) else Err ValueError.
Definition modelparams_to_state (b : basis) (x : list R) : res mat := tensordot x (bdata b).
(** [covariance_mtx_to_superop] (bases.py 364-374): dot(dot(M.conj().T, mtx), M) with M = flat; the row index (i,j) stands for i*dim+j. *)
Definition covariance_mtx_to_superop (b : basis) (cov : nat -> nat -> R) : nat -> nat -> nat -> nat -> C :=
  fun i j k l => csum (length (bdata b)) (fun c => cmul (csum (length (bdata b)) (fun a => cmul (conj (bnth b a i j)) (rc (cov a c)))) (bnth b c k l)).

(** ** models.py *)
(** Comparison of complex numbers with zero, lexicographic as in NumPy. *)
Definition c_ge0 (w : C) : bool := Rltb 0 (re w) || (Reqb (re w) 0 && Rleb 0 (im w)).
(** [trunc_neg_eigs] (models.py 172-192). [eig] stands for np.linalg.eig: eigenvalues and the matrix whose columns are eigenvectors. *)
Definition trunc_arr (d : nat) (w : nat -> C) (v : mat) : mat :=
  fun i j => csum d (fun k => cmul (cmul (v i k) (if c_ge0 (w k) then w k else c0)) (conj (v j k))).
Definition trunc_neg_eigs (eig : mat -> (nat -> C) * mat) (b : basis) (x : list R) : res (list R) :=
  bind (tensordot x (map (fun (m : mat) i j => conj (m i j)) (bdata b))) (fun arr =>
  let '(w, v) := eig arr in
  if forallb (fun k => c_ge0 (w k)) (seq 0 (bdim b)) then Ok x
  else let new_arr := trunc_arr (bdim b) w v in
       let new := map (fun B => re (csum (bdim b) (fun i => csum (bdim b) (fun j => cmul (B i j) (new_arr i j))))) (bdata b) in
       match new with
       | [] => Err IndexError
       | x0 :: _ => if Rltb 0 x0 then Ok new else Err AssertionError
       end).
Fixpoint map_res {A B} (f : A -> res B) (l : list A) : res (list B) :=
  match l with [] => Ok [] | a :: l' => bind (f a) (fun b => bind (map_res f l') (fun bs => Ok (b :: bs))) end.
(** [np.apply_along_axis(f, 1, arr)]: no rows is an error. *)
Definition apply_along_axis {A B} (f : A -> res B) (l : list A) : res (list B) := match l with [] => Err ValueError | _ => map_res f l end.
(** [renormalize] (models.py 194-209); rows are parameter vectors (non-empty). *)
Definition rownorm (d : nat) (x : list R) : R := hd 0 x * sqrt (INR d).
Definition renormalize (d : nat) (mps : list (list R)) : res (list (list R)) :=
  if existsb (fun x => Reqb (rownorm d x) 0) mps then Err AssertionError
  else Ok (map (fun x => map (fun e => e / rownorm d x) x) mps).
(** [canonicalize] (models.py 149-170) *)
Definition canonicalize (eig : mat -> (nat -> C) * mat) (b : basis) (allow_subnormalized : bool) (mps : list (list R)) : res (list (list R)) :=
  bind (apply_along_axis (trunc_neg_eigs eig b) mps) (fun mps' => if allow_subnormalized then Ok mps' else renormalize (bdim b) mps').
(** [are_models_valid] (143-147, 244-248) *)
Definition tomo_models_valid (mps : list (list R)) : list bool := map (fun _ => true) mps.
Definition diff_models_valid (mps : list (list R)) : list bool := map (fun x => true && Rltb 0 (last x 0)) mps.
(** DiffusiveTomographyModel.canonicalize (250-254): state columns canonicalised, rate column appended unchanged *)
Definition diff_canonicalize eig b sub (mps : list (list R)) : res (list (list R)) :=
  bind (canonicalize eig b sub (map (fun x => removelast x) mps)) (fun cs => Ok (map2 (fun c x => c ++ [last x 0]) cs mps)).
(** DiffusiveTomographyModel.likelihood (255-256) *)
Definition diff_like (meas x : list R) (o : Z) : R := tomo_like meas (removelast x) o.
(** update_timestep (258-272): for model row x with normal draws z (one row of draws per model, shared by all experiments) and time t.
    [diff_step] is the raw row before canonicalisation. *)
Definition diff_step (t : R) (x z : list R) : list R :=
  map (fun k => nth k x 0 + (if Nat.eqb k 0 || Nat.eqb k (length x - 1) then 0 else last x 0 * sqrt t * nth k z 0)) (seq 0 (length x)).
(** The result for experiment e is the e-th entry: the list of new rows. (The code then transposes axes 1 and 2.) *)
Definition diff_update_timestep eig b sub (mps zs : list (list R)) (ts : list R) : res (list (list (list R))) :=
  map_res (fun t => diff_canonicalize eig b sub (map2 (diff_step t) mps zs)) ts.

(** ** distributions.py *)
(** [DensityOperatorDistribution._sample] (138-141): divide by the trace, then convert. Division by a zero trace is not modelled further (NaN): error-free only for non-zero trace. *)
Definition cinv_re (t : R) (m : mat) : mat := fun i j => mkC (re (m i j) / t) (im (m i j) / t).
Definition dm_sample (b : basis) (m : mat) : list R := state_to_modelparams b (cinv_re (re (mtrace (bdim b) m)) m).
(** [TensorProductDistribution.__init__] (154-160) passes one generator object as the single factor; [basis.data] on a generator fails. *)
Inductive pyarg := ABasis (b : basis) | AGenerator (bs : list basis).
Definition tensor_product_basis_args (args : list pyarg) : res basis :=
  bind (map_res (fun a => match a with ABasis b => Ok b | AGenerator _ => Err AttributeError end) args) tensor_product_basis.
Definition tensor_product_distribution_init (factors : list basis) : res basis := tensor_product_basis_args [AGenerator factors].

(** [GADFLIDistribution] (250-296). [eigs]: mean.eigenenergies(), NumPy floats, so divisions by zero give inf/nan rather than exceptions.
    rho_star is kept with extended-number entries (real and imaginary part). Sparse storage: only diagonal entries of the identity are stored. *)
Definition lmin (l : list R) : R := match l with [] => 0 | x :: l' => fold_left Rmin l' x end.
Definition gadfli_beta (d : nat) (lam : R) : ext :=
  if Rltb (1 / 2) lam then xsub (xdiv (Fin 1) (Fin (INR d * lam - 1))) (Fin 1)
  else xdiv (Fin (INR d * lam)) (Fin (1 - INR d * lam)).
Definition xentry := (ext * ext)%type.
Definition gadfli_star (d : nat) (beta : ext) (mean : mat) : nat -> nat -> xentry :=
  fun i j =>
    let s := xdiv (xadd (Fin 1) beta) (Fin 1) in
    let g := xdiv beta (xadd (Fin 1) beta) in
    let sub x e := if Nat.eqb i j then xsub (Fin x) (xmul g (Fin e)) else Fin x in
    (xmul s (sub (re (mean i j)) (1 / INR d)), xmul s (sub (im (mean i j)) 0)).
Definition gadfli_init (d : nat) (eigs : list R) (mean : mat) : res (ext * (nat -> nat -> xentry)) :=
  if Nat.eqb (length eigs) 0 then Err ValueError
  else let lam := lmin eigs in
  if Rltb lam 0 then Err ValueError
  else let beta := gadfli_beta d lam in
  if xltb beta (Fin 0) then Err ValueError
  else Ok (beta, gadfli_star d beta mean).
(** [_sample_dm] (293-296): np.random.beta(alpha, beta) raises ValueError unless beta > 0; [eps] is the draw. *)
Definition gadfli_sample (beta : ext) (star : nat -> nat -> xentry) (fid : mat) (eps : R) : res (nat -> nat -> xentry) :=
  if xleb beta (Fin 0) then Err ValueError
  else Ok (fun i j => (xadd (xmul (Fin (1 - eps)) (Fin (re (fid i j)))) (xmul (Fin eps) (fst (star i j))),
                       xadd (xmul (Fin (1 - eps)) (Fin (im (fid i j)))) (xmul (Fin eps) (snd (star i j))))).
