(** Model of the helpers [outer_product], [particle_meanfn] and [particle_covariance_mtx] (src/qinfer/utils.py:205-287), which
    resamplers.py:142-143 still uses.

    Simplifications: real numbers in place of floats, so that the assertion of line 282 (all entries are finite) cannot fail; the
    deprecation warnings are left out; arrays have one or two axes; the eigenvalues computed by scipy are a parameter. *)
From Coq Require Import Reals List Arith Bool.
From Verif Require Import Base Sums.
Import ListNotations.
Open Scope R_scope.

(** Arrays with one axis, and with two axes (a table of [n] rows and [k] columns). *)
Inductive arr := Vec (v : list R) | Tab (n k : nat) (f : nat -> nat -> R).

(** utils.py:205-214 [outer_product]: with one axis the product of the column with the row, otherwise [vec . vec^T]. *)
Definition outer_product (a : arr) : arr :=
  match a with
  | Vec v => Tab (length v) (length v) (fun i j => nth i v 0 * nth j v 0)
  | Tab n k f => Tab n n (fun i j => Sum k (fun l => f i l * f j l))
  end.

(** numpy's broadcasting of two axes: equal lengths, or a length of one is stretched. *)
Definition broadcast (a b : nat) : option nat :=
  if Nat.eqb a b then Some a else if Nat.eqb a 1 then Some b else if Nat.eqb b 1 then Some a else None.
Definition at_axis (len i : nat) : nat := if Nat.eqb len 1 then 0%nat else i.

(** utils.py:216-232 [particle_meanfn]: [np.sum(weights * fn_vals.transpose([1, 0]), axis=1)]; [fn_vals] is [fn(locations)], or the
    locations if there is no function. *)
Definition meanfn (w : list R) (vals : arr) : res (list R) :=
  match vals with
  | Vec _ => Err ValueError
  | Tab n k f =>
      match broadcast (length w) n with
      | None => Err ValueError
      | Some N => Ok (map (fun j => Sum N (fun i => nth (at_axis (length w) i) w 0 * f (at_axis n i) j)) (seq 0 k))
      end
  end.
Definition particle_meanfn (w : list R) (locs : arr) (fn : option (arr -> res arr)) : res (list R) :=
  bind (match fn with Some g => g locs | None => Ok locs end) (meanfn w).

(** utils.py:235-287 [particle_covariance_mtx]: the matrix, and whether the warning of lines 283-284 is given. [eig] computes
    eigenvalues. *)
Definition particle_covariance_mtx (eig : nat -> (nat -> nat -> R) -> list R) (w : list R) (locs : arr) : res (arr * bool) :=
  bind (particle_meanfn w locs None) (fun mu =>
  match locs with
  | Vec _ => Err ValueError
  | Tab n d f =>
      match broadcast (length w) n with
      | None => Err ValueError
      | Some N =>
          let second a b := Sum N (fun i => nth (at_axis (length w) i) w 0 * f (at_axis n i) a * f (at_axis n i) b) in
          let cov a b := second a b - nth a mu 0 * nth b mu 0 in
          Ok (Tab d d cov, negb (forallb (fun x => Rleb 0 x) (eig d cov)))
      end
  end).
