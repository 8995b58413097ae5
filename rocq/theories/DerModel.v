(** Numerical behaviour of the derived models of src/qinfer/derived_models.py and of the functions of src/qinfer/utils.py
    they use.  Arrays are lists indexed as in the code; an underlying model is known by its likelihood function
    [like outcome parameters experiment].  Random draws are arguments.  Constructors of stacks are in StackModel.v. *)
From Verif Require Import Base Ext DomModel SmcModel.

(** ** utils.py *)
(** scipy's binomial probability mass function, taken to be exact: zero outside 0..N, NaN for a p that is no probability *)
Definition scipy_binom_pmf (N k : nat) (p : R) : ext :=
  if Rleb 0 p && Rleb p 1 then Fin (INR (binom N k) * p ^ k * (1 - p) ^ (N - k)) else NaN.
(** 106-111 *)
Definition binomial_pdf (N n : nat) (p : R) : ext := scipy_binom_pmf N n p.

(** scipy's [gammaln] at [n + 1], taken to be exact *)
Definition gammaln1 (n : nat) : R := ln (INR (fact n)).
Definition nat_sum (l : list nat) : nat := fold_right Nat.add 0%nat l.
(** 141-145 *)
Definition nlogp (n : nat) (p : R) : ext := if Reqb p 0 then Fin 0 else xmul (Fin (INR n)) (xln (Fin p)).
Definition xexp (a : ext) : ext := match a with Fin x => Fin (exp x) | PInf => PInf | NInf => Fin 0 | NaN => NaN end.
(** 113-161 for one column: counts [n], probabilities [p] (all, or all but the last) *)
Definition multinomial_pdf (n : list nat) (p : list R) : ext :=
  let ep := if Nat.eqb (length p) (length n - 1) then p ++ [1 - rsum p] else p in
  let log_p_sum := xsum (map2 nlogp n ep) in
  let probs := xexp (xadd (Fin (gammaln1 (nat_sum n) - rsum (map gammaln1 n))) log_p_sum) in
  let mask := negb (existsb (fun x => x) (map2 (fun k q => negb (Nat.eqb k 0) && Reqb q 0) n ep)) in
  xmul (Fin (if mask then 1 else 0)) probs.

(** 667-681 and 683-688 *)
Definition binom_est_p (n N hedge : R) : ext := xdiv (Fin (n + hedge)) (Fin (N + 2 * hedge)).
Definition binom_est_error (p N hedge : R) : ext := xsqrt (xdiv (Fin (p * (1 - p))) (Fin (N + 2 * hedge + 1))).

(** ** Arrays of results *)
(** [L[idx_outcome, idx_model, idx_experiment]] *)
Definition table {O M E V} (f : O -> M -> E -> V) (os : list O) (ms : list M) (es : list E) : list (list (list V)) :=
  map (fun o => map (fun m => map (fun e => f o m e) es) ms) os.
Definition is_nan (a : ext) : bool := match a with NaN => true | _ => false end.
(** [assert not np.any(np.isnan(L)); return L] *)
Definition no_nan (L : list (list (list ext))) : res (list (list (list ext))) :=
  if existsb (existsb (existsb is_nan)) L then Err AssertionError else Ok L.

(** ** BinomialModel, derived_models.py:317-332: an experiment is the pair of the underlying one and n_meas *)
Definition binomial_like {M E} (like : Z -> M -> E -> R) (os : list nat) (ms : list M) (es : list (E * nat)) : res (list (list (list ext))) :=
  no_nan (table (fun o m e => binomial_pdf (snd e) o (like 1%Z m (fst e))) os ms es).

(** ** MultinomialModel, 628-651; [values] is the underlying domain, an outcome is a count vector *)
Definition multinomial_like {V M E} (values : list V) (like : V -> M -> E -> R) (os : list (list nat)) (ms : list M) (es : list (E * nat))
  : res (list (list (list ext))) :=
  no_nan (table (fun o m e => multinomial_pdf o (map (fun v => like v m (fst e)) (removelast values))) os ms es).

(** ** PoisonedModel *)
Inductive poison := ALE (tol : R) | MLEmode (n_samples : option R) (hedge : R).
(** 165-182: [tol is None != n_samples is None] is the chain (tol is None) and (None != n_samples) and (n_samples is None) *)
Definition new_poisoned (tol n_samples hedge : option R) : res poison :=
  let tol_none := match tol with None => true | _ => false end in
  let ns_none := match n_samples with None => true | _ => false end in
  if tol_none && negb ns_none && ns_none then Err ValueError
  else match tol with
       | Some t => Ok (ALE t)
       | None => Ok (MLEmode n_samples (match hedge with Some h => h | None => 0 end))
       end.
Definition xclip (lo hi : R) (a : ext) : ext :=
  match a with Fin x => Fin (clip lo hi x) | PInf => Fin hi | NInf => Fin lo | NaN => NaN end.
(** 196-206, one entry: true likelihood [L], standard normal variate [z]; [None + 2 * hedge] is a TypeError *)
Definition poison_scale (p : poison) (L : R) : res ext :=
  match p with
  | ALE tol => Ok (Fin tol)
  | MLEmode (Some n) h => Ok (binom_est_error L n h)
  | MLEmode None _ => Err TypeError
  end.
Definition poisoned_entry (p : poison) (L z : R) : res ext :=
  bind (poison_scale p L) (fun s => Ok (xclip 0 1 (xadd (Fin L) (xmul (Fin z) s)))).

(** ** MLEModel, 701-703: [L ** pow] for non-negative L (0 ** 0 is 1, 0 to a negative power is inf) *)
Definition mle_entry (pow L : R) : ext :=
  if Reqb L 0 then (if Rltb 0 pow then Fin 0 else if Reqb pow 0 then Fin 1 else PInf) else Fin (Rpower L pow).

(** ** GaussianHyperparameterizedModel, 446-482, one entry; [n] parameters belong to the underlying model *)
Definition norm_pdf (z : R) : R := exp (- z ^ 2 / 2) / sqrt (2 * PI).
Definition hyper_entry {E} (n : nat) (like : Z -> list R -> E -> R) (o : R) (x : list R) (e : E) : res R :=
  let mu u := nth (n + u) x 0 in
  let s2 u := nth (n + 2 + u) x 0 in
  if Rltb 0 (s2 0%nat) && Rltb 0 (s2 1%nat) then
    Ok (rsum (map (fun u => like (Z.of_nat u) (firstn n x) e * norm_pdf ((o - mu u) / sqrt (s2 u))) [0; 1]%nat))
  else Err AssertionError.
(** 484-508, one simulated outcome, from the underlying outcome [b] and a standard normal variate [z] *)
Definition hyper_outcome (n : nat) (x : list R) (b : bool) (z : R) : R :=
  let u := if b then 1%nat else 0%nat in nth (n + u) x 0 + sqrt (nth (n + 2 + u) x 0) * z.

(** ** RandomWalkModel *)
(** reshape of the n_models * n_exps sampled rows, then transpose: [steps[model][parameter][experiment]] *)
Definition rw_steps (n_m n_e d : nat) (samples : list (list R)) : list (list (list R)) :=
  map (fun m => map (fun i => map (fun e => nth i (nth (m * n_e + e) samples []) 0) (seq 0 n_e)) (seq 0 d)) (seq 0 n_m).
(** 733-741, update_timestep; [sample] draws the rows from the step distribution *)
Definition rw_timestep (d : nat) (sample : nat -> list (list R)) (mps : list (list R)) (n_e : nat) : list (list (list R)) :=
  let steps := rw_steps (length mps) n_e d (sample (length mps * n_e)%nat) in
  map2 (fun row st => map2 (fun x s => map (fun y => x + y) s) row st) mps steps.

(** ** GaussianRandomWalkModel *)
Inductive rw_sel := SelAll | SelIdx (l : list Z) | SelSlice (lo hi : option Z).
(** names of the appended parameters *)
Inductive srw_name := Sigma (a : nat) | Sigma2 (b a : nat).
Inductive cov_arg := CDiag (v : list R) | CDense (m : list (list R)) | CNdim (ndim : nat).   (* a fixed_covariance by its ndim *)
Inductive cov := LearnDiag | LearnDense | FixDiag (scale : list R) | FixDense (chol : list (list R)).

Definition wrap_index (n : nat) (z : Z) : res nat :=
  if Z.leb 0 z && Z.ltb z (Z.of_nat n) then Ok (Z.to_nat z)
  else if Z.leb (- Z.of_nat n) z && Z.ltb z 0 then Ok (Z.to_nat (z + Z.of_nat n)) else Err IndexError.
Definition slice_bound (n : nat) (z : Z) : nat :=
  if Z.ltb z 0 then Z.to_nat (Z.max 0 (z + Z.of_nat n)) else Z.to_nat (Z.min z (Z.of_nat n)).
(** [np.arange(n)[idxs]] *)
Definition resolve (n : nat) (s : rw_sel) : res (list nat) :=
  match s with
  | SelAll => Ok (seq 0 n)
  | SelIdx l => mapM (wrap_index n) l
  | SelSlice lo hi =>
      let a := match lo with Some z => slice_bound n z | None => 0%nat end in
      let b := match hi with Some z => slice_bound n z | None => n end in
      Ok (seq a (b - a))
  end.
Definition list_max (l : list nat) : nat := fold_right Nat.max 0%nat l.

Record grw := { g_n : nat;                       (* underlying_model.n_modelparams *)
                g_sel : rw_sel; g_n_rw : nat; g_names : list srw_name; g_srw_idxs : list nat; g_cov : cov;
                g_transform : option ((list R -> list R) * (list R -> list R)) }.
(** 786-788: 'all' becomes the slice of the underlying parameters *)
Definition sel_of (n : nat) (s : rw_sel) : rw_sel := match s with SelAll => SelSlice None (Some (Z.of_nat n)) | _ => s end.
(** 810-817, names of the Cholesky entries in row order *)
Definition tri_names (rw_names : list nat) : list srw_name :=
  flat_map (fun p : nat * nat => map (fun name2 => if Nat.eqb (snd p) name2 then Sigma (snd p) else Sigma2 name2 (snd p)) (firstn (S (fst p)) rw_names))
    (combine (seq 0 (length rw_names)) rw_names).
(** 780-860, __init__; [names] the names of the underlying parameters, [cholesky] np.linalg.cholesky.
    [self.n_rw] in the second error message does not exist.  Square roots of negative variances are not modelled. *)
Definition new_grw (cholesky : list (list R) -> res (list (list R))) (names : list nat) (sel : rw_sel) (fixed : option cov_arg) (diagonal : bool)
    (transform : option ((list R -> list R) * (list R -> list R))) : res grw :=
  let n := length names in
  let sel' := sel_of n sel in
  bind (resolve n sel') (fun explicit =>
  match explicit with
  | [] => Err IndexError
  | _ =>
    let rw_names := map (fun i => nth i names 0%nat) explicit in
    let n_rw := length explicit in
    bind (match fixed with
          | None =>
              if diagonal then Ok (map Sigma rw_names, map (fun i => (n + i)%nat) (seq 0 n_rw), LearnDiag)
              else Ok (tri_names rw_names, map (fun i => (n + i)%nat) (seq 0 (n_rw * (n_rw + 1) / 2)), LearnDense)
          | Some v =>
              if diagonal then
                match v with
                | CDiag w => if Nat.eqb (length w) n_rw then Ok ([], [], FixDiag (map sqrt w)) else Err AttributeError
                | _ => Err ValueError
                end
              else
                match v with
                | CDense m => if Nat.eqb (length m) n_rw && forallb (fun r => Nat.eqb (length r) n_rw) m
                              then bind (cholesky m) (fun ch => Ok ([], [], FixDense ch)) else Err ValueError
                | _ => Err ValueError
                end
          end) (fun p =>
      let '(srw, idxs, c) := p in
      bind (resolve (n + length srw) sel') (fun touched =>
        match touched with
        | [] => Err ValueError
        | _ => if Nat.ltb (list_max explicit) (list_max touched) then Err IndexError
               else Ok {| g_n := n; g_sel := sel'; g_n_rw := n_rw; g_names := srw; g_srw_idxs := idxs; g_cov := c; g_transform := transform |}
        end))
  end).
(** 865-871 *)
Definition g_n_modelparams (g : grw) : nat := (g_n g + length (g_names g))%nat.
(** 889-891 *)
Definition grw_like {O E} (g : grw) (like : O -> list R -> E -> R) (o : O) (x : list R) (e : E) : R := like o (firstn (g_n g) x) e.
(** 879-887 *)
Definition grw_valid (g : grw) (valid : list R -> bool) (x : list R) : bool :=
  match g_cov g with
  | LearnDiag => valid (firstn (g_n g) x) && forallb (fun i => Rleb 0 (nth i x 0)) (g_srw_idxs g)
  | _ => valid (firstn (g_n g) x)
  end.
(** np.tril_indices(n), row by row; the lower triangular matrix filled with [vals] in that order *)
Definition tril_indices (n : nat) : list (nat * nat) := flat_map (fun i => map (fun j => (i, j)) (seq 0 (S i))) (seq 0 n).
Definition tri_entry (n : nat) (vals : list R) (i j : nat) : R :=
  match find (fun p => Nat.eqb (fst (fst p)) i && Nat.eqb (snd (fst p)) j) (combine (tril_indices n) vals) with
  | Some p => snd p
  | None => 0
  end.
Definition tri_matrix (n : nat) (vals : list R) : list (list R) :=
  map (fun i => map (fun j => tri_entry n vals i j) (seq 0 n)) (seq 0 n).
(** 925-940: the step of one model in one experiment; [z] are its standard normal variates, [mult] the experiment's scale *)
Definition grw_step (g : grw) (x z : list R) (mult : R) : list R :=
  map (fun s => mult * s)
    match g_cov g with
    | LearnDiag => map2 Rmult (map (fun i => nth i x 0) (g_srw_idxs g)) z
    | FixDiag scale => map2 Rmult scale z
    | FixDense chol => map (fun r => rdot r z) chol
    | LearnDense => map (fun r => rdot r z) (tri_matrix (g_n_rw g) (map (fun i => nth i x 0) (g_srw_idxs g)))
    end.
(** [row[idxs] += steps]: read, add, write back (for a repeated index the last write wins); one step broadcasts *)
Definition add_at (idxs : list nat) (row steps : list R) : res (list R) :=
  let vals := map (fun i => nth i row 0) idxs in
  if Nat.eqb (length idxs) (length steps) then Ok (set_row idxs row (map2 Rplus vals steps))
  else match steps with
       | [s] => Ok (set_row idxs row (map (fun v => v + s) vals))
       | _ => Err ValueError
       end.
Definition on_underlying (n : nat) (f : list R -> list R) (x : list R) : list R := f (firstn n x) ++ skipn n x.
(** 921-963, update_timestep of one model for one experiment *)
Definition grw_timestep (g : grw) (x z : list R) (mult : R) : res (list R) :=
  bind (resolve (g_n_modelparams g) (g_sel g)) (fun idxs =>
    let steps := grw_step g x z mult in
    match g_transform g with
    | None => add_at idxs x steps
    | Some (f, f') => bind (add_at idxs (on_underlying (g_n g) f x) steps) (fun y => Ok (on_underlying (g_n g) f' y))
    end).
(** 897-919, est_update_covariance, entry (i, j); [mps] are the models *)
Definition mean (l : list R) : R := rsum l / INR (length l).
Definition mat_entry (m : list (list R)) (i j : nat) : R := nth j (nth i m []) 0.
Definition gram (n : nat) (m : list (list R)) (i j : nat) : R := rsum (map (fun k => mat_entry m i k * mat_entry m j k) (seq 0 n)).
Definition grw_est_cov (g : grw) (mps : list (list R)) (i j : nat) : R :=
  match g_cov g with
  | FixDiag scale => if Nat.eqb i j then nth i scale 0 ^ 2 else 0
  | LearnDiag => if Nat.eqb i j then mean (map (fun x => nth (nth i (g_srw_idxs g) 0%nat) x 0 ^ 2) mps) else 0
  | FixDense chol => gram (g_n_rw g) chol i j
  | LearnDense => mean (map (fun x => gram (g_n_rw g) (tri_matrix (g_n_rw g) (map (fun k => nth k x 0) (g_srw_idxs g))) i j) mps)
  end.
