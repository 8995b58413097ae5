(** Model of adaptive likelihood estimation (src/qinfer/ale.py), finite differences
    (src/qinfer/finite_difference.py), numerical scores (src/qinfer/score.py), the outcome cutoff
    property (abstract_model.py 584-606), the mixed approximate updater and the Bayesian
    Cramer-Rao updater (smc.py 917-1241) and performance tests (src/qinfer/perf_testing.py).

    Simplifications: exact real arithmetic; random draws are arguments; a list of counts stands
    for the (model, experiment) table of ALE, flattened; logging and progress bars are left out. *)
From Verif Require Import Base Ext SmcModel DerModel.

(** ** ALEApproximateModel *)
(** Attributes stored by the constructor, ale.py:124-128. *)
Record ale := { a_tol : R; a_min : Z; a_step : Z; a_est : R; a_adapt : R }.
(** ale.py:90-128 [__init__]; [Int_part] is [int] on non-negative numbers.  [two] says whether the
    simulator has a constant number of two outcomes (line 117). *)
Definition ale_init (simulatable two : bool) (error_tol min_samp samp_step est_hedge adapt_hedge : R) : res ale :=
  if negb simulatable then Err TypeError else
  if Rleb error_tol 0 then Err ValueError else
  if Rltb 1 error_tol then Err ValueError else
  if Rleb min_samp 0 then Err ValueError else
  if Rleb samp_step 0 then Err ValueError else
  if Rltb est_hedge 0 then Err ValueError else
  if Rltb adapt_hedge 0 then Err ValueError else
  if negb two then Err ValueError else
  Ok {| a_tol := error_tol; a_min := Int_part min_samp; a_step := Int_part samp_step;
        a_est := est_hedge; a_adapt := adapt_hedge |}.

(** utils.py:683-688 [binom_est_error] applied to an estimate that may itself be special. *)
Definition xbinom_est_error (p : ext) (N hedge : R) : ext :=
  xsqrt (xdiv (xmul p (xsub (Fin 1) p)) (Fin (N + 2 * hedge + 1))).

(** ale.py:152-161: [data i] is [np.sum(sim_data, axis=0)] of the i-th round.  [None] means that
    the loop has not left after [fuel] rounds; otherwise the final [N] and [n]. *)
Fixpoint ale_loop (c : ale) (data : nat -> list R) (fuel : nat) (i : nat) (N : R) (n : list R) : option (R * list R) :=
  match fuel with
  | O => None
  | S fuel' =>
      let n' := map2 Rplus n (data i) in
      if forallb (fun x => xltb (xbinom_est_error (binom_est_p x N (a_adapt c)) N (a_adapt c)) (Fin (a_tol c))) n'
      then Some (N, n')
      else ale_loop c data fuel' (S i) (N + IZR (a_step c)) n'
  end.
(** abstract_model.py:665-686 [pr0_to_likelihood_array], one entry. *)
Definition xpr0_like (pr0 : ext) (o : Z) : ext := if (o =? 0)%Z then pr0 else xsub (Fin 1) pr0.
(** ale.py:141-163 [likelihood] on [k] (model, experiment) pairs: table [outcome][pair]. *)
Definition ale_likelihood (c : ale) (data : nat -> list R) (fuel k : nat) (os : list Z) : option (list (list ext)) :=
  match ale_loop c data fuel 0 (IZR (a_min c)) (repeat 0 k) with
  | None => None
  | Some (N, n) => Some (map (fun o => map (fun x => xpr0_like (xsub (Fin 1) (binom_est_p x N (a_est c))) o) n) os)
  end.

(** ** FiniteDifference, finite_difference.py:70-88 *)
(** An array with value [h] at position [i] and zero elsewhere. *)
Definition unit_step (n i : nat) (h : R) : list R := map (fun j => if Nat.eqb j i then h else 0) (seq 0 n).
(** The constructor argument [h]: a scalar or an array. *)
Inductive steps := Scalar (h : R) | Vector (hs : list R).
Definition fd_steps (n : nat) (h : steps) : list R :=
  match h with Scalar x => map (fun _ => x * 1) (seq 0 n) | Vector hs => hs end.
(** [central]: [self.h[idx]] out of range raises IndexError, adding arrays of different lengths or
    dividing by an [h] of another length ValueError (length-one broadcasting is left out). *)
Definition fd_central (f : list R -> R) (n : nat) (h : steps) (xs : list R) : res (list ext) :=
  let hs := fd_steps n h in
  if (length hs <? n)%nat then Err IndexError else
  if negb (Nat.eqb (length xs) n && Nat.eqb (length hs) n)%nat then Err ValueError else
  let grad := map (fun i => let step := unit_step n i (nth i hs 0) in
                            f (map2 Rplus xs (map (fun s => s / 2) step)) - f (map2 Rminus xs (map (fun s => s / 2) step)))
                  (seq 0 n) in
  Ok (map2 (fun g hh => xdiv (Fin g) (Fin hh)) grad hs).

(** ** ScoreMixin, score.py:62-124 *)
(** The property [h], 62-77. *)
Definition score_steps (n : nat) (h : list R) : res (list R) :=
  if (1 <? length h)%nat then (if Nat.eqb (length h) n then Ok h else Err AssertionError)
  else match h with [x] => Ok (map (fun _ => x * 1) (seq 0 n)) | _ => Err ValueError end.
(** [score], 79-124, for one outcome, model and experiment: [like] is the likelihood as a function
    of the model parameters; the result lists the scores of all parameters. *)
Definition score (n : nat) (h : list R) (like : list R -> R) (x : list R) : res (list ext) :=
  bind (score_steps n h) (fun hs =>
    let L0 := like x in
    Ok (map (fun i => let p := unit_step (length x) i (nth i hs 0) in
                      xdiv (Fin (like (map2 Rplus x p) - like (map2 Rminus x p))) (Fin (2 * nth i hs 0 * L0))) (seq 0 n))).

(** ** n_outcomes_cutoff, abstract_model.py:584-606 *)
(** The only attribute involved, [_n_outcomes_cutoff]. *)
Record fom := { cutoff : option Z }.
(** 566-575 [__init__] *)
Definition fom_init (v : option Z) : fom := {| cutoff := v |}.
(** 584-594, the getter *)
Definition get_cutoff (m : fom) : option Z := cutoff m.
(** 595-606, the setter: its body assigns the same property, so it calls itself; [depth] is the
    number of frames the interpreter still allows. *)
Fixpoint set_cutoff (depth : nat) (m : fom) (v : option Z) : res fom :=
  match depth with
  | O => Err RecursionError
  | S depth' => set_cutoff depth' m v
  end.

(** ** MixedApproximateSMCUpdater.hypothetical_update, smc.py:951-1045 *)
(** Placing two blocks of values by a mask: [L[good] = a; L[bad] = b]. *)
Fixpoint scatter {A} (mask : list bool) (a b : list A) : list A :=
  match mask with
  | [] => []
  | true :: mask' => match a with x :: a' => x :: scatter mask' a' b | [] => [] end
  | false :: mask' => match b with y :: b' => y :: scatter mask' a b' | [] => [] end
  end.
(** [a[idxs]] *)
Definition fancy {A} (d : A) (a : list A) (idxs : list nat) : list A := map (fun i => nth i a d) idxs.
(** [np.mean], NaN on an empty array. *)
Definition xmean (l : list R) : ext := xdiv (Fin (rsum l)) (Fin (INR (length l))).
(** 968-999: [shuffled] is the shuffled identity, [asort] NumPy's argsort. *)
Definition mixed_mask (asort : list R -> list nat) (shuffled : list nat) (ratio thresh : R) (min_good : nat) (w : list R) : list bool :=
  let idxs_sorted := asort (fancy 0 w shuffled) in
  let order := fancy 0%nat shuffled idxs_sorted in
  let inv := asort (map INR order) in
  let sorted_weights := fancy 0 w order in
  let cum := cumsum sorted_weights in
  let good := fancy false (map2 (fun c x => Rleb (1 - ratio) c || Rleb thresh x) cum sorted_weights) inv in
  if (length (filter (fun b => b) good) <? min_good)%nat
  then map (fun p => existsb (Nat.eqb p) (skipn (length order - min_good) order)) (seq 0 (length good))
  else good.
(** 1006-1007 *)
Definition mixed_assert (mask : list bool) (w : list R) : bool :=
  xleb (Fin (- / 1000000)) (xsub (xmean (select mask w)) (xmean (select (map negb mask) w))).
(** 1009-1012, one outcome and experiment *)
Definition mixed_L {O E} (good apx : O -> loc -> E -> R) (mask : list bool) (l : list loc) (o : O) (e : E) : list R :=
  scatter mask (map (fun x => good o x e) (select mask l)) (map (fun x => apx o x e) (select (map negb mask) l)).
(** The whole method: per outcome and experiment the weights, likelihoods and scale. *)
Definition mixed_hypothetical {O E} (asort : list R -> list nat) (shuffled : list nat) (ratio thresh : R) (min_good : nat)
  (good apx : O -> loc -> E -> R) (w : list R) (l : list loc) (os : list O) (es : list E)
  : res (list (list (list R * list R * R))) :=
  let mask := mixed_mask asort shuffled ratio thresh min_good w in
  if negb (mixed_assert mask w) then Err AssertionError else
  Ok (map (fun o => map (fun e =>
        let L := mixed_L good apx mask l o e in
        let hyp := map2 Rmult w L in
        let N := rsum hyp in
        (map (fun x => x / fix_norm N) hyp, L, N)) es) os).

(** ** SMCUpdaterBCRB, smc.py:1068-1241 *)
Section Bcrb.
Context {O E RND : Type}.
(** A square matrix of model-parameter size by its entries; [flt] tells whether the array has a
    floating point type (in-place addition of floats to an integer array raises TypeError). *)
Record arr := { flt : bool; ent : nat -> nat -> R }.
(** Arrays live at addresses so that sharing is visible. *)
Definition heap := nat -> arr.
Definition put (h : heap) (a : nat) (v : arr) : heap := fun b => if Nat.eqb b a then v else h b.
Variable c : @config O E RND.
Variable fisher : loc -> E -> nat -> nat -> R.

(** 1128-1155 [_bim]: uniform or weighted average over the models, one experiment. *)
Definition bim_uniform (ms : list loc) (e : E) (i j : nat) : R := rsum (map (fun m => fisher m e i j) ms) / INR (length ms).
Definition bim_weighted (w : list R) (ms : list loc) (e : E) (i j : nat) : R := rsum (map2 (fun p m => p * fisher m e i j) w ms).

Record bcrb := { b_smc : @state O; b_heap : heap; b_cur : nat; b_adapt : option nat; b_next : nat }.
(** 1090-1123 [__init__] after the SMC constructor: [differentiable] is the isinstance test,
    [grad] is [prior.grad_log_pdf], [initial] the address of the caller's array (or None),
    [next] an unused address. *)
Definition bcrb_init (differentiable : bool) (grad : loc -> nat -> R) (s : @state O) (h : heap) (next : nat) (initial : option nat) (adaptive : bool) : res bcrb :=
  if negb differentiable then Err ValueError else
  let '(h1, cur, next1) :=
    match initial with
    | Some a => (h, a, next)
    | None => (put h next {| flt := true; ent := fun i j => rsum (map (fun m => grad m i * grad m j) (ls s)) / INR (n_particles s) |}, next, S next)
    end in
  if adaptive
  then Ok {| b_smc := s; b_heap := put h1 next1 (h1 cur); b_cur := cur; b_adapt := Some next1; b_next := S next1 |}
  else Ok {| b_smc := s; b_heap := h1; b_cur := cur; b_adapt := None; b_next := next1 |}.
(** 1158-1167 [current_bim] and 1169-1181 [adaptive_bim]: copies. *)
Definition current_bim (b : bcrb) : nat -> nat -> R := ent (b_heap b (b_cur b)).
Definition adaptive_bim (b : bcrb) : res (nat -> nat -> R) :=
  match b_adapt b with None => Err ValueError | Some a => Ok (ent (b_heap b a)) end.
(** [a += m] in place. *)
Definition iadd (h : heap) (a : nat) (m : nat -> nat -> R) : res heap :=
  if flt (h a) then Ok (put h a {| flt := true; ent := fun i j => ent (h a) i j + m i j |}) else Err TypeError.
(** 1215-1241 [update]: [rp] is the generator state for [prior.sample]. *)
Definition bcrb_update (rp r : RND) (b : bcrb) (o : O) (e : E) (check : bool) : bcrb * option exn :=
  let s := b_smc b in
  match iadd (b_heap b) (b_cur b) (bim_uniform (prior c rp (n_particles s)) e) with
  | Err x => (b, Some x)
  | Ok h1 =>
      let b1 := {| b_smc := s; b_heap := h1; b_cur := b_cur b; b_adapt := b_adapt b; b_next := b_next b |} in
      match (match b_adapt b with None => Ok h1 | Some a => iadd h1 a (bim_weighted (ws s) (ls s) e) end) with
      | Err x => (b1, Some x)
      | Ok h2 =>
          let '(s', x) := update c r s o e check in
          ({| b_smc := s'; b_heap := h2; b_cur := b_cur b; b_adapt := b_adapt b; b_next := b_next b |}, x)
      end
  end.
(** A history of updates; exceptions are caught by the caller. *)
Record bop := { op_rp : RND; op_r : RND; op_o : O; op_e : E; op_check : bool }.
Definition bcrb_run (b : bcrb) (xs : list bop) : bcrb :=
  fold_left (fun b x => fst (bcrb_update (op_rp x) (op_r x) b (op_o x) (op_e x) (op_check x))) xs b.
End Bcrb.
(** 1090-1096: keyword arguments reach the SMC constructor only if they are on this list. *)
Inductive kwarg := K_resample_a | K_resampler_a | K_resampler | K_resample_thresh | K_model | K_prior | K_n_particles
  | K_zero_weight_policy | K_zero_weight_thresh | K_canonicalize | K_adaptive | K_initial_bim.
Definition bcrb_passes (k : kwarg) : bool :=
  match k with K_resampler_a | K_resampler | K_resample_thresh | K_model | K_prior | K_n_particles => true | _ => false end.
(** Keywords which the SMC constructor (smc.py:123-130) knows; another one raises TypeError. *)
Definition smc_knows (k : kwarg) : bool :=
  match k with K_resample_a | K_resampler | K_resample_thresh | K_model | K_prior | K_n_particles
  | K_zero_weight_policy | K_zero_weight_thresh | K_canonicalize => true | _ => false end.
(** The keywords that take effect in the SMC constructor. *)
Definition bcrb_kwargs (ks : list kwarg) : res (list kwarg) :=
  let passed := filter bcrb_passes ks in
  if forallb smc_knows passed then Ok passed else Err TypeError.

(** ** perf_testing.py *)
(** 172-186 [shorten_right] on two one-index arrays: the last entries. *)
Definition lastn {A} (k : nat) (l : list A) : list A := skipn (length l - k) l.
Definition shorten_right (a b : list R) : list R * list R :=
  let k := Nat.min (length a) (length b) in (lastn k a, lastn k b).
(** One row of the record array (elapsed time is left out). *)
Record row {O E} := { r_loss : R; r_count : nat; r_outcome : O; r_true : list R; r_est : list R; r_exp : E }.
Arguments row : clear implicits.
Section Perf.
Context {O E U H : Type}.
(** What perf_test calls: the heuristic (with its own state [H]), the true model's simulator and
    drift, the updater's update, mean and resample count.  The experiment number stands for the
    state of the random generator. *)
Record perf_env := {
  p_heur : nat -> H -> U -> res (E * H);
  p_sim : nat -> list R -> E -> res O;
  p_upd : nat -> U -> O -> E -> res U;
  p_drift : nat -> list R -> E -> res (list R);
  p_mean : U -> res (list R);
  p_count : U -> nat;
  p_Q : list R;
  p_nmin : nat
}.
Variable v : perf_env.
(** 254-286, the loop body from experiment [k] on, [m] experiments to go. *)
Fixpoint perf_loop (m k : nat) (tm : list R) (u : U) (h : H) : res (list (row O E)) :=
  match m with
  | 0%nat => Ok []
  | S m' =>
      bind (p_heur v k h u) (fun eh => let '(e, h') := eh in
      bind (p_sim v k tm e) (fun d =>
      bind (p_upd v k u d e) (fun u' =>
      bind (p_drift v k tm e) (fun tm' =>
      bind (p_mean v u') (fun est =>
      let '(a, b) := shorten_right est tm' in
      let loss := rdot (map (fun x => x ^ 2) (map2 Rminus a b)) (lastn (p_nmin v) (p_Q v)) in
      bind (perf_loop m' (S k) tm' u' h') (fun rest =>
      Ok ({| r_loss := loss; r_count := p_count v u'; r_outcome := d; r_true := tm; r_est := est; r_exp := e |} :: rest)))))))
  end.
(** 188-288 [perf_test]: building the updater and the heuristic may fail as well. *)
Definition perf_test (n_exp : nat) (true_mps : list R) (mk : res (U * H)) : res (list (row O E)) :=
  bind mk (fun uh => perf_loop n_exp 0 true_mps (fst uh) (snd uh)).
End Perf.

(** 116-130: NumPy's error state and the context manager [numpy_err_policy]. *)
Inductive errmode := EIgnore | EWarn | ERaise | ECall | EPrint | ELog.
Record errstate := { e_divide : errmode; e_over : errmode; e_under : errmode; e_invalid : errmode }.
Definition with_divide (m : errmode) (s : errstate) : errstate :=
  {| e_divide := m; e_over := e_over s; e_under := e_under s; e_invalid := e_invalid s |}.
(** A computation that may read and change the error state. *)
Definition act (A : Type) := errstate -> errstate * res A.
(** The generator stops at [yield] when the body raises: the line after it is not executed. *)
Definition numpy_err_policy {A} (m : errmode) (body : act A) : act A := fun old =>
  match body (with_divide m old) with
  | (s, Ok a) => (old, Ok a)
  | (s, Err x) => (s, Err x)
  end.
(** 356-378: collecting the results; [None] is a masked (failed) trial. *)
Fixpoint collect {A} (allow : bool) (trials : list (act A)) (s : errstate) : errstate * res (list (option A)) :=
  match trials with
  | [] => (s, Ok [])
  | t :: ts =>
      match t s with
      | (s1, Ok a) => match collect allow ts s1 with (s2, Ok l) => (s2, Ok (Some a :: l)) | (s2, Err x) => (s2, Err x) end
      | (s1, Err x) => if allow then match collect allow ts s1 with (s2, Ok l) => (s2, Ok (None :: l)) | (s2, Err y) => (s2, Err y) end
                       else (s1, Err x)
      end
  end.
(** 313-384 [perf_test_multiple] with [apply_serial]. *)
Definition perf_test_multiple {A} (allow : bool) (trials : list (act A)) : act (list (option A)) :=
  numpy_err_policy ERaise (collect allow trials).

(** 291-311 [apply_serial.get]: the cached value and the done flag. *)
Record serial {A} := { sv : option A; done : bool }.
Arguments serial : clear implicits.
Definition serial_get {A} (fn : nat -> res A) (calls : nat) (s : serial A) : nat * serial A * res (option A) :=
  if done s then (calls, s, Ok (sv s)) else
  match fn calls with
  | Ok a => (S calls, {| sv := Some a; done := true |}, Ok (Some a))
  | Err x => (S calls, s, Err x)
  end.
