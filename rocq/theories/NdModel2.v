(** Array code of the updater (src/qinfer/smc.py) and of the derived models (src/qinfer/derived_models.py), operation by operation on
    NumPy arrays (Nd.v).  The likelihood of the underlying model is an arbitrary array function [like_arr outcomes modelparams
    experiments].  Exact arithmetic; divisions the code does not guard are in the extended numbers. *)
From Verif Require Import Base Ext DomModel TwoModel DerModel SmcModel Nd NdModel.

Section Updater.
Context {O E : Type}.
Variable like_arr : nd O -> nd R -> list E -> res (nd R).
Variable dO : O.

(** smc.py:324-386, hypothetical_update: normalised weights, likelihoods and scales, each indexed [outcome, experiment, particle] *)
Definition hyp_arrays (weights locs : nd R) (outcomes : nd O) (es : list E) : res (nd R * nd R * nd R) :=
  bind (bind (like_arr outcomes locs es) (transpose [0; 2; 1]%nat)) (fun L =>
  bind (bcast Rmult weights L) (fun hyp_weights =>
  let s := sum_axis rsum 2 hyp_weights in
  let norm_scale := newaxis (ndim s) s in
  bind (bcast Rdiv hyp_weights (amap fix_norm norm_scale)) (fun norm_weights => Ok (norm_weights, L, norm_scale)))).

(** smc.py:410-446, update up to the new weights and the recorded scale: [None] when the zero-weight test stops it (policies skip and
    error).  The test and the clipping look at the whole array, the assignment takes the first outcome and experiment. *)
Definition update_arrays (zthresh : R) (weights locs : nd R) (outcomes : nd O) (es : list E) : res (option (nd R * R)) :=
  bind (hyp_arrays weights locs outcomes es) (fun r =>
  let '(W, _, N) := r in
  let W := if forallb (fun x => Rleb 0 x) (entries W) then W else amap (clip 0 1) W in
  if Rleb (rsum (entries W)) zthresh then Ok None
  else bind (bind (take 0 0 W) (take 0 0)) (fun w =>
       bind (assign (shp weights) w) (fun w' =>
       bind (bind (take 0 0 N) (take 0 0)) (fun n0 => Ok (Some (w', get n0 [0]%nat)))))).

(** smc.py:579-595 and 641-657: scales and hypothetical weights for all outcomes, the last one by subtraction *)
Definition risk_arrays (weights locs : nd R) (os : list O) (es : list E) : res (nd R * nd ext) :=
  bind (hyp_arrays weights locs (vec dO (removelast os)) es) (fun r =>
  let '(W, L, N) := r in
  bind (bcast Rmult (amap (fun x => 1 - x) (sum_axis rsum 0 L)) (newaxis 0 weights)) (fun w_last =>
  bind (bind (take 2 0 N) (fun N0 => concat0 [N0; sum_axis rsum 2 (newaxis 0 w_last)])) (fun N =>
  bind (take 0 (dim 0 N - 1) N) (fun N_last =>
  bind (bcast xdiv (amap Fin w_last) (newaxis 1 (amap Fin N_last))) (fun w_last =>
  bind (concat0 [amap Fin W; newaxis 0 w_last]) (fun W => Ok (N, W))))))).
(** smc.py:597-612 *)
Definition xsq (a : ext) : ext := xmul a a.
Definition bayes_risk_array (Q weights locs : nd R) (os : list O) (es : list E) : res (nd ext) :=
  bind (risk_arrays weights locs os es) (fun r =>
  let '(N, w_hyp) := r in
  bind (dot xsum xmul w_hyp (amap Fin locs)) (fun mu_hyp =>
  bind (op2 xsub (Ok (amap Fin (newaxis 0 (newaxis 0 locs)))) (Ok (newaxis 2 mu_hyp))) (fun delta =>
  bind (op2 xmul (Ok (amap Fin Q)) (Ok (amap xsq delta))) (fun q =>
  bind (op2 xmul (Ok w_hyp) (Ok (sum_axis xsum 3 q))) (fun v =>
  bind (op2 xmul (Ok (amap Fin N)) (Ok (sum_axis xsum 2 v))) (fun r => Ok (sum_axis xsum 0 r))))))).
(** smc.py:658-663 *)
Definition information_gain_array (weights locs : nd R) (os : list O) (es : list E) : res (nd ext) :=
  bind (risk_arrays weights locs os es) (fun r =>
  let '(N, w_hyp) := r in
  bind (op2 xmul (Ok w_hyp) (op1 xln (op2 xdiv (Ok w_hyp) (Ok (amap Fin weights))))) (fun k =>
  bind (op2 xmul (Ok (amap Fin N)) (Ok (sum_axis xsum 2 k))) (fun r => Ok (sum_axis xsum 0 r)))).
End Updater.

Section Derived.
Context {E : Type}.
Variable like_arr : nd Z -> nd R -> list E -> res (nd R).

(** [assert not np.any(np.isnan(L)); return L] *)
Definition assert_no_nan (L : nd ext) : res (nd ext) := if existsb is_nan (entries L) then Err AssertionError else Ok L.

(** derived_models.py:314-329, BinomialModel.likelihood; an experiment is (underlying experiment, n_meas) *)
Definition binomial_likelihood (outcomes : nd nat) (modelparams : nd R) (es : list (E * nat)) : res (nd ext) :=
  bind (like_arr (vec 0%Z [1%Z]) modelparams (map fst es)) (fun pr1 =>
  bind (bind (mapM (fun idx => bind (take 0 idx outcomes) (fun o =>
                op2 (fun Nn p => binomial_pdf (fst Nn) (snd Nn) p) (op2 pair (Ok (newaxis 0 (fld 0%nat snd es))) (Ok o)) (Ok pr1)))
              (seq 0 (dim 0 outcomes))) concat0) assert_no_nan).

(** utils.py:113-161 on arrays of shapes (sides, ...) and (sides, ...) or (sides - 1, ...), column by column (DerModel.multinomial_pdf) *)
Definition column {A} (a : nd A) (ix : list nat) : list A := map (fun s => get a (s :: ix)) (seq 0 (dim 0 a)).
Definition multinomial_pdf_array (n : nd nat) (p : nd R) : res (nd ext) :=
  if list_eqb (tl (shp n)) (tl (shp p)) then Ok (Nd (tl (shp n)) (fun ix => multinomial_pdf (column n ix) (column p ix))) else Err ValueError.
(** 630-652, MultinomialModel.likelihood; [os] is the regular array of the outcomes, shape (n_outcomes, sides) *)
Definition multinomial_likelihood (values : list Z) (os : nd nat) (modelparams : nd R) (es : list (E * nat)) : res (nd ext) :=
  bind (like_arr (vec 0%Z (removelast values)) modelparams (map fst es)) (fun prs =>
  bind (transpose [1; 0; 2; 3]%nat (tile [dim 0 os; 1; 1; 1]%nat prs)) (fun prs =>
  bind (transpose [3; 2; 0; 1]%nat (tile [dim 0 modelparams; length es; 1; 1]%nat os)) (fun os =>
  bind (multinomial_pdf_array os prs) assert_no_nan))).

(** 446-483, GaussianHyperparameterizedModel.likelihood; [n] parameters of the underlying model *)
Definition hyper_likelihood (n : nat) (outcomes modelparams : nd R) (es : list E) : res (nd R) :=
  let mu := newaxis 3 (newaxis 1 (T (slice 1 n (n + 2) modelparams))) in
  let sigma2 := newaxis 3 (newaxis 1 (T (slice 1 (n + 2) (n + 4) modelparams))) in
  if forallb (Rltb 0) (entries sigma2) then
    bind (op2 Rdiv (op2 Rminus (Ok (newaxis 2 (newaxis 2 (newaxis 0 outcomes)))) (Ok mu)) (Ok (amap sqrt sigma2))) (fun scaled_outcomes =>
    let conditional_L := amap norm_pdf scaled_outcomes in
    bind (like_arr (vec 0%Z [0; 1]%Z) (slice 1 0 n modelparams) es) (fun underlying_L =>
    bind (bcast Rmult (newaxis 1 underlying_L) conditional_L) (fun a => Ok (sum_axis rsum 0 a))))
  else Err AssertionError.
End Derived.
