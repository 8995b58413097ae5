(** The array code of the likelihoods, scores and updater of qinfer, operation by operation on NumPy arrays (Nd.v), where the other
    model files give the value of one entry.  Experiments are lists of records ([expparams['t']] is [fld]); arithmetic is exact; the
    superclass calls that only count are in CountModel/StackModel. *)
From Verif Require Import Base Ext DomModel TwoModel DerModel SmcModel Nd.

(** [expparams['name']] *)
Definition fld {E A} (d : A) (f : E -> A) (es : list E) : nd A := vec d (map f es).

(** ** abstract_model.py *)
(** 666-686, FiniteOutcomeModel.pr0_to_likelihood_array *)
Definition pr0_to_likelihood_array (outcomes : nd Z) (pr0 : nd R) : res (nd R) :=
  let pr0 := newaxis 0 pr0 in
  let pr1 := amap (fun x => 1 - x) pr0 in
  let outcomes := if Nat.eqb (ndim outcomes) 0 then newaxis 0 outcomes else outcomes in
  bind (mapM (fun idx => bind (take 0 idx outcomes) (fun o =>
          bind (truth (amap (fun z => (z =? 0)%Z) o)) (fun b => Ok (if b then pr0 else pr1))))
        (seq 0 (dim 0 outcomes))) concat0.
(** 357-374, Simulatable.update_timestep *)
Definition default_timestep {E} (modelparams : nd R) (es : list E) : res (nd R) :=
  transpose [1; 2; 0]%nat (tile [length es; 1; 1]%nat modelparams).
(** 707-738, DifferentiableModel.fisher_information with a constant number of outcomes; np.einsum("ome,iome,jome->ijme") requires
    the lengths of equally named axes to agree (its stretching of axes of length one is not modelled) *)
Definition einsum_ome (L scores : nd ext) : res (nd ext) :=
  match shp L, shp scores with
  | [o; m; e], [p; o'; m'; e'] =>
      if list_eqb [o; m; e] [o'; m'; e'] then
        Ok (Nd [p; p; m; e] (fun ix => let i := nth 0 ix 0%nat in let j := nth 1 ix 0%nat in let m := nth 2 ix 0%nat in let e := nth 3 ix 0%nat in
          xsum (map (fun o => xmul (xmul (get L [o; m; e]) (get scores [i; o; m; e])) (get scores [j; o; m; e])) (seq 0 o))))
      else Err ValueError
  | _, _ => Err ValueError
  end.
Definition fisher_information (n_outcomes : nat) (score : nd Z -> res (nd ext * nd R)) : res (nd ext) :=
  let outcomes := vec 0%Z (map Z.of_nat (seq 0 n_outcomes)) in
  bind (score outcomes) (fun qL =>
    if Nat.eqb (ndim (fst qL)) 4 then einsum_ome (amap Fin (snd qL)) (fst qL)
    else if Nat.eqb (ndim (fst qL)) 3 then einsum_ome (amap Fin (snd qL)) (newaxis 0 (fst qL))
    else Err AssertionError).

(** ** test_models.py *)
(** 122-141, SimpleInversionModel.likelihood; an experiment is (t, w_) *)
Definition as_column (modelparams : nd R) : nd R := if Nat.eqb (ndim modelparams) 1 then newaxis 1 modelparams else modelparams.
Definition inv_likelihood (outcomes : nd Z) (modelparams : nd R) (es : list (R * R)) : res (nd R) :=
  let modelparams := as_column modelparams in
  let t := fld 0 fst es in
  let dw := op2 Rminus (Ok modelparams) (Ok (fld 0 snd es)) in
  bind (op1 (fun x => cos x ^ 2) (op1 (fun x => x / 2) (op2 Rmult (Ok t) dw))) (fun v =>
  bind (assign [dim 0 modelparams; length es] v) (fun pr0 => pr0_to_likelihood_array outcomes pr0)).
(** 143-167, SimpleInversionModel.score: the outcomes are reshaped before the likelihood is called on them *)
Definition inv_score_array (outcomes : nd Z) (modelparams : nd R) (es : list (R * R)) : res (nd ext * nd R) :=
  let modelparams := as_column modelparams in
  let t := fld 0 fst es in
  let dw := op2 Rminus (Ok modelparams) (Ok (fld 0 snd es)) in
  bind (reshape [dim 0 outcomes; 1; 1]%nat outcomes) (fun outcomes =>
  let arg := op1 (fun x => x / 2) (op2 Rmult dw (Ok t)) in
  bind (op2 xmul
          (op2 xpow01 (op2 xdiv (Ok (amap Fin t)) (op1 xtan arg)) (Ok outcomes))
          (op2 xpow01 (op2 xmul (Ok (amap (fun x => Fin (- x)) t)) (op1 xtan arg)) (Ok (amap (fun z => (1 - z)%Z) outcomes)))) (fun q =>
  let q := newaxis 0 q in
  if Nat.eqb (ndim q) 4 then bind (inv_likelihood outcomes modelparams es) (fun L => Ok (q, L)) else Err AssertionError)).
(** 190-200 and 202-216, SimplePrecessionModel: the experiments are turned into records with w_ = 0 *)
Definition prec_likelihood (outcomes : nd Z) (modelparams : nd R) (es : list R) : res (nd R) :=
  inv_likelihood outcomes modelparams (map (fun t => (t, 0)) es).
Definition prec_score_array (outcomes : nd Z) (modelparams : nd R) (es : list R) : res (nd ext * nd R) :=
  bind (inv_score_array outcomes modelparams (map (fun t => (t, 0)) es)) (fun qL =>
  bind (prec_likelihood outcomes modelparams es) (fun L => Ok (fst qL, L))).
(** 247-258, UnknownT2Model.likelihood *)
Definition t2_likelihood (outcomes : nd Z) (modelparams : nd R) (es : list R) : res (nd R) :=
  bind (unpack 2 (newaxis 2 (T modelparams))) (fun ps =>
  match ps with
  | [w; T2_inv] =>
    let t := fld 0 (fun t => t) es in
    bind (op1 exp (op2 Rmult (Ok (amap Ropp t)) (Ok T2_inv))) (fun visibility =>
    bind (op2 Rplus
            (op2 Rmult (Ok visibility) (op1 (fun x => cos (x / 2) ^ 2) (op2 Rmult (Ok w) (Ok t))))
            (Ok (amap (fun v => (1 - v) / 2) visibility))) (fun v =>
    bind (assign [dim 0 w; dim 0 t] v) (fun pr0 => pr0_to_likelihood_array outcomes pr0)))
  | _ => Err ValueError
  end).
(** 317-326, CoinModel.likelihood *)
Definition coin_likelihood {E} (outcomes : nd Z) (modelparams : nd R) (es : list E) : res (nd R) :=
  pr0_to_likelihood_array outcomes (T (tile [length es; 1]%nat (flatten modelparams))).
(** 328-346, CoinModel.score *)
Definition coin_score_array {E} (outcomes : nd Z) (modelparams : nd R) (es : list E) : res (nd ext * nd R) :=
  let p := newaxis 0 (flatten modelparams) in
  let side := newaxis 1 (flatten outcomes) in
  bind (op2 xsub (op2 xdiv (Ok (amap (fun z => Fin (1 - IZR z)) side)) (Ok (amap Fin p)))
                 (op2 xdiv (Ok (amap (fun z => Fin (IZR z)) side)) (Ok (amap (fun x => Fin (1 - x)) p)))) (fun q =>
  bind (transpose [1; 2; 3; 0]%nat (tile [length es; 1; 1; 1]%nat (newaxis 0 q))) (fun q =>
  bind (coin_likelihood outcomes modelparams es) (fun L => Ok (q, L)))).
(** 390-400, NoisyCoinModel.likelihood; an experiment is (alpha, beta) *)
Definition noisy_likelihood (outcomes : nd Z) (modelparams : nd R) (es : list (R * R)) : res (nd R) :=
  let a := fld 0 fst es in let b := fld 0 snd es in
  bind (op2 Rplus (op2 Rmult (Ok modelparams) (Ok a)) (op2 Rmult (Ok (amap (fun x => 1 - x) modelparams)) (Ok b))) (fun pr0 =>
  pr0_to_likelihood_array outcomes pr0).
(** 465-472, NDieModel.likelihood: integer-array indexing of each row, negative numbers counting from the end *)
Definition fancy {A} (row : nd A) (outcomes : nd Z) : res (nd A) :=
  let n := dim 0 row in
  if forallb (fun z => (- Z.of_nat n <=? z)%Z && (z <? Z.of_nat n)%Z) (entries outcomes)
  then Ok (Nd (shp outcomes ++ tl (shp row)) (fun ix =>
    let z := get outcomes (firstn (ndim outcomes) ix) in
    get row (Z.to_nat (if (z <? 0)%Z then z + Z.of_nat n else z)%Z :: skipn (ndim outcomes) ix)))
  else Err IndexError.
Definition die_likelihood {E} (outcomes : nd Z) (modelparams : nd R) (es : list E) : res (nd R) :=
  bind (bind (mapM (fun idx => bind (take 0 idx modelparams) (fun row => bind (fancy row outcomes) (fun r => Ok (newaxis 0 r))))
              (seq 0 (dim 0 modelparams))) concat0) (fun L =>
  transpose [2; 1; 0]%nat (tile [length es; 1; 1]%nat (newaxis 0 L))).

(** ** rb.py *)
(** 178-195, RandomizedBenchmarkingModel.likelihood; an experiment is the sequence length, or (length, reference) when interleaved *)
Definition rb_likelihood (outcomes : nd Z) (modelparams : nd R) (es : list nat) : res (nd R) :=
  bind (unpack 3 (newaxis 2 (T modelparams))) (fun ps =>
  match ps with
  | [p; A; B] =>
    let m := newaxis 0 (fld 0%nat (fun m => m) es) in
    bind (op1 (fun x => 1 - x) (op2 Rplus (op2 Rmult (Ok A) (op2 pow (Ok p) (Ok m))) (Ok B))) (fun v =>
    bind (assign [dim 0 modelparams; length es] v) (fun pr0 => pr0_to_likelihood_array outcomes pr0))
  | _ => Err ValueError
  end).
Definition rb_il_likelihood (outcomes : nd Z) (modelparams : nd R) (es : list (nat * bool)) : res (nd R) :=
  bind (unpack 4 (newaxis 2 (T modelparams))) (fun ps =>
  match ps with
  | [p_tilde; p; A; B] =>
    let p_C := op2 Rmult (Ok p_tilde) (Ok p) in
    bind (where_ (newaxis 0 (fld false snd es)) (Ok p) p_C) (fun p =>
    let m := newaxis 0 (fld 0%nat fst es) in
    bind (op1 (fun x => 1 - x) (op2 Rplus (op2 Rmult (Ok A) (op2 pow (Ok p) (Ok m))) (Ok B))) (fun v =>
    bind (assign [dim 0 modelparams; length es] v) (fun pr0 => pr0_to_likelihood_array outcomes pr0)))
  | _ => Err ValueError
  end).
(** 197-223 and 245-249, RandomizedBenchmarkingModel.score, not interleaved; [wrap] as in TwoModel.rb_score *)
Definition rb_score_array (wrap : nat) (outcomes : nd Z) (modelparams : nd R) (es : list nat) : res (nd ext * nd R) :=
  let n_m := dim 0 modelparams in let n_e := length es in let n_o := dim 0 outcomes in
  bind (reshape [1; 1; 1; n_e]%nat (fld 0%nat (fun m => m) es)) (fun m =>
  bind (rb_likelihood outcomes modelparams es) (fun L0 =>
  let L := newaxis 0 L0 in
  bind (reshape [1; n_o; 1; 1]%nat outcomes) (fun outcomes =>
  bind (unpack 3 (newaxis 2 (T modelparams))) (fun ps =>
  match ps with
  | [p; A; B] =>
    bind (reshape [1; 1; n_m; 1]%nat p) (fun p =>
    bind (reshape [1; 1; n_m; 1]%nat A) (fun A =>
    bind (op2 Rmult (op2 Rmult (Ok A) (Ok (amap INR m))) (op2 (pow_pred wrap) (Ok p) (Ok m))) (fun d1 =>
    bind (op2 pow (Ok p) (Ok m)) (fun d2 =>
    bind (bind (broadcast_arrays [d1; d2; amap (fun _ => 1) p]) concat0) (fun ds =>
    bind (op2 xdiv (op1 Fin (op2 Rmult (Ok (amap sgn01 outcomes)) (Ok ds))) (Ok (amap Fin L))) (fun q => Ok (q, L0)))))))
  | _ => Err ValueError
  end)))).
(** 197-207 and 225-249, interleaved *)
Definition rb_il_score_array (wrap : nat) (outcomes : nd Z) (modelparams : nd R) (es : list (nat * bool)) : res (nd ext * nd R) :=
  let n_m := dim 0 modelparams in let n_e := length es in let n_o := dim 0 outcomes in
  bind (reshape [1; 1; 1; n_e]%nat (fld 0%nat fst es)) (fun m =>
  bind (rb_il_likelihood outcomes modelparams es) (fun L0 =>
  let L := newaxis 0 L0 in
  bind (reshape [1; n_o; 1; 1]%nat outcomes) (fun outcomes =>
  bind (unpack 4 (newaxis 2 (T modelparams))) (fun ps =>
  match ps with
  | [p_tilde; p_ref; A; B] =>
    let p_C := op2 Rmult (Ok p_tilde) (Ok p_ref) in
    let mode := newaxis 0 (fld false snd es) in
    bind (where_ mode (Ok p_ref) p_C) (fun p =>
    bind (reshape [1; 1; n_m; n_e]%nat p) (fun p =>
    bind (reshape [1; 1; n_m; 1]%nat A) (fun A =>
    let Am := op2 Rmult (Ok A) (Ok (amap INR m)) in
    bind (where_ mode (Ok (scal 0)) (op2 Rmult (op2 Rmult Am (op2 (pow_pred wrap) (Ok p_tilde) (Ok m))) (op2 pow (Ok p_ref) (Ok m)))) (fun d1 =>
    bind (where_ mode (op2 Rmult Am (op2 (pow_pred wrap) (Ok p_ref) (Ok m)))
                      (op2 Rmult (op2 Rmult Am (op2 (pow_pred wrap) (Ok p_ref) (Ok m))) (op2 pow (Ok p_tilde) (Ok m)))) (fun d2 =>
    bind (op2 pow (Ok p) (Ok m)) (fun d3 =>
    bind (bind (broadcast_arrays [d1; d2; d3; amap (fun _ => 1) p]) concat0) (fun ds =>
    bind (op2 xdiv (op1 Fin (op2 Rmult (Ok (amap sgn01 outcomes)) (Ok ds))) (Ok (amap Fin L))) (fun q => Ok (q, L0)))))))))
  | _ => Err ValueError
  end)))).

(** ** tomography/models.py:211-226; an experiment is the measurement vector of length [d] ([expparams['meas']] has shape (n_e, d)).
    np.einsum('ei,mi->me') with its check of the common axis *)
Definition einsum_ei_mi (a b : nd R) : res (nd R) :=
  match shp a, shp b with
  | [e; i], [m; i'] => if Nat.eqb i i' then
      Ok (Nd [m; e] (fun ix => rsum (map (fun k => get a [nth 1 ix 0%nat; k] * get b [hd 0%nat ix; k]) (seq 0 i)))) else Err ValueError
  | _, _ => Err ValueError
  end.
Definition tomo_likelihood (d : nat) (outcomes : nd Z) (modelparams : nd R) (es : list (list R)) : res (nd R) :=
  bind (einsum_ei_mi (mat2 0 d es) modelparams) (fun v =>
  bind (assign [dim 0 modelparams; length es] v) (fun pr1 =>
  pr0_to_likelihood_array outcomes (amap (fun x => 1 - x) (amap (clip 0 1) pr1)))).
