(** Models of the concrete two-outcome models and of the die: src/qinfer/test_models.py, src/qinfer/rb.py,
    the likelihood of src/qinfer/tomography/models.py and the kernel of src/qinfer/gpu_models.py (float32 rounding is not
    modelled), with scores; FiniteOutcomeModel.pr0_to_likelihood_array and DifferentiableModel.fisher_information
    (src/qinfer/abstract_model.py:665-686, 707-761); Simulatable.distance (336-355) and
    metrics.rescaled_distance_mtx (src/qinfer/metrics.py:72-104).  Arrays are modelled entry by entry. *)
From Verif Require Import Base Ext.

(** abstract_model.py:677-686, one entry *)
Definition pr0_like (pr0 : R) (o : Z) : R := if (o =? 0)%Z then pr0 else 1 - pr0.

(** ** test_models.py *)
(** 111-112, SimpleInversionModel.are_models_valid (one row) *)
Definition inv_valid (min_freq w : R) : bool := Rltb min_freq w.
(** 126-148, SimpleInversionModel.likelihood *)
Definition inv_pr0 (t w_ w : R) : R := cos (t * (w - w_) / 2) ^ 2.
Definition inv_like (t w_ w : R) (o : Z) : R := pr0_like (inv_pr0 t w_ w) o.
(** np.tan, infinite where the cosine vanishes; np.power with exponent 0 or 1 *)
Definition xtan (a : R) : ext := if Reqb (cos a) 0 then PInf else Fin (tan a).
Definition xpow01 (x : ext) (k : Z) : ext := if (k =? 0)%Z then Fin 1 else x.
(** 150-166, SimpleInversionModel.score, outcomes 0 and 1 *)
Definition inv_score (t w_ w : R) (o : Z) : ext :=
  let arg := (w - w_) * t / 2 in
  xmul (xpow01 (xdiv (Fin t) (xtan arg)) o) (xpow01 (xmul (Fin (- t)) (xtan arg)) (1 - o)).
(** 190-200 and 202-213, SimplePrecessionModel *)
Definition prec_like (t w : R) (o : Z) : R := inv_like t 0 w o.
Definition prec_score (t w : R) (o : Z) : ext := inv_score t 0 w o.

(** 244-245 and 247-259, UnknownT2Model *)
Definition t2_valid (w t2inv : R) : bool := Rleb 0 w && Rleb 0 t2inv.
Definition t2_pr0 (t w t2inv : R) : R :=
  let visibility := exp (- t * t2inv) in visibility * cos (w * t / 2) ^ 2 + (1 - visibility) / 2.
Definition t2_like (t w t2inv : R) (o : Z) : R := pr0_like (t2_pr0 t w t2inv) o.

(** 303-304, 317-327, CoinModel; 329-345, its score (division by zero as in numpy) *)
Definition coin_valid (p : R) : bool := Rleb 0 p && Rleb p 1.
Definition coin_like (p : R) (o : Z) : R := pr0_like p o.
Definition coin_score (p : R) (o : Z) : ext :=
  xsub (xdiv (Fin (1 - IZR o)) (Fin p)) (xdiv (Fin (IZR o)) (Fin (1 - p))).

(** 383-385, 390-401, NoisyCoinModel *)
Definition noisy_like (alpha beta p : R) (o : Z) : R := pr0_like (p * alpha + (1 - p) * beta) o.

(** 449-452 and 465-472, NDieModel: [outcomes] index the parameter vector *)
Definition die_valid (threshold : R) (p : list R) : bool :=
  Rleb (Rabs (rsum p - 1)) threshold && forallb (fun x => Rleb 0 x && Rleb x 1) p.
Definition die_like (p : list R) (o : nat) : R := nth o p 0.

(** ** rb.py *)
(** 59-67 and 69-77 *)
Definition rb_p (F d : R) : R := (d * F - 1) / (d - 1).
Definition rb_F (p d : R) : R := 1 - (1 - p) * (d - 1) / d.
(** 112-120, __init__: only order 0 *)
Definition rb_new (interleaved : bool) (order : Z) : res bool :=
  if (order =? 0)%Z then Ok interleaved else Err NotImplementedError.
(** 149-176, are_models_valid *)
Definition rb_valid (p A B : R) : bool :=
  Rleb 0 p && Rleb p 1 && Rleb 0 A && Rleb A 1 && Rleb 0 B && Rleb B 1 && Rleb (A + B) 1 && Rleb (A * p + B) 1.
Definition rb_il_valid (p_C p A B : R) : bool :=
  Rleb 0 p && Rleb p 1 && Rleb 0 p_C && Rleb p_C 1 && Rleb 0 A && Rleb A 1 && Rleb 0 B && Rleb B 1 &&
  Rleb (A + B) 1 && Rleb (A * p + B) 1 && Rleb (A * p_C + B) 1.
(** 178-195, likelihood *)
Definition rb_like (m : nat) (p A B : R) (o : Z) : R := pr0_like (1 - (A * p ^ m + B)) o.
Definition rb_il_like (m : nat) (reference : bool) (p_tilde p A B : R) (o : Z) : R :=
  rb_like m (if reference then p else p_tilde * p) A B o.
(** [p ** (m - 1)] with [m] unsigned: for m = 0 the exponent wraps around to [wrap] *)
Definition pow_pred (wrap : nat) (p : R) (m : nat) : R := match m with O => p ^ wrap | S k => p ^ k end.
(** 197-247, score: the three (four) components; [(-1)**(1-outcomes)] *)
Definition sgn01 (o : Z) : R := if (o =? 0)%Z then -1 else 1.
Definition rb_score (wrap m : nat) (p A B : R) (o : Z) : list ext :=
  map (fun q => xdiv (Fin (sgn01 o * q)) (Fin (rb_like m p A B o))) [A * INR m * pow_pred wrap p m; p ^ m; 1].
Definition rb_il_score (wrap m : nat) (reference : bool) (p_tilde p_ref A B : R) (o : Z) : list ext :=
  let p := if reference then p_ref else p_tilde * p_ref in
  map (fun q => xdiv (Fin (sgn01 o * q)) (Fin (rb_il_like m reference p_tilde p_ref A B o)))
    [if reference then 0 else A * INR m * pow_pred wrap p_tilde m * p_ref ^ m;
     if reference then A * INR m * pow_pred wrap p_ref m else A * INR m * pow_pred wrap p_ref m * p_tilde ^ m;
     p ^ m; 1].

(** ** tomography/models.py:211-229 *)
Definition tomo_like (meas params : list R) (o : Z) : R := pr0_like (1 - clip 0 1 (rdot meas params)) o.

(** ** gpu_models.py:89-92 and 147-195 *)
Definition gpu_pr0 (model expparam : R) : R := cos (model * expparam / 2) ^ 2.
Definition gpu_like (t w : R) (o : Z) : R := pr0_like (gpu_pr0 w t) o.

(** ** abstract_model.py:731-761, fisher_information for one model and experiment: einsum "ome,iome,jome->ijme" *)
Definition fisher (n_outcomes : nat) (L : nat -> R) (score : nat -> nat -> R) (i j : nat) : R :=
  rsum (map (fun o => L o * score i o * score j o) (seq 0 n_outcomes)).
(** derived_models.py:374-383, DifferentiableBinomialModel.fisher_information (record expparams) *)
Definition binomial_fisher (n_meas : nat) (fi : nat -> nat -> R) (i j : nat) : R := fi i j * INR n_meas.

(** ** abstract_model.py:351-355, distance of one pair of vectors *)
Definition distance (Q a b : list R) : R := rsum (map Rabs (map2 Rmult Q (map2 Rminus a b))).
(** metrics.py:93-104, one entry of rescaled_distance_mtx *)
Definition rescaled_distance (Q a b : list R) : R :=
  sqrt (rsum (map (fun x => x ^ 2) (map2 Rmult (map sqrt Q) (map2 Rminus a b)))).
