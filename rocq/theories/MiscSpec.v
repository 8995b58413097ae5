(** Specification vocabulary for MiscProps. *)
From Verif Require Import Base Ext RList Sums SmcModel MiscModel.

(** Every round reports, for each of the [k] (model, experiment) pairs, between 0 and [step] ones. *)
Definition counts_ok (k : nat) (step : R) (data : nat -> list R) : Prop :=
  forall i, length (data i) = k /\ Forall (fun x => 0 <= x <= step) (data i).

(** [x] with coordinate [i] replaced by [t]. *)
Definition upd (x : list R) (i : nat) (t : R) : list R := map (fun j => if Nat.eqb j i then t else nth j x 0) (seq 0 (length x)).

(** [f] is quadratic in its [i]-th argument, the others being fixed as in [x]. *)
Definition quadratic_in (f : list R -> R) (x : list R) (i : nat) : Prop :=
  exists a b c, forall t, f (upd x i t) = a + b * t + c * t ^ 2.
(** [d] is the partial derivative of [f] at [x] with respect to argument [i]. *)
Definition partial (f : list R -> R) (x : list R) (i : nat) (d : R) : Prop :=
  derivable_pt_lim (fun t => f (upd x i t)) (nth i x 0) d.
(** Quadratic form of a square matrix of size [d]. *)
Definition qform (d : nat) (m : nat -> nat -> R) (x : nat -> R) : R := Sum d (fun i => Sum d (fun j => x i * m i j * x j)).

Section Bcrb.
Context {O E RND : Type}.
Variable c : @config O E RND.
Variable fisher : loc -> E -> nat -> nat -> R.
Notation upd := (bcrb_update c fisher).
(** The states before each update of a history. *)
Fixpoint before (b : @bcrb O) (xs : list (@bop O E RND)) : list (@state O) :=
  match xs with
  | [] => []
  | x :: xs' => b_smc b :: before (fst (upd (op_rp x) (op_r x) b (op_o x) (op_e x) (op_check x))) xs'
  end.
(** Both matrices are floating point arrays at different addresses. *)
Definition sane (b : @bcrb O) : Prop :=
  flt (b_heap b (b_cur b)) = true /\ match b_adapt b with None => True | Some a => a <> b_cur b /\ flt (b_heap b a) = true end.

End Bcrb.

Section Perf.
Context {O E U H : Type}.
Variable v : @perf_env O E U H.
(** The sequence of events behind a list of rows. *)
Definition explains (n : nat) (tm0 : list R) (u0 : U) (h0 : H) (rows : list (row O E))
  (T : nat -> list R) (Us : nat -> U) (Hs : nat -> H) (es : nat -> E) (ds : nat -> O) (k0 : nat) : Prop :=
  T 0%nat = tm0 /\ Us 0%nat = u0 /\ Hs 0%nat = h0 /\ length rows = n /\
  forall k, (k < n)%nat ->
    p_heur v (k0 + k) (Hs k) (Us k) = Ok (es k, Hs (S k)) /\
    p_sim v (k0 + k) (T k) (es k) = Ok (ds k) /\
    p_upd v (k0 + k) (Us k) (ds k) (es k) = Ok (Us (S k)) /\
    p_drift v (k0 + k) (T k) (es k) = Ok (T (S k)) /\
    exists r, nth_error rows k = Some r /\ r_true r = T k /\ p_mean v (Us (S k)) = Ok (r_est r) /\
      r_count r = p_count v (Us (S k)) /\ r_outcome r = ds k /\ r_exp r = es k /\
      r_loss r = (let m := Nat.min (length (r_est r)) (length (T (S k))) in
                  rdot (map (fun x => x ^ 2) (map2 Rminus (lastn m (r_est r)) (lastn m (T (S k))))) (lastn (p_nmin v) (p_Q v))).

End Perf.
