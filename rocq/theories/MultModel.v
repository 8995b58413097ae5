(** Sampling of multinomial counts: utils.py:163-202 (sample_multinomial), derived_models.py:653-678
    (MultinomialModel.simulate_experiment), 484-508 (GaussianHyperparameterizedModel.simulate_experiment on arrays),
    domains.py:667-683 (MultinomialDomain.from_regular_array) and the NumPy functions they use.  Arrays have value semantics:
    a shape and the elements in C order; views, strides and element types are not modelled. *)
From Coq Require Import List.
From Verif Require Import Base DomModel DerModel.

(** ** Arrays *)
Record nd (A : Type) := ND { shp : list nat; elt : nat -> A }.
Arguments ND {A}. Arguments shp {A}. Arguments elt {A}.
Definition volume (s : list nat) : nat := fold_right Nat.mul 1%nat s.
(** position of an index in C order, and the index at a position *)
Fixpoint ravel (s i : list nat) : nat :=
  match s, i with
  | _ :: s', k :: i' => (k * volume s' + ravel s' i')%nat
  | _, _ => 0%nat
  end.
Fixpoint unravel (s : list nat) (k : nat) : list nat :=
  match s with [] => [] | _ :: s' => (k / volume s')%nat :: unravel s' (k mod volume s')%nat end.
(** [a.reshape(s)] with every length given *)
Definition reshape {A} (s : list nat) (a : nd A) : res (nd A) :=
  if Nat.eqb (volume s) (volume (shp a)) then Ok (ND s (elt a)) else Err ValueError.
(** [a.transpose(axes)]: axis j of the result is axis axes[j] of the argument; too few, too many or repeated axes are a ValueError *)
Fixpoint index_of (d : nat) (l : list nat) : nat :=
  match l with [] => 0%nat | x :: r => if Nat.eqb x d then 0%nat else S (index_of d r) end.
Definition is_perm (n : nat) (axes : list nat) : bool :=
  Nat.eqb (length axes) n && forallb (fun d => existsb (Nat.eqb d) axes) (seq 0 n).
Definition transpose {A} (axes : list nat) (a : nd A) : res (nd A) :=
  if is_perm (length (shp a)) axes then
    let s := map (fun x => nth x (shp a) 0%nat) axes in
    Ok (ND s (fun k => let i := unravel s k in
                       elt a (ravel (shp a) (map (fun d => nth (index_of d axes) i 0%nat) (seq 0 (length axes))))))
  else Err ValueError.
(** [np.apply_along_axis(f, 0, p)] for a function with one-dimensional result; [f] also gets the number of the column, because it
    draws.  No columns at all is a ValueError. *)
Definition apply_along_axis0 {A} (f : nat -> list A -> res (list nat)) (p : nd A) : res (nd nat) :=
  match shp p with
  | [] => Err ValueError
  | sides :: rest =>
      let cols := volume rest in
      if Nat.eqb cols 0 then Err ValueError
      else bind (mapM (fun c => f c (map (fun i => elt p (i * cols + c)%nat) (seq 0 sides))) (seq 0 cols)) (fun rs =>
           Ok (ND (length (nth 0 rs []) :: rest) (fun k => nth (k / cols) (nth (k mod cols) rs []) 0%nat)))
  end.
(** [a[..., 0]] *)
Definition first_of_last {A} (a : nd A) : nd A := ND (removelast (shp a)) (fun k => elt a (k * last (shp a) 0)%nat).
(** [np.concatenate([a[np.newaxis, ...] for a in l])] for arrays of one shape *)
Definition stack {A} (l : list (nd A)) : res (nd A) :=
  match l with
  | [] => Err ValueError
  | a :: _ => let v := volume (shp a) in Ok (ND (length l :: shp a) (fun k => elt (nth (k / v) l a) (k mod v)%nat))
  end.

(** ** np.random.multinomial *)
(** A program that draws binomial variates *)
Inductive tree (A : Type) := Ret (a : A) | Bin (n : nat) (p : R) (k : nat -> tree A).
Arguments Ret {A}. Arguments Bin {A}.
Fixpoint tmap {A B} (f : A -> B) (t : tree A) : tree B :=
  match t with Ret a => Ret (f a) | Bin n p k => Bin n p (fun j => tmap f (k j)) end.
(** its result when the i-th variate drawn, from the binomial distribution with parameters n and p, is [b i n p] *)
Fixpoint run {A} (t : tree A) (b : nat -> nat -> R -> nat) : A :=
  match t with Ret a => a | Bin n p k => run (k (b 0%nat n p)) (fun i => b (S i)) end.
(** One row of counts, NumPy's loop: outcome j gets a binomial share of the trials that are left, the last outcome the rest;
    the loop stops once no trial is left.  The probability given for the last outcome is not looked at. *)
Fixpoint np_row (left : nat) (Sum : R) (qs : list R) : tree (list nat) :=
  match qs with
  | [] => Ret [left]
  | q :: qs' => Bin left (q / Sum) (fun k => tmap (cons k)
                  (if Nat.eqb (left - k) 0 then Ret (repeat 0%nat (S (length qs'))) else np_row (left - k) (Sum - q) qs'))
  end.
(** [np.random.multinomial(N, ps, M)], flattened; [src] supplies the binomial variates of each row *)
Definition np_multinomial (N : nat) (ps : list R) (M : nat) (src : nat -> nat -> nat -> R -> nat) : res (list nat) :=
  if Rltb (1 + / 10 ^ 12) (rsum (removelast ps)) then Err ValueError
  else Ok (flat_map (fun k => run (np_row N 1 (removelast ps)) (src k)) (seq 0 M)).

(** ** utils.py:163-202, sample_multinomial; [src column sample] are the variates *)
Inductive size_arg := SNone | SInt (n : nat) | STuple (l : list nat).
(** 184: [s]; an empty tuple gives [np.prod(s) = 1.0], which np.random.multinomial refuses *)
Definition sizes (sz : size_arg) : list nat := match sz with SNone => [1%nat] | SInt n => [n] | STuple l => l end.
Definition sample_multinomial (N : nat) (p : nd R) (sz : size_arg) (src : nat -> nat -> nat -> nat -> R -> nat) : res (nd nat) :=
  let s := sizes sz in
  bind (apply_along_axis0 (fun c ps => match s with [] => Err TypeError | _ => np_multinomial N ps (volume s) (src c) end) p) (fun samples =>
  bind (reshape (s ++ shp p) samples) (fun samples =>
  (* s is one-dimensional, so s.ndim is one whatever its length *)
  bind (transpose (seq 1 (length (shp p)) ++ [0%nat]) samples) (fun samples =>
  match sz with SNone => Ok (first_of_last samples) | _ => Ok samples end))).

(** ** domains.py:667-683: rows of the last axis become single elements; [reshape] cannot infer a length from no elements *)
Definition from_regular_array (a : nd nat) : res (nd (list nat)) :=
  let dims := removelast (shp a) in
  let k := last (shp a) 0%nat in
  if Nat.eqb (volume dims) 0 then Err ValueError
  else Ok (ND dims (fun i => map (fun j => elt a (i * k + j)%nat) (seq 0 k))).

(** ** derived_models.py:653-678, MultinomialModel.simulate_experiment *)
(** [values] is the underlying domain, [like] the underlying likelihood, an experiment is the pair of the underlying one and n_meas;
    [junk model experiment] is what np.empty left in the row of the last outcome; [src experiment model repetition] the variates. *)
Inductive sim_counts := OneCount (v : list nat) | Counts (a : nd (list nat)).
Definition simulate_multinomial {V M E} (values : list V) (like : V -> M -> E -> R) (ms : list M) (es : list (E * nat)) (rep : nat)
    (junk : nat -> nat -> R) (src : nat -> nat -> nat -> nat -> nat -> R -> nat) : res sim_counts :=
  let sides := length values in
  let n_m := length ms in
  let prs (j : nat) (e : E) : nd R :=                      (* prs[:, :, j] *)
    ND [sides; n_m] (fun k => let side := (k / n_m)%nat in let m := (k mod n_m)%nat in
      match nth_error (removelast values) side, nth_error ms m with
      | Some v, Some x => like v x e
      | _, _ => junk m j
      end) in
  bind (mapM (fun je : nat * (E * nat) => sample_multinomial (snd (snd je)) (prs (fst je) (fst (snd je))) (SInt rep) (src (fst je)))
         (combine (seq 0 (length es)) es)) (fun blocks =>
  bind (stack blocks) (fun os =>
  bind (transpose [3; 2; 0; 1]%nat os) (fun os =>
  bind (from_regular_array os) (fun os =>
  Ok (if Nat.eqb (volume (shp os)) 1 then OneCount (elt os 0%nat) else Counts os))))).

(** ** 484-508, GaussianHyperparameterizedModel.simulate_experiment: [u r m e] the underlying outcomes as booleans, [z m e] the normal
    variates, drawn before and outside of the repetitions *)
Definition simulate_hyper (n : nat) (ms : list (list R)) (n_e rep : nat) (u : nat -> nat -> nat -> bool) (z : nat -> nat -> R)
  : R + list (list (list R)) :=
  let os := map (fun r => map (fun m => map (fun e => hyper_outcome n (nth m ms []) (u r m e) (z m e)) (seq 0 n_e)) (seq 0 (length ms))) (seq 0 rep) in
  if Nat.eqb (rep * length ms * n_e) 1 then inl (nth 0 (nth 0 (nth 0 os []) []) 0) else inr os.
