(** Model of the sampling classes of src/qinfer/distributions.py (other than ParticleDistribution, see PartModel.v). *)
From Verif Require Import Base Ext SmcModel LwModel.

(** ** Arrays *)
(** A one-index array, or a two-index array with its number of columns. *)
Inductive arr := A1 (l : list ext) | A2 (cols : nat) (rows : list (list ext)).
Definition shape_ok (n d : nat) (a : arr) : Prop := match a with A1 _ => False | A2 c rows => c = d /\ length rows = n /\ Forall (fun r => length r = d) rows end.
(** np.concatenate along axis 0: one array at least, equal dimensions otherwise *)
Fixpoint concat0 (l : list arr) : res arr :=
  match l with
  | [] => Err ValueError
  | [a] => Ok a
  | a :: l' => bind (concat0 l') (fun b =>
      match a, b with
      | A1 x, A1 y => Ok (A1 (x ++ y))
      | A2 c x, A2 d y => if Nat.eqb c d then Ok (A2 c (x ++ y)) else Err ValueError
      | _, _ => Err ValueError
      end)
  end.
(** np.concatenate along axis 1 of two-index arrays *)
Fixpoint concat1 (l : list arr) : res arr :=
  match l with
  | [] => Err ValueError
  | [A2 c x] => Ok (A2 c x)
  | a :: l' => bind (concat1 l') (fun b =>
      match a, b with
      | A2 c x, A2 d y => if Nat.eqb (length x) (length y) then Ok (A2 (c + d) (map2 (@app ext) x y)) else Err ValueError
      | _, _ => Err ValueError
      end)
  end.
(** np.hstack: along axis 0 if the first array has one index, else along axis 1 *)
Definition hstack (l : list arr) : res arr :=
  match l with A1 _ :: _ => concat0 l | _ => concat1 l end.

(** ** Randomness *)
(** Everything NumPy or SciPy draws during one call of [sample].  Calls of nested distributions read different branches of
    the source, see [sub]. *)
Record draws := {
  unif : nat -> nat -> R;                  (** np.random.random / rand, by row and column: in [0,1) *)
  gauss : nat -> nat -> R;                 (** np.random.randn, by row and column *)
  raw : nat -> R;                          (** rvs of the standardised scipy distribution, by row *)
  rawrow : nat -> nat -> list R;           (** rows drawn by an external vector-valued sampler of the given dimension *)
  bits : nat -> nat;                       (** np.random.randint *)
  counts : nat -> list R -> list nat;      (** np.random.multinomial(n, weights) *)
  shuffled : nat -> list nat               (** the order in which np.random.shuffle leaves n rows *)
}.
Definition source := list nat -> draws.
Definition sub (w : source) (k : nat) : source := fun p => w (k :: p).
Definition here (w : source) : draws := w [].

(** ** Postselection, 1304-1350 *)
Section Post.
  (** [draw r k]: the [k] rows returned by the [r]-th call of the wrapped distribution *)
  Context (draw : nat -> nat -> res (list (list ext))) (valid : list ext -> bool).
  (** [samples[idxs] = ...] *)
  Fixpoint post_loop (left round : nat) (samples : list (list ext)) (idxs : list nat) : res (list (list ext)) :=
    match idxs with
    | [] => Ok samples
    | _ => match left with
           | O => Err RuntimeError
           | S k => bind (draw round (length idxs)) (fun new =>
               let samples' := scatter idxs new samples in
               post_loop k (S round) samples' (filter (fun i => negb (valid (nth i samples' []))) idxs))
           end
    end.
  (** [junk]: the uninitialised np.empty contents *)
  Definition postselect (junk : list (list ext)) (n maxiters : nat) : res (list (list ext)) := post_loop maxiters 0 junk (seq 0 n).
End Post.

(** ** ConstrainedSumDistribution, 1413-1417 (one row) *)
Definition xsign (a : ext) : ext :=
  match a with Fin x => Fin (if Rltb 0 x then 1 else if Rltb x 0 then -1 else 0) | PInf => Fin 1 | NInf => Fin (-1) | NaN => NaN end.
Definition constrain (desired : R) (s : list ext) : list ext :=
  let total := xsum s in map (fun x => xdiv (xmul (xmul (Fin desired) (xsign total)) x) total) s.

(** ** The distributions *)
(** The [ranges] argument of UniformDistribution and SlantedNormalDistribution: one index or two. *)
Inductive ranges := R1 (l : list R) | R2 (l : list (list R)).
Definition range_rows (r : ranges) : list (list R) := match r with R1 l => [l] | R2 l => l end.
(** 805-807: every row needs two entries ([ranges[:, 1]]) *)
Definition get_range (l : list R) : res (R * R) := match l with lo :: hi :: _ => Ok (lo, hi) | _ => Err IndexError end.
Fixpoint get_ranges (l : list (list R)) : res (list (R * R)) :=
  match l with [] => Ok [] | r :: l' => bind (get_range r) (fun x => bind (get_ranges l') (fun xs => Ok (x :: xs))) end.

Inductive dist :=
| Uniform (rs : list (R * R))                               (** 792-827 *)
| Constant (values : list R)                                (** 829-846 *)
| Scalar (g : R -> R)                                       (** one column [g(raw draw)]: Normal 848-880, LogNormal 950-970, Beta, Gamma, BetaBinomial, Interpolated *)
| MVNormal (mean : list R) (sqrtcov : list (list R))        (** 882-908; la.sqrtm(cov) is a parameter *)
| Slanted (rs : list (R * R)) (weight : R)                  (** 911-948 *)
| Rows (d : nat)                                            (** rows from an external sampler: Dirichlet 1011-1034, MVUniform 1121-1146, Haar 1223-1267, Ginibre 1269-1302 *)
| DiscreteUniform (num_bits : nat)                          (** 1148-1166 *)
| Postselected (d : dist) (valid : list ext -> bool) (maxiters : nat)
| ConstrainedSum (d : dist) (desired : R)                   (** 1391-1417 *)
| Product (l : list dist)                                   (** 753-781 *)
| Mixture (weights : list R) (l : list dist) (shuffle : bool). (** 148-259, list form *)

(** UniformDistribution's constructor, 799-809 *)
Definition new_uniform (r : ranges) : res dist := bind (get_ranges (range_rows r)) (fun rs => Ok (Uniform rs)).
(** NormalDistribution without truncation, 862-868; LogNormalDistribution, 959-963: scipy's lognorm(s, loc, scale) is
    [loc + scale * exp (s * z)]; GammaDistribution.sample, 1118-1119 *)
Definition normal_dist (mean var : R) : dist := Scalar (fun z => mean + sqrt var * z).
Definition lognorm (s loc scale z : R) : R := loc + scale * exp (s * z).
Definition lognormal_dist (mu sigma : R) : dist := Scalar (fun z => lognorm 1 mu sigma z).
Definition gamma_dist (beta : R) : dist := Scalar (fun x => x / beta).
(** MixtureDistribution's constructor, 173-193.  A wrong number of components trips the assertion inside [try]; the handler
    then uses [dist_args.shape] with [dist_args = None].  An empty list fails at [dist[0]] and ends the same way. *)
Definition new_mixture (weights : list R) (l : list dist) (shuffle : bool) : res dist :=
  match l with
  | [] => Err AttributeError
  | _ => if Nat.eqb (length weights) (length l) then Ok (Mixture weights l shuffle) else Err AttributeError
  end.

Fixpoint n_rvs (d : dist) : nat :=
  match d with
  | Uniform rs | Slanted rs _ => length rs
  | Constant v => length v
  | Scalar _ | DiscreteUniform _ => 1
  | MVNormal m _ => length m
  | Rows k => k
  | Postselected d _ _ | ConstrainedSum d _ => n_rvs d
  | Product l => fold_right Nat.add 0%nat (map n_rvs l)
  | Mixture _ l _ => match l with [] => 0%nat | d :: _ => n_rvs d end
  end.

Definition nrange (n : nat) : list nat := seq 0 n.
Definition uniform_row (rs : list (R * R)) (z : nat -> R) : list R := map2 (fun r j => fst r + z j * (snd r - fst r)) rs (seq 0 (length rs)).
Definition slanted_row (rs : list (R * R)) (weight : R) (z u : nat -> R) : list R :=
  map2 (fun r j => fst r + weight * z j + u j * (snd r - fst r)) rs (seq 0 (length rs)).
Definition mvnormal_row (m : list R) (S : list (list R)) (z : nat -> R) : list R := map2 Rplus (matvec S (map z (seq 0 (length m)))) m.
Definition pick_rows {A} (order : list nat) (l : list A) (d : A) : list A := map (fun i => nth i l d) order.
(** Rows of a two-index array assigned into selected rows of an array with [c] columns *)
Definition assignable (c k : nat) (a : arr) : res (list (list ext)) :=
  match a with
  | A2 c' rows => if Nat.eqb c c' then Ok rows else Err ValueError
  | A1 l => if Nat.eqb (length l) 1 && Nat.eqb c 1 && Nat.eqb k 1 then Ok [l] else Err ValueError
  end.

(** [sample(n)] *)
Fixpoint sample (d : dist) (n : nat) (w : source) {struct d} : res arr :=
  match d with
  | Uniform rs => Ok (A2 (length rs) (map (fun i => map Fin (uniform_row rs (unif (here w) i))) (nrange n)))
  | Constant v => Ok (A2 (length v) (repeat (map Fin v) n))
  | Scalar g => Ok (A2 1 (map (fun i => [Fin (g (raw (here w) i))]) (nrange n)))
  | MVNormal m root =>
      if Nat.eqb (length root) (length m) && forallb (fun r => Nat.eqb (length r) (length m)) root
      then Ok (A2 (length m) (map (fun i => map Fin (mvnormal_row m root (gauss (here w) i))) (nrange n)))
      else Err ValueError
  | Slanted rs weight => Ok (A2 (length rs) (map (fun i => map Fin (slanted_row rs weight (gauss (here w) i) (unif (here w) i))) (nrange n)))
  | Rows k => Ok (A2 k (map (fun i => map Fin (rawrow (here w) k i)) (nrange n)))
  | DiscreteUniform b => Ok (A1 (map (fun i => Fin (INR (bits (here w) i))) (nrange n)))
  | Postselected d' valid maxiters =>
      bind (postselect (fun r k => bind (sample d' k (sub w r)) (assignable (n_rvs d') k)) valid (repeat [] n) n maxiters) (fun rows => Ok (A2 (n_rvs d') rows))
  | ConstrainedSum d' desired =>
      bind (sample d' n w) (fun a => match a with A2 c rows => Ok (A2 c (map (constrain desired) rows)) | A1 _ => Err IndexError end)
  | Product l =>
      bind ((fix go (k : nat) (l : list dist) : res (list arr) :=
               match l with [] => Ok [] | f :: l' => bind (sample f n (sub w k)) (fun a => bind (go (S k) l') (fun r => Ok (a :: r))) end) 0%nat l)
           hstack
  | Mixture weights l shuffle =>
      bind ((fix go (k : nat) (l : list dist) (ns : list nat) : res (list arr) :=
               match l, ns with
               | f :: l', m :: ns' =>
                   if Nat.eqb m 0 then go (S k) l' ns'
                   else bind (sample f m (sub w k)) (fun a => bind (go (S k) l' ns') (fun r => Ok (a :: r)))
               | _, _ => Ok []
               end) 0%nat l (counts (here w) n weights))
           (fun parts => bind (concat0 parts) (fun a =>
              if shuffle then match a with
                              | A1 x => Ok (A1 (pick_rows (shuffled (here w) (length x)) x NaN))
                              | A2 c x => Ok (A2 c (pick_rows (shuffled (here w) (length x)) x []))
                              end
              else Ok a))
  end.

(** ** Shape parameters from moments *)
(** The four optional arguments: both shapes, or else both moments, or else ValueError. *)
Record shapes := { sh_alpha : R; sh_beta : R; sh_mean : R; sh_var : R }.
Definition choose (alpha beta mean var : option R) (from_shapes from_moments : R -> R -> shapes) : res shapes :=
  match alpha, beta, mean, var with
  | Some a, Some b, _, _ => Ok (from_shapes a b)
  | _, _, Some m, Some v => Ok (from_moments m v)
  | _, _, _, _ => Err ValueError
  end.
(** 985-1000 *)
Definition beta_of_shapes (a b : R) : shapes := {| sh_alpha := a; sh_beta := b; sh_mean := a / (a + b); sh_var := a * b / ((a + b) ^ 2 * (a + b + 1)) |}.
Definition beta_of_moments (m v : R) : shapes := {| sh_alpha := m ^ 2 * (1 - m) / v - m; sh_beta := (1 - m) ^ 2 * m / v - (1 - m); sh_mean := m; sh_var := v |}.
Definition new_beta alpha beta mean var := choose alpha beta mean var beta_of_shapes beta_of_moments.
(** 1056-1068 *)
Definition betabin_of_shapes (n : nat) (a b : R) : shapes :=
  {| sh_alpha := a; sh_beta := b; sh_mean := INR n * a / (a + b); sh_var := INR n * a * b * (a + b + INR n) / ((a + b) ^ 2 * (a + b + 1)) |}.
Definition betabin_of_moments (n : nat) (m v : R) : shapes :=
  {| sh_alpha := - m * (v + m ^ 2 - INR n * m) / (m ^ 2 + INR n * (v - m));
     sh_beta := (INR n - m) * (v + m ^ 2 - INR n * m) / ((INR n - m) * m - INR n * v); sh_mean := m; sh_var := v |}.
Definition new_betabin n alpha beta mean var := choose alpha beta mean var (betabin_of_shapes n) (betabin_of_moments n).
(** 1097-1108 *)
Definition gamma_of_shapes (a b : R) : shapes := {| sh_alpha := a; sh_beta := b; sh_mean := a / b; sh_var := a / b ^ 2 |}.
Definition gamma_of_moments (m v : R) : shapes := {| sh_alpha := m ^ 2 / v; sh_beta := m / v; sh_mean := m; sh_var := v |}.
Definition new_gamma alpha beta mean var := choose alpha beta mean var gamma_of_shapes gamma_of_moments.
