(** The parts of the package whose behaviour depends on rounding, with IEEE double arithmetic (round to nearest, ties to even) instead of
    exact real numbers.  A double is a real number of the form m 2^e with |m| < 2^53 and e >= -1074; every operation is the exact operation
    followed by [rnd].

    Simplifications: no overflow (all numbers treated here are weights and likelihoods, far below 2^1024), hence no infinities or NaN;
    likelihood values are the doubles returned by the model. *)
From Flocq Require Import Core.
From Coq Require Import List ZArith.
From Verif Require Import Base Ext SmcModel PartModel SimModel.
Import ListNotations.

(** Round to the nearest double. *)
Definition rnd (x : R) : R := round radix2 (FLT_exp (-1074) 53) ZnearestE x.

(** [np.cumsum]: entries are added one after the other. *)
Fixpoint fcumsum_from (acc : R) (l : list R) : list R :=
  match l with
  | [] => []
  | x :: l' => let acc' := rnd (acc + x) in acc' :: fcumsum_from acc' l'
  end.
Definition fcumsum (l : list R) : list R := match l with [] => [] | x :: l' => x :: fcumsum_from x l' end.

(** [np.sum]: NumPy adds in an order that depends on length and memory layout (pairwise, eight running sums, or one after the other).
    A tree over the indices says which; nothing is assumed about its shape. *)
Inductive stree := SLeaf (i : nat) | SNode (l r : stree).
Fixpoint fsum (t : stree) (f : nat -> R) : R := match t with SLeaf i => f i | SNode l r => rnd (fsum l f + fsum r f) end.

(** [np.ones((n,)) / n], smc.py:300 *)
Definition f_uniform (n : nat) : list R := repeat (rnd (1 / INR n)) n.

(** resamplers.py:308-325: ancestors of the draws [us]; there is no guard against an index past the end. *)
Definition f_ancestor (w : list R) (u : R) : nat := searchsorted_right (fcumsum w) u.
Definition f_ancestors {A} (w : list R) (l : list A) (us : list R) : res (list A) := take l (map (f_ancestor w) us).

(** distributions.py:329-333, [ParticleDistribution.sample]: the same search, cut off at the last particle. *)
Definition f_sample_index (w : list R) (u : R) : nat := Nat.min (f_ancestor w u) (length (fcumsum w) - 1).
Definition f_sample {A} (w : list R) (l : list A) (us : list R) : res (list A) := take l (map (f_sample_index w) us).

(** distributions.py:595-603, mask of the credible particles; [w] is sorted, heaviest first. *)
Definition f_credible (w : list R) (level : R) : res (list bool) :=
  let id_cred := map (fun x => Rleb x level) (fcumsum w) in set_true (count_true id_cred) id_cred.

(** abstract_model.py:640-644, one draw of [FiniteOutcomeModel.simulate_experiment]. *)
Definition f_pick (values : list Z) (probs : list R) (u : R) : res Z :=
  match values with
  | [] => Err ValueError
  | _ => bind (np_index values (Z.of_nat (argmax_bool (map (fun c => Rltb u c) (fcumsum probs))))) (fun i => np_index values i)
  end.

(** smc.py:353-375, [hypothetical_update] for one outcome and one experiment with likelihood values [L]; [t] is the order of summation. *)
Definition f_hyp (w L : list R) : list R := map2 (fun a b => rnd (a * b)) w L.
Definition f_norm (t : stree) (w L : list R) : R := fsum t (fun i => nth i (f_hyp w L) 0).
Definition f_fix (N : R) : R := if Rltb (Rabs N) eps then 1 else N.
Definition f_weights (t : stree) (w L : list R) : list R := map (fun x => rnd (x / f_fix (f_norm t w L))) (f_hyp w L).

(** distributions.py:299-307 [n_ess] *)
Definition f_ness (t : stree) (w : list R) : R := rnd (1 / fsum t (fun i => rnd (nth i w 0 * nth i w 0))).

Section Run.
Context {O E RND : Type}.
(** smc.py:388-457: weights, locations and normalisations of a sequence of updates without zero-weight events and without resampling;
    [ts] are the orders of summation. *)
Fixpoint f_run (c : @config O E RND) (rs : nat -> RND) (ts : nat -> stree) (idx : nat) (w : list R) (l : list loc) (data : list (O * E))
  : list R * list R :=
  match data with
  | [] => (w, [])
  | (o, e) :: data' =>
      let L := L_row c l o e in
      let '(w', Ns) := f_run c rs ts (S idx) (f_weights (ts idx) w L) (timestep (md c) (rs idx) l e) data' in
      (w', f_norm (ts idx) w L :: Ns)
  end.
End Run.
