(** Simulated learning: a truth is drawn from an updater ([true_prior.sample()], perf_testing.py 229, distributions.py 320-333), and every further datum is
    simulated from it ([true_model.simulate_experiment(true_mps, expparams)], perf_testing.py 248, abstract_model.py 632-660), the next experiment being chosen from the
    outcomes so far.  The truth does not move (perf_testing.py 254-256 is the identity for models without time steps). *)
From Coq Require Import List ZArith.
From Verif Require Import Base RList SmcModel PartModel SimModel HandModel.
Import ListNotations.

(** The outcome reported for one truth [x], one experiment [e] and the random number [v]; -1 stands for an exception or an array. *)
Definition observed {E} (m : @fmodel loc E) (x : loc) (e : E) (v : R) : Z :=
  match simulate_experiment m [x] [e] 1 (fun _ _ _ => v) with Ok (Scalar z) => z | _ => (-1)%Z end.
(** Average of [F data] over [k] simulated experiments on the truth [x]. *)
Fixpoint live {E} (Eu : (R -> R) -> R) (m : @fmodel loc E) (pol : list Z -> E) (x : loc) (k : nat) (hist : list Z) (F : list (Z * E) -> R) : R :=
  match k with
  | 0%nat => F []
  | S k' => Eu (fun v => let o := observed m x (pol hist) v in live Eu m pol x k' (hist ++ [o]) (fun d => F ((o, pol hist) :: d)))
  end.
(** Average of [F truth data] over the truth as well. *)
Definition closed_loop {O E} (Eu : (R -> R) -> R) (m : @fmodel loc E) (pol : list Z -> E) (k : nat) (s : @state O) (F : loc -> list (Z * E) -> R) : R :=
  uniforms Eu 1 (fun us => match pd_sample (ws s) (ls s) us with Ok [x] => live Eu m pol x k [] (F x) | _ => 0%R end).
