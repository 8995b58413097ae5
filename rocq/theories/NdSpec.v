(** What a likelihood method owes its callers: an array of shape (outcomes, models, experiments) whose entry is the likelihood of that
    outcome, that parameter vector and that experiment (abstract_model.py:441-465).  [good] and [ok] say which outcomes and
    experiments are meant; [dE] only serves to write the k-th experiment as [nth k es dE]. *)
From Verif Require Import Base Ext Nd.
(** row [i] of a two-index array with [d] columns *)
Definition row {A} (d : nat) (a : nd A) (i : nat) : list A := map (fun j => get a [i; j]) (seq 0 d).
Definition implements {O E V} (d : nat) (good : O -> Prop) (ok : E -> Prop) (dE : E)
    (like_arr : nd O -> nd R -> list E -> res (nd V)) (like : O -> list R -> E -> V) : Prop :=
  forall os xs es n_o n_m, shp os = [n_o] -> shp xs = [n_m; d] -> (0 < n_o)%nat -> (0 < n_m)%nat ->
  (forall o, (o < n_o)%nat -> good (get os [o])) -> Forall ok es ->
  is3 (like_arr os xs es) n_o n_m (length es) (fun o i k => like (get os [o]) (row d xs i) (nth k es dE)).
Definition anything {A} (a : A) : Prop := True.
