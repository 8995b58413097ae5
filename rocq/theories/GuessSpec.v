(** C155: experiments proposed by the particle guess heuristic for the inversion model *)
From Verif Require Import Base Ext Sums SmcModel TwoModel.
From Coq Require Import List.

(** Measure at one particle, for the inverse of its distance to another one *)
Definition guessed (a b : R) : R * R := (1 / Rabs (a - b), a).
Definition guess_of (l : list loc) (e : R * R) : Prop := exists a b, In [a] l /\ In [b] l /\ a <> b /\ e = guessed a b.
(** A configuration with the likelihood of SimpleInversionModel; outcomes 0 and 1 *)
Definition inversion {RND} (c : @config Z (R * R) RND) : Prop := (forall o x e, lik (md c) o x e = inv_like (fst e) (snd e) (nth 0 x 0) o) /\ forall r l e, timestep (md c) r l e = l.
Definition both_outcomes (e : R * R) : list Z := [0; 1]%Z.
(** Average over two particles drawn independently (each with its weight), kept only if they differ *)
Definition distinct_pairs (n : nat) (w x : nat -> R) (f : R -> R -> R) : R := Sum n (fun i => Sum n (fun j => if Reqb (x i) (x j) then 0 else w i * w j * f (x i) (x j))).
Definition chance_distinct n w x : R := distinct_pairs n w x (fun _ _ => 1).
Definition guess_average n w x f : R := distinct_pairs n w x f / chance_distinct n w x.
Definition variance (n : nat) (w x : nat -> R) : R := Sum n (fun i => w i * x i ^ 2) - Sum n (fun i => w i * x i) ^ 2.
