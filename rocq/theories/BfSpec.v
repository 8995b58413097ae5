(** C158: two updaters with different models or priors see the same data *)
From Verif Require Import Base Ext Sums SmcModel SmcSpec LearnSpec.
From Coq Require Import List.

Section Bf.
Context {O E RND : Type}.
Implicit Types (c : @config O E RND) (s : @state O).
(** An updater that has not seen data yet, with particles drifting within [V], whose likelihoods are normalised on the outcomes [dom e]; all records of the adaptive plan [pol] can be processed. *)
Record study c (rs : nat -> RND) (dom : E -> list O) (V : loc -> Prop) (pol : list O -> E) (n : nat) s : Prop := {
  b_config : good_config c; b_threshold : zthresh c < 1; b_state : full_inv s; b_fresh : nrec s = []; b_valid : Forall V (ls s);
  b_normal : forall x e, V x -> SumL (dom e) (fun o => lik (md c) o x e) = 1; b_step : forall r l e, Forall V l -> Forall V (timestep (md c) r l e);
  b_regular : forall data, In data (records dom pol n []) -> regular c rs 0 data s }.
(** What the second updater's log_total_likelihood has ahead of the first's: the logarithm of the Bayes factor *)
Definition log_factor s s' : R := match log_total_likelihood s', log_total_likelihood s with Fin b, Fin a => b - a | _, _ => 0 end.
(** At some time, including before the first and after the last datum, it is at least [h]. *)
Definition ever_favoured c c' (rs rs' : nat -> RND) s s' (h : R) (data : list (O * E)) : bool :=
  existsb (fun k => Rleb h (log_factor (run c s (updates rs 0 (firstn k data))) (run c' s' (updates rs' 0 (firstn k data))))) (seq 0 (S (length data))).
(** Relative entropy of the weights of [s] from those of [s'] *)
Definition relative_entropy s s' : R := Sum (n_particles s) (fun i => wt s i * (ln (wt s i) - ln (wt s' i))).
End Bf.
