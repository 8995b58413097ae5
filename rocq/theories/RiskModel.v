(** Model of SMCUpdater.bayes_risk (smc.py:553-612) and expected_information_gain
    (smc.py:614-663).  Divisions and logarithms that the code does not guard are taken in
    the extended numbers of Ext.v. *)
From Verif Require Import Base Ext SmcModel.

Section Risk.
Context {O E RND : Type}.
Variable c : @config O E RND.
Variable Q : list R.               (* model.Q, abstract_model.py:171-187, one entry per parameter *)
Variable domain_values : E -> list O.   (* model.domain(e)[0].values *)
Variable n_outcomes_constant : bool.    (* model.is_n_outcomes_constant *)

(** smc.py:590, un-normalised weights for the last outcome: (1 - L.sum(axis=0)) * weights *)
Definition last_raw (w : list R) (l : list loc) (os : list O) (e : E) : list R :=
  map2 (fun wi x => (1 - rsum (map (fun o => lik (md c) o x e) (removelast os))) * wi) w l.

(** smc.py:591 *)
Definition risk_N (w : list R) (l : list loc) (os : list O) (e : E) : list R :=
  map (fun o => norm_scale c w l o e) (removelast os) ++ [rsum (last_raw w l os e)].

(** smc.py:584-593: hypothetical weights per outcome; the last one divided without guard (592) *)
Definition risk_w (w : list R) (l : list loc) (os : list O) (e : E) : list (list ext) :=
  map (fun o => map Fin (norm_row c w l o e)) (removelast os)
  ++ [map (fun x => xdiv (Fin x) (Fin (rsum (last_raw w l os e)))) (last_raw w l os e)].

(** smc.py:600 *)
Definition mu_hyp (wh : list ext) (l : list loc) (j : nat) : ext :=
  xsum (map2 (fun a x => xmul a (Fin (nth j x 0))) wh l).

(** smc.py:601-608 *)
Definition var_hyp (wh : list ext) (l : list loc) : ext :=
  xsum (map2 (fun a x =>
    xmul a (xsum (map (fun j =>
      let dj := xsub (Fin (nth j x 0)) (mu_hyp wh l j) in
      xmul (Fin (nth j Q 0)) (xmul dj dj)) (seq 0 (length Q))))) wh l).

(** smc.py:579-612 for one experiment [e], with the outcome list [os] *)
Definition bayes_risk1 (w : list R) (l : list loc) (os : list O) (e : E) : ext :=
  xsum (map2 (fun N wh => xmul (Fin N) (var_hyp wh l)) (risk_N w l os e) (risk_w w l os e)).

(** smc.py:660 *)
Definition kld (wh : list ext) (w : list R) : ext :=
  xsum (map2 (fun a wi => xmul a (xln (xdiv a (Fin wi)))) wh w).

(** smc.py:640-663 for one experiment *)
Definition eig1 (w : list R) (l : list loc) (os : list O) (e : E) : ext :=
  xsum (map2 (fun N wh => xmul (Fin N) (kld wh w)) (risk_N w l os e) (risk_w w l os e)).

(** smc.py:571-579 and 632-640: an array of experiments.  With a constant number of outcomes
    (or a single experiment) the outcome list of the first experiment serves for all of
    them, otherwise the computation is repeated per experiment. *)
Definition per_experiment (f : list R -> list loc -> list O -> E -> ext) (s : @state O) (es : list E) : res (list ext) :=
  match es with
  | [] => Err IndexError
  | e0 :: _ =>
      if andb (Nat.ltb 1 (length es)) (negb n_outcomes_constant)
      then Ok (map (fun e => f (ws s) (ls s) (domain_values e) e) es)
      else Ok (map (fun e => f (ws s) (ls s) (domain_values e0) e) es)
  end.
Definition bayes_risk := per_experiment bayes_risk1.
Definition expected_information_gain := per_experiment eig1.
End Risk.
