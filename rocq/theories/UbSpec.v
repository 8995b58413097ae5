(** Vocabulary for C129: the estimated total likelihood on average over all runs.  Independent of the helpers of SmcModel and LwModel. *)
From Verif Require Import Base Ext SmcModel SmcSpec ReSpec ConvSpec PfSpec.
From Coq Require Import List.

Section Ub.
Context {O E RND : Type}.
Implicit Types (c : @config O E RND) (s : @state O).

(** Average of [F] over the runs of the updater constructed with [n] particles, over the draws from the prior and of every resampling step; a
    run that ends early counts zero. *)
Definition expected c (n : nat) (E0 Er : (RND -> R) -> R) (data : list (O * E)) (F : @state O -> R) : R :=
  E0 (fun r0 => rounds c Er data (fun t => match t with Some s => F s | None => 0 end) (Some (fresh c n r0))).
(** The estimated total likelihood (smc.py 251-262), out of logarithms. *)
Definition total s : R := match log_total_likelihood s with Fin t => exp t | _ => 0 end.
(** The setting of C128 without any condition on the data. *)
Definition setting c mv V Ep M : Prop := filtering c mv V Ep M [].
(** The most that runs ending early can take away. *)
Definition missing (M : R) (data : list (O * E)) : R := match data with [] => 0 | _ :: data' => eps * M ^ length data' end.
End Ub.
