(** Property C56, continued: what the best experiment is best at. *)
From Verif Require Import Base Ext DesModel DesProps.
From Coq Require Import List.

Section C56.
  Context {E F X : Type} (set : F -> X -> E -> E) (get : F -> E -> X) (risk cost : E -> R).
  (** The returned design has the least sum of Bayes risk and [cost_scale_k] times the experiment's cost among the stored
      proposals or, with [cost_mult], the least product of risk and cost to the power [cost_scale_k]. *)
  Theorem c56_least_risk_and_cost a l g field r p k : set_law set -> (a = CG \/ a = NELDER_MEAD) ->
    Forall (honest set (objective (fun x y => Fin (Rpower x y)) (fun e => Fin (risk e)) cost k false)) (l ++ [Design g field r true]) -> proposed set (Design g field r true) = Some p ->
    exists e, snd (design set get a (drun set get a new_exp l) g field r true) = Ok (Some e) /\ (exists c, In (e, c) (proposals set [] (l ++ [Design g field r true]))) /\
      forall e' c', In (e', c') (proposals set [] (l ++ [Design g field r true])) -> c' = Fin (risk e' + k * cost e') /\ risk e + k * cost e <= risk e' + k * cost e'.
  Proof.
    intros L Ha H Hp. destruct (c56_best_so_far_partial set get _ a l g field r p L Ha H Hp) as (e & c & H1 & H2 & _ & H3). exists e. split; [assumption|]. split; [eauto|].
    intros e' c' H'. destruct (H3 e' c' H') as [H4 H5]. unfold objective in H4, H5. cbn [xmul xadd] in H4, H5. split; [exact H4|]. now apply xle_Fin.
  Qed.
  Theorem c56_least_risk_times_cost a l g field r p k : set_law set -> (a = CG \/ a = NELDER_MEAD) ->
    Forall (honest set (objective (fun x y => Fin (Rpower x y)) (fun e => Fin (risk e)) cost k true)) (l ++ [Design g field r true]) -> proposed set (Design g field r true) = Some p ->
    exists e, snd (design set get a (drun set get a new_exp l) g field r true) = Ok (Some e) /\ (exists c, In (e, c) (proposals set [] (l ++ [Design g field r true]))) /\
      forall e' c', In (e', c') (proposals set [] (l ++ [Design g field r true])) -> c' = Fin (risk e' * Rpower (cost e') k) /\ risk e * Rpower (cost e) k <= risk e' * Rpower (cost e') k.
  Proof.
    intros L Ha H Hp. destruct (c56_best_so_far_partial set get _ a l g field r p L Ha H Hp) as (e & c & H1 & H2 & _ & H3). exists e. split; [assumption|]. split; [eauto|].
    intros e' c' H'. destruct (H3 e' c' H') as [H4 H5]. unfold objective in H4, H5. cbn [xmul xadd] in H4, H5. split; [exact H4|]. now apply xle_Fin.
  Qed.
End C56.
Example c56_cost_example : let st := fun (_ : unit) (x : R) (_ : R) => x in let rep := fun x f => {| r_answer := Found x (Fin f); r_left := Some 7 |} in
  Forall (honest st (objective (fun x y => Fin (Rpower x y)) (fun e => Fin (e * e)) (fun e => - e) 4 false)) ([Design (GArray 0) tt (rep 3 (3 * 3 + 4 * - (3))) true] ++ [Design (GArray 0) tt (rep 1 (1 * 1 + 4 * - (1))) true]) /\
  3 * 3 + 4 * - (3) < 1 * 1 + 4 * - (1) + 1 /\ proposed st (Design (GArray 0) tt (rep 1 (1 * 1 + 4 * - (1))) true) <> None.
Proof. cbn. split; [repeat constructor; discriminate|]. split; [lra|discriminate]. Qed.
Print Assumptions c56_least_risk_and_cost.
Print Assumptions c56_least_risk_times_cost.
