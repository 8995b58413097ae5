(** C153: data that no particle need predict *)
From Verif Require Import Base Ext Sums SmcModel SmcSpec LearnSpec.
From Coq Require Import List.

Section Mis.
Context {O E RND : Type}.
Implicit Types (c : @config O E RND) (s : @state O).
(** Finitely many experiments [es] with outcomes [dom e]; outcome [o] of experiment [e] has the limiting relative frequency [phi o e]
    among all data.  Nothing relates the frequencies to the likelihoods, which need not add up to one either. *)
Record settled c (dom : E -> list O) (es : list E) (phi : O -> E -> R) s (dec : forall a b : O * E, {a = b} + {a <> b}) (d : nat -> O * E) : Prop := {
  l_config : good_config c; l_threshold : zthresh c < 1; l_static : forall r l e, timestep (md c) r l e = l; l_state : full_inv s;
  l_positive : forall x e o, In x (ls s) -> In e es -> In o (dom e) -> eps <= lik (md c) o x e;
  l_distinct : NoDup (flat_map (fun e => map (fun o => (o, e)) (dom e)) es);
  l_data : forall k, In (d k) (flat_map (fun e => map (fun o => (o, e)) (dom e)) es);
  l_freq : forall e o, In e es -> In o (dom e) -> tends (freq dec d (o, e)) (phi o e) }.
(** Long-run log-likelihood of particle [i] per datum *)
Definition fit c (dom : E -> list O) es (phi : O -> E -> R) s i : R := SumL es (fun e => SumL (dom e) (fun o => phi o e * ln (lik (md c) o (at_ s i) e))).
(** Relative entropy of the predictions of particle [i] from the outcome probabilities [tr], averaged over experiments used with frequency [q] *)
Definition miss c (dom : E -> list O) es (q : E -> R) (tr : O -> E -> R) s i : R :=
  SumL es (fun e => q e * SumL (dom e) (fun o => tr o e * (ln (tr o e) - ln (lik (md c) o (at_ s i) e)))).
End Mis.
