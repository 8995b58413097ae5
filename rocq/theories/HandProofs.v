(** Proofs about an updater as the prior of another (C164). *)
From Coq Require Import List ZArith Lia Lra Psatz.
From Verif Require Import Base RList Ext Sums SmcModel SmcSpec SmcProofs SmcProofs2 PartModel PartSpec PartProofs LinProofs LearnSpec LearnProofs RateSpec ReSpec ConvSpec ConvProofs ConvProofs2 ConvProps HandModel.
Import ListNotations.

Lemma Sum_more f k m : (forall i, 0 <= f i) -> Sum k f <= Sum (k + m) f.
Proof. intros H. induction m as [|m IH]; [rewrite Nat.add_0_r; lra|]. rewrite <- plus_n_Sm, Sum_last. specialize (H (k + m)%nat). lra. Qed.
Lemma numbers_prefix us : map (numbers us) (seq 0 (length us)) = us.
Proof. apply (nth_ext _ _ 0 0); [now rewrite map_length, seq_length|]. intros i Hi. rewrite map_length, seq_length in Hi. rewrite (nth_indep _ 0 (numbers us 0)) by (now rewrite map_length, seq_length). rewrite (map_nth (numbers us)), seq_nth by assumption. reflexivity. Qed.

Section Law.
Variables (w : list R) (Eu : (R -> R) -> R).
Hypothesis Hp : prob_vector w.
Hypothesis HU : uniform_law Eu.
Notation cum j := (Sum j (fun i => nth i w 0)).
Lemma w_nonneg k : 0 <= nth k w 0.
Proof. destruct Hp as [H _]. destruct (Nat.lt_ge_cases k (length w)) as [Hk|Hk]; [rewrite Forall_forall in H; now apply H, nth_In|rewrite nth_overflow by lia; lra]. Qed.
Lemma cum_range k : (k < length w)%nat -> 0 <= cum k /\ cum k + nth k w 0 <= 1.
Proof.
  intros Hk. split; [pose proof (Sum_more (fun i => nth i w 0) 0 k w_nonneg) as Q; rewrite Sum_0 in Q; exact Q|]. rewrite <- Sum_last. destruct Hp as [_ H1]. rewrite <- H1, rsum_index.
  replace (length w) with (S k + (length w - S k))%nat at 1 by lia. apply Sum_more. exact w_nonneg.
Qed.
Lemma slot_index k u : (k < length w)%nat -> in_slot w k u -> sample_index w u = k.
Proof. intros Hk Hs. apply sample_index_slot; auto. destruct (cum_range k Hk). unfold in_slot in Hs. lra. Qed.
Lemma end_index k : (k < length w)%nat -> 0 < nth k w 0 -> sample_index w (cum k) = k.
Proof. intros Hk H0. apply slot_index; auto. unfold in_slot. lra. Qed.
(** independent draws of indices *)
Fixpoint idx (n : nat) (F : list nat -> R) : R :=
  match n with 0%nat => F [] | S n' => Sum (length w) (fun j => nth j w 0 * idx n' (fun js => F (j :: js))) end.
Lemma idx_ext n : forall F G, (forall js, F js = G js) -> idx n F = idx n G.
Proof. induction n as [|n IH]; intros F G H; cbn [idx]; [apply H|]. apply Sum_ext. intros j Hj. f_equal. apply IH. intros js. apply H. Qed.
Lemma uniforms_idx n : forall f F, (forall us, length us = n -> Forall (fun u => 0 <= u < 1) us -> f us = F (map (sample_index w) us)) -> uniforms Eu n f = idx n F.
Proof.
  induction n as [|n IH]; intros f F H; cbn [uniforms idx]; [rewrite H; auto|]. apply (eu_step Eu HU); auto. intros j u Hj Hs. apply IH. intros us L1 H1. destruct (cum_range j Hj) as [C1 C2]. rewrite H.
  - cbn [map]. now rewrite (slot_index j u Hj Hs).
  - cbn. now rewrite L1.
  - constructor; auto. unfold in_slot in Hs. lra.
Qed.
Definition ends : list loc := map (fun j => [cum j]) (seq 0 (length w)).
Lemma ends_length : length ends = length w. Proof. unfold ends. now rewrite map_length, seq_length. Qed.
Lemma ends_nth k : (k < length w)%nat -> nth k ends [] = [cum k].
Proof. intros Hk. unfold ends. rewrite (nth_indep _ [] [cum 0]) by (now rewrite map_length, seq_length). rewrite (map_nth (fun j => [cum j])), seq_nth by assumption. reflexivity. Qed.
Notation at_end x := (sample_index w (nth 0 x 0)).
Lemma ends_idx n : forall F, independent ends w n (fun l => F (map (fun x => at_end x) l)) = idx n F.
Proof.
  induction n as [|n IH]; intros F; cbn [independent idx]; [reflexivity|]. rewrite ends_length. apply Sum_ext. intros k Hk. rewrite (ends_nth k Hk). cbn [map nth].
  destruct (Rle_lt_or_eq_dec _ _ (w_nonneg k)) as [Q|Q]; [|rewrite <- Q; ring]. rewrite (end_index k Hk Q). f_equal. apply (IH (fun js => F (k :: js))).
Qed.
Lemma locs_idx l n : length l = length w -> forall G, independent l w n G = idx n (fun js => G (map (fun j => nth j l []) js)).
Proof. intros Hl. induction n as [|n IH]; intros G; cbn [independent idx]; [reflexivity|]. rewrite Hl. apply Sum_ext. intros k Hk. now rewrite IH. Qed.
End Law.

Section Hand.
Context {O O' E : Type}.
Variables (s : @state O') (c : @config O E (nat -> R)) (V : loc -> Prop) (Eu : (R -> R) -> R).
Hypothesis HI : full_inv s.
Hypothesis HH : hands_on s c.
Hypothesis HV : Forall V (ls s).
Hypothesis HU : uniform_law Eu.
Notation w := (ws s). Notation l := (ls s).
Lemma Hw : prob_vector w. Proof. destruct HI as [_ H]. exact H. Qed.
Lemma Hlw : length l = length w. Proof. destruct HI as [H _]. first [exact H|exact (eq_sym H)]. Qed.
Lemma w_ne : w <> []. Proof. intros H. pose proof (prob_vector_nonempty _ Hw) as Q. rewrite H in Q. cbn in Q. lia. Qed.
Lemma prior_rows r n : prior c r n = map (fun i => nth (sample_index w (r i)) l []) (seq 0 n).
Proof.
  pose proof (HH r n) as Q. rewrite pd_sample_ok in Q by (first [exact Hlw|exact w_ne]). rewrite map_map in Q. congruence.
Qed.
Lemma prior_length r n : length (prior c r n) = n. Proof. now rewrite prior_rows, map_length, seq_length. Qed.
Lemma prior_in r n : Forall V (prior c r n).
Proof.
  rewrite prior_rows. apply Forall_forall. intros x Hx. apply in_map_iff in Hx as (i & <- & _). rewrite Forall_forall in HV. apply HV, nth_In. rewrite Hlw. apply sample_index_range, w_ne.
Qed.
Lemma prior_nth r n i : (i < n)%nat -> nth i (prior c r n) [] = nth (sample_index w (r i)) l [].
Proof. intros Hi. rewrite prior_rows. rewrite (nth_indep _ [] (nth (sample_index w (r 0%nat)) l [])) by (now rewrite map_length, seq_length). rewrite (map_nth (fun i => nth (sample_index w (r i)) l [])), seq_nth by exact Hi. reflexivity. Qed.
(** the same law on finitely many tapes: every number is a left end of a slot *)
Definition tape_of (x : list loc) (i : nat) : R := nth 0 (nth i x []) 0.
Definition quant (n : nat) (F : (nat -> R) -> R) : R := independent (ends w) w n (fun x => F (tape_of x)).
Lemma ends_average g : Sum (length (ends w)) (fun k => nth k w 0 * g (nth (sample_index w (nth 0 (nth k (ends w) []) 0)) l [])) = cloud_average w l g.
Proof.
  unfold cloud_average. rewrite ends_length, Hlw. apply Sum_ext. intros k Hk. rewrite ends_nth by exact Hk. cbn [nth]. destruct (Rle_lt_or_eq_dec _ _ (w_nonneg w Hw k)) as [Q|Q]; [|rewrite <- Q; ring]. now rewrite (end_index w Hw k Hk Q).
Qed.
Lemma quant_sampling n : sampling c V n (average s) (quant n).
Proof.
  pose proof (eq_sym (ends_length w)) as HE. constructor.
  - intros F G _ _ H. apply (ind_le (ends w) w Hw HE). intros x _ _. apply H, prior_in.
  - intros F G _ _. apply (ind_plus (ends w) w n (fun x => F (tape_of x)) (fun x => G (tape_of x))).
  - intros k F _. apply (ind_scal (ends w) w n k (fun x => F (tape_of x))).
  - exact (ind_const (ends w) w Hw HE n 1).
  - intros i g Hi _. unfold quant, average. rewrite <- ends_average. rewrite <- (ind_each (ends w) w Hw HE n (fun y => g (nth (sample_index w (nth 0 y 0)) l [])) i Hi). apply (ind_ext (ends w) w Hw HE). intros x Hx _. now rewrite prior_nth.
  - intros i j g h Hi Hj Hne _ _. unfold quant, average. rewrite <- !ends_average. rewrite <- (ind_pairs (ends w) w Hw HE n (fun y => g (nth (sample_index w (nth 0 y 0)) l [])) (fun y => h (nth (sample_index w (nth 0 y 0)) l [])) i j Hi Hj Hne). apply (ind_ext (ends w) w Hw HE). intros x Hx _. now rewrite !prior_nth.
Qed.
Definition begun (n : nat) (x : list loc) : @state O :=
  {| ws := uniform_weights n; ls := if canonize c then canon (md c) x else x; drec := []; nrec := []; mness := Fin (INR n); rcnt := 0; jr := false; calls := 0 |}.
Lemma fresh_begun n r : fresh c n r = begun n (prior c r n). Proof. reflexivity. Qed.
Lemma over_law n (G : list loc -> R) : over Eu n (fun r => G (prior c r n)) = independent l w n G.
Proof.
  rewrite (locs_idx w l n Hlw). unfold over. apply (uniforms_idx w Eu Hw HU). intros us Hl _. rewrite prior_rows. f_equal. rewrite map_map. transitivity (map (fun u => nth (sample_index w u) l []) (map (numbers us) (seq 0 n))); [now rewrite map_map|now rewrite <- Hl, numbers_prefix].
Qed.
Lemma quant_law n (G : list loc -> R) : quant n (fun r => G (prior c r n)) = independent l w n G.
Proof.
  rewrite (locs_idx w l n Hlw). rewrite <- (ends_idx w Hw n). unfold quant. apply (ind_ext (ends w) w Hw (eq_sym (ends_length w))). intros x Hx _. f_equal. rewrite prior_rows, map_map.
  apply (nth_ext _ _ [] []); [now rewrite !map_length, seq_length|]. intros i Hi. rewrite map_length, seq_length in Hi.
  rewrite (nth_indep _ [] (nth (sample_index w (tape_of x 0)) l [])) by (now rewrite map_length, seq_length). rewrite (map_nth (fun i => nth (sample_index w (tape_of x i)) l [])), seq_nth by exact Hi.
  rewrite (nth_indep (map _ x) [] (nth (sample_index w (nth 0 [] 0)) l [])) by (rewrite map_length; lia). rewrite (map_nth (fun y : loc => nth (sample_index w (nth 0 y 0)) l [])). reflexivity.
Qed.
Lemma transfer n (psi : @state O -> R) : over Eu n (fun r => psi (fresh c n r)) = quant n (fun r => psi (fresh c n r)).
Proof. exact (eq_trans (over_law n (fun x => psi (begun n x))) (eq_sym (quant_law n (fun x => psi (begun n x))))). Qed.
End Hand.
