(** Updating with counts against updating with the single shots. *)
From Verif Require Import Base RList Ext Sums SmcModel SmcSpec SmcProofs SmcProofs2 DomSpec DerModel DerSpec DerProofs DerProofs2.
From Coq Require Import List Permutation.

(** ** Records with given counts are equally likely *)
Fixpoint fact_prod (v : list nat) : R := match v with [] => 1 | x :: r => INR (fact x) * fact_prod r end.
Lemma fact_prod_pos v : 0 < fact_prod v.
Proof. induction v as [|x v IH]; cbn; [lra|]. apply Rmult_lt_0_compat; [apply fact_pos|assumption]. Qed.
Lemma fact_prod_dec v i : (i < length v)%nat -> (0 < nth i v 0)%nat -> fact_prod v = INR (nth i v 0%nat) * fact_prod (dec_at i v).
Proof.
  revert i; induction v as [|x v IH]; intros i Hi Hp; [cbn in Hi; lia|]. destruct i as [|i]; cbn [dec_at fact_prod nth].
  - destruct x as [|x]; [cbn in Hp; lia|]. cbn [pred]. rewrite fact_simpl, mult_INR. ring.
  - cbn in Hi, Hp. rewrite (IH i) by lia. ring.
Qed.
Lemma record_G k p s : Forall (fun i => (i < k)%nat) s -> record_prob p s = G p (counts k s) * fact_prod (counts k s).
Proof.
  induction s as [|i s IH]; intros H; cbn [record_prob].
  - rewrite counts_nil, G_zero. assert (F : fact_prod (repeat 0%nat k) = 1) by (clear; induction k as [|k IHk]; cbn; [reflexivity|]; rewrite IHk; ring). rewrite F. ring.
  - inversion H as [|? ? Hi Hs]; subst. destruct (proj1 (counts_cons k i s (counts k (i :: s)) Hi (counts_length k (i :: s))) eq_refl) as [Hp E].
    rewrite IH by assumption. rewrite E. assert (L : (i < length (counts k (i :: s)))%nat) by now rewrite counts_length.
    rewrite <- Rmult_assoc, (G_dec p _ i L Hp), (fact_prod_dec _ i L Hp). ring.
Qed.
Lemma nat_sum_dec v i : (i < length v)%nat -> (0 < nth i v 0)%nat -> nat_sum v = S (nat_sum (dec_at i v)).
Proof.
  revert i; induction v as [|x v IH]; intros i Hi Hp; [cbn in Hi; lia|]. destruct i as [|i]; cbn [dec_at nat_sum fold_right nth] in *.
  - destruct x; [lia|]. cbn. reflexivity.
  - cbn in Hi. fold (nat_sum v) (nat_sum (dec_at i v)). rewrite (IH i) by lia. lia.
Qed.
Lemma counts_sum k s : Forall (fun i => (i < k)%nat) s -> nat_sum (counts k s) = length s.
Proof.
  induction s as [|i s IH]; intros H.
  - rewrite counts_nil. clear. induction k as [|k IH]; [reflexivity|]. cbn. exact IH.
  - inversion H as [|? ? Hi Hs]; subst. destruct (proj1 (counts_cons k i s (counts k (i :: s)) Hi (counts_length k (i :: s))) eq_refl) as [Hp E].
    rewrite (nat_sum_dec _ i) by (rewrite ?counts_length; assumption). rewrite <- E, IH by assumption. reflexivity.
Qed.
Definition orderings (v : list nat) : R := INR (fact (nat_sum v)) / fact_prod v.
Lemma orderings_pos v : 0 < orderings v.
Proof. unfold orderings. apply Rdiv_lt_0_compat; [apply fact_pos|apply fact_prod_pos]. Qed.
Lemma count_mass_record k p s : Forall (fun i => (i < k)%nat) s -> count_mass k (nat_sum (counts k s)) p (counts k s) = orderings (counts k s) * record_prob p s.
Proof.
  intros H. rewrite count_mass_value by (rewrite ?counts_length; reflexivity). rewrite (record_G k p s H). unfold orderings. pose proof (fact_prod_pos (counts k s)). field. lra.
Qed.
Lemma record_ones p s : Forall (fun i => (i < 2)%nat) s -> p 0%nat + p 1%nat = 1 ->
  record_prob p s = p 1%nat ^ count_occ Nat.eq_dec s 1%nat * (1 - p 1%nat) ^ (length s - count_occ Nat.eq_dec s 1%nat).
Proof.
  intros H P. replace (1 - p 1%nat) with (p 0%nat) by lra. induction s as [|i s IH]; [cbn; ring|]. inversion H as [|? ? Hi Hs]; subst. cbn [record_prob length]. rewrite IH by assumption.
  pose proof (count_occ_bound Nat.eq_dec 1%nat s) as B. assert (C : i = 0%nat \/ i = 1%nat) by lia. destruct C as [-> | ->].
  - rewrite count_occ_cons_neq by discriminate. rewrite (Nat.sub_succ_l _ _ B). cbn [pow]. ring.
  - rewrite count_occ_cons_eq by reflexivity. rewrite Nat.sub_succ. cbn [pow]. ring.
Qed.
Lemma record_shots {V} (values : list V) (d : V) (f : V -> R) s : Forall (fun i => (i < length values)%nat) s ->
  rprod (map (fun i => f (nth i values d)) s) = record_prob (fun i => nth i (map f values) 0) s.
Proof.
  induction s as [|i s IH]; intros H; [reflexivity|]. inversion H; subst. cbn [map record_prob]. rewrite rprod_cons, IH by assumption. f_equal.
  rewrite (nth_indep _ 0 (f d)) by (now rewrite map_length). now rewrite map_nth.
Qed.

(** ** Two updaters whose likelihoods are proportional *)
Lemma run_ls_static {P Q W} (d : @config P Q W) rs : good_config d -> zthresh d < 1 -> (forall r l e, timestep (md d) r l e = l) -> forall data idx s, full_inv s -> regular d rs idx data s ->
  ls (run d s (updates rs idx data)) = ls s.
Proof.
  intros G Ht Hst. induction data as [|[o e] data IH]; intros idx s Hinv Hr; [reflexivity|]. destruct Hr as [R1 R2].
  pose proof Hinv as [Hlen [Hnn Hsum]].
  destruct (c01_lem d (rs idx) s o e Hlen Hnn (lik_nonneg d G) Ht R1) as (s1 & Eu & Hl1 & Hw1 & Hls1 & _). rewrite Eu in R2. cbn [fst] in R2.
  assert (I1 : full_inv s1).
  { destruct (run_regular d rs G Ht [(o, e)] idx s Hinv (conj R1 I)) as (Q1 & _). change (run d s (updates rs idx [(o, e)])) with (fst (update d (rs idx) s o e false)) in Q1. rewrite Eu in Q1. exact Q1. }
  change (run d s (updates rs idx ((o, e) :: data))) with (run d (fst (update d (rs idx) s o e false)) (updates rs (S idx) data)). rewrite Eu. cbn [fst].
  rewrite (IH (S idx) s1 I1 R2). now rewrite Hls1, Hst.
Qed.
Section Two.
Context {O E RND O' E' RND' : Type}.
Variables (c : @config O E RND) (c' : @config O' E' RND').
Lemma proportional rs rs' s (s' : @state O') data data' K : good_config c -> good_config c' -> zthresh c < 1 -> zthresh c' < 1 ->
  (forall r l e, timestep (md c) r l e = l) -> (forall r l e, timestep (md c') r l e = l) -> full_inv s -> ws s' = ws s -> ls s' = ls s ->
  regular c rs 0 data s -> regular c' rs' 0 data' s' ->
  (forall x, In x (ls s) -> rprod (map (fun d => lik (md c') (fst d) x (snd d)) data') = K * rprod (map (fun d => lik (md c) (fst d) x (snd d)) data)) ->
  let a := run c s (updates rs 0 data) in let b := run c' s' (updates rs' 0 data') in
  ws b = ws a /\ ls b = ls a /\ exists Na Nb, nrec a = nrec s ++ Na /\ nrec b = nrec s' ++ Nb /\ rprod Nb = K * rprod Na.
Proof.
  intros G G' Ht Ht' Hst Hst' Hinv Ew El R1 R2 HK a b.
  assert (Hinv' : full_inv s') by (unfold full_inv; rewrite Ew, El; exact Hinv).
  destruct (run_regular c rs G Ht _ 0%nat s Hinv R1) as (A1 & A2 & NA & A3 & A4 & A5).
  destruct (run_regular c' rs' G' Ht' _ 0%nat s' Hinv' R2) as (B1 & B2 & NB & B3 & B4 & B5). fold a in A1, A2, A3, A5. fold b in B1, B2, B3, B5.
  assert (En : n_particles s' = n_particles s) by (unfold n_particles; now rewrite El).
  assert (HP : forall i, (i < n_particles s)%nat -> wt b i * rprod NB = K * (wt a i * rprod NA)).
  { intros i Hi. rewrite A5 by assumption. rewrite B5 by (now rewrite En). rewrite (path_lik_static c) by assumption. rewrite (path_lik_static c') by assumption.
    rewrite El. rewrite HK by (apply nth_In; exact Hi). unfold wt. rewrite Ew. ring. }
  assert (HN : rprod NB = K * rprod NA).
  { pose proof (full_inv_Sum a A1) as Sa. pose proof (full_inv_Sum b B1) as Sb. rewrite A2 in Sa. rewrite B2, En in Sb.
    transitivity (Sum (n_particles s) (fun i => wt b i * rprod NB)); [rewrite Sum_scal_r, Sb; ring|]. rewrite (Sum_ext _ _ (fun i => K * (wt a i * rprod NA))) by assumption.
    rewrite Sum_scal, Sum_scal_r, Sa. ring. }
  pose proof (rprod_pos _ B4) as HB. split; [|split].
  - destruct A1 as [La _], B1 as [Lb _]. unfold n_particles in *. apply list_eq_nth; [congruence|]. intros i Hi. assert (i < length (ls s))%nat as Hi' by congruence. specialize (HP i Hi').
    rewrite HN in HP. apply (Rmult_eq_reg_r (K * rprod NA)); [|rewrite <- HN; lra]. fold (wt b i) (wt a i). rewrite HP. ring.
  - unfold a, b. rewrite (run_ls_static c rs G Ht Hst) by assumption. rewrite (run_ls_static c' rs' G' Ht' Hst') by assumption. assumption.
  - exists NA, NB. auto.
Qed.
End Two.
Lemma rprod_app l m : rprod (l ++ m) = rprod l * rprod m.
Proof. induction l as [|x l IH]; [unfold rprod at 2; cbn; ring|]. cbn [app]. rewrite !rprod_cons, IH. ring. Qed.
Lemma rprod_perm l m : Permutation l m -> rprod l = rprod m.
Proof. induction 1; rewrite ?rprod_cons; try congruence. ring. Qed.
Lemma regular_bounded {O E RND} (d : @config O E RND) rs : good_config d -> zthresh d < 1 -> forall data, (forall o e x, In (o, e) data -> eps <= lik (md d) o x e) ->
  forall idx s, full_inv s -> regular d rs idx data s.
Proof.
  intros G Ht. induction data as [|[o e] data IH]; intros HB idx s Hinv; [exact I|].
  assert (Ev : eps <= evidence d s o e).
  { pose proof (full_inv_Sum s Hinv) as S1. unfold evidence. rewrite <- (Rmult_1_r eps), <- S1, <- Sum_scal. apply Sum_le. intros i Hi.
    destruct Hinv as [Hlen [Hnn _]]. rewrite Forall_forall in Hnn. assert (0 <= wt s i) by (apply Hnn, nth_In; unfold n_particles in Hi; lia).
    specialize (HB o e (at_ s i) (or_introl eq_refl)). pose proof eps_pos. rewrite Rmult_comm. apply Rmult_le_compat_l; assumption. }
  split; [exact Ev|]. apply IH; [intros; apply HB; now right|].
  destruct (run_regular d rs G Ht [(o, e)] idx s Hinv (conj Ev I)) as (Q1 & _). exact Q1.
Qed.
