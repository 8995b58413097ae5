(** C103: counts carry the same information as the single shots they summarise. *)
From Verif Require Import Base RList Ext Sums SmcModel SmcSpec SmcProofs SmcProofs2 DomSpec DomModel DerModel DerSpec DerProofs DerProofs2 DerProps CountProofs.
From Coq Require Import List Permutation.

(** The single shots behind one count datum: [n] outcomes 0 or 1, of which [k] are 1. *)
Definition shots_of {E} (d : nat * (E * nat)) (t : list nat) : Prop :=
  Forall (fun i => (i < 2)%nat) t /\ length t = snd (snd d) /\ count_occ Nat.eq_dec t 1%nat = fst d.
Definition shot_data {E} (d : nat * (E * nat)) (t : list nat) : list (Z * E) := map (fun i => (Z.of_nat i, fst (snd d))) t.
(** Updating with binomial counts gives the particles and weights that the single shots give, in whatever order these come; the
    normalisations differ by the numbers of orderings. *)
Theorem c103_binomial_counts {E RND RND'} (c : @config Z E RND) (c' : @config nat (E * nat) RND') rs rs' s s' (data' : list (nat * (E * nat))) shots data :
  good_config c -> good_config c' -> zthresh c < 1 -> zthresh c' < 1 ->
  (forall r l e, timestep (md c) r l e = l) -> (forall r l e, timestep (md c') r l e = l) -> full_inv s -> ws s' = ws s -> ls s' = ls s ->
  (forall x d, In x (ls s) -> In d data' -> binomial_like (lik (md c)) [fst d] [x] [snd d] = Ok [[[Fin (lik (md c') (fst d) x (snd d))]]]) ->
  (forall x d, In x (ls s) -> In d data' -> lik (md c) 0%Z x (fst (snd d)) + lik (md c) 1%Z x (fst (snd d)) = 1) ->
  Forall2 shots_of data' shots -> Permutation data (concat (map2 shot_data data' shots)) ->
  regular c rs 0 data s -> regular c' rs' 0 data' s' ->
  let a := run c s (updates rs 0 data) in let b := run c' s' (updates rs' 0 data') in
  ws b = ws a /\ ls b = ls a /\
  exists Na Nb, nrec a = nrec s ++ Na /\ nrec b = nrec s' ++ Nb /\ rprod Nb = rprod (map (fun d => INR (binom (snd (snd d)) (fst d))) data') * rprod Na.
Proof.
  intros G G' Ht Ht' Hst Hst' Hinv Ew El HL Htwo HF HP R1 R2. apply proportional; try assumption. intros x Hx.
  rewrite (rprod_perm _ _ (Permutation_map (fun d => lik (md c) (fst d) x (snd d)) HP)). clear - HL Htwo HF Hx.
  induction HF as [|d t data' shots Hd HF IH]; [cbn; unfold rprod; cbn; ring|].
  assert (IH' : rprod (map (fun d => lik (md c') (fst d) x (snd d)) data') = rprod (map (fun d => INR (binom (snd (snd d)) (fst d))) data') * rprod (map (fun d => lik (md c) (fst d) x (snd d)) (concat (map2 shot_data data' shots)))).
  { apply IH; intros; [apply HL|apply Htwo]; try assumption; now right. }
  cbn [map2 concat map]. rewrite map_app, rprod_app, !rprod_cons, IH'. specialize (HL x d Hx (or_introl eq_refl)). specialize (Htwo x d Hx (or_introl eq_refl)).
  destruct d as [k [e n]]. destruct Hd as (T1 & T2 & T3). cbn [fst snd] in *.
  unfold binomial_like, no_nan, table in HL. cbn in HL. unfold binomial_pdf, scipy_binom_pmf in HL.
  destruct (Rleb 0 (lik (md c) 1%Z x e) && Rleb (lik (md c) 1%Z x e) 1)%bool; cbn in HL; [|discriminate]. injection HL as HL. rewrite <- HL.
  replace (rprod (map (fun d => lik (md c) (fst d) x (snd d)) (shot_data (k, (e, n)) t))) with (lik (md c) 1%Z x e ^ k * (1 - lik (md c) 1%Z x e) ^ (n - k)); [ring|].
  unfold shot_data. rewrite map_map. cbn [fst snd].
  rewrite <- T2, <- T3. transitivity (record_prob (fun i => lik (md c) (Z.of_nat i) x e) t); [symmetry; exact (record_ones (fun i => lik (md c) (Z.of_nat i) x e) t T1 Htwo)|]. clear. induction t as [|i t IH]; [reflexivity|]. cbn [record_prob map]. now rewrite rprod_cons, <- IH.
Qed.
(** The same for any number of outcomes and MultinomialModel. *)
Definition vshots_of {E} (k : nat) (d : list nat * (E * nat)) (t : list nat) : Prop := Forall (fun i => (i < k)%nat) t /\ counts k t = fst d.
Definition vshot_data {V E} (values : list V) (dflt : V) (d : list nat * (E * nat)) (t : list nat) : list (V * E) := map (fun i => (nth i values dflt, fst (snd d))) t.
Theorem c103_multinomial_counts {V E RND RND'} (values : list V) (dflt : V) (c : @config V E RND) (c' : @config (list nat) (E * nat) RND') rs rs' s s' (data' : list (list nat * (E * nat))) shots data :
  good_config c -> good_config c' -> zthresh c < 1 -> zthresh c' < 1 ->
  (forall r l e, timestep (md c) r l e = l) -> (forall r l e, timestep (md c') r l e = l) -> full_inv s -> ws s' = ws s -> ls s' = ls s ->
  (forall x d, In x (ls s) -> In d data' -> multinomial_like values (lik (md c)) [fst d] [x] [snd d] = Ok [[[Fin (lik (md c') (fst d) x (snd d))]]]) ->
  (forall x d, In x (ls s) -> In d data' -> prob_vector (map (fun v => lik (md c) v x (fst (snd d))) values)) ->
  Forall2 (vshots_of (length values)) data' shots -> Permutation data (concat (map2 (vshot_data values dflt) data' shots)) ->
  regular c rs 0 data s -> regular c' rs' 0 data' s' ->
  let a := run c s (updates rs 0 data) in let b := run c' s' (updates rs' 0 data') in
  ws b = ws a /\ ls b = ls a /\
  exists Na Nb, nrec a = nrec s ++ Na /\ nrec b = nrec s' ++ Nb /\
    rprod Nb = rprod (map (fun d => INR (fact (nat_sum (fst d))) / rprod (map (fun k => INR (fact k)) (fst d))) data') * rprod Na.
Proof.
  intros G G' Ht Ht' Hst Hst' Hinv Ew El HL Hprob HF HP R1 R2. apply proportional; try assumption. intros x Hx.
  rewrite (rprod_perm _ _ (Permutation_map (fun d => lik (md c) (fst d) x (snd d)) HP)). clear - HL Hprob HF Hx.
  induction HF as [|d t data' shots Hd HF IH]; [cbn; unfold rprod; cbn; ring|].
  assert (IH' : rprod (map (fun d => lik (md c') (fst d) x (snd d)) data') = rprod (map (fun d => INR (fact (nat_sum (fst d))) / rprod (map (fun k => INR (fact k)) (fst d))) data') * rprod (map (fun d => lik (md c) (fst d) x (snd d)) (concat (map2 (vshot_data values dflt) data' shots)))).
  { apply IH; intros; [apply HL|apply Hprob]; try assumption; now right. }
  cbn [map2 concat map]. rewrite map_app, rprod_app, !rprod_cons, IH'. specialize (HL x d Hx (or_introl eq_refl)). specialize (Hprob x d Hx (or_introl eq_refl)).
  destruct d as [v [e n]]. destruct Hd as (T1 & T2). cbn [fst snd] in *.
  unfold multinomial_like, no_nan, table in HL. cbn [map fst snd] in HL. rewrite (many_pdf values (fun w => lik (md c) w x e) v Hprob) in HL by (rewrite <- T2; apply counts_length).
  cbn in HL. injection HL as HL. rewrite <- HL, <- T2, (count_mass_record _ _ t T1), T2.
  unfold vshot_data. rewrite map_map. cbn [fst snd]. rewrite (record_shots values dflt (fun w => lik (md c) w x e) t T1).
  assert (F : forall l, fact_prod l = rprod (map (fun k => INR (fact k)) l)) by (induction l as [|y l IHl]; [reflexivity|]; cbn [map fact_prod]; now rewrite rprod_cons, IHl).
  unfold orderings. rewrite F. ring.
Qed.
(** A coin with two candidate biases: three shots with two ones, as a count and as shots. *)
Definition bias (x : loc) : R := match x with [a] => if Rltb a (1/2) then 1/4 else 3/4 | _ => 1/2 end.
Definition ex_config {O E} (l : O -> loc -> E -> R) : @config O E unit :=
  {| md := {| lik := l; timestep := fun _ x _ => x; canon := fun x => x |}; prior := fun _ n => repeat [0] n; rsmp := fun _ _ _ => Err RuntimeError;
     rthresh := 1/2; zpolicy := PError; zthresh := 1/2; canonize := true |}.
Definition ex_state {O} : @state O :=
  {| ws := [1/2; 1/2]; ls := [[0]; [1]]; drec := []; nrec := []; mness := PInf; rcnt := 0; jr := false; calls := 0 |}.
Definition ex_shot (o : Z) (x : loc) (_ : unit) : R := if Z.eqb o 1 then bias x else 1 - bias x.
Definition ex_count (k : nat) (x : loc) (e : unit * nat) : R := INR (binom (snd e) k) * bias x ^ k * (1 - bias x) ^ (snd e - k).
Lemma bias_range x : 1/4 <= bias x <= 3/4.
Proof. unfold bias. destruct x as [|a [|b x]]; try lra. destruct (Rltb a (1/2)); lra. Qed.
Lemma ex_good {O E} (l : O -> loc -> E -> R) : (forall o x e, 0 <= l o x e) -> good_config (ex_config l).
Proof. intros H. constructor; cbn; auto; [intros; apply repeat_length|discriminate]. Qed.
Example c103_example : let data := [(1%Z, tt); (0%Z, tt); (1%Z, tt)] in
  ws (run (ex_config ex_count) ex_state (updates (fun _ => tt) 0 [(2%nat, (tt, 3%nat))])) = ws (run (ex_config ex_shot) ex_state (updates (fun _ => tt) 0 data)).
Proof.
  assert (B1 : forall o x e, 1/4 <= ex_shot o x e) by (intros o x e; unfold ex_shot; pose proof (bias_range x); destruct (Z.eqb o 1); lra).
  assert (B0 : forall o x e, 0 <= ex_count o x e).
  { intros o x e. unfold ex_count. pose proof (bias_range x). apply Rmult_le_pos; [apply Rmult_le_pos; [apply pos_INR|apply pow_le; lra]|apply pow_le; lra]. }
  assert (Ep : eps <= 1/32). { unfold eps. replace (1/32) with (/ 2 ^ 5) by lra. apply Rinv_le_contravar; [apply pow_lt; lra|]. apply Rle_pow; [lra|lia]. }
  assert (G1 : good_config (ex_config ex_shot)) by (apply ex_good; intros; specialize (B1 o x e); lra). assert (G2 : good_config (ex_config ex_count)) by (apply ex_good; assumption).
  assert (F : forall O, full_inv (@ex_state O)) by (intros O; split; [reflexivity|split; [repeat constructor; lra|cbn; rewrite !rsum_cons, rsum_nil; lra]]).
  intros data.
  apply (c103_binomial_counts (ex_config ex_shot) (ex_config ex_count) (fun _ => tt) (fun _ => tt) ex_state ex_state [(2%nat, (tt, 3%nat))] [[1; 0; 1]%nat] data); try assumption; try (cbn; lra); try reflexivity; try apply F.
  - intros x d _ [<-|[]]. unfold binomial_like, no_nan, table, binomial_pdf, scipy_binom_pmf. cbn [map fst snd ex_config md lik]. unfold ex_shot. cbn [Z.eqb Pos.eqb]. pose proof (bias_range x). rewrite !Rleb_true by lra. reflexivity.
  - intros x d _ [<-|[]]. cbn. unfold ex_shot. cbn. lra.
  - repeat constructor.
  - apply regular_bounded; [assumption|cbn; lra| |apply F]. intros o e x _. cbn. specialize (B1 o x e). lra.
  - apply regular_bounded; [assumption|cbn; lra| |apply F]. intros o e x [[= <- <-]|[]]. cbn. unfold ex_count. cbn. pose proof (bias_range x). set (b := bias x) in *. clearbody b. nra.
Qed.
Print Assumptions c103_binomial_counts.
Print Assumptions c103_multinomial_counts.
