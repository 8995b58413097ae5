(** C164, many stages: each updater learns from a block of data and then becomes the prior of the next one. *)
From Coq Require Import List ZArith Lia Lra Psatz.
From Verif Require Import Base RList Ext Sums SmcModel SmcSpec SmcProofs PartModel PartSpec PartProofs LearnSpec LearnProofs RateSpec ReSpec ReProofs3 ConvSpec ConvProofs ConvProofs2 ConvProps HandModel HandProofs HandProps.
Import ListNotations.

(** The likelihood of a record, for models whose particles stay where they are *)
Fixpoint likes {O E RND} (m : @model O E RND) (d : list (O * E)) (x : loc) : R := match d with [] => 1 | (o, e) :: d' => lik m o x e * likes m d' x end.
(** [SMCUpdater(model, n, s, ...)] with the other arguments as for [c] (smc.py 123-178) *)
Definition inherit {O E} (c : @config O E (nat -> R)) (s : @state O) : @config O E (nat -> R) :=
  {| md := md c; prior := posterior_prior s; rsmp := rsmp c; rthresh := rthresh c; zpolicy := zpolicy c; zthresh := zthresh c; canonize := canonize c |}.
(** The total likelihood an updater reports (smc.py 215-226) *)
Definition total {O} (s : @state O) : R := match log_total_likelihood s with Fin t => exp t | _ => 0 end.
(** The updater [s] learns from [d]; then for each [(n, d')] a new updater with [n] particles takes the last one as its prior and learns from [d'].  The product of all
    reported total likelihoods times the last posterior average of [f], averaged over the draws of all updaters. *)
Fixpoint staged {O E} (c : @config O E (nat -> R)) (rs : nat -> nat -> R) (Eu : (R -> R) -> R) (f : loc -> R) (s : @state O) (d : list (O * E)) (bl : list (nat * list (O * E))) : R :=
  let s' := run c s (updates rs 0 d) in
  total s' * match bl with [] => average s' f | (n, d') :: bl' => over Eu n (fun r => staged (inherit c s') rs Eu f (fresh (inherit c s') n r) d' bl') end.

Section Stages.
Context {O E : Type}.
Notation config := (@config O E (nat -> R)).
Notation stay := (fun (_ : nat -> R) (_ : E) (x : loc) => x).
Record plain (c : config) (V : loc -> Prop) : Prop := {
  pl_good : good_config c; pl_threshold : zthresh c < 1; pl_canon : canonize c = true -> forall l, canon (md c) l = l;
  pl_static : forall r l e, timestep (md c) r l e = l; pl_lik : forall o x e, V x -> eps <= lik (md c) o x e
}.
Lemma record_static (c : config) rs d : forall idx x, record_lik c stay rs idx d x = likes (md c) d x.
Proof. induction d as [|[o e] d IH]; intros idx x; cbn; [reflexivity|now rewrite IH]. Qed.
Lemma final_static (rs : nat -> nat -> R) (d : list (O * E)) : forall idx x, final stay rs idx d x = x.
Proof. induction d as [|[o e] d IH]; intros idx x; cbn; [reflexivity|apply IH]. Qed.
Lemma likes_app (m : @model O E (nat -> R)) d d' x : likes m (d ++ d') x = likes m d x * likes m d' x.
Proof. induction d as [|[o e] d IH]; cbn; [ring|]. rewrite IH. ring. Qed.
Section One.
Variables (c : config) (V : loc -> Prop) (rs : nat -> nat -> R) (s : @state O) (d : list (O * E)).
Hypothesis P : plain c V.
Hypothesis HI : full_inv s.
Hypothesis HV : Forall V (ls s).
Let moves r l e : timestep (md c) r l e = map (stay r e) l. Proof. rewrite (pl_static _ _ P). now rewrite map_id. Qed.
Lemma pr_likes d' : Sum (n_particles s) (fun i => wt s i * path_lik c rs 0 d' (ls s) i) = average s (likes (md c) d').
Proof. apply Sum_ext. intros i Hi. rewrite (path_record c stay rs moves) by exact Hi. now rewrite record_static. Qed.
Lemma likes_pos d' x : V x -> 0 < likes (md c) d' x.
Proof. intros Hx. pose proof eps_pos. induction d' as [|[o e] d' IH]; cbn; [lra|]. pose proof (pl_lik _ _ P o x e Hx). apply Rmult_lt_0_compat; lra. Qed.
Lemma likes_next d' : forall k x, V x -> (k < length d')%nat -> eps * likes (md c) (firstn k d') x <= likes (md c) (firstn (S k) d') x.
Proof.
  induction d' as [|[o e] d' IH]; intros k x Hx Hk; [cbn in Hk; lia|]. pose proof eps_pos. pose proof (pl_lik _ _ P o x e Hx) as L. destruct k as [|k]; cbn [firstn likes]; [lra|].
  specialize (IH k x Hx ltac:(cbn in Hk; lia)). cbn [firstn] in IH. replace (eps * (lik (md c) o x e * likes (md c) (firstn k d') x)) with (lik (md c) o x e * (eps * likes (md c) (firstn k d') x)) by ring. apply Rmult_le_compat_l; [lra|exact IH].
Qed.
Lemma always_regular : regular c rs 0 d s.
Proof.
  apply (regular_of_prefixes c rs (pl_good _ _ P) (pl_threshold _ _ P) d 0 s HI). intros k Hk. rewrite !pr_likes. unfold average, cloud_average. rewrite <- Sum_scal. apply Sum_le. intros i Hi.
  assert (Vi : V (nth i (ls s) [])) by (rewrite Forall_forall in HV; now apply HV, nth_In). pose proof (likes_next d k _ Vi Hk). pose proof (w_nonneg _ (Hw s HI) i). rewrite Rmult_comm, Rmult_assoc. apply Rmult_le_compat_l; [assumption|]. lra.
Qed.
Lemma one_stage f : nrec s = [] -> let s' := run c s (updates rs 0 d) in full_inv s' /\ Forall V (ls s') /\ total s' * average s' f = average s (fun x => likes (md c) d x * f x).
Proof.
  intros Hn s'. pose proof always_regular as Rg. split; [|split].
  - exact (proj1 (run_regular c rs (pl_good _ _ P) (pl_threshold _ _ P) d 0%nat s HI Rg)).
  - unfold s'. rewrite (run_final c stay rs (pl_good _ _ P) (pl_threshold _ _ P) moves d 0%nat s HI Rg). apply Forall_forall. intros x Hx. apply in_map_iff in Hx as (y & <- & Hy). rewrite final_static. rewrite Forall_forall in HV. now apply HV.
  - destruct (c05_lem c rs d s (pl_good _ _ P) (pl_threshold _ _ P) HI Hn Rg) as (t & Z1 & Z2). fold s' in Z1. unfold total. rewrite Z1, Z2. rewrite pr_likes.
    destruct (posterior_average c stay rs (pl_good _ _ P) (pl_threshold _ _ P) moves d s f HI Rg) as [Pp Q]. fold s' in Q. rewrite Q.
    assert (X : Sum (n_particles s) (fun i => wt s i * record_lik c stay rs 0 d (at_ s i)) = average s (likes (md c) d)) by (apply Sum_ext; intros i Hi; now rewrite record_static). rewrite X in Pp |- *.
    unfold Rdiv. rewrite Rmult_comm, Rmult_assoc, Rinv_l, Rmult_1_r by lra. apply Sum_ext. intros i Hi. now rewrite record_static, final_static.
Qed.
End One.
Lemma over_ext Eu n F G : (forall r, F r = G r) -> uniform_law Eu -> over Eu n F = over Eu n G.
Proof.
  intros H HU. unfold over. assert (Q : forall f g, (forall us, f us = g us) -> uniforms Eu n f = uniforms Eu n g); [|apply Q; intros us; apply H].
  induction n as [|n IH]; intros f g Hfg; cbn [uniforms]; [apply Hfg|]. apply (eu_ext Eu HU). intros u _. apply IH. intros us. apply Hfg.
Qed.
(** On average over all draws, the product of the likelihoods that a chain of updaters reports is the probability the first one gives to all the data, and weighted with
    it the posterior averages at the end are those of the first cloud, whatever the numbers of particles. *)
Theorem c164_stages Eu (V : loc -> Prop) rs f : uniform_law Eu -> forall bl c s d, plain c V -> full_inv s -> Forall V (ls s) -> nrec s = [] -> Forall (fun b => (0 < fst b)%nat) bl ->
  staged c rs Eu f s d bl = average s (fun x => likes (md c) (d ++ concat (map snd bl)) x * f x).
Proof.
  intros HU. induction bl as [|[n d'] bl IH]; intros c s d P HI HV Hn Hbl.
  - cbn [staged map concat]. rewrite app_nil_r. exact (proj2 (proj2 (one_stage c V rs s d P HI HV f Hn))).
  - cbn [staged map snd concat]. set (s' := run c s (updates rs 0 d)). inversion Hbl as [|? ? Pn Hbl' Eq]; subst. cbn [fst] in Pn. destruct (one_stage c V rs s d P HI HV (fun x => likes (md c) (d' ++ concat (map snd bl)) x * f x) Hn) as (I' & V' & Q). fold s' in I', V', Q.
    assert (HH : hands_on s' (inherit c s')).
    { intros r m. cbn [inherit prior]. unfold posterior_prior. rewrite pd_sample_ok; [reflexivity|now apply w_ne|now apply Hlw]. }
    assert (P' : plain (inherit c s') V).
    { destruct P as [[G1 G2 G3 G4] A2 A3 A4 A5]. constructor; try assumption. constructor; try assumption. intros r m. now apply (prior_length s'). }
    rewrite (over_ext Eu n _ (fun r => average (fresh (inherit c s') n r) (fun x => likes (md c) (d' ++ concat (map snd bl)) x * f x)) ); [|intros r|exact HU].
    + rewrite (c164_unbiased s' (inherit c s') Eu I' HH HU (pl_canon _ _ P') n _ Pn). rewrite Q. apply Sum_ext. intros i Hi. rewrite (likes_app (md c) d). ring.
    + apply (IH (inherit c s') (fresh (inherit c s') n r) d' P'); auto; [now apply fresh_inv; destruct P'|]. rewrite fresh_ls by (destruct P'; assumption). now apply (prior_in s').
Qed.
Theorem c164_stages_evidence Eu (V : loc -> Prop) rs bl c s d : uniform_law Eu -> plain c V -> full_inv s -> Forall V (ls s) -> nrec s = [] -> Forall (fun b => (0 < fst b)%nat) bl ->
  staged c rs Eu (fun _ => 1) s d bl = predictive c rs s (d ++ concat (map snd bl)).
Proof. intros HU P HI HV Hn Hbl. rewrite (c164_stages Eu V rs _ HU bl c s d P HI HV Hn Hbl). unfold predictive. rewrite (pr_likes c V rs s P). apply Sum_ext. intros i Hi. ring. Qed.
End Stages.

(** ** A concrete case *)
(** A coin with bias 1/4 or 3/4; a head, then three new particles and a tail, then one new particle and a head: the three likelihoods have the average product 3/32. *)
Definition biased (x : loc) : R := Rmax (1/4) (Rmin (3/4) (nth 0 x 0)).
Definition coin_chain : @config Z unit (nat -> R) :=
  {| md := {| lik := fun o x _ => if Z.eqb o 1 then biased x else 1 - biased x; timestep := fun _ l _ => l; canon := fun l => l |};
     prior := fun _ n => repeat [1/4] n; rsmp := fun _ _ _ => Err RuntimeError; rthresh := 1/2; zpolicy := PError; zthresh := 0; canonize := true |}.
Definition first_of_chain : @state Z := {| ws := [1/2; 1/2]; ls := [[1/4]; [3/4]]; drec := []; nrec := []; mness := Fin 2; rcnt := 0; jr := false; calls := 0 |}.
Lemma biased_range x : 1/4 <= biased x <= 3/4.
Proof. unfold biased. split; [apply Rmax_l|]. apply Rmax_lub; [lra|apply Rmin_l]. Qed.
Example c164_chain_plain : plain coin_chain (fun _ => True).
Proof.
  constructor.
  - constructor; try (intros; reflexivity); [|intros; apply repeat_length|intros; discriminate]. intros o x e. cbn. pose proof (biased_range x). destruct (Z.eqb o 1); lra.
  - cbn. lra.
  - reflexivity.
  - reflexivity.
  - intros o x e _. assert (Pe : eps <= 1/8) by (unfold eps; apply Rle_trans with (/ 2 ^ 3); [apply Rinv_le_contravar; [apply pow_lt; lra|apply Rle_pow; [lra|lia]]|lra]). cbn. pose proof (biased_range x). destruct (Z.eqb o 1); lra.
Qed.
Example c164_chain rs : staged coin_chain rs riemann (fun _ => 1) first_of_chain [(1%Z, tt)] [(3%nat, [(0%Z, tt)]); (1%nat, [(1%Z, tt)])] = 3/32.
Proof.
  rewrite (c164_stages riemann (fun _ => True) rs (fun _ => 1) riemann_uniform); [| | | | |].
  - unfold average, cloud_average. cbn [first_of_chain ws ls length]. rewrite !Sum_S, !Sum_0. cbn [nth app map snd concat likes coin_chain md lik Z.eqb Pos.eqb]. unfold biased. cbn [nth]. rewrite (Rmin_right (3/4) (1/4)), (Rmin_left (3/4) (3/4)), (Rmax_left (1/4) (1/4)), (Rmax_right (1/4) (3/4)) by lra. lra.
  - exact c164_chain_plain.
  - split; [reflexivity|]. split; [repeat constructor; cbn; lra|unfold rsum; cbn; lra].
  - apply Forall_forall. auto.
  - reflexivity.
  - repeat constructor; cbn; lia.
Qed.
Print Assumptions c164_stages.
Print Assumptions c164_stages_evidence.
