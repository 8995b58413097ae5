(** C163, continued: the Liu-West resampler meets what updaters assume of resamplers, and how often an updater that uses it resamples. *)
From Coq Require Import Lia Lra.
From Verif Require Import Base RList Ext Sums SmcModel SmcSpec SmcProofs PartModel PartSpec PartProofs LwModel LwSpec LwProofs LwProofs2 ReModel ReSpec ReProofs2 CountProps ReProps DecSpec FreqSpec FreqProofs FreqProps.

(** The updater calls the Liu-West resampler (smc.py:475-515, resamplers.py:256-392): [us r] are the uniform numbers of the call with randomness [r], [kernel r t k]
    the [k]-th column of the kernel draw of its round [t], [junk r] what np.empty returned. *)
Definition calls_liu_west {O E RND} (c : @config O E RND) valid postselect sqrtm cfg d (us : RND -> list R) (kernel : RND -> nat -> nat -> list R) (junk : RND -> nat -> loc) : Prop :=
  forall r w l, rsmp c r w l = match lw_call valid postselect (kernel r) sqrtm cfg d w l None None None (us r) (junk r) with
  | Ok (dist, _, _) => Ok (map finite_part (snd dist), fst dist)
  | Err x => Err x
  end.
(** Numbers as the random number generator draws them, [n] of them *)
Definition uniform_numbers {RND} (us : RND -> list R) (n : nat) (r : RND) : Prop := length (us r) = n /\ Forall (fun u => 0 <= u < 1) (us r).

Lemma loop_locs valid postselect kernel S left : forall t s, length (new_locs (lw_loop valid postselect kernel S left t s)) = length (new_locs s).
Proof. induction left as [|k IH]; intros t s; [reflexivity|]. cbn [lw_loop]. destruct (idxs s); [reflexivity|]. rewrite IH. cbn [lw_pass new_locs]. apply scatter_length. Qed.
Lemma lw_returns valid postselect kernel sqrtm cfg d junk us w l w' l' : c_default_n cfg <> Some 0%nat ->
  match lw_call valid postselect kernel sqrtm cfg d w l None None None us junk with Ok (dist, _, _) => Ok (map finite_part (snd dist), fst dist) | Err x => Err x end = Ok (w', l') ->
  Forall (fun x => 0 <= x) w' /\ length l' = length w' /\ (l <> [] -> prob_vector w').
Proof.
  intros Hn Hr. unfold lw_call in Hr. cbv zeta in Hr. set (n := match c_default_n cfg with Some n => n | None => length l end) in Hr.
  assert (Pn : l <> [] -> (0 < n)%nat). { intros Hl. subst n. destruct (c_default_n cfg) as [[|n]|]; [congruence|lia|]. now apply nonempty_len. } clearbody n.
  destruct (sqrtm _) as [S0 Er] in Hr. destruct (negb (isfinite Er)); [discriminate|]. destruct (take l _) as [anc|ex]; [|discriminate]. cbn [bind pd_init snd fst] in Hr. injection Hr as <- <-.
  assert (U : map finite_part (map (fun x => xdiv (Fin x) (Fin (rsum (map Rabs (uniform_weights n))))) (map Rabs (uniform_weights n))) = uniform_weights n).
  { destruct n as [|n]; [reflexivity|]. destruct (uniform_prob (S n) ltac:(lia)) as [U1 U2]. assert (A : map Rabs (uniform_weights (S n)) = uniform_weights (S n)). { rewrite <- (map_id (uniform_weights (S n))) at 2. apply map_ext_in. intros x Hx. rewrite Forall_forall in U1. apply Rabs_pos_eq. now apply U1. }
    rewrite A, U2, map_map. rewrite <- (map_id (uniform_weights (S n))) at 2. apply map_ext. intros x. rewrite xdiv_Fin by lra. cbn. unfold id. lra. }
  cbn [xdiv] in U. rewrite U. split; [apply uniform_weights_nonneg|]. split; [|intros Hl; apply uniform_prob; auto]. rewrite loop_locs. cbn [new_locs]. now rewrite map_length, seq_length, uniform_weights_length.
Qed.

(** ** Lengths of the new particles *)
Definition wide (d : nat) (l : list loc) : Prop := forall x, In x l -> length x = d.
Lemma wide_nth d l : wide d l <-> forall i, (i < length l)%nat -> length (nth i l []) = d.
Proof. split; [intros H i Hi; apply H, nth_In, Hi|]. intros H x Hx. destruct (In_nth l x [] Hx) as (i & Hi & <-). now apply H. Qed.
Lemma set_at_wide d i v l : length v = d -> wide d l -> wide d (set_at i v l).
Proof. intros Hv. revert i. induction l as [|x l IH]; intros i Hl; [destruct i; exact Hl|]. destruct i as [|i]; cbn [set_at]; intros y [<-|Hy]; auto; [apply Hl; now right|apply Hl; now left|]. apply (IH i (fun z Hz => Hl z (or_intror Hz)) y Hy). Qed.
Lemma scatter_wide d is : forall vs l, wide d vs -> wide d l -> wide d (scatter is vs l).
Proof. induction is as [|i is IH]; intros [|v vs] l Hv Hl; try exact Hl. cbn [scatter]. apply IH; [intros x Hx; apply Hv; now right|]. apply set_at_wide; [apply Hv; now left|exact Hl]. Qed.
Lemma map2_len {A B C} (f : A -> B -> C) a : forall b, length (map2 f a b) = Nat.min (length a) (length b).
Proof. induction a as [|x a IH]; intros [|y b]; cbn; auto. Qed.
Lemma proposals_wide d S (kernel : nat -> nat -> list R) (t : nat) m : length S = d -> wide d m -> wide d (map2 (fun mu k => vadd mu (matvec S (kernel t k))) m (seq 0 (length m))).
Proof.
  intros HS Hm. generalize 0%nat as j. induction m as [|x m IH]; intros j y Hy; cbn in Hy; [contradiction|]. destruct Hy as [<-|Hy].
  - unfold vadd, matvec. rewrite map2_len, map_length, HS, (Hm x (or_introl eq_refl)). apply Nat.min_id.
  - apply (IH (fun z Hz => Hm z (or_intror Hz)) (Datatypes.S j) y Hy).
Qed.
Lemma firstn_wide d k l : wide d l -> wide d (firstn k l).
Proof. intros H x Hx. apply H. rewrite <- (firstn_skipn k l). apply in_or_app. now left. Qed.
Lemma loop_wide valid postselect kernel S d left : length S = d -> forall t s, wide d (mus s) -> wide d (new_locs s) -> wide d (new_locs (lw_loop valid postselect kernel S left t s)).
Proof.
  intros HS. induction left as [|k IH]; intros t s Hm Hl; [exact Hl|]. cbn [lw_loop]. destruct (idxs s) as [|i0 is] eqn:Ei; [exact Hl|]. apply IH; cbn [lw_pass mus new_locs]; [now apply firstn_wide|]. apply scatter_wide; [now apply proposals_wide|exact Hl].
Qed.
Lemma start_wide valid postselect kernel S d left n m js0 locs : length S = d -> (0 < left)%nat -> wide d m -> length m = n -> length locs = n ->
  wide d (new_locs (lw_loop valid postselect kernel S left 0 {| new_locs := locs; idxs := seq 0 n; js := js0; mus := m; n_calls := 0 |})).
Proof.
  intros HS Hl Hm Lm Ll. destruct left as [|k]; [lia|]. cbn [lw_loop idxs]. destruct (seq 0 n) as [|i0 is] eqn:Es.
  - destruct n as [|n]; [|discriminate]. destruct locs; [|discriminate]. intros x [].
  - rewrite <- Es. apply (loop_wide valid postselect kernel S d k HS); cbn [lw_pass mus new_locs idxs]; [now apply firstn_wide|].
    set (p := map2 _ m _). assert (Hp : wide d p) by now apply proposals_wide. assert (Lp : length p = n) by (unfold p; rewrite map2_len, seq_length, Lm; apply Nat.min_id).
    apply wide_nth. intros i Hi. rewrite scatter_length, Ll in Hi. pose proof (scatter_same (seq 0 n) p locs [] i (seq_NoDup n 0) ltac:(rewrite seq_length; exact Lp) ltac:(intros j Hj; apply in_seq in Hj; lia)) as Q. rewrite seq_nth in Q by exact Hi. cbn [plus] in Q.
    rewrite Q by (rewrite ?seq_length; exact Hi). apply Hp, nth_In. now rewrite Lp.
Qed.
Lemma take_wide {d} l : wide d l -> forall js anc, take l js = Ok anc -> wide d anc /\ length anc = length js.
Proof.
  intros Hl. induction js as [|j js IH]; intros anc Ht; cbn in Ht; [injection Ht as <-; split; [intros x []|reflexivity]|].
  destruct (nth_error l j) as [x|] eqn:Ej; [|discriminate]. destruct (take l js) as [anc'|] eqn:Et; [|discriminate]. cbn in Ht. injection Ht as <-. destruct (IH anc' eq_refl) as [W L]. split; [|cbn; now rewrite L].
  intros y [<-|Hy]; [apply Hl; now apply nth_error_In in Ej|now apply W].
Qed.

(** ** What updaters rely on *)
(** Whatever the random numbers, the validity of the proposals, the weights and the square root, Liu and West's resampler returns normalised clouds: what the
    theorems about updaters (C01-C12 and others) assume of a resampler holds of it. *)
Theorem c21_what_updaters_rely_on {O E RND} (c : @config O E RND) valid postselect sqrtm cfg d us kernel junk :
  calls_liu_west c valid postselect sqrtm cfg d us kernel junk -> c_default_n cfg <> Some 0%nat -> sound_model c -> good_config c.
Proof. intros Hc Hn [H1 H2 H3 H4]. constructor; try assumption. intros r w l w' l'. rewrite Hc. now apply lw_returns. Qed.
Theorem c163_liu_west_sound {O E RND} (c : @config O E RND) valid postselect sqrtm cfg d us kernel junk :
  calls_liu_west c valid postselect sqrtm cfg d us kernel junk -> c_default_n cfg <> Some 0%nat -> sound_resampler c.
Proof. intros Hc Hn r w l w' l' Hp Hl Hr. rewrite Hc in Hr. destruct (lw_returns _ _ _ _ _ _ _ _ _ _ _ _ Hn Hr) as (_ & A & B). split; [|exact A]. apply B. apply nonempty_len. rewrite <- Hl. now apply prob_vector_nonempty. Qed.
Section LW.
Context {O E RND : Type}.
Variables (c : @config O E RND) (valid : loc -> bool) (postselect : bool) (sqrtm : list (list R) -> list (list R) * ext) (cfg : lw_config) (d : nat) (us : RND -> list R) (kernel : RND -> nat -> nat -> list R) (junk : RND -> nat -> loc).
Hypothesis Hc : calls_liu_west c valid postselect sqrtm cfg d us kernel junk.
Hypothesis Hf : forall m, isfinite (snd (sqrtm m)) = true.
(** Whether or not the proposals are valid, it returns equal weights for as many particles, as C145 asks. *)
Theorem c145_liu_west : c_default_n cfg = None -> uniform_resampler c (uniform_numbers us).
Proof.
  intros Hn r w l [R1 R2] Hp Hl. rewrite Hc. assert (N : the_n cfg l None = length l) by (unfold the_n; now rewrite Hn).
  destruct (call_shape valid postselect (kernel r) sqrtm cfg d w l None None None (us r) (junk r) Hp (eq_sym Hl) R2 ltac:(congruence) Hf) as (locs & lft & calls & E3 & E4 & _).
  rewrite E3. exists locs. rewrite N in *. split; [|exact E4]. cbn [fst snd]. rewrite map_map. cbn [finite_part]. now rewrite map_id.
Qed.
(** And they have as many parameters. *)
Theorem c163_liu_west_even n : c_default_n cfg = None \/ c_default_n cfg = Some n -> (0 < c_maxiter cfg)%nat -> (forall m, is_matrix d m -> is_matrix d (fst (sqrtm m))) ->
  (forall l, Forall (fun x => length x = d) l -> Forall (fun x => length x = d) (canon (md c) l)) -> even_resampler c (uniform_numbers us n) (fun x => length x = d) n.
Proof.
  intros Hn Hm Hroot HC r w l [R1 R2] Hp Hl Ln HV. rewrite Hc. assert (N : the_n cfg l None = n) by (unfold the_n; destruct Hn as [->| ->]; auto).
  destruct (call_shape valid postselect (kernel r) sqrtm cfg d w l None None None (us r) (junk r) Hp (eq_sym Hl) R2 ltac:(congruence) Hf) as (locs & lft & calls & E3 & E4 & _). rewrite N in E3, E4.
  rewrite E3. exists locs. split; [cbn [fst snd]; rewrite map_map; cbn [finite_part]; now rewrite map_id|]. split; [exact E4|].
  assert (W : wide d locs).
  { unfold lw_call in E3. cbv zeta in E3. change (match c_default_n cfg with Some n0 => n0 | None => length l end) with (the_n cfg l None) in E3. rewrite N in E3. change (if Reqb (sqrt (fro2 (est_cov d w l))) 0 then eye (c_comp cfg) (length (est_cov d w l)) else est_cov d w l) with (the_cov cfg d w l None) in E3.
    pose proof (Hroot _ (the_cov_matrix cfg d w l)) as HM. destruct (sqrtm (the_cov cfg d w l None)) as [S0 Er]. cbn [fst] in HM. destruct (negb (isfinite Er)); [discriminate|].
    destruct (take l _) as [anc|ex] eqn:Et; [|discriminate]. rewrite Forall_forall in HV. destruct (take_wide l HV _ _ Et) as [Wa La]. rewrite map_length, R1 in La. cbn [bind pd_init] in E3. injection E3 as E5 _ _ _. rewrite <- E5. apply start_wide; auto.
    - rewrite map_length. exact (proj1 HM).
    - intros x Hx. apply in_map_iff in Hx as (y & <- & Hy). unfold vadd, vscale, est_mean, particle_mean. rewrite map2_len, !map_length, seq_length, (Wa y Hy). apply Nat.min_id.
    - now rewrite map_length.
    - now rewrite map_length, seq_length. }
  assert (F : Forall (fun x => length x = d) locs) by (apply Forall_forall; exact W). cbn [fst]. destruct (canonize c); auto.
Qed.
(** So an updater with the package's resampler resamples at most once in [m + 1] updates, when likelihoods lie between [a] and [b] and the threshold is
    at most [(a / b) ^ m], whichever proposals are rejected. *)
Theorem c163_liu_west_spacing rs a b m data s : let n := n_particles s in
  c_default_n cfg = None \/ c_default_n cfg = Some n -> (0 < c_maxiter cfg)%nat -> (forall m, is_matrix d m -> is_matrix d (fst (sqrtm m))) ->
  (forall l, Forall (fun x => length x = d) l -> Forall (fun x => length x = d) (canon (md c) l)) -> (forall r l e, Forall (fun x => length x = d) l -> Forall (fun x => length x = d) (timestep (md c) r l e)) ->
  sound_model c -> zthresh c < 1 -> eps <= a -> a <= b -> rthresh c <= (a / b) ^ m -> (forall i, uniform_numbers us n (rs i)) ->
  (forall o e x, In (o, e) data -> length x = d -> a <= lik (md c) o x e <= b) -> (forall x, In x (ls s) -> length x = d) -> (0 < n)%nat -> ws s = uniform_weights n ->
  (rcnt (run c s (learn rs 0 data)) <= rcnt s + length data / S m)%nat.
Proof.
  intros n Hn Hm Hroot HC HT G Hz Hea Hab Ht HG HL HV Np Hw. apply (c163_spacing c rs (uniform_numbers us n) (fun x => length x = d) a b m data s); auto.
  - now apply c163_liu_west_even.
  - now apply Forall_forall.
Qed.
End LW.

(** ** A concrete case *)
(** A coin with two candidate biases; proposals outside the unit interval are rejected and drawn again. *)
Definition unit_interval (x : loc) : bool := (Rleb 0 (nth 0 x 0) && Rleb (nth 0 x 0) 1)%bool.
Definition slow_coin : @config Z unit (list R * (nat -> nat -> list R))%type :=
  {| md := {| lik := ex_shot; timestep := fun _ x _ => x; canon := fun x => x |}; prior := fun _ n => repeat [0] n;
     rsmp := fun r w l => match lw_call unit_interval true (snd r) coin_root coin_lw 1 w l None None None (fst r) (fun _ => [7]) with Ok (dist, _, _) => Ok (map finite_part (snd dist), fst dist) | Err x => Err x end;
     rthresh := 1/10; zpolicy := PError; zthresh := 1/2; canonize := true |}.
Lemma slow_calls : calls_liu_west slow_coin unit_interval true coin_root coin_lw 1 fst snd (fun _ _ => [7]).
Proof. intros r w l. reflexivity. Qed.
Lemma slow_sound : sound_model slow_coin.
Proof. constructor; try reflexivity; [|intros; apply repeat_length]. intros o x e. cbn. unfold ex_shot. pose proof (bias_range x). destruct (Z.eqb o 1); lra. Qed.
(** Likelihoods between 1/4 and 3/4 and the threshold 1/10: in ten tosses at most three resamplings, whatever the tosses and the random numbers. *)
Example c163_coin rs os : (forall i, uniform_numbers fst 2 (rs i)) -> length os = 10%nat -> (rcnt (run slow_coin ex_state (learn rs 0 (map (fun o => (o, tt)) os))) <= 3)%nat.
Proof.
  intros Hr Hl. replace 3%nat with (rcnt (@ex_state Z) + length (map (fun o : Z => (o, tt)) os) / 3)%nat by (rewrite map_length, Hl; reflexivity).
  apply (c163_liu_west_spacing slow_coin unit_interval true coin_root coin_lw 1 fst snd (fun _ _ => [7]) slow_calls) with (a := 1/4) (b := 3/4); auto; try (cbn; lra); try (cbn; lia).
  - intros m _. split; [reflexivity|intros r [<-|[]]; reflexivity].
  - exact slow_sound.
  - pose proof eps_sixth. lra.
  - intros o e x _ _. cbn. unfold ex_shot. pose proof (bias_range x). destruct (Z.eqb o 1); lra.
  - intros x [<-|[<-|[]]]; reflexivity.
  - unfold uniform_weights. cbn. replace (1 + 1) with 2 by ring. f_equal; [lra|]. f_equal; lra.
Qed.
Example c163_coin_numbers : uniform_numbers fst 2 ([1/3; 2/3], fun t k : nat => [1]).
Proof. split; [reflexivity|]. repeat constructor; cbn; lra. Qed.
Example c163_coin_sound : sound_resampler slow_coin.
Proof. apply (c163_liu_west_sound slow_coin _ _ _ _ _ _ _ _ slow_calls). discriminate. Qed.
Example c21_coin : good_config slow_coin.
Proof. apply (c21_what_updaters_rely_on slow_coin _ _ _ _ _ _ _ _ slow_calls); [discriminate|apply slow_sound]. Qed.
Example c145_coin : uniform_resampler slow_coin (uniform_numbers fst).
Proof. apply (c145_liu_west slow_coin _ _ _ _ _ _ _ _ slow_calls); reflexivity. Qed.
Print Assumptions c145_liu_west.
Print Assumptions c21_what_updaters_rely_on.
Print Assumptions c163_liu_west_sound.
Print Assumptions c163_liu_west_even.
Print Assumptions c163_liu_west_spacing.
