(** C163: how often an updater resamples. *)
From Coq Require Import Lia Lra.
From Verif Require Import Base RList Ext Sums SmcModel SmcSpec SmcProofs SmcProofs2 FreqSpec FreqProofs.

(** With a threshold of zero or less an updater resamples only when told to, over any history and whatever its weights have become. *)
Theorem c163_never_below_zero {O E RND} (c : @config O E RND) xs s : rthresh c <= 0 -> Forall unforced xs -> rcnt (run c s xs) = rcnt s.
Proof. intros H F. apply (run_ind c (fun s' => rcnt s' = rcnt s) unforced); auto. intros s' x Hx <-. now apply nonpositive_step. Qed.
(** With a threshold of at most one over the number of particles it does not either, whatever the data, the zero-weight policy and the batches. *)
Theorem c163_never_below_one_over_n {O E RND} (c : @config O E RND) xs s : sound_model c -> Forall (fun x => 0 <= x) (ws s) -> rsum (ws s) <= 1 ->
  INR (n_particles s) * rthresh c <= 1 -> Forall steady xs -> rcnt (run c s xs) = rcnt s /\ n_particles (run c s xs) = n_particles s.
Proof.
  intros G H1 H2 Ht F. assert (L : light (n_particles s) (rcnt s) (run c s xs)); [|destruct L as (_ & _ & A & B); split; assumption].
  apply (run_ind c (light (n_particles s) (rcnt s)) steady); auto; [|repeat split; assumption]. intros; now apply light_step.
Qed.
(** With a threshold above one it resamples after every update that it is able to normalise. *)
Theorem c163_always_above_one {O E RND} (c : @config O E RND) rs data s : sound_model c -> sound_resampler c -> zthresh c < 1 -> 1 < rthresh c -> full_inv s -> expected_data c rs 0 data s ->
  rcnt (run c s (learn rs 0 data)) = (rcnt s + length data)%nat.
Proof. intros. now apply large_run. Qed.
(** In between, outcomes whose likelihoods differ by a factor of at most [b / a] between particles cannot make it resample oftener than every
    [m + 1] updates, if the threshold is at most [(a / b) ^ m]. *)
Theorem c163_spacing {O E RND} (c : @config O E RND) rs (Good : RND -> Prop) (V : loc -> Prop) a b m data s : sound_model c -> zthresh c < 1 -> eps <= a -> a <= b ->
  even_resampler c Good V (n_particles s) -> (forall i, Good (rs i)) -> (forall r l e, Forall V l -> Forall V (timestep (md c) r l e)) -> rthresh c <= (a / b) ^ m ->
  (forall o e x, In (o, e) data -> V x -> a <= lik (md c) o x e <= b) -> Forall V (ls s) -> (0 < n_particles s)%nat -> ws s = uniform_weights (n_particles s) ->
  (rcnt (run c s (learn rs 0 data)) <= rcnt s + length data / S m)%nat.
Proof.
  intros G Hz Hea Hab Hr HG HT Ht HL HV Hn Hw. apply (spacing_run c rs Good V a b m (n_particles s) G Hz Hea Hab Hr HG HT Ht data 0 s 0 eq_refl HL); auto.
  - split; rewrite Hw; [apply uniform_weights_length|now apply uniform_prob].
  - intros u v Hu Hv. rewrite Hw in Hu, Hv. apply repeat_spec in Hu. apply repeat_spec in Hv. rewrite Hu, Hv. cbn [pow]. lra.
Qed.
(** A smaller threshold makes no difference until the larger one has made the updater resample: the first resampling does not come earlier. *)
Theorem c163_first_resampling {O E RND} (c : @config O E RND) t t' xs s : t <= t' -> rcnt (run (with_thresh c t') s xs) = rcnt s -> run (with_thresh c t) s xs = run (with_thresh c t') s xs.
Proof.
  intros H. revert s. induction xs as [|x xs IH]; intros s Hr; [reflexivity|]. change (run (with_thresh c t') s (x :: xs)) with (run (with_thresh c t') (fst (step (with_thresh c t') s x)) xs) in *. change (run (with_thresh c t) s (x :: xs)) with (run (with_thresh c t) (fst (step (with_thresh c t) s x)) xs).
  pose proof (step_rcnt (with_thresh c t') s x) as A1. pose proof (run_rcnt (with_thresh c t') xs (fst (step (with_thresh c t') s x))) as A2. destruct (step_two c s x t t' H) as [L| ->]; [lia|]. apply IH. lia.
Qed.

(** But a smaller threshold may make for more resamplings in the end. *)
Definition table3 (o : nat) (x : loc) : R := let first := match x with [a] => Rltb a (1/2) | _ => false end in
  match o with O => if first then 7/9 else 2/9 | 1%nat => if first then 3/4 else 1/4 | _ => if first then 1/6 else 5/6 end.
Definition keeper (t : R) : @config nat unit unit :=
  {| md := {| lik := fun o x _ => table3 o x; timestep := fun _ x _ => x; canon := fun x => x |}; prior := fun _ n => repeat [0] n; rsmp := fun _ _ l => match l with [] => Err ValueError | _ => Ok (uniform_weights (length l), l) end;
     rthresh := t; zpolicy := PError; zthresh := 1/2; canonize := true |}.
Definition pair_state (w : list R) (d : list nat) (N : list R) (m : ext) (k : nat) (j : bool) (n : nat) : @state nat := {| ws := w; ls := [[0]; [1]]; drec := d; nrec := N; mness := m; rcnt := k; jr := j; calls := n |}.
Lemma table3_range o x : 1/6 <= table3 o x <= 5/6.
Proof. unfold table3. destruct o as [|[|o]]; destruct (match x with [a] => Rltb a (1/2) | _ => false end); lra. Qed.
Lemma keeper_good t : sound_model (keeper t).
Proof. constructor; cbn [keeper md lik timestep canon prior rsmp]; auto; [intros o x _; pose proof (table3_range o x); lra|intros; apply repeat_length]. Qed.
Lemma keeper_sound t : sound_resampler (keeper t).
Proof.
  intros r w [|x l] w' l' _ _ H; [discriminate|]. injection H as <- <-. split; [apply uniform_prob; cbn; lia|now rewrite uniform_weights_length].
Qed.
Lemma eps_sixth : eps <= 1/6.
Proof. unfold eps. apply Rle_trans with (/ 2 ^ 3); [|lra]. apply Rinv_le_contravar; [apply pow_lt; lra|]. apply Rle_pow; [lra|lia]. Qed.
(** one checked update of two particles *)
Lemma pair_update t p o d N m k j n a b : 0 <= p <= 1 -> table3 o [0] = a -> table3 o [1] = b ->
  let z := p * a + (1 - p) * b in let p' := p * a / z in
  exists d' N' m' j' n', fst (update (keeper t) tt (pair_state [p; 1 - p] d N m k j n) o tt true) =
    if Rltb (/ (p' * p' + (1 - p') * (1 - p'))) (2 * t) then pair_state [1/2; 1 - 1/2] d' N' m' (S k) j' n' else pair_state [p'; 1 - p'] d' N' m' k j' n'.
Proof.
  intros Hp Ha Hb z p'. pose proof (table3_range o [0]) as Ra. pose proof (table3_range o [1]) as Rb. rewrite Ha in Ra. rewrite Hb in Rb. set (s := pair_state _ _ _ _ _ _ _).
  assert (Ez : evidence (keeper t) s o tt = z). { unfold evidence. change (n_particles s) with 2%nat. rewrite !Sum_S, Sum_0. unfold wt, at_, s. cbn [pair_state ws ls nth keeper md lik]. rewrite Ha, Hb. unfold z. ring. }
  assert (Pz : 1/6 <= z) by (unfold z; nra).
  assert (Hi : full_inv s) by (split; [reflexivity|]; split; [constructor; [lra|constructor; [lra|constructor]]|cbn; rewrite !rsum_cons, rsum_nil; lra]).
  pose proof eps_sixth as Ep. destruct (update_even (keeper t) tt s o tt true (keeper_good t) ltac:(cbn; lra) Hi ltac:(rewrite Ez; lra)) as (s1 & -> & Hi1 & Hn & Hr & El & Ew).
  assert (W : ws s1 = [p'; 1 - p']).
  { rewrite Ew. unfold norm_row. rewrite norm_scale_evidence, Ez, fix_norm_pos by (reflexivity || lra). unfold hyp_row, L_row, s. cbn [pair_state ws ls map map2 keeper md lik]. rewrite Ha, Hb. unfold p'. f_equal. f_equal. unfold z in *. field. lra. }
  assert (L : ls s1 = [[0]; [1]]) by exact El.
  unfold maybe_resample, n_particles, n_ess. rewrite W, L. cbn [map]. rewrite !rsum_cons, rsum_nil, Rplus_0_r. assert (Q : 0 < p' * p' + (1 - p') * (1 - p')) by nra. rewrite xdiv_Fin by lra. cbn [xltb length keeper rthresh]. replace (INR 2) with 2 by (cbn; ring). unfold Rdiv. rewrite Rmult_1_l.
  destruct (Rltb _ _).
  - unfold resample. cbn [keeper rsmp]. rewrite W, L. cbn [keeper canonize md canon fst]. exists (drec s1), (nrec s1), (mness s1), true, (calls s1). unfold pair_state. f_equal; [|now rewrite Hr]. unfold uniform_weights. cbn [length repeat]. replace (INR 2) with 2 by (cbn; ring). f_equal; [lra|]. f_equal. lra.
  - cbn [fst]. exists (drec s1), (nrec s1), (mness s1), (jr s1), (calls s1). unfold pair_state. rewrite <- W, <- L. destruct s1 as [w1 l1 d1 n1 m1 r1 j1 c1]. cbn in *. subst. reflexivity.
Qed.
Theorem c163_count_is_not_monotone_refuted : let s := pair_state [1/2; 1 - 1/2] [] [] (Fin 2) 0 false 0 in let data := [(0, tt); (1, tt); (2, tt)]%nat in
  with_thresh (keeper (4/5)) (3/4) = keeper (3/4) /\ full_inv s /\ rcnt (run (keeper (4/5)) s (learn (fun _ => tt) 0 data)) = 1%nat /\ rcnt (run (keeper (3/4)) s (learn (fun _ => tt) 0 data)) = 2%nat.
Proof.
  intros s data. assert (T0 : Rltb 0 (1/2) = true) by (apply Rltb_true; lra). assert (T1 : Rltb 1 (1/2) = false) by (apply Rltb_false; lra).
  assert (D0 : forall t d N m k j n p, 0 <= p <= 1 -> let p' := p * (7/9) / (p * (7/9) + (1 - p) * (2/9)) in exists d' N' m' j' n', fst (update (keeper t) tt (pair_state [p; 1 - p] d N m k j n) 0%nat tt true) = if Rltb (/ (p' * p' + (1 - p') * (1 - p'))) (2 * t) then pair_state [1/2; 1 - 1/2] d' N' m' (S k) j' n' else pair_state [p'; 1 - p'] d' N' m' k j' n')
    by (intros; apply pair_update; [assumption|unfold table3; now rewrite T0|unfold table3; now rewrite T1]).
  assert (D1 : forall t d N m k j n p, 0 <= p <= 1 -> let p' := p * (3/4) / (p * (3/4) + (1 - p) * (1/4)) in exists d' N' m' j' n', fst (update (keeper t) tt (pair_state [p; 1 - p] d N m k j n) 1%nat tt true) = if Rltb (/ (p' * p' + (1 - p') * (1 - p'))) (2 * t) then pair_state [1/2; 1 - 1/2] d' N' m' (S k) j' n' else pair_state [p'; 1 - p'] d' N' m' k j' n')
    by (intros; apply pair_update; [assumption|unfold table3; now rewrite T0|unfold table3; now rewrite T1]).
  assert (D2 : forall t d N m k j n p, 0 <= p <= 1 -> let p' := p * (1/6) / (p * (1/6) + (1 - p) * (5/6)) in exists d' N' m' j' n', fst (update (keeper t) tt (pair_state [p; 1 - p] d N m k j n) 2%nat tt true) = if Rltb (/ (p' * p' + (1 - p') * (1 - p'))) (2 * t) then pair_state [1/2; 1 - 1/2] d' N' m' (S k) j' n' else pair_state [p'; 1 - p'] d' N' m' k j' n')
    by (intros; apply pair_update; [assumption|unfold table3; now rewrite T0|unfold table3; now rewrite T1]).
  split; [reflexivity|]. split; [split; [reflexivity|]; split; [constructor; [lra|constructor; [lra|constructor]]|cbn; rewrite !rsum_cons, rsum_nil; lra]|].
  assert (R : forall t, run (keeper t) s (learn (fun _ => tt) 0 data) = fst (update (keeper t) tt (fst (update (keeper t) tt (fst (update (keeper t) tt s 0%nat tt true)) 1%nat tt true)) 2%nat tt true)) by reflexivity. rewrite !R. clear R. unfold s. split.
  - destruct (D0 (4/5) [] [] (Fin 2) 0%nat false 0%nat (1/2) ltac:(lra)) as (d1 & N1 & m1 & j1 & n1 & ->). replace (1 / 2 * (7 / 9) / (1 / 2 * (7 / 9) + (1 - 1 / 2) * (2 / 9))) with (7/9) by field. rewrite Rltb_true by lra.
    destruct (D1 (4/5) d1 N1 m1 1%nat j1 n1 (1/2) ltac:(lra)) as (d2 & N2 & m2 & j2 & n2 & ->). replace (1 / 2 * (3 / 4) / (1 / 2 * (3 / 4) + (1 - 1 / 2) * (1 / 4))) with (3/4) by field. rewrite Rltb_false by lra.
    destruct (D2 (4/5) d2 N2 m2 1%nat j2 n2 (3/4) ltac:(lra)) as (d3 & N3 & m3 & j3 & n3 & ->). replace (3 / 4 * (1 / 6) / (3 / 4 * (1 / 6) + (1 - 3 / 4) * (5 / 6))) with (3/8) by field. rewrite Rltb_false by lra. reflexivity.
  - destruct (D0 (3/4) [] [] (Fin 2) 0%nat false 0%nat (1/2) ltac:(lra)) as (d1 & N1 & m1 & j1 & n1 & ->). replace (1 / 2 * (7 / 9) / (1 / 2 * (7 / 9) + (1 - 1 / 2) * (2 / 9))) with (7/9) by field. rewrite Rltb_false by lra.
    destruct (D1 (3/4) d1 N1 m1 0%nat j1 n1 (7/9) ltac:(lra)) as (d2 & N2 & m2 & j2 & n2 & ->). replace (7 / 9 * (3 / 4) / (7 / 9 * (3 / 4) + (1 - 7 / 9) * (1 / 4))) with (21/23) by field. rewrite Rltb_true by lra.
    destruct (D2 (3/4) d2 N2 m2 1%nat j2 n2 (1/2) ltac:(lra)) as (d3 & N3 & m3 & j3 & n3 & ->). replace (1 / 2 * (1 / 6) / (1 / 2 * (1 / 6) + (1 - 1 / 2) * (5 / 6))) with (1/6) by field. rewrite Rltb_true by lra. reflexivity.
Qed.

(** ** Concrete cases *)
Lemma keeper_even t (V : loc -> Prop) n : even_resampler (keeper t) (fun _ => True) V n.
Proof. intros r w l _ Hp Hl <- HV. exists l. destruct l as [|x l]; [apply prob_vector_nonempty in Hp; cbn in Hl; lia|]. repeat split; exact HV. Qed.
Definition even_pair : @state nat := pair_state [1/2; 1 - 1/2] [] [] (Fin 2) 0 false 0.
Lemma even_uniform : ws even_pair = uniform_weights (n_particles even_pair).
Proof. unfold uniform_weights, n_particles. cbn [even_pair pair_state ws ls length repeat]. replace (INR 2) with 2 by (cbn; ring). f_equal; [lra|]. f_equal; lra. Qed.
(** Likelihoods between 1/6 and 5/6: with the threshold 1/25, ten outcomes make the updater resample at most three times. *)
Example c163_ten_outcomes os : length os = 10%nat -> (rcnt (run (keeper (1/25)) even_pair (learn (fun _ => tt) 0 (map (fun o => (o, tt)) os))) <= 3)%nat.
Proof.
  intros Hl. replace 3%nat with (rcnt even_pair + length (map (fun o : nat => (o, tt)) os) / 3)%nat by (rewrite map_length, Hl; reflexivity).
  apply (c163_spacing (keeper (1/25)) (fun _ => tt) (fun _ => True) (fun _ => True) (1/6) (5/6) 2); try (cbn; lra); auto.
  - apply keeper_good.
  - apply eps_sixth.
  - apply keeper_even.
  - intros o e x _ _. apply table3_range.
  - apply Forall_forall. auto.
  - cbn. lia.
  - exact even_uniform.
Qed.
(** Thresholds 1/2 and 2, on the same data. *)
Example c163_half os : rcnt (run (keeper (1/2)) even_pair (learn (fun _ => tt) 0 (map (fun o => (o, tt)) os))) = 0%nat.
Proof.
  apply (c163_never_below_one_over_n (keeper (1/2)) _ even_pair).
  - apply keeper_good.
  - constructor; [lra|constructor; [lra|constructor]].
  - cbn. rewrite !rsum_cons, rsum_nil. lra.
  - change (n_particles even_pair) with 2%nat. cbn. lra.
  - apply Forall_forall. intros x Hx. apply in_map_iff in Hx. destruct Hx as (p & <- & _). exact I.
Qed.
Example c163_two os : rcnt (run (keeper 2) even_pair (learn (fun _ => tt) 0 (map (fun o => (o, tt)) os))) = length os.
Proof.
  rewrite (c163_always_above_one (keeper 2)).
  - now rewrite map_length.
  - apply keeper_good.
  - apply keeper_sound.
  - cbn. lra.
  - cbn. lra.
  - split; [reflexivity|]. split; [constructor; [lra|constructor; [lra|constructor]]|cbn; rewrite !rsum_cons, rsum_nil; lra].
  - assert (G : forall os idx s, full_inv s -> expected_data (keeper 2) (fun _ => tt) idx (map (fun o : nat => (o, tt)) os) s).
    { clear os. induction os as [|o os IH]; intros idx s Hi; [exact I|]. cbn [map expected_data].
      assert (He : eps <= evidence (keeper 2) s o tt) by (apply Rle_trans with (1/6); [apply eps_sixth|]; apply even_evidence; [assumption|]; intros x _; apply table3_range).
      split; [exact He|]. apply IH. destruct (update_even (keeper 2) tt s o tt true (keeper_good 2) ltac:(cbn; lra) Hi He) as (s1 & -> & Hi1 & _). apply (large_maybe (keeper 2)); [apply keeper_good|apply keeper_sound|assumption|cbn; lra]. }
    apply G. split; [reflexivity|]. split; [constructor; [lra|constructor; [lra|constructor]]|cbn; rewrite !rsum_cons, rsum_nil; lra].
Qed.
Print Assumptions c163_never_below_zero.
Print Assumptions c163_never_below_one_over_n.
Print Assumptions c163_always_above_one.
Print Assumptions c163_spacing.
Print Assumptions c163_first_resampling.
Print Assumptions c163_count_is_not_monotone_refuted.
