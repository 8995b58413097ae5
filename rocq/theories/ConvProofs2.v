(** Proofs for C123: an updater whose cloud represents the evidences well performs exact importance sampling. *)
From Coq Require Import List Lia Lra Psatz.
From Verif Require Import Base RList Ext Sums SmcModel SmcSpec SmcProofs LinProofs LearnSpec LearnProofs RateSpec ReSpec ConvSpec ConvProofs.
Import ListNotations.

Section Run.
Context {O E RND : Type} (c : @config O E RND) (mv : RND -> E -> loc -> loc) (rs : nat -> RND).
Hypothesis G : good_config c.
Hypothesis Ht : zthresh c < 1.
Notation state := (@state O).
Notation pr idx s d := (Sum (n_particles s) (fun i => wt s i * path_lik c rs idx d (ls s) i)).

Lemma pr_step idx s o e d : full_inv s -> eps <= evidence c s o e ->
  pr (S idx) (fst (update c (rs idx) s o e false)) d = pr idx s ((o, e) :: d) / evidence c s o e.
Proof.
  intros [Hlen [Hw Hs]] He. pose proof eps_pos. rewrite update_regular by (auto; apply (lik_nonneg c G)). rewrite install_nocheck. unfold n_particles at 1. cbn [fst ws ls recorded].
  rewrite (step_len c G). fold (n_particles s). unfold Rdiv. rewrite Rmult_comm, <- Sum_scal. apply Sum_ext. intros i Hi. unfold wt at 1. cbn [ws]. rewrite norm_row_nth by assumption.
  unfold bayes. fold (evidence c s o e). cbn [path_lik]. fold (at_ s i). field. lra.
Qed.
Lemma regular_of_prefixes : forall data idx s, full_inv s ->
  (forall k, (k < length data)%nat -> eps * pr idx s (firstn k data) <= pr idx s (firstn (S k) data)) -> regular c rs idx data s.
Proof.
  pose proof eps_pos as Pe. induction data as [|[o e] data IH]; intros idx s Hinv H; [exact I|].
  assert (He : eps <= evidence c s o e).
  { specialize (H 0%nat ltac:(cbn; lia)). cbn [firstn path_lik] in H. rewrite (Sum_ext _ (fun i => wt s i * 1) (wt s)) in H by (intros; ring). rewrite full_inv_Sum in H by assumption.
    unfold evidence. unfold at_. rewrite (Sum_ext _ (fun i => wt s i * (lik (md c) o (nth i (ls s) []) e * 1)) (fun i => wt s i * lik (md c) o (nth i (ls s) []) e)) in H by (intros; ring). lra. }
  split; [assumption|]. apply IH; [now apply update_regular_inv|]. intros k Hk. rewrite !pr_step by assumption.
  specialize (H (S k) ltac:(cbn; lia)). cbn [firstn] in H |- *. unfold Rdiv. rewrite <- Rmult_assoc. apply Rmult_le_compat_r; [apply Rlt_le, Rinv_0_lt_compat; lra|exact H].
Qed.

Hypothesis Hmv : forall r l e, timestep (md c) r l e = map (mv r e) l.
Lemma path_record data : forall idx l i, (i < length l)%nat -> path_lik c rs idx data l i = record_lik c mv rs idx data (nth i l []).
Proof.
  induction data as [|[o e] data IH]; intros idx l i Hi; cbn [path_lik record_lik]; [reflexivity|]. rewrite Hmv, IH by now rewrite map_length.
  rewrite (nth_indep (map (mv (rs idx) e) l) [] (mv (rs idx) e [])) by (now rewrite map_length). now rewrite (map_nth (mv (rs idx) e)).
Qed.
Lemma run_final data : forall idx s, full_inv s -> regular c rs idx data s -> ls (run c s (updates rs idx data)) = map (final mv rs idx data) (ls s).
Proof.
  induction data as [|[o e] data IH]; intros idx s Hinv Hreg; [cbn; now rewrite map_id|].
  destruct Hreg as [He Hreg]. rewrite run_updates_cons, IH by (try assumption; now apply update_regular_inv).
  destruct Hinv as [Hlen [Hw Hs]]. rewrite update_regular by (auto; apply (lik_nonneg c G)). rewrite install_nocheck. cbn [fst ls recorded]. rewrite Hmv, map_map. reflexivity.
Qed.
Lemma posterior_average data s f : full_inv s -> regular c rs 0 data s ->
  let p := Sum (n_particles s) (fun i => wt s i * record_lik c mv rs 0 data (at_ s i)) in
  0 < p /\ average (run c s (updates rs 0 data)) f = Sum (n_particles s) (fun i => wt s i * (record_lik c mv rs 0 data (at_ s i) * f (final mv rs 0 data (at_ s i)))) / p.
Proof.
  intros Hinv Hreg p. destruct (predictive_recorded c rs s data G Ht Hinv Hreg) as (Ns & _ & P1 & P2 & P3).
  assert (Pp : predictive c rs s data = p) by (unfold predictive, p; apply Sum_ext; intros i Hi; now rewrite path_record).
  rewrite P1, Pp in P2. split; [assumption|]. unfold average, cloud_average. rewrite (run_final data 0%nat s Hinv Hreg), map_length. unfold n_particles in *.
  unfold Rdiv. rewrite Rmult_comm, <- Sum_scal. apply Sum_ext. intros i Hi. rewrite (nth_indep _ [] (final mv rs 0 data [])) by now rewrite map_length. rewrite map_nth.
  specialize (P3 i Hi). rewrite Pp in P3. unfold wt at 1 in P3. rewrite path_record in P3 by assumption. unfold at_. apply Rmult_eq_reg_l with p; [|lra].
  rewrite <- Rmult_assoc, P3. unfold wt. field. lra.
Qed.
End Run.

Section Fresh.
Context {O E RND : Type} (c : @config O E RND) (n : nat).
Hypothesis G : good_config c.
Hypothesis Hc : canonize c = true -> forall l, canon (md c) l = l.
Hypothesis Hn : (0 < n)%nat.
Lemma fresh_ls r : ls (@fresh O E RND c n r) = prior c r n.
Proof. unfold fresh, init, reset. cbn. destruct (canonize c); [now rewrite Hc|reflexivity]. Qed.
Lemma fresh_ws r : ws (@fresh O E RND c n r) = uniform_weights n.
Proof. reflexivity. Qed.
Lemma fresh_n r : n_particles (@fresh O E RND c n r) = n.
Proof. unfold n_particles. rewrite fresh_ls. apply (prior_len c G). Qed.
Lemma fresh_wt r i : (i < n)%nat -> wt (@fresh O E RND c n r) i = / INR n.
Proof. intros Hi. unfold wt. rewrite fresh_ws. unfold uniform_weights. rewrite (nth_indep _ 0 (/ INR n)) by now rewrite repeat_length. apply nth_repeat. Qed.
Lemma fresh_inv r : full_inv (@fresh O E RND c n r).
Proof.
  split; [rewrite fresh_ls, (prior_len c G), fresh_ws; apply repeat_length|]. rewrite fresh_ws. split.
  - apply Forall_forall. intros x Hx. apply repeat_spec in Hx. subst. apply Rlt_le, Rinv_0_lt_compat, lt_0_INR, Hn.
  - rewrite rsum_index. unfold uniform_weights. rewrite repeat_length. rewrite (Sum_ext _ _ (fun _ => / INR n)).
    + rewrite Sum_const. field. apply not_0_INR. lia.
    + intros i Hi. rewrite (nth_indep _ 0 (/ INR n)) by now rewrite repeat_length. apply nth_repeat.
Qed.
Lemma fresh_emp r g : Sum (n_particles (@fresh O E RND c n r)) (fun i => wt (@fresh O E RND c n r) i * g (at_ (@fresh O E RND c n r) i)) = emp c n g r.
Proof. rewrite fresh_n. unfold emp. apply Sum_ext. intros i Hi. rewrite fresh_wt by assumption. unfold at_. now rewrite fresh_ls. Qed.
End Fresh.

Section Main.
Context {O E RND : Type} (c : @config O E RND) (mv : RND -> E -> loc -> loc) (rs : nat -> RND) (V : loc -> Prop) (n : nat) (Ep : (loc -> R) -> R) (Er : (RND -> R) -> R) (data : list (O * E)).
Hypothesis HF : from_prior c mv rs V Ep data.
Hypothesis HS : sampling c V n Ep Er.
Hypothesis Hn : (0 < n)%nat.
Notation L k := (record_lik c mv rs 0 (firstn k data)).
Notation B k := (exact_evidence c mv rs Ep data k).
Notation T := (length data).
Let G := fp_config _ _ _ _ _ _ HF.
Let Ht := fp_threshold _ _ _ _ _ _ HF.
Let Hlen : forall r, length (prior c r n) = n := fun r => prior_len c G r n.

Lemma rl_nonneg d : forall idx x, 0 <= record_lik c mv rs idx d x.
Proof. induction d as [|[o e] d IH]; intros idx x; cbn; [lra|]. apply Rmult_le_pos; [apply (lik_nonneg c G)|apply IH]. Qed.
Lemma rl_bounded d : forall idx, exists b, 0 <= b /\ forall x, V x -> record_lik c mv rs idx d x <= b.
Proof.
  induction d as [|[o e] d IH]; intros idx; [exists 1; split; [lra|intros; cbn; lra]|]. destruct (IH (S idx)) as (b & Pb & Hb). destruct (fp_lik _ _ _ _ _ _ HF o e) as (b' & Hb').
  exists (Rmax b' 0 * b). pose proof (Rmax_r b' 0). split; [apply Rmult_le_pos; lra|]. intros x Hx. cbn. apply Rmult_le_compat; [apply (lik_nonneg c G)|apply rl_nonneg| |].
  - apply Rle_trans with b'; [now apply Hb'|apply Rmax_l].
  - apply Hb. now apply (fp_stays _ _ _ _ _ _ HF).
Qed.
Lemma L_bounded k : bounded V (L k).
Proof. destruct (rl_bounded (firstn k data) 0) as (b & _ & Hb). exists b. intros x Hx. rewrite Rabs_pos_eq by apply rl_nonneg. now apply Hb. Qed.
Lemma B_pos k : (k <= T)%nat -> 0 < B k.
Proof.
  induction k as [|k IH]; intros Hk.
  - unfold exact_evidence. cbn [firstn record_lik]. rewrite (Ep_const c V n Ep Er HS Hn). lra.
  - pose proof (fp_likely _ _ _ _ _ _ HF k ltac:(lia)). specialize (IH ltac:(lia)). pose proof eps_pos. assert (0 < 2 * eps * B k) by (apply Rmult_lt_0_compat; lra). lra.
Qed.
Notation off k r := (Rleb (B k / 3) (Rabs (emp c n (L k) r - B k))).
(** if every prefix is represented well, the run is regular *)
Lemma good_regular r : (forall k, (k < T)%nat -> off (S k) r = false) -> regular c rs 0 data (fresh c n r).
Proof.
  intros H. assert (W : forall k, (k <= T)%nat -> 2 / 3 * B k <= emp c n (L k) r <= 4 / 3 * B k).
  { intros k Hk. pose proof (B_pos k Hk) as Pk. destruct k as [|k].
    - assert (Z : emp c n (L 0%nat) r = B 0%nat).
      { unfold exact_evidence. cbn [firstn record_lik]. rewrite (Ep_const c V n Ep Er HS Hn). unfold emp. rewrite Sum_const. field. apply not_0_INR. lia. }
      rewrite Z. lra.
    - specialize (H k ltac:(lia)). destruct (Rleb_spec (B (S k) / 3) (Rabs (emp c n (L (S k)) r - B (S k)))) as [|X]; [discriminate|]. apply Rnot_le_lt, Rabs_def2 in X. lra. }
  apply regular_of_prefixes; [exact G|exact Ht|now apply fresh_inv; [exact G|exact (fp_canon _ _ _ _ _ _ HF)|exact Hn]|]. intros k Hk.
  assert (Q : forall m, Sum (n_particles (fresh c n r)) (fun i => wt (fresh c n r) i * path_lik c rs 0 (firstn m data) (ls (fresh c n r)) i) = emp c n (L m) r).
  { intros m. rewrite <- (fresh_emp c n G (fp_canon _ _ _ _ _ _ HF) r (L m)). apply Sum_ext. intros i Hi. rewrite (path_record c mv rs (fp_moves _ _ _ _ _ _ HF)) by exact Hi. reflexivity. }
  rewrite !Q. pose proof (W k ltac:(lia)) as [_ W1]. pose proof (W (S k) ltac:(lia)) as [W2 _]. pose proof (fp_likely _ _ _ _ _ _ HF k Hk) as W3. pose proof eps_pos.
  apply Rle_trans with (eps * (4 / 3 * B k)); [apply Rmult_le_compat_l; lra|]. apply Rle_trans with (2 / 3 * B (S k)); [|exact W2]. lra.
Qed.
Lemma off_chance k : (k < T)%nat -> chance Er (fun r => off (S k) r) <= 9 * spread c mv rs Ep data (S k) / INR n.
Proof.
  intros Hk. pose proof (B_pos (S k) ltac:(lia)) as P. pose proof (lt_0_INR n Hn) as Pn.
  apply Rle_trans with (1 := chebyshev c V n Ep Er HS Hn Hlen (L (S k)) (B (S k) / 3) (L_bounded _) ltac:(lra)). apply Req_le. unfold spread. field. lra.
Qed.
Lemma bad_run (b b2 : RND -> bool) : (forall r, Forall V (prior c r n) -> regular c rs 0 data (fresh c n r) -> 2 / 3 * B T <= emp c n (L T) r -> b r = true -> b2 r = true) ->
  chance Er b <= 9 * Sum T (fun k => spread c mv rs Ep data (S k)) / INR n + chance Er b2.
Proof.
  intros H. apply Rle_trans with (Sum T (fun k => chance Er (fun r => off (S k) r)) + chance Er b2).
  - apply (union c V n Ep Er HS Hn). intros r Hr Hb. destruct (existsb (fun k => off (S k) r) (seq 0 T)) eqn:Ex.
    + right. apply existsb_exists in Ex. destruct Ex as (k & Hk & Z). apply in_seq in Hk. exists k. split; [lia|exact Z].
    + left. assert (A1 : forall k, (k < T)%nat -> off (S k) r = false).
      { intros k Hk. destruct (off (S k) r) eqn:Z; [|reflexivity]. assert (existsb (fun k => off (S k) r) (seq 0 T) = true); [|congruence]. apply existsb_exists. exists k. split; [apply in_seq; lia|exact Z]. }
      apply H; [assumption|now apply good_regular| |assumption]. destruct T as [|m] eqn:ET.
      * unfold exact_evidence. cbn [firstn record_lik]. rewrite (Ep_const c V n Ep Er HS Hn). unfold emp. rewrite Sum_const. apply Rle_trans with 1; [lra|]. apply Req_le. field. apply not_0_INR. lia.
      * specialize (A1 m ltac:(lia)). pose proof (B_pos (S m) ltac:(lia)). destruct (Rleb_spec (B (S m) / 3) (Rabs (emp c n (L (S m)) r - B (S m)))) as [|X]; [discriminate|]. apply Rnot_le_lt, Rabs_def2 in X. lra.
  - apply Rplus_le_compat_r. replace (9 * Sum T (fun k => spread c mv rs Ep data (S k)) / INR n) with (Sum T (fun k => 9 * spread c mv rs Ep data (S k) / INR n)).
    + apply Sum_le. intros k Hk. now apply off_chance.
    + unfold Rdiv. rewrite Sum_scal_r, Sum_scal. reflexivity.
Qed.
Lemma all_data : firstn T data = data. Proof. apply firstn_all. Qed.
(** the posterior average of [f] *)
Lemma average_chance f h (est : RND -> R) : (exists b, forall x, V x -> Rabs (f (final mv rs 0 data x)) <= b) -> 0 < h ->
  (forall r, regular c rs 0 data (fresh c n r) -> est r = average (run c (fresh c n r) (updates rs 0 data)) f) ->
  let a := exact_average c mv rs Ep data f in
  chance Er (fun r => Rleb h (Rabs (est r - a))) <=
  (9 * Sum T (fun k => spread c mv rs Ep data (S k)) + 9 / 4 * (Ep (fun x => (record_lik c mv rs 0 data x * (f (final mv rs 0 data x) - a)) ^ 2) / B T ^ 2) / h ^ 2) / INR n.
Proof.
  intros Hf Hh Hest a. pose proof (B_pos T (le_n _)) as PB. pose proof (lt_0_INR n Hn) as Pn. set (g := fun x => record_lik c mv rs 0 data x * (f (final mv rs 0 data x) - a)).
  assert (BL : bounded V (record_lik c mv rs 0 data)) by (rewrite <- all_data; apply L_bounded).
  assert (Bf : bounded V (fun x => f (final mv rs 0 data x))) by exact Hf.
  assert (Bg : bounded V g) by (apply bnd_mult; [exact BL|apply bnd_minus; [exact Bf|apply bnd_const]]).
  assert (EB : Ep (record_lik c mv rs 0 data) = B T) by (unfold exact_evidence; now rewrite all_data).
  assert (Zg : Ep g = 0).
  { transitivity (Ep (fun x => record_lik c mv rs 0 data x * f (final mv rs 0 data x) + - a * record_lik c mv rs 0 data x)).
    - apply (Ep_ext c V n Ep Er HS Hn Hlen); [exact Bg| |intros; unfold g; ring]. apply bnd_plus; apply bnd_mult; first [assumption|apply bnd_const].
    - rewrite (Ep_plus c V n Ep Er HS Hn Hlen) by (apply bnd_mult; first [assumption|apply bnd_const]). rewrite (Ep_scal c V n Ep Er HS Hn Hlen) by exact BL.
      unfold a, exact_average. rewrite EB. field. lra. }
  apply Rle_trans with (9 * Sum T (fun k => spread c mv rs Ep data (S k)) / INR n + chance Er (fun r => Rleb (2 / 3 * h * B T) (Rabs (emp c n g r - Ep g)))).
  - apply bad_run. intros r Hr Hreg Hp Hb. rewrite (Hest r Hreg) in Hb. destruct (Rleb_spec h (Rabs (average (run c (fresh c n r) (updates rs 0 data)) f - a))) as [X|]; [|discriminate]. apply Rleb_true.
    destruct (posterior_average c mv rs G Ht (fp_moves _ _ _ _ _ _ HF) data (fresh c n r) f (fresh_inv c n G (fp_canon _ _ _ _ _ _ HF) Hn r) Hreg) as [P1 P2].
    rewrite (fresh_emp c n G (fp_canon _ _ _ _ _ _ HF) r (record_lik c mv rs 0 data)) in P1, P2. rewrite (fresh_emp c n G (fp_canon _ _ _ _ _ _ HF) r (fun x => record_lik c mv rs 0 data x * f (final mv rs 0 data x))) in P2.
    rewrite P2 in X. set (p := emp c n (record_lik c mv rs 0 data) r) in *. rewrite all_data in Hp. fold p in Hp.
    assert (Eg : emp c n g r = emp c n (fun x => record_lik c mv rs 0 data x * f (final mv rs 0 data x)) r - a * p).
    { unfold p, emp, g. rewrite <- Sum_scal, <- Sum_minus. apply Sum_ext. intros; ring. }
    replace (emp c n (fun x => record_lik c mv rs 0 data x * f (final mv rs 0 data x)) r / p - a) with (emp c n g r * / p) in X by (rewrite Eg; field; lra).
    rewrite Zg, Rminus_0_r. rewrite Rabs_mult, (Rabs_pos_eq (/ p)) in X by (apply Rlt_le, Rinv_0_lt_compat; lra).
    apply (Rmult_le_compat_r p) in X; [|lra]. rewrite Rmult_assoc, Rinv_l, Rmult_1_r in X by lra. apply Rle_trans with (h * p); [|exact X].
    replace (2 / 3 * h * B T) with (h * (2 / 3 * B T)) by ring. apply Rmult_le_compat_l; lra.
  - assert (Ph : 0 < 2 / 3 * h * B T) by (apply Rmult_lt_0_compat; [|assumption]; lra).
    pose proof (chebyshev c V n Ep Er HS Hn Hlen g (2 / 3 * h * B T) Bg Ph) as C. fold g.
    change (Ep (fun x => (record_lik c mv rs 0 data x * (f (final mv rs 0 data x) - a)) ^ 2)) with (Ep (fun x => g x ^ 2)).
    apply Rle_trans with (9 * Sum T (fun k => spread c mv rs Ep data (S k)) / INR n + Ep (fun x => g x ^ 2) / (INR n * (2 / 3 * h * B T) ^ 2)).
    + apply Rplus_le_compat_l. exact C.
    + apply Req_le. field. lra.
Qed.
Lemma total_chance h : 0 < h ->
  chance Er (fun r => match log_total_likelihood (run c (fresh c n r) (updates rs 0 data)) with Fin t => Rleb h (Rabs (exp t / B T - 1)) | _ => true end) <=
  (9 * Sum T (fun k => spread c mv rs Ep data (S k)) + spread c mv rs Ep data T / h ^ 2) / INR n.
Proof.
  intros Hh. pose proof (B_pos T (le_n _)) as PB. pose proof (lt_0_INR n Hn) as Pn.
  apply Rle_trans with (9 * Sum T (fun k => spread c mv rs Ep data (S k)) / INR n + chance Er (fun r => Rleb (h * B T) (Rabs (emp c n (L T) r - Ep (L T))))).
  - apply bad_run. intros r Hr Hreg Hp Hb.
    destruct (c05_lem c rs data (fresh c n r) G Ht (fresh_inv c n G (fp_canon _ _ _ _ _ _ HF) Hn r) eq_refl Hreg) as (t & Z1 & Z2).
    rewrite Z1 in Hb. destruct (Rleb_spec h (Rabs (exp t / B T - 1))) as [X|]; [|discriminate]. apply Rleb_true.
    rewrite (Sum_ext _ _ (fun i => wt (fresh c n r) i * record_lik c mv rs 0 data (at_ (fresh c n r) i))) in Z2 by (intros i Hi; now rewrite (path_record c mv rs (fp_moves _ _ _ _ _ _ HF)) by exact Hi).
    rewrite (fresh_emp c n G (fp_canon _ _ _ _ _ _ HF) r (record_lik c mv rs 0 data)) in Z2. rewrite all_data. rewrite <- Z2.
    assert (EB : Ep (record_lik c mv rs 0 data) = B T) by (unfold exact_evidence; now rewrite all_data). rewrite EB.
    replace (exp t - B T) with ((exp t / B T - 1) * B T) by (field; lra). rewrite Rabs_mult, (Rabs_pos_eq (B T)) by lra. apply Rmult_le_compat_r; lra.
  - assert (Ph : 0 < h * B T) by now apply Rmult_lt_0_compat.
    pose proof (chebyshev c V n Ep Er HS Hn Hlen (L T) (h * B T) (L_bounded T) Ph) as C.
    replace ((9 * Sum T (fun k => spread c mv rs Ep data (S k)) + spread c mv rs Ep data T / h ^ 2) / INR n) with
      (9 * Sum T (fun k => spread c mv rs Ep data (S k)) / INR n + Ep (fun x => L T x ^ 2) / (INR n * (h * B T) ^ 2)) by (unfold spread; field; lra).
    apply Rplus_le_compat_l. exact C.
Qed.
Lemma predictive_mean : Er (fun r => predictive c rs (fresh c n r) data) = B T.
Proof.
  assert (BL : bounded V (record_lik c mv rs 0 data)) by (rewrite <- all_data; apply L_bounded).
  assert (Q : forall r, predictive c rs (fresh c n r) data = emp c n (record_lik c mv rs 0 data) r).
  { intros r. rewrite <- (fresh_emp c n G (fp_canon _ _ _ _ _ _ HF) r). apply Sum_ext. intros i Hi. now rewrite (path_record c mv rs (fp_moves _ _ _ _ _ _ HF)) by exact Hi. }
  pose proof (emp_lim c V n Hn Hlen _ BL) as LE.
  rewrite (Er_ext c V n Ep Er HS _ (emp c n (record_lik c mv rs 0 data))); [|apply (lim_ext c V n _ _ (fun r => eq_sym (Q r))); exact LE|exact LE|intros; apply Q].
  rewrite (emp_mean c V n Ep Er HS Hn Hlen) by exact BL. unfold exact_evidence. now rewrite all_data.
Qed.
End Main.
