(** Proofs for C128. *)
From Coq Require Import List Lia Lra Psatz FunctionalExtensionality.
From Verif Require Import Base RList Ext Sums SmcModel SmcSpec SmcProofs LinProofs LearnSpec LearnProofs RateSpec ReSpec ConvSpec ConvProofs PfSpec.
Import ListNotations.

Lemma cloud_map w l m f : cloud_average w (map m l) f = cloud_average w l (fun x => f (m x)).
Proof.
  unfold cloud_average. rewrite map_length. apply Sum_ext. intros i Hi. f_equal. f_equal.
  rewrite (nth_indep (map m l) [] (m [])) by (now rewrite map_length). apply (map_nth m).
Qed.
Lemma sq_sum u v : (u + v) ^ 2 <= 2 * u ^ 2 + 2 * v ^ 2.
Proof. pose proof (pow2_ge_0 (u - v)). nra. Qed.
Lemma Rabs_def2b x b : Rabs x <= b -> - b <= x <= b.
Proof. intros H. unfold Rabs in H. destruct (Rcase_abs x); lra. Qed.
Lemma Rabs_sq_le x b : Rabs x <= b -> x ^ 2 <= b ^ 2.
Proof. intros H. rewrite <- (pow2_abs x). apply pow_incr. split; [apply Rabs_pos|assumption]. Qed.

Section A.
Context {O E RND : Type} (c : @config O E RND) (mv : E -> loc -> loc) (V : loc -> Prop) (n : nat) (M : R) (Good : RND -> Prop) (Er : (RND -> R) -> R).
Hypothesis Hth : zthresh c < 1.
Hypothesis Hcan : canonize c = true -> forall l, canon (md c) l = l.
Hypothesis Hmv : forall r l e, timestep (md c) r l e = map (mv e) l.
Hypothesis Hst : forall e x, V x -> V (mv e x).
Hypothesis Hlik : forall o x e, 0 <= lik (md c) o x e.
Hypothesis HM : forall o x e, V x -> lik (md c) o x e <= M.
Hypothesis Hn : (0 < n)%nat.
Hypothesis FF : faithful c V n Good Er.
Let HR := ff_law c V n Good Er FF.

Definition pst (s : @state O) o e := norm_row c (ws s) (ls s) o e.
Definition Inv (k : nat) (s : @state O) : Prop := full_inv s /\ within V n (ls s) /\ length (nrec s) = k /\ Forall (fun x => eps <= x <= M) (nrec s).
Definition Iv (k : nat) (s : option (@state O)) : Prop := match s with Some s => Inv k s | None => True end.

Lemma pst_prob (s : @state O) o e : full_inv s -> eps <= evidence c s o e -> prob_vector (pst s o e) /\ length (pst s o e) = length (ls s).
Proof.
  intros [Hlen [Hw Hs]] He. split; [split|].
  - apply norm_row_nonneg; [assumption|exact Hlik].
  - apply norm_row_sum. now rewrite norm_scale_evidence.
  - unfold pst, norm_row. rewrite map_length, hyp_row_length; assumption.
Qed.
Lemma moved_within e l : within V n l -> within V n (map (mv e) l).
Proof.
  intros [H1 H2]. split; [now rewrite map_length|]. rewrite Forall_forall in *. intros x Hx. apply in_map_iff in Hx as (y & <- & Hy). now apply Hst, H2.
Qed.
Lemma avg_ev (s : @state O) o e : evidence c s o e = average s (fun x => lik (md c) o x e).
Proof. reflexivity. Qed.
Lemma cloud_bound w l f b : prob_vector w -> length w = length l -> Forall V l -> (forall x, V x -> Rabs (f x) <= b) -> Rabs (cloud_average w l f) <= b.
Proof.
  intros [Hw Hs] Hl HV Hf. unfold cloud_average. rewrite rsum_index in Hs. rewrite <- Hl in *.
  assert (Q : forall i, (i < length w)%nat -> 0 <= nth i w 0 /\ Rabs (f (nth i l [])) <= b).
  { intros i Hi. split; [rewrite Forall_forall in Hw; now apply Hw, nth_In|]. apply Hf. rewrite Forall_forall in HV. apply HV, nth_In. now rewrite <- Hl. }
  assert (B : forall i, (i < length w)%nat -> - b <= f (nth i l []) <= b).
  { intros i Hi. destruct (Q i Hi) as [_ Q2]. apply Rabs_def2b. exact Q2. }
  apply Rabs_le. split.
  - apply Rle_trans with (Sum (length w) (fun i => nth i w 0 * - b)); [rewrite Sum_scal_r, Hs; lra|]. apply Sum_le. intros i Hi. apply Rmult_le_compat_l; [apply Q, Hi|apply B, Hi].
  - apply Rle_trans with (Sum (length w) (fun i => nth i w 0 * b)); [|rewrite Sum_scal_r, Hs; lra]. apply Sum_le. intros i Hi. apply Rmult_le_compat_l; [apply Q, Hi|apply B, Hi].
Qed.
Lemma avg_bound k (s : @state O) f b : Inv k s -> (forall x, V x -> Rabs (f x) <= b) -> Rabs (average s f) <= b.
Proof. intros ((H1 & H2) & [_ H3] & _) Hf. now apply cloud_bound. Qed.
Lemma lik_bound o e x : V x -> Rabs (lik (md c) o x e) <= M.
Proof. intros Hx. rewrite Rabs_pos_eq by apply Hlik. now apply HM. Qed.
Lemma ev_le_M k (s : @state O) o e : Inv k s -> evidence c s o e <= M.
Proof. intros Hi. rewrite avg_ev. apply Rle_trans with (Rabs (average s (fun x => lik (md c) o x e))); [apply Rle_abs|]. apply (avg_bound k); [assumption|apply lik_bound]. Qed.

(** After a regular update the state is a function of what the resampler returns. *)
Lemma upd_shape k (s : @state O) o e : Inv k s -> eps <= evidence c s o e ->
  exists (b : bool) (K : res (list R * list loc) -> @state O),
    (forall r, fst (update c r s o e true) = K (rsmp c r (pst s o e) (map (mv e) (ls s)))) /\
    (forall x, nrec (K x) = nrec s ++ [evidence c s o e]) /\ b = xltb (n_ess (pst s o e)) (Fin (INR n * rthresh c)) /\
    if b then forall w l, ws (K (Ok (w, l))) = w /\ ls (K (Ok (w, l))) = l else forall x, ws (K x) = pst s o e /\ ls (K x) = map (mv e) (ls s).
Proof.
  intros ([Hlen [Hw Hs]] & HW & _) He.
  set (w := pst s o e).
  set (s1 := {| ws := w; ls := map (mv e) (ls s); drec := drec s ++ [o]; nrec := nrec s ++ [evidence c s o e];
     mness := if xleb (n_ess w) (mness s) then n_ess w else mness s; rcnt := rcnt s; jr := false; calls := calls s + length (ls s) |}).
  assert (U : forall r, update c r s o e true = maybe_resample c r s1).
  { intros r. rewrite update_regular by assumption. unfold install. rewrite Hmv. cbn [recorded ws ls drec nrec mness rcnt jr calls].
    fold (pst s o e). fold w. reflexivity. }
  assert (Hns : n_particles s1 = n) by (unfold n_particles; cbn [s1 ls]; rewrite map_length; apply HW).
  set (b := xltb (n_ess w) (Fin (INR n * rthresh c))).
  exists b, (fun x => if b then match x with
    | Ok (w', l') => {| ws := w'; ls := l'; drec := drec s1; nrec := nrec s1; mness := mness s1; rcnt := S (rcnt s1); jr := true; calls := calls s1 |}
    | Err _ => {| ws := w; ls := ls s1; drec := drec s1; nrec := nrec s1; mness := mness s1; rcnt := S (rcnt s1); jr := true; calls := calls s1 |} end
    else s1).
  split; [|split].
  - intros r. rewrite U. unfold maybe_resample. rewrite Hns. change (ws s1) with w. fold b.
    destruct b; [|reflexivity]. unfold resample. change (ws s1) with w. change (ls s1) with (map (mv e) (ls s)).
    destruct (rsmp c r w (map (mv e) (ls s))) as [[w' l']|x]; cbn [fst]; [|reflexivity].
    destruct (canonize c) eqn:Kc; [|reflexivity]. now rewrite (Hcan eq_refl).
  - intros x. destruct b; [|reflexivity]. destruct x as [[w' l']|x]; reflexivity.
  - split; [reflexivity|]. destruct b; intros; split; reflexivity.
Qed.
Lemma upd_fun k (s : @state O) o e : Inv k s -> eps <= evidence c s o e ->
  exists K : res (list R * list loc) -> @state O,
    (forall r, fst (update c r s o e true) = K (rsmp c r (pst s o e) (map (mv e) (ls s)))) /\
    (forall r, Good r -> Inv (S k) (K (rsmp c r (pst s o e) (map (mv e) (ls s))))) /\
    prob_vector (pst s o e) /\ length (pst s o e) = length (map (mv e) (ls s)) /\ within V n (map (mv e) (ls s)).
Proof.
  intros Hi He. pose proof (ev_le_M k s o e Hi) as HeM. destruct (upd_shape k s o e Hi He) as (b & K & K1 & K2 & _ & K3). destruct Hi as (Hi & HW & HN & HN').
  destruct (pst_prob s o e Hi He) as [P1 P2]. pose proof (moved_within e (ls s) HW) as P3.
  assert (P2' : length (pst s o e) = length (map (mv e) (ls s))) by now rewrite map_length.
  exists K. split; [exact K1|]. split; [|split; [exact P1|split; [exact P2'|exact P3]]].
  intros r Hg. unfold Inv, full_inv. rewrite K2, app_length, HN. split; [|split].
  - destruct b.
    + destruct (rl_ok c _ Good Er HR r (pst s o e) (map (mv e) (ls s)) Hg P1 P2' P3) as (w' & l' & -> & Q1 & Q2 & Q3).
      destruct (K3 w' l') as [-> ->]. tauto.
    + destruct (K3 (rsmp c r (pst s o e) (map (mv e) (ls s)))) as [-> ->]. tauto.
  - destruct b.
    + destruct (rl_ok c _ Good Er HR r (pst s o e) (map (mv e) (ls s)) Hg P1 P2' P3) as (w' & l' & -> & Q1 & Q2 & Q3).
      destruct (K3 w' l') as [_ ->]. exact Q3.
    + destruct (K3 (rsmp c r (pst s o e) (map (mv e) (ls s)))) as [_ ->]. exact P3.
  - split; [cbn; lia|]. apply Forall_app. split; [exact HN'|]. constructor; [split; assumption|constructor].
Qed.

(** Averages over one update *)
Section One.
Context (k : nat) (s : @state O) (o : O) (e : E).
Hypothesis Hi : Inv k s.
Hypothesis He : eps <= evidence c s o e.
Notation up r := (fst (update c r s o e true)).
Lemma one_ext (F G : @state O -> R) : (forall s', Inv (S k) s' -> F s' = G s') -> Er (fun r => F (up r)) = Er (fun r => G (up r)).
Proof.
  intros H. destruct (upd_fun k s o e Hi He) as (K & K1 & K2 & _). apply (rl_ext c _ Good Er HR). intros r Hg. apply H. rewrite K1. now apply K2.
Qed.
Lemma one_plus (F G : @state O -> R) : Er (fun r => F (up r) + G (up r)) = Er (fun r => F (up r)) + Er (fun r => G (up r)).
Proof.
  destruct (upd_fun k s o e Hi He) as (K & K1 & K2 & P1 & P2 & P3).
  pose proof (rl_plus c _ Good Er HR _ _ (fun x => F (K x)) (fun x => G (K x)) P1 P2 P3) as Q. cbv beta in Q.
  rewrite (rl_ext c _ Good Er HR (fun r => F (up r) + G (up r)) (fun r => F (K (rsmp c r (pst s o e) (map (mv e) (ls s)))) + G (K (rsmp c r (pst s o e) (map (mv e) (ls s)))))) by (intros r _; now rewrite K1).
  rewrite Q. f_equal; apply (rl_ext c _ Good Er HR); intros r _; now rewrite K1.
Qed.
Lemma one_scal a (F : @state O -> R) : Er (fun r => a * F (up r)) = a * Er (fun r => F (up r)).
Proof.
  destruct (upd_fun k s o e Hi He) as (K & K1 & K2 & P1 & P2 & P3).
  pose proof (rl_scal c _ Good Er HR _ _ a (fun x => F (K x)) P1 P2 P3) as Q. cbv beta in Q.
  rewrite (rl_ext c _ Good Er HR (fun r => a * F (up r)) (fun r => a * F (K (rsmp c r (pst s o e) (map (mv e) (ls s)))))) by (intros r _; now rewrite K1).
  rewrite Q. f_equal; apply (rl_ext c _ Good Er HR); intros r _; now rewrite K1.
Qed.
Lemma one_le (F G : @state O -> R) : (forall s', Inv (S k) s' -> F s' <= G s') -> Er (fun r => F (up r)) <= Er (fun r => G (up r)).
Proof.
  intros H. assert (Q : 0 <= Er (fun r => G (up r) + (-1) * F (up r))).
  { destruct (upd_fun k s o e Hi He) as (K & K1 & K2 & P1 & P2 & P3).
    rewrite (rl_ext c _ Good Er HR _ (fun r => G (K (rsmp c r (pst s o e) (map (mv e) (ls s)))) + (-1) * F (K (rsmp c r (pst s o e) (map (mv e) (ls s)))))) by (intros r _; now rewrite K1).
    apply (ff_positive c V n Good Er FF _ _ (fun x => G (K x) + (-1) * F (K x)) P1 P2 P3). intros r Hg. specialize (H _ (K2 r Hg)). lra. }
  rewrite (one_plus G (fun s' => (-1) * F s')), one_scal in Q. lra.
Qed.
End One.

Notation run := (rounds c Er).
Lemma rounds_le data : forall k F G s, Iv k s -> (forall s', Iv (k + length data) s' -> F s' <= G s') -> run data F s <= run data G s.
Proof.
  induction data as [|[o e] data IH]; intros k F G s Hi H; cbn [rounds].
  - apply H. cbn. now rewrite Nat.add_0_r.
  - destruct s as [s|]; [|now apply H]. destruct (Rltb_spec (evidence c s o e) eps) as [Hx|Hx]; [now apply H|]. apply Rnot_lt_le in Hx.
    apply (one_le k s o e Hi Hx (fun s' => run data F (Some s')) (fun s' => run data G (Some s'))). intros s' Hs'. apply (IH (S k)); [exact Hs'|].
    intros t Ht. apply H. cbn [length]. now rewrite Nat.add_succ_r.
Qed.
Lemma rounds_plus data : forall k F G s, Iv k s -> run data (fun s => F s + G s) s = run data F s + run data G s.
Proof.
  induction data as [|[o e] data IH]; intros k F G s Hi; cbn [rounds]; [reflexivity|].
  destruct s as [s|]; [|reflexivity]. destruct (Rltb_spec (evidence c s o e) eps) as [Hx|Hx]; [reflexivity|]. apply Rnot_lt_le in Hx.
  rewrite <- (one_plus k s o e Hi Hx (fun s' => run data F (Some s')) (fun s' => run data G (Some s'))).
  apply (one_ext k s o e Hi Hx (fun s' => run data (fun s => F s + G s) (Some s')) (fun s' => run data F (Some s') + run data G (Some s'))). intros s' Hs'. now apply (IH (S k)).
Qed.
Lemma rounds_scal data a : forall k F s, Iv k s -> run data (fun s => a * F s) s = a * run data F s.
Proof.
  induction data as [|[o e] data IH]; intros k F s Hi; cbn [rounds]; [reflexivity|].
  destruct s as [s|]; [|reflexivity]. destruct (Rltb_spec (evidence c s o e) eps) as [Hx|Hx]; [reflexivity|]. apply Rnot_lt_le in Hx.
  rewrite <- (one_scal k s o e Hi Hx a (fun s' => run data F (Some s'))).
  apply (one_ext k s o e Hi Hx (fun s' => run data (fun s => a * F s) (Some s')) (fun s' => a * run data F (Some s'))). intros s' Hs'. now apply (IH (S k)).
Qed.
Lemma rounds_const data a : forall k s, Iv k s -> run data (fun _ => a) s = a.
Proof.
  induction data as [|[o e] data IH]; intros k s Hi; cbn [rounds]; [reflexivity|].
  destruct s as [s|]; [|reflexivity]. destruct (Rltb_spec (evidence c s o e) eps) as [Hx|Hx]; [reflexivity|]. apply Rnot_lt_le in Hx.
  rewrite (one_ext k s o e Hi Hx (fun s' => run data (fun _ => a) (Some s')) (fun _ => a)); [|intros s' Hs'; now apply (IH (S k))]. apply (rl_const c _ Good Er HR).
Qed.
Lemma rounds_app d1 : forall d2 F s, run (d1 ++ d2) F s = run d1 (run d2 F) s.
Proof.
  induction d1 as [|[o e] d1 IH]; intros d2 F s; [reflexivity|]. cbn [app rounds]. destruct s as [s|].
  - destruct (Rltb (evidence c s o e) eps); [destruct d2 as [|[o' e'] d2]; reflexivity|]. f_equal. apply functional_extensionality. intros r. apply IH.
  - destruct d2 as [|[o' e'] d2]; reflexivity.
Qed.
Lemma rounds_bounded data k F s b : Iv k s -> (forall s', Iv (k + length data) s' -> Rabs (F s') <= b) -> Rabs (run data F s) <= b.
Proof.
  intros Hi H. apply Rabs_le. split.
  - rewrite <- (rounds_const data (- b) k s Hi). apply (rounds_le data k); [assumption|]. intros s' Hs'. specialize (H s' Hs'). apply Rabs_def2b in H. lra.
  - rewrite <- (rounds_const data b k s Hi). apply (rounds_le data k); [assumption|]. intros s' Hs'. specialize (H s' Hs'). apply Rabs_def2b in H. lra.
Qed.

(** Error terms *)
Definition err f a (s : option (@state O)) : R := match s with Some s => (average s f - a) ^ 2 | None => 0 end.
Definition gone (s : option (@state O)) : R := match s with Some _ => 0 | None => 1 end.
Definition off (z : R) (s : option (@state O)) : R := match s with Some s => (rprod (nrec s) / z - 1) ^ 2 | None => 0 end.

Lemma pst_avg (s : @state O) o e f : full_inv s -> eps <= evidence c s o e ->
  cloud_average (pst s o e) (map (mv e) (ls s)) f = average s (fun x => lik (md c) o x e * f (mv e x)) / evidence c s o e.
Proof.
  intros [Hlen Hp] He. pose proof eps_pos. rewrite cloud_map. unfold average, cloud_average, Rdiv. rewrite <- Sum_scal_r. apply Sum_ext. intros i Hi.
  unfold pst. rewrite norm_row_nth by assumption. unfold bayes. fold (evidence c s o e). unfold at_, wt. field. lra.
Qed.
Lemma step_error k (s : @state O) o e f b a : Inv k s -> eps <= evidence c s o e -> (forall x, V x -> Rabs (f x) <= b) ->
  run [(o, e)] (err f a) (Some s) <= 2 * (average s (fun x => lik (md c) o x e * f (mv e x)) / evidence c s o e - a) ^ 2 + 2 * (b ^ 2 / INR n).
Proof.
  intros Hi He Hf. cbn [rounds]. rewrite Rltb_false by lra. rewrite <- (pst_avg s o e f) by (try apply Hi; assumption). set (m := cloud_average (pst s o e) (map (mv e) (ls s)) f).
  pose proof (lt_0_INR n Hn) as Pn. assert (Pb : 0 <= b ^ 2 / INR n) by (apply Rmult_le_pos; [apply pow2_ge_0|apply Rlt_le, Rinv_0_lt_compat, Pn]).
  destruct (upd_shape k s o e Hi He) as (rs & K & K1 & _ & _ & K3). destruct (upd_fun k s o e Hi He) as (_ & _ & _ & P1 & P2 & P3).
  destruct rs.
  - apply Rle_trans with (Er (fun r => 2 * (m - a) ^ 2 + 2 * match rsmp c r (pst s o e) (map (mv e) (ls s)) with Ok (w', l') => (cloud_average w' l' f - m) ^ 2 | Err _ => 0 end)).
    + rewrite (rl_ext c _ Good Er HR (fun r => err f a (Some (fst (update c r s o e true)))) (fun r => (fun x => err f a (Some (K x))) (rsmp c r (pst s o e) (map (mv e) (ls s))))) by (intros r _; cbv beta; now rewrite K1).
      set (D := fun x : res (list R * list loc) => 2 * (m - a) ^ 2 + 2 * match x with Ok (w', l') => (cloud_average w' l' f - m) ^ 2 | Err _ => 0 end).
      assert (Q : 0 <= Er (fun r => D (rsmp c r (pst s o e) (map (mv e) (ls s))) + (-1) * err f a (Some (K (rsmp c r (pst s o e) (map (mv e) (ls s))))))).
      { apply (ff_positive c V n Good Er FF _ _ (fun x => D x + (-1) * err f a (Some (K x))) P1 P2 P3). intros r Hg.
        destruct (rl_ok c _ Good Er HR r (pst s o e) (map (mv e) (ls s)) Hg P1 P2 P3) as (w' & l' & -> & Q1 & Q2 & Q3). destruct (K3 w' l') as [B1 B2].
        unfold D, err, average. rewrite B1, B2. set (y := cloud_average w' l' f). clearbody m y. pose proof (pow2_ge_0 ((m - a) - (y - m))). nra. }
      rewrite (rl_plus c _ Good Er HR _ _ D (fun x => (-1) * err f a (Some (K x))) P1 P2 P3), (rl_scal c _ Good Er HR _ _ (-1) (fun x => err f a (Some (K x))) P1 P2 P3) in Q.
      unfold D in Q. cbv beta in Q |- *. lra.
    + rewrite (rl_plus c _ Good Er HR _ _ (fun _ => 2 * (m - a) ^ 2) (fun x => 2 * match x with Ok (w', l') => (cloud_average w' l' f - m) ^ 2 | Err _ => 0 end) P1 P2 P3).
      rewrite (rl_const c _ Good Er HR), (rl_scal c _ Good Er HR _ _ 2 (fun x => match x with Ok (w', l') => (cloud_average w' l' f - m) ^ 2 | Err _ => 0 end) P1 P2 P3).
      pose proof (ff_error c V n Good Er FF (pst s o e) (map (mv e) (ls s)) f b P1 P2 P3 Hf) as Q. fold m in Q. lra.
  - rewrite (rl_ext c _ Good Er HR _ (fun _ => (m - a) ^ 2)).
    + rewrite (rl_const c _ Good Er HR). pose proof (pow2_ge_0 (m - a)). lra.
    + intros r _. rewrite K1. unfold err, average. destruct (K3 (rsmp c r (pst s o e) (map (mv e) (ls s)))) as [-> ->]. reflexivity.
Qed.
Lemma off_step k (s : @state O) o e z p : Inv k s -> eps <= evidence c s o e -> z <> 0 -> p <> 0 ->
  run [(o, e)] (off (z * p)) (Some s) <= 2 * (M / p) ^ 2 * (rprod (nrec s) / z - 1) ^ 2 + 2 / p ^ 2 * (evidence c s o e - p) ^ 2.
Proof.
  intros Hi He Hz Hp. pose proof eps_pos as Pe. pose proof (ev_le_M k s o e Hi) as HeM. destruct (upd_shape k s o e Hi He) as (rs & K & K1 & K2 & _). cbn [rounds]. rewrite Rltb_false by lra.
  rewrite (rl_ext c _ Good Er HR _ (fun _ => (rprod (nrec s) * evidence c s o e / (z * p) - 1) ^ 2)).
  2: { intros r _. rewrite K1. cbn [off]. rewrite K2, rprod_app, rprod_cons. change (rprod []) with 1. f_equal. f_equal. f_equal. ring. }
  rewrite (rl_const c _ Good Er HR). set (v := evidence c s o e) in *. set (q := rprod (nrec s)). set (x := q / z - 1).
  replace (q * v / (z * p) - 1) with (v / p * x + (v - p) / p) by (unfold x; field; auto).
  apply Rle_trans with (2 * (v / p * x) ^ 2 + 2 * ((v - p) / p) ^ 2); [pose proof (pow2_ge_0 (v / p * x - (v - p) / p)); nra|].
  apply Rplus_le_compat; [|apply Req_le; field; assumption]. rewrite Rpow_mult_distr, <- Rmult_assoc. apply Rmult_le_compat_r; [apply pow2_ge_0|]. apply Rmult_le_compat_l; [lra|].
  unfold Rdiv. rewrite !Rpow_mult_distr. apply Rmult_le_compat_r; [apply pow2_ge_0|]. apply pow_incr. lra.
Qed.
End A.
