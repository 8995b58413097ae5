(** Proofs for C128: the error bounds. *)
From Coq Require Import List Lia Lra Psatz FunctionalExtensionality.
From Verif Require Import Base RList Ext Sums SmcModel SmcSpec SmcProofs LinProofs LearnSpec LearnProofs RateSpec ReSpec ConvSpec ConvProofs PfSpec PfProofs.
Import ListNotations.

Section Exact.
Context {O E RND : Type} (c : @config O E RND) (mv : E -> loc -> loc).
Lemma given_snoc d o e : forall x, given c mv (d ++ [(o, e)]) x = given c mv d x * lik (md c) o (moved mv d x) e.
Proof. induction d as [|[o' e'] d IH]; intros x; cbn [app given moved]; [ring|]. rewrite IH. ring. Qed.
Lemma moved_snoc d (o : O) e : forall x, moved mv (d ++ [(o, e)]) x = mv e (moved mv d x).
Proof. induction d as [|[o' e'] d IH]; intros x; cbn [app moved]; [reflexivity|]. apply IH. Qed.
Lemma firstn_snoc {A} (l : list A) : forall k, (k < length l)%nat -> exists a, firstn (S k) l = firstn k l ++ [a].
Proof.
  induction l as [|y l IH]; intros k Hk; [cbn in Hk; lia|]. destruct k as [|k]; [exists y; reflexivity|]. destruct (IH k) as [a Ha]; [cbn in Hk; lia|].
  exists a. rewrite !firstn_cons, Ha. reflexivity.
Qed.
End Exact.

Section B.
Context {O E RND : Type} (c : @config O E RND) (mv : E -> loc -> loc) (V : loc -> Prop) (n : nat) (M : R) (Good : RND -> Prop) (Ep : (loc -> R) -> R) (E0 Er : (RND -> R) -> R) (data : list (O * E)).
Hypothesis FL : filtering c mv V Ep M data.
Hypothesis HS : sampling c V n Ep E0.
Hypothesis FF : faithful c V n Good Er.
Hypothesis Hn : (0 < n)%nat.
Let Hth := fl_threshold _ _ _ _ _ _ FL.
Let Hcan := fl_canon _ _ _ _ _ _ FL.
Let Hmv := fl_moves _ _ _ _ _ _ FL.
Let Hst := fl_stays _ _ _ _ _ _ FL.
Let Hlik := fl_lik _ _ _ _ _ _ FL.
Let HM := fl_bound _ _ _ _ _ _ FL.
Let Hlen : forall r, length (prior c r n) = n := fun r => fl_prior _ _ _ _ _ _ FL r n.
Notation run k := (rounds c Er (firstn k data)).
Notation I := (Inv V n M).
Notation J := (Iv V n M).
Notation fr r := (@fresh O E RND c n r).
Notation T := (length data).
Let Pn : 0 < INR n := lt_0_INR n Hn.

Lemma fr_ls r : ls (fr r) = prior c r n.
Proof. pose proof Hcan as Q. clear Hcan. unfold fresh, init, reset. cbn. destruct (canonize c); [now rewrite Q|reflexivity]. Qed.
Lemma fr_inv r : Forall V (prior c r n) -> J 0 (Some (fr r)).
Proof.
  intros HV. unfold Iv, Inv, full_inv. rewrite fr_ls, Hlen. change (ws (fr r)) with (uniform_weights n). change (nrec (fr r)) with (@nil R).
  split; [|split; [split; [apply Hlen|assumption]|split; [reflexivity|constructor]]]. split; [apply repeat_length|]. split.
  - apply Forall_forall. intros x Hx. apply repeat_spec in Hx. subst. apply Rlt_le, Rinv_0_lt_compat, Pn.
  - rewrite rsum_index. unfold uniform_weights. rewrite repeat_length. rewrite (Sum_ext _ _ (fun _ => / INR n)).
    + rewrite Sum_const. field. lra.
    + intros i Hi. rewrite (nth_indep _ 0 (/ INR n)) by now rewrite repeat_length. apply nth_repeat.
Qed.
Lemma fr_avg r f : average (fr r) f = emp c n f r.
Proof.
  unfold average, cloud_average, emp. rewrite fr_ls, Hlen. apply Sum_ext. intros i Hi. change (ws (fr r)) with (uniform_weights n). f_equal.
  unfold uniform_weights. rewrite (nth_indep _ 0 (/ INR n)) by now rewrite repeat_length. apply nth_repeat.
Qed.

Definition bd (k : nat) (F : option (@state O) -> R) : Prop := exists b, forall s, J k s -> Rabs (F s) <= b.
Definition EE (k : nat) (F : option (@state O) -> R) : R := E0 (fun r => run k F (Some (fr r))).
Lemma len_first k : (k <= T)%nat -> length (firstn k data) = k.
Proof. intros H. rewrite firstn_length. lia. Qed.
Lemma EE_lim k F : (k <= T)%nat -> bd k F -> limited c V n (fun r => run k F (Some (fr r))).
Proof.
  intros Hk [b Hb]. exists b. intros r Hr. apply (rounds_bounded c mv V n M Good Er Hth Hcan Hmv Hst Hlik HM Hn FF _ 0); [now apply fr_inv|].
  rewrite (len_first k Hk). exact Hb.
Qed.
Lemma EE_le k F G : (k <= T)%nat -> bd k F -> bd k G -> (forall s, J k s -> F s <= G s) -> EE k F <= EE k G.
Proof.
  intros Hk HF HG H. apply (sl_le _ _ _ _ _ HS); try (now apply EE_lim). intros r Hr. apply (rounds_le c mv V n M Good Er Hth Hcan Hmv Hst Hlik HM Hn FF _ 0); [now apply fr_inv|].
  rewrite (len_first k Hk). exact H.
Qed.
Lemma EE_plus k F G : (k <= T)%nat -> bd k F -> bd k G -> EE k (fun s => F s + G s) = EE k F + EE k G.
Proof.
  intros Hk HF HG. unfold EE. rewrite <- (sl_plus _ _ _ _ _ HS) by now apply EE_lim. apply (Er_ext c V n Ep E0 HS).
  - apply EE_lim; [assumption|]. destruct HF as [a Ha], HG as [b Hb]. exists (a + b). intros s Hs. pose proof (Rabs_triang (F s) (G s)). specialize (Ha s Hs). specialize (Hb s Hs). lra.
  - apply lim_plus; now apply EE_lim.
  - intros r Hr. apply (rounds_plus c mv V n M Good Er Hth Hcan Hmv Hst Hlik HM Hn FF _ 0). now apply fr_inv.
Qed.
Lemma bd_scal k a F : bd k F -> bd k (fun s => a * F s).
Proof. intros [b Hb]. exists (Rabs a * b). intros s Hs. rewrite Rabs_mult. apply Rmult_le_compat_l; [apply Rabs_pos|auto]. Qed.
Lemma bd_plus k F G : bd k F -> bd k G -> bd k (fun s => F s + G s).
Proof. intros [a Ha] [b Hb]. exists (a + b). intros s Hs. pose proof (Rabs_triang (F s) (G s)). specialize (Ha s Hs). specialize (Hb s Hs). lra. Qed.
Lemma bd_const k a : bd k (fun _ => a). Proof. exists (Rabs a). intros; lra. Qed.
Lemma EE_scal k a F : (k <= T)%nat -> bd k F -> EE k (fun s => a * F s) = a * EE k F.
Proof.
  intros Hk HF. unfold EE. rewrite <- (sl_scal _ _ _ _ _ HS) by now apply EE_lim. apply (Er_ext c V n Ep E0 HS).
  - apply EE_lim; [assumption|]. now apply bd_scal.
  - apply (lim_mult c V n (fun _ => a)); [apply lim_const|now apply EE_lim].
  - intros r Hr. apply (rounds_scal c mv V n M Good Er Hth Hcan Hmv Hst Hlik HM Hn FF _ a 0). now apply fr_inv.
Qed.
Lemma EE_const k a : (k <= T)%nat -> EE k (fun _ => a) = a.
Proof.
  intros Hk. unfold EE. rewrite (Er_ext c V n Ep E0 HS _ (fun _ => a)); [apply (Er_const c V n Ep E0 HS)|apply EE_lim; [assumption|apply bd_const]|apply lim_const|].
  intros r Hr. apply (rounds_const c mv V n M Good Er Hth Hcan Hmv Hst Hlik HM Hn FF _ a 0). now apply fr_inv.
Qed.
Lemma EE_step k o e F : firstn (S k) data = firstn k data ++ [(o, e)] -> EE (S k) F = EE k (rounds c Er [(o, e)] F).
Proof. intros H. unfold EE. f_equal. apply functional_extensionality. intros r. rewrite H. apply rounds_app. Qed.
Lemma step_bd k o e F : bd (S k) F -> bd k (rounds c Er [(o, e)] F).
Proof.
  intros [b Hb]. exists b. intros s Hs. apply (rounds_bounded c mv V n M Good Er Hth Hcan Hmv Hst Hlik HM Hn FF _ k); [assumption|]. cbn [length]. rewrite Nat.add_1_r. exact Hb.
Qed.

(** The exact quantities *)
Notation Z k := (probability c mv Ep (firstn k data)).
Notation p k := (next_probability c mv Ep data k).
Notation a k f := (posterior c mv Ep (firstn k data) f).
Lemma lik_bd o e : bounded V (fun x => lik (md c) o x e).
Proof. exists M. intros x Hx. now apply (lik_bound c V M Hlik HM). Qed.
Lemma given_moved_bd d : bounded V (given c mv d) /\ forall x, V x -> V (moved mv d x).
Proof.
  induction d as [|[o e] d [IH1 IH2]]; cbn [given moved].
  - split; [apply (bnd_const V 1)|auto].
  - split; [|intros x Hx; now apply IH2, Hst]. apply (bnd_mult V (fun x => lik (md c) o x e) (fun x => given c mv d (mv e x))); [apply lik_bd|].
    destruct IH1 as [b Hb]. exists b. intros x Hx. now apply Hb, Hst.
Qed.
Lemma Z_0 : Z 0 = 1.
Proof. unfold probability. cbn [firstn given]. change (Ep (fun _ => 1) = 1). exact (Ep_const c V n Ep E0 HS Hn 1). Qed.
Lemma Z_pos k : (k <= T)%nat -> 0 < Z k.
Proof.
  induction k as [|k IH]; intros Hk; [rewrite Z_0; lra|]. pose proof (fl_likely _ _ _ _ _ _ FL k ltac:(lia)). pose proof eps_pos. specialize (IH ltac:(lia)).
  apply Rlt_le_trans with (2 * eps * Z k); [|assumption]. apply Rmult_lt_0_compat; lra.
Qed.
Lemma p_low k : (k < T)%nat -> 2 * eps <= p k.
Proof.
  intros Hk. unfold next_probability. pose proof (Z_pos k ltac:(lia)) as P. apply Rmult_le_reg_r with (Z k); [assumption|]. replace (Z (S k) / Z k * Z k) with (Z (S k)) by (field; lra).
  now apply (fl_likely _ _ _ _ _ _ FL).
Qed.
Lemma p_is k o e : (k < T)%nat -> firstn (S k) data = firstn k data ++ [(o, e)] -> a k (fun x => lik (md c) o x e) = p k.
Proof.
  intros Hk H. unfold next_probability, posterior, probability. rewrite H. f_equal. f_equal. apply functional_extensionality. intros x. now rewrite given_snoc.
Qed.
Lemma a_next k o e f : (k < T)%nat -> firstn (S k) data = firstn k data ++ [(o, e)] -> a (S k) f = a k (fun x => lik (md c) o x e * f (mv e x)) / p k.
Proof.
  intros Hk H. pose proof (Z_pos k ltac:(lia)) as P1. pose proof (Z_pos (S k) ltac:(lia)) as P2. unfold next_probability, posterior. fold (Z k). rewrite H. unfold probability in *. rewrite H in P2.
  replace (Ep (fun x => given c mv (firstn k data) x * (lik (md c) o (moved mv (firstn k data) x) e * f (mv e (moved mv (firstn k data) x)))))
    with (Ep (fun x => given c mv (firstn k data ++ [(o, e)]) x * f (moved mv (firstn k data ++ [(o, e)]) x))).
  - field. lra.
  - f_equal. apply functional_extensionality. intros x. rewrite given_snoc, moved_snoc. ring.
Qed.

Lemma err_bd k f b z : (forall x, V x -> Rabs (f x) <= b) -> bd k (err f z).
Proof.
  intros Hf. exists ((b + Rabs z) ^ 2). intros [s|] Hs; cbn [err].
  - rewrite Rabs_pos_eq by apply pow2_ge_0. apply Rabs_sq_le. pose proof (avg_bound V n M k s f b Hs Hf) as Q. pose proof (Rabs_triang (average s f) (- z)) as Q2. rewrite Rabs_Ropp in Q2. unfold Rminus. lra.
  - rewrite Rabs_R0. apply pow2_ge_0.
Qed.
Lemma gone_bd k : bd k (@gone O).
Proof. exists 1. intros [s|] _; cbn [gone]; [rewrite Rabs_R0|rewrite Rabs_R1]; lra. Qed.
Lemma rprod_bd l : Forall (fun x => eps <= x <= M) l -> 0 < rprod l <= M ^ length l.
Proof.
  pose proof eps_pos. induction 1 as [|x l Hx Hl IH]; [change (rprod []) with 1; cbn; lra|]. rewrite rprod_cons. cbn [length pow]. split; [apply Rmult_lt_0_compat; lra|]. apply Rmult_le_compat; lra.
Qed.
Lemma off_bd k z : bd k (@off O z).
Proof.
  exists ((M ^ k * Rabs (/ z) + 1) ^ 2). intros [s|] Hs; cbn [off].
  - rewrite Rabs_pos_eq by apply pow2_ge_0. apply Rabs_sq_le. destruct Hs as (_ & _ & HN & HN'). pose proof (rprod_bd _ HN') as Q. rewrite HN in Q.
    pose proof (Rabs_triang (rprod (nrec s) / z) (Ropp 1)) as Q2. rewrite Rabs_Ropp, Rabs_R1 in Q2. unfold Rdiv, Rminus in *. rewrite Rabs_mult, (Rabs_pos_eq (rprod _)) in Q2 by lra.
    apply Rle_trans with (1 := Q2). apply Rplus_le_compat_r. apply Rmult_le_compat_r; [apply Rabs_pos|lra].
  - rewrite Rabs_R0. apply pow2_ge_0.
Qed.
Notation er k := (error_rate c mv Ep M data k).
Notation fl k := (failure_rate c mv Ep M data k).
Notation tt k := (total_rate c mv Ep M data k).

Lemma M_pos : (0 < T)%nat -> 0 <= M.
Proof.
  intros HT. destruct (firstn_snoc data 0 HT) as [[o e] Hd]. cbn [firstn app] in Hd.
  destruct (Rle_dec 0 M) as [H|H]; [assumption|]. exfalso. apply Rnot_le_lt in H.
  pose proof (Z_pos 1 HT) as P. unfold probability in P. cbn [firstn] in P. rewrite Hd in P.
  assert (Q : Ep (given c mv [(o, e)]) <= Ep (fun _ => 0)).
  { apply (Ep_le c V n Ep E0 HS Hn Hlen); [apply given_moved_bd|apply bnd_const|]. intros x Hx. cbn [given]. pose proof (HM o x e Hx). lra. }
  rewrite (Ep_const c V n Ep E0 HS Hn) in Q. lra.
Qed.
Lemma mean_error k : (k <= T)%nat -> forall f b, 0 <= b -> (forall x, V x -> Rabs (f x) <= b) -> EE k (err f (a k f)) <= er k * b ^ 2 / INR n.
Proof.
  induction k as [|k IH]; intros Hk f b Pb Hf.
  - assert (Bf : bounded V f) by (exists b; exact Hf).
    assert (A0 : a 0 f = Ep f).
    { unfold posterior. fold (Z 0). rewrite Z_0. cbn [firstn given moved]. replace (fun x => 1 * f x) with f by (apply functional_extensionality; intros; ring). field. }
    unfold EE. rewrite A0. cbn [firstn rounds err error_rate]. rewrite (Er_ext c V n Ep E0 HS _ (fun r => (emp c n f r - Ep f) ^ 2)).
    + rewrite (mean_square c V n Ep E0 HS Hn Hlen f Bf). unfold Rdiv. apply Rmult_le_compat_r; [apply Rlt_le, Rinv_0_lt_compat, Pn|].
      apply Rle_trans with (1 := Ep_variance c V n Ep E0 HS Hn Hlen f Bf). rewrite Rmult_1_l. rewrite <- (Ep_const c V n Ep E0 HS Hn (b ^ 2)).
      apply (Ep_le c V n Ep E0 HS Hn Hlen); [now apply bnd_sq|apply bnd_const|]. intros x Hx. now apply Rabs_sq_le, Hf.
    + apply (lim_ext c V n (fun r => (emp c n f r - Ep f) * (emp c n f r - Ep f))); [intros r; rewrite <- fr_avg; ring|].
      assert (L : limited c V n (fun r => emp c n f r - Ep f)) by (apply (lim_plus c V n (emp c n f) (fun _ => - Ep f)); [now apply emp_lim|apply lim_const]). now apply lim_mult.
    + apply (lim_ext c V n (fun r => (emp c n f r - Ep f) * (emp c n f r - Ep f))); [intros; ring|].
      assert (L : limited c V n (fun r => emp c n f r - Ep f)) by (apply (lim_plus c V n (emp c n f) (fun _ => - Ep f)); [now apply emp_lim|apply lim_const]). now apply lim_mult.
    + intros r Hr. now rewrite fr_avg.
  - destruct (firstn_snoc data k) as [[o e] Hd]; [lia|]. rewrite (EE_step k o e _ Hd). pose proof (p_low k ltac:(lia)) as Pp. pose proof eps_pos as Pe. assert (PM : 0 <= M) by (apply M_pos; lia).
    set (g := fun x => lik (md c) o x e). set (f' := fun x => g x * f (mv e x)).
    assert (Hg : forall x, V x -> Rabs (g x) <= M) by (intros x Hx; now apply (lik_bound c V M Hlik HM)).
    assert (Hf' : forall x, V x -> Rabs (f' x) <= M * b) by (intros x Hx; unfold f'; rewrite Rabs_mult; apply Rmult_le_compat; try apply Rabs_pos; auto).
    rewrite (a_next k o e f ltac:(lia) Hd). change (fun x => lik (md c) o x e * f (mv e x)) with f'. set (A := a k f'). set (q := p k) in *.
    pose proof (err_bd k f' (M * b) A Hf') as B1. pose proof (err_bd k g M q Hg) as B2.
    apply Rle_trans with (EE k (fun s => 4 / q ^ 2 * err f' A s + (4 * b ^ 2 / q ^ 2 * err g q s + 2 * (b ^ 2 / INR n)))).
    + apply EE_le; [lia| |apply bd_plus; [now apply bd_scal|apply bd_plus; [now apply bd_scal|apply bd_const]]|].
      * apply step_bd. now apply (err_bd (S k) f b).
      * assert (P0 : 0 <= 4 / q ^ 2) by (apply Rmult_le_pos; [lra|apply Rlt_le, Rinv_0_lt_compat, pow_lt; lra]).
        assert (P1 : 0 <= b ^ 2 / INR n) by (apply Rmult_le_pos; [apply pow2_ge_0|apply Rlt_le, Rinv_0_lt_compat, Pn]).
        assert (P2 : 4 * b ^ 2 / q ^ 2 = 4 / q ^ 2 * b ^ 2) by (field; lra).
        intros [s|] Hs.
        -- destruct (Rlt_dec (evidence c s o e) eps) as [Hx|Hx].
           { cbn [rounds err]. rewrite Rltb_true by assumption. assert (0 <= 4 * b ^ 2 / q ^ 2) by (rewrite P2; apply Rmult_le_pos; [assumption|apply pow2_ge_0]).
             assert (0 <= 4 / q ^ 2 * (average s f' - A) ^ 2) by (apply Rmult_le_pos; [assumption|apply pow2_ge_0]).
             assert (0 <= 4 * b ^ 2 / q ^ 2 * (average s g - q) ^ 2) by (apply Rmult_le_pos; [assumption|apply pow2_ge_0]). lra. }
           apply Rnot_lt_le in Hx.
           apply Rle_trans with (1 := step_error c mv V n M Good Er Hth Hcan Hmv Hst Hlik HM Hn FF k s o e f b (A / q) Hs Hx Hf). change (fun x => lik (md c) o x e * f (mv e x)) with f'. rewrite <- Rplus_assoc. apply Rplus_le_compat_r.
           cbn [err]. set (v := evidence c s o e) in *. assert (Ev : average s g = v) by reflexivity. rewrite Ev. set (y := average s f') in *.
           (* y / v - A / q = (y - A) / q + (y / v) (q - v) / q *)
           assert (Yb : Rabs (y / v) <= b).
           { assert (Y1 : y / v = cloud_average (pst c s o e) (map (mv e) (ls s)) f) by (symmetry; apply (pst_avg c mv); [apply Hs|assumption]).
             rewrite Y1. destruct (upd_fun c mv V n M Good Er Hth Hcan Hmv Hst Hlik HM Hn FF k s o e Hs Hx) as (_ & _ & _ & Q1 & Q2 & Q3). apply (cloud_bound V); try assumption. apply Q3. }
           replace (y / v - A / q) with ((y - A) / q + y / v * ((q - v) / q)) by (field; split; lra).
           set (t := y / v) in *. apply Rabs_sq_le in Yb.
           apply Rle_trans with (2 * (2 * ((y - A) / q) ^ 2 + 2 * (t * ((q - v) / q)) ^ 2)); [apply Rmult_le_compat_l; [apply Rlt_le, Rlt_0_2|apply sq_sum]|].
           rewrite Rmult_plus_distr_l.
           apply Rplus_le_compat; [apply Req_le; field; lra|]. rewrite Rpow_mult_distr. replace (4 * b ^ 2 / q ^ 2 * (v - q) ^ 2) with (2 * (2 * (b ^ 2 * ((q - v) / q) ^ 2))) by (field; lra).
           do 2 (apply Rmult_le_compat_l; [apply Rlt_le, Rlt_0_2|]). apply Rmult_le_compat_r; [apply pow2_ge_0|exact Yb].
        -- cbn [rounds err]. lra.
    + rewrite (EE_plus k (fun s => 4 / q ^ 2 * err f' A s) (fun s => 4 * b ^ 2 / q ^ 2 * err g q s + 2 * (b ^ 2 / INR n))) by (first [lia|apply bd_scal; assumption|apply bd_plus; [apply bd_scal; assumption|apply bd_const]]).
      rewrite (EE_plus k (fun s => 4 * b ^ 2 / q ^ 2 * err g q s) (fun _ => 2 * (b ^ 2 / INR n))) by (first [lia|apply bd_scal; assumption|apply bd_const]).
      rewrite (EE_scal k _ (err f' A)), (EE_scal k _ (err g q)), EE_const by (first [lia|assumption]). pose proof (IH ltac:(lia) f' (M * b) ltac:(apply Rmult_le_pos; assumption) Hf') as I1.
      pose proof (IH ltac:(lia) g M PM Hg) as I2. unfold g in I2 at 2. rewrite (p_is k o e ltac:(lia) Hd) in I2. fold q in I2. fold A in I1.
      cbn [error_rate]. unfold gain. fold q. assert (P0 : 0 <= 4 / q ^ 2) by (apply Rmult_le_pos; [lra|apply Rlt_le, Rinv_0_lt_compat, pow_lt; lra]).
      apply (Rmult_le_compat_l _ _ _ P0) in I1. assert (P3 : 0 <= 4 * b ^ 2 / q ^ 2) by (replace (4 * b ^ 2 / q ^ 2) with (4 / q ^ 2 * b ^ 2) by (field; lra); apply Rmult_le_pos; [assumption|apply pow2_ge_0]).
      apply (Rmult_le_compat_l _ _ _ P3) in I2.
      replace ((8 * (M / q) ^ 2 * er k + 2) * b ^ 2 / INR n) with (4 / q ^ 2 * (er k * (M * b) ^ 2 / INR n) + (4 * b ^ 2 / q ^ 2 * (er k * M ^ 2 / INR n) + 2 * (b ^ 2 / INR n))) by (field; lra). lra.
Qed.
Lemma ev_error k o e : (k < T)%nat -> firstn (S k) data = firstn k data ++ [(o, e)] -> EE k (err (fun x => lik (md c) o x e) (p k)) <= er k * M ^ 2 / INR n.
Proof. intros Hk Hd. rewrite <- (p_is k o e Hk Hd). apply mean_error; [lia|apply M_pos; lia|]. intros x Hx. now apply (lik_bound c V M Hlik HM). Qed.
Lemma early k : (k <= T)%nat -> EE k gone <= fl k / INR n.
Proof.
  induction k as [|k IH]; intros Hk.
  - unfold EE. cbn [firstn rounds gone failure_rate]. rewrite (Er_const c V n Ep E0 HS). lra.
  - destruct (firstn_snoc data k) as [[o e] Hd]; [lia|]. rewrite (EE_step k o e _ Hd). pose proof (p_low k ltac:(lia)) as Pp. pose proof eps_pos as Pe.
    pose proof (ev_error k o e ltac:(lia) Hd) as Q. set (g := fun x => lik (md c) o x e) in *. set (q := p k) in *.
    assert (P0 : 0 <= 4 / q ^ 2) by (apply Rmult_le_pos; [lra|apply Rlt_le, Rinv_0_lt_compat, pow_lt; lra]).
    assert (Hg : forall x, V x -> Rabs (g x) <= M) by (intros x Hx; now apply (lik_bound c V M Hlik HM)). pose proof (err_bd k g M q Hg) as B2. pose proof (gone_bd k) as B1.
    apply Rle_trans with (EE k (fun s => gone s + 4 / q ^ 2 * err g q s)).
    + apply EE_le; [lia|apply step_bd, gone_bd|apply bd_plus; [assumption|now apply bd_scal]|]. intros [s|] Hs; cbn [gone err].
      * destruct (Rlt_dec (evidence c s o e) eps) as [Hx|Hx].
        -- cbn [rounds gone]. rewrite Rltb_true by assumption. change (average s g) with (evidence c s o e). set (v := evidence c s o e) in *.
           replace (4 / q ^ 2 * (v - q) ^ 2) with ((2 * (q - v) / q) ^ 2) by (field; lra). assert (1 <= 2 * (q - v) / q).
           { apply Rmult_le_reg_r with q; [lra|]. unfold Rdiv. rewrite Rmult_assoc, Rinv_l by lra. lra. } nra.
        -- apply Rnot_lt_le in Hx. cbn [rounds]. rewrite Rltb_false by lra. cbn [gone]. rewrite (rl_const c _ Good Er (ff_law c V n Good Er FF)).
           assert (0 <= 4 / q ^ 2 * (average s g - q) ^ 2) by (apply Rmult_le_pos; [assumption|apply pow2_ge_0]). lra.
      * cbn [rounds gone]. lra.
    + rewrite (EE_plus k gone (fun s => 4 / q ^ 2 * err g q s)), (EE_scal k _ (err g q)) by (first [lia|assumption|apply bd_scal; assumption]). specialize (IH ltac:(lia)). apply (Rmult_le_compat_l _ _ _ P0) in Q.
      cbn [failure_rate]. unfold gain. fold q. replace ((fl k + 4 * (M / q) ^ 2 * er k) / INR n) with (fl k / INR n + 4 / q ^ 2 * (er k * M ^ 2 / INR n)) by (field; lra). lra.
Qed.
Lemma total_error k : (k <= T)%nat -> EE k (off (Z k)) <= tt k / INR n.
Proof.
  induction k as [|k IH]; intros Hk.
  - unfold EE. rewrite Z_0. cbn [firstn rounds off total_rate]. rewrite (Er_ext c V n Ep E0 HS _ (fun _ => 0)); [rewrite (Er_const c V n Ep E0 HS); lra| |apply lim_const|].
    + apply (lim_ext c V n (fun _ => 0)); [intros r; change (nrec (fr r)) with (@nil R); change (rprod []) with 1; field|apply lim_const].
    + intros r _. change (nrec (fr r)) with (@nil R); change (rprod []) with 1; field.
  - destruct (firstn_snoc data k) as [[o e] Hd]; [lia|]. rewrite (EE_step k o e _ Hd). pose proof (p_low k ltac:(lia)) as Pp. pose proof eps_pos as Pe. pose proof (Z_pos k ltac:(lia)) as PZ.
    pose proof (ev_error k o e ltac:(lia) Hd) as Q. set (g := fun x => lik (md c) o x e) in *. assert (ZS : Z (S k) = Z k * p k) by (unfold next_probability; field; lra). rewrite ZS. set (q := p k) in *.
    assert (P0 : 0 <= 2 / q ^ 2) by (apply Rmult_le_pos; [lra|apply Rlt_le, Rinv_0_lt_compat, pow_lt; lra]).
    assert (P1 : 0 <= 2 * (M / q) ^ 2) by (apply Rmult_le_pos; [lra|apply pow2_ge_0]).
    assert (Hg : forall x, V x -> Rabs (g x) <= M) by (intros x Hx; now apply (lik_bound c V M Hlik HM)). pose proof (err_bd k g M q Hg) as B2. pose proof (off_bd k (Z k)) as B1.
    apply Rle_trans with (EE k (fun s => 2 * (M / q) ^ 2 * off (Z k) s + 2 / q ^ 2 * err g q s)).
    + apply EE_le; [lia|apply step_bd, off_bd|apply bd_plus; now apply bd_scal|]. intros [s|] Hs; [|cbn [rounds off err]; lra].
      destruct (Rlt_dec (evidence c s o e) eps) as [Hx|Hx].
      * cbn [rounds off err]. rewrite Rltb_true by assumption. pose proof (Rmult_le_pos _ _ P1 (pow2_ge_0 (rprod (nrec s) / Z k - 1))). pose proof (Rmult_le_pos _ _ P0 (pow2_ge_0 (average s g - q))). lra.
      * apply Rnot_lt_le in Hx. cbn [off err]. apply (off_step c mv V n M Good Er Hth Hcan Hmv Hlik HM FF k); try assumption; lra.
    + rewrite (EE_plus k (fun s => 2 * (M / q) ^ 2 * off (Z k) s) (fun s => 2 / q ^ 2 * err g q s)), (EE_scal k _ (off (Z k))), (EE_scal k _ (err g q)) by (first [lia|assumption|apply bd_scal; assumption]). specialize (IH ltac:(lia)). apply (Rmult_le_compat_l _ _ _ P0) in Q. apply (Rmult_le_compat_l _ _ _ P1) in IH.
      cbn [total_rate]. unfold gain. fold q. replace (2 * (M / q) ^ 2 * (tt k + er k) / INR n) with (2 * (M / q) ^ 2 * (tt k / INR n) + 2 / q ^ 2 * (er k * M ^ 2 / INR n)) by (field; lra). lra.
Qed.

(** From mean squares to chances *)
Lemma overall_EE b : overall c n E0 Er data b = EE T (fun s => match s with Some s => indicator (b s) | None => 1 end).
Proof. unfold overall, EE. now rewrite firstn_all. Qed.
Lemma ind_bd k b : bd k (fun s : option (@state O) => match s with Some s => indicator (b s) | None => 1 end).
Proof. exists 1. intros [s|] _; [destruct (b s)|]; cbn [indicator]; rewrite ?Rabs_R0, ?Rabs_R1; lra. Qed.
Lemma overall_bound (b : @state O -> bool) G K : 0 <= K -> bd T G -> (forall s, J T s -> 0 <= G s) -> (forall s, I T s -> b s = true -> 1 <= K * G (Some s)) ->
  overall c n E0 Er data b <= fl T / INR n + K * EE T G.
Proof.
  intros PK HG Hp H. rewrite overall_EE. apply Rle_trans with (EE T (fun s => gone s + K * G s)).
  - apply EE_le; [lia|apply ind_bd|apply bd_plus; [apply gone_bd|now apply bd_scal]|]. intros [s|] Hs; cbn [gone].
    + specialize (Hp _ Hs). destruct (b s) eqn:B; cbn [indicator]; [specialize (H s Hs B); lra|]. pose proof (Rmult_le_pos _ _ PK Hp). lra.
    + specialize (Hp _ Hs). pose proof (Rmult_le_pos _ _ PK Hp). lra.
  - rewrite (EE_plus T gone (fun s => K * G s)), (EE_scal T K G) by (first [lia|assumption|apply gone_bd|apply bd_scal; assumption]). pose proof (early T (le_n _)). lra.
Qed.
Lemma overall_union (b b1 b2 : @state O -> bool) : (forall s, I T s -> b s = true -> b1 s = true \/ b2 s = true) ->
  overall c n E0 Er data b <= overall c n E0 Er data b1 + overall c n E0 Er data b2.
Proof.
  intros H. rewrite !overall_EE, <- EE_plus by (first [lia|apply ind_bd]). apply EE_le; [lia|apply ind_bd|apply bd_plus; apply ind_bd|].
  intros [s|] Hs; [|lra]. specialize (H s Hs). destruct (b s), (b1 s), (b2 s); cbn [indicator]; first [lra|destruct (H eq_refl); discriminate].
Qed.
Lemma overall_ext (b b' : @state O -> bool) : (forall s, I T s -> b s = b' s) -> overall c n E0 Er data b = overall c n E0 Er data b'.
Proof.
  intros H. rewrite !overall_EE. apply Rle_antisym; (apply EE_le; [lia|apply ind_bd|apply ind_bd|]); (intros [s|] Hs; [rewrite (H s Hs)|]; apply Rle_refl).
Qed.
Lemma average_chance f b h : 0 <= b -> 0 < h -> (forall x, V x -> Rabs (f x) <= b) ->
  overall c n E0 Er data (fun s => Rleb h (Rabs (average s f - posterior c mv Ep data f))) <= (fl T + er T * b ^ 2 / h ^ 2) / INR n.
Proof.
  intros Pb Ph Hf. assert (Ph2 : 0 < h ^ 2) by now apply pow_lt. pose proof (mean_error T (le_n _) f b Pb Hf) as Q. rewrite firstn_all in Q.
  apply Rle_trans with (fl T / INR n + / h ^ 2 * EE T (err f (posterior c mv Ep data f))).
  - apply overall_bound; [apply Rlt_le, Rinv_0_lt_compat; assumption|now apply (err_bd T f b)| |].
    + intros [s|] _; cbn [err]; [apply pow2_ge_0|lra].
    + intros s _ Hs. destruct (Rleb_spec h (Rabs (average s f - posterior c mv Ep data f))) as [X|]; [|discriminate]. cbn [err].
      apply Rmult_le_reg_l with (h ^ 2); [assumption|]. rewrite <- Rmult_assoc, Rinv_r, Rmult_1_r, Rmult_1_l by lra. rewrite <- (pow2_abs (average s f - _)). apply pow_incr. lra.
  - assert (Pi : 0 <= / h ^ 2) by (apply Rlt_le, Rinv_0_lt_compat; assumption). apply (Rmult_le_compat_l _ _ _ Pi) in Q.
    replace ((fl T + er T * b ^ 2 / h ^ 2) / INR n) with (fl T / INR n + / h ^ 2 * (er T * b ^ 2 / INR n)) by (field; lra). lra.
Qed.
Lemma total_chance h : 0 < h ->
  overall c n E0 Er data (fun s => match log_total_likelihood s with Fin t => Rleb h (Rabs (exp t / probability c mv Ep data - 1)) | _ => true end) <= (fl T + tt T / h ^ 2) / INR n.
Proof.
  intros Ph. assert (Ph2 : 0 < h ^ 2) by now apply pow_lt. pose proof (total_error T (le_n _)) as Q. rewrite firstn_all in Q.
  apply Rle_trans with (fl T / INR n + / h ^ 2 * EE T (off (probability c mv Ep data))).
  - apply overall_bound; [apply Rlt_le, Rinv_0_lt_compat; assumption|apply off_bd| |].
    + intros [s|] _; cbn [off]; [apply pow2_ge_0|lra].
    + intros s (_ & _ & _ & HN) Hs. assert (PN : Forall (fun x => 0 < x) (nrec s)) by (pose proof eps_pos; apply Forall_impl with (2 := HN); intros x [Hx _]; lra).
      pose proof (rprod_bd _ HN) as [PR _]. rewrite (log_total_exp s PN), exp_ln in Hs by assumption. cbn [off].
      destruct (Rleb_spec h (Rabs (rprod (nrec s) / probability c mv Ep data - 1))) as [X|]; [|discriminate].
      apply Rmult_le_reg_l with (h ^ 2); [assumption|]. rewrite <- Rmult_assoc, Rinv_r, Rmult_1_r, Rmult_1_l by lra. rewrite <- (pow2_abs (rprod (nrec s) / _ - 1)). apply pow_incr. lra.
  - assert (Pi : 0 <= / h ^ 2) by (apply Rlt_le, Rinv_0_lt_compat; assumption). apply (Rmult_le_compat_l _ _ _ Pi) in Q.
    replace ((fl T + tt T / h ^ 2) / INR n) with (fl T / INR n + / h ^ 2 * (tt T / INR n)) by (field; lra). lra.
Qed.
End B.
