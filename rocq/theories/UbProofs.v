(** Proofs for C129. *)
From Coq Require Import List Lia Lra Psatz FunctionalExtensionality.
From Verif Require Import Base RList Ext Sums SmcModel SmcSpec SmcProofs LinProofs LearnSpec LearnProofs RateSpec ReSpec ConvSpec ConvProofs PfSpec PfProofs PfProofs2 UbSpec.
Import ListNotations.

Section C.
Context {O E RND : Type} (c : @config O E RND) (mv : E -> loc -> loc) (V : loc -> Prop) (n : nat) (M : R) (Good : RND -> Prop) (Ep : (loc -> R) -> R) (E0 Er : (RND -> R) -> R).
Hypothesis FL : setting c mv V Ep M.
Hypothesis HS : sampling c V n Ep E0.
Hypothesis FF : faithful c V n Good Er.
Hypothesis HU : forall g, bounded V g -> unbiased c (within V n) Er g.
Hypothesis Hn : (0 < n)%nat.
Let HR := ff_law c V n Good Er FF.
Let Hth := fl_threshold _ _ _ _ _ _ FL.
Let Hcan := fl_canon _ _ _ _ _ _ FL.
Let Hmv := fl_moves _ _ _ _ _ _ FL.
Let Hst := fl_stays _ _ _ _ _ _ FL.
Let Hlik := fl_lik _ _ _ _ _ _ FL.
Let HM := fl_bound _ _ _ _ _ _ FL.
Notation I := (Inv V n M).
Notation J := (Iv V n M).
Notation run := (rounds c Er).

Definition tot f (t : option (@state O)) : R := match t with Some s => rprod (nrec s) * average s f | None => 0 end.
Definition ahead data f (x : loc) : R := given c mv data x * f (moved mv data x).

Lemma given_range d : forall x, V x -> 0 <= given c mv d x <= M ^ length d.
Proof.
  induction d as [|[o e] d IH]; intros x Hx; cbn [given length pow]; [lra|]. destruct (IH (mv e x) (Hst e x Hx)) as [I1 I2].
  pose proof (Hlik o x e). pose proof (HM o x e Hx). split; [now apply Rmult_le_pos|]. apply Rmult_le_compat; assumption.
Qed.
Lemma moved_V (d : list (O * E)) : forall x, V x -> V (moved mv d x).
Proof. induction d as [|[o e] d IH]; intros x Hx; cbn [moved]; [assumption|]. now apply IH, Hst. Qed.
Lemma ahead_range d f b : (forall x, V x -> 0 <= f x <= b) -> forall x, V x -> 0 <= ahead d f x <= M ^ length d * b.
Proof.
  intros Hf x Hx. unfold ahead. destruct (given_range d x Hx) as [G1 G2]. destruct (Hf _ (moved_V d x Hx)) as [F1 F2].
  split; [now apply Rmult_le_pos|]. apply Rmult_le_compat; assumption.
Qed.
Lemma range_bounded f b : (forall x, V x -> 0 <= f x <= b) -> bounded V f.
Proof. intros H. exists b. intros x Hx. destruct (H x Hx). rewrite Rabs_pos_eq; assumption. Qed.

Lemma rprod_pos k (s : @state O) : I k s -> 0 <= rprod (nrec s).
Proof.
  intros (_ & _ & _ & H). pose proof eps_pos. induction (nrec s) as [|x l IH]; [change (rprod []) with 1; lra|]. rewrite rprod_cons. inversion H; subst. apply Rmult_le_pos; [lra|now apply IH].
Qed.
Lemma avg_le k (s : @state O) f g : I k s -> (forall x, V x -> f x <= g x) -> average s f <= average s g.
Proof.
  intros ((H1 & H2 & _) & [_ H3] & _) H. unfold average, cloud_average. apply Sum_le. intros i Hi. apply Rmult_le_compat_l.
  - rewrite Forall_forall in H2. apply H2, nth_In. now rewrite H1.
  - apply H. rewrite Forall_forall in H3. apply H3, nth_In, Hi.
Qed.
Lemma avg_scal (s : @state O) f a : average s (fun x => a * f x) = a * average s f.
Proof. unfold average, cloud_average. rewrite <- Sum_scal. apply Sum_ext. intros; ring. Qed.
Lemma ahead_cons o e d f : ahead ((o, e) :: d) f = (fun x => lik (md c) o x e * ahead d f (mv e x)).
Proof. apply functional_extensionality. intros x. unfold ahead. cbn [given moved]. ring. Qed.

(** One update keeps the product of the evidences times a posterior average, on average. *)
Lemma one_mean k (s : @state O) o e g : I k s -> eps <= evidence c s o e -> bounded V g ->
  Er (fun r => tot g (Some (fst (update c r s o e true)))) = rprod (nrec s) * average s (fun x => lik (md c) o x e * g (mv e x)).
Proof.
  intros Hi He Hg. pose proof eps_pos as Pe.
  destruct (upd_shape c mv V n M Hth Hcan Hmv Hlik k s o e Hi He) as (rs & K & K1 & K2 & _ & K3).
  destruct (upd_fun c mv V n M Good Er Hth Hcan Hmv Hst Hlik HM Hn FF k s o e Hi He) as (_ & _ & _ & P1 & P2 & P3).
  pose proof (pst_avg c mv s o e g (proj1 Hi) He) as Q. set (w := pst c s o e) in *. set (l := map (mv e) (ls s)) in *. set (v := evidence c s o e) in *.
  assert (Qv : average s (fun x => lik (md c) o x e * g (mv e x)) = v * cloud_average w l g) by (rewrite Q; field; lra). rewrite Qv.
  assert (N : forall x, rprod (nrec (K x)) = rprod (nrec s) * v) by (intros x; rewrite K2, rprod_app, rprod_cons; change (rprod []) with 1; ring).
  destruct rs.
  - rewrite (rl_ext c _ Good Er HR _ (fun r => (rprod (nrec s) * v) * (fun x => match x with Ok (w', l') => cloud_average w' l' g | Err _ => 0 end) (rsmp c r w l))).
    + rewrite (rl_scal c _ Good Er HR w l (rprod (nrec s) * v) (fun x => match x with Ok (w', l') => cloud_average w' l' g | Err _ => 0 end) P1 P2 P3).
      rewrite (HU g Hg w l P1 P2 P3). ring.
    + intros r Hr. rewrite K1. unfold tot. rewrite N. f_equal. destruct (rl_ok c _ Good Er HR r w l Hr P1 P2 P3) as (w' & l' & -> & _). destruct (K3 w' l') as [B1 B2].
      unfold average. now rewrite B1, B2.
  - rewrite (rl_ext c _ Good Er HR _ (fun _ => rprod (nrec s) * (v * cloud_average w l g))); [apply (rl_const c _ Good Er HR)|].
    intros r _. rewrite K1. unfold tot. rewrite N. unfold average. destruct (K3 (rsmp c r w l)) as [-> ->]. ring.
Qed.

Lemma missing_step (o : O) (e : E) data : 0 <= M -> M * missing M data <= missing M ((o, e) :: data).
Proof.
  intros H. pose proof eps_pos. destruct data as [|p data]; cbn [missing length pow]; [|apply Req_le; ring]. lra.
Qed.
Lemma M_pos k (s : @state O) : I k s -> forall o e, eps <= evidence c s o e -> 0 <= M.
Proof. intros Hi o e He. pose proof eps_pos. pose proof (ev_le_M c V n M Hlik HM k s o e Hi). lra. Qed.

Lemma run_upper f b data : (forall x, V x -> 0 <= f x <= b) -> forall k (s : @state O), I k s -> run data (tot f) (Some s) <= rprod (nrec s) * average s (ahead data f).
Proof.
  intros Hf. induction data as [|[o e] data IH]; intros k s Hi.
  - cbn [rounds tot]. apply Req_le. f_equal. unfold average, ahead, cloud_average. apply Sum_ext. intros i _. cbn. ring.
  - cbn [rounds]. destruct (Rltb_spec (evidence c s o e) eps) as [Hx|Hx].
    + cbn [tot]. apply Rmult_le_pos; [now apply (rprod_pos k)|]. replace 0 with (average s (fun _ => 0)) by (unfold average, cloud_average; apply Sum_zero; intros; ring).
      apply (avg_le k); [assumption|]. intros x Vx. now apply (ahead_range ((o, e) :: data) f b).
    + apply Rnot_lt_le in Hx. rewrite ahead_cons. rewrite <- (one_mean k s o e (ahead data f) Hi Hx (range_bounded _ _ (ahead_range data f b Hf))).
      apply (one_le c mv V n M Good Er Hth Hcan Hmv Hst Hlik HM Hn FF k s o e Hi Hx (fun s' => run data (tot f) (Some s')) (fun s' => tot (ahead data f) (Some s'))).
      intros s' Hs'. now apply (IH (S k)).
Qed.
Lemma run_lower f b data : (forall x, V x -> 0 <= f x <= b) -> forall k (s : @state O), I k s ->
  rprod (nrec s) * (average s (ahead data f) - missing M data * b) <= run data (tot f) (Some s).
Proof.
  intros Hf. induction data as [|[o e] data IH]; intros k s Hi.
  - cbn [rounds tot missing]. apply Req_le. f_equal. rewrite Rmult_0_l, Rminus_0_r. unfold average, ahead, cloud_average. apply Sum_ext. intros i _. cbn. ring.
  - pose proof (rprod_pos k s Hi) as Pp. cbn [rounds]. destruct (Rltb_spec (evidence c s o e) eps) as [Hx|Hx].
    + cbn [tot]. rewrite <- (Rmult_0_r (rprod (nrec s))). apply Rmult_le_compat_l; [assumption|]. rewrite ahead_cons. cbn [missing].
      assert (Q : average s (fun x => lik (md c) o x e * ahead data f (mv e x)) <= average s (fun x => (M ^ length data * b) * lik (md c) o x e)).
      { apply (avg_le k); [assumption|]. intros x Vx. rewrite (Rmult_comm (M ^ length data * b)). apply Rmult_le_compat_l; [apply Hlik|]. apply (ahead_range data f b Hf), Hst, Vx. }
      rewrite avg_scal, <- avg_ev in Q. assert (P : 0 <= M ^ length data * b).
      { destruct Hi as ((L1 & L2) & [W1 W2] & _). rewrite <- W1 in Hn. destruct (ls s) as [|x l]; [cbn in Hn; lia|]. inversion W2; subst. destruct (ahead_range data f b Hf x ltac:(assumption)). lra. }
      assert (M ^ length data * b * evidence c s o e <= M ^ length data * b * eps) by (apply Rmult_le_compat_l; lra). lra.
    + apply Rnot_lt_le in Hx. pose proof (M_pos k s Hi o e Hx) as PM. rewrite ahead_cons.
      assert (Pb : 0 <= b).
      { destruct Hi as ((L1 & L2) & [W1 W2] & _). rewrite <- W1 in Hn. destruct (ls s) as [|x l]; [cbn in Hn; lia|]. inversion W2; subst. destruct (Hf x ltac:(assumption)). lra. }
      assert (Pm : 0 <= missing M data) by (destruct data; cbn [missing]; [lra|]; apply Rmult_le_pos; [apply Rlt_le, eps_pos|now apply pow_le]).
      set (C := missing M data * b). assert (PC : 0 <= C) by now apply Rmult_le_pos.
      assert (Bd : bounded V (fun x => ahead data f x + - C)) by (apply (bnd_plus V _ (fun _ => - C)); [exact (range_bounded _ _ (ahead_range data f b Hf))|apply bnd_const]).
      apply Rle_trans with (Er (fun r => tot (fun x => ahead data f x + - C) (Some (fst (update c r s o e true))))).
      * rewrite (one_mean k s o e _ Hi Hx Bd). apply Rmult_le_compat_l; [assumption|].
        pose proof (ev_le_M c V n M Hlik HM k s o e Hi) as HeM. pose proof (missing_step o e data PM) as Q.
        replace (average s (fun x => lik (md c) o x e * (ahead data f (mv e x) + - C))) with (average s (fun x => lik (md c) o x e * ahead data f (mv e x)) - C * evidence c s o e).
        -- assert (Q2 : C * evidence c s o e <= missing M ((o, e) :: data) * b); [|lra]. unfold C. apply Rle_trans with (M * missing M data * b); [|now apply Rmult_le_compat_r].
           replace (missing M data * b * evidence c s o e) with (evidence c s o e * missing M data * b) by ring. apply Rmult_le_compat_r; [assumption|]. now apply Rmult_le_compat_r.
        -- rewrite avg_ev. unfold average, cloud_average. rewrite <- Sum_scal, <- Sum_minus. apply Sum_ext. intros; ring.
      * apply (one_le c mv V n M Good Er Hth Hcan Hmv Hst Hlik HM Hn FF k s o e Hi Hx (fun s' => tot (fun x => ahead data f x + - C) (Some s')) (fun s' => run data (tot f) (Some s'))).
        intros s' Hs'. apply Rle_trans with (2 := IH (S k) s' Hs'). cbn [tot]. apply Req_le. f_equal. fold C.
        destruct Hs' as ((L1 & L2 & L3) & _). rewrite rsum_index, L1 in L3. unfold average, cloud_average.
        rewrite (Sum_ext _ _ (fun i => nth i (ws s') 0 * ahead data f (nth i (ls s') []) - nth i (ws s') 0 * C)) by (intros; ring). rewrite Sum_minus, Sum_scal_r, L3. ring.
Qed.
(** Likelihoods of at least machine epsilon: no run ends early. *)
Lemma run_exact f b data : (forall x, V x -> 0 <= f x <= b) -> (forall o e x, In (o, e) data -> V x -> eps <= lik (md c) o x e) ->
  forall k (s : @state O), I k s -> run data (tot f) (Some s) = rprod (nrec s) * average s (ahead data f).
Proof.
  intros Hf. induction data as [|[o e] data IH]; intros Hl k s Hi.
  - cbn [rounds tot]. f_equal. unfold average, ahead, cloud_average. apply Sum_ext. intros i _. cbn. ring.
  - cbn [rounds]. assert (Hx : eps <= evidence c s o e).
    { rewrite avg_ev. apply Rle_trans with (average s (fun _ => eps)).
      - destruct Hi as ((L1 & L2 & L3) & _). unfold average, cloud_average. rewrite rsum_index, L1 in L3. rewrite Sum_scal_r, L3. lra.
      - apply (avg_le k); [assumption|]. intros x Vx. apply Hl; [now left|assumption]. }
    rewrite Rltb_false by lra. rewrite ahead_cons. rewrite <- (one_mean k s o e (ahead data f) Hi Hx (range_bounded _ _ (ahead_range data f b Hf))).
    apply (one_ext c mv V n M Good Er Hth Hcan Hmv Hst Hlik HM Hn FF k s o e Hi Hx (fun s' => run data (tot f) (Some s')) (fun s' => tot (ahead data f) (Some s'))).
    intros s' Hs'. apply (IH ltac:(intros o' e' x Hin; apply Hl; now right) (S k)). exact Hs'.
Qed.

(** Over the draws from the prior *)
Notation fr r := (@fresh O E RND c n r).
Lemma tot_bounded f b k (t : option (@state O)) : (forall x, V x -> 0 <= f x <= b) -> 0 <= M -> 0 <= b -> J k t -> Rabs (tot f t) <= M ^ k * b.
Proof.
  intros Hf PM Pb Ht. destruct t as [s|]; cbn [tot]; [|rewrite Rabs_R0; apply Rmult_le_pos; [now apply pow_le|assumption]].
  cbn [Iv] in Ht. rewrite Rabs_mult. apply Rmult_le_compat; try apply Rabs_pos.
  - rewrite Rabs_pos_eq by now apply (rprod_pos k). destruct Ht as (_ & _ & HL & HF). rewrite <- HL. clear HL. pose proof eps_pos.
    induction (nrec s) as [|x l IH]; [change (rprod []) with 1; cbn; lra|]. rewrite rprod_cons. cbn [length pow]. inversion HF; subst. apply Rmult_le_compat; try lra; [|now apply IH].
    assert (Q : Forall (fun x => 0 <= x) l) by (rewrite Forall_forall in *; intros y Hy; match goal with HH : forall x, In x l -> _ |- _ => specialize (HH y Hy) end; lra).
    clear - Q. induction Q; [change (rprod []) with 1; lra|]. rewrite rprod_cons. now apply Rmult_le_pos.
  - apply (avg_bound V n M k); [assumption|]. intros x Vx. destruct (Hf x Vx). rewrite Rabs_pos_eq; assumption.
Qed.
Lemma nonneg_V y : (forall x, V x -> 0 <= y) -> 0 <= y.
Proof.
  intros H. destruct (Rle_lt_dec 0 y) as [P|P]; [assumption|]. exfalso.
  assert (Q : E0 (fun _ => 1) <= E0 (fun _ => 0)).
  { apply (sl_le _ _ _ _ _ HS); try apply lim_const. intros r Hr. exfalso. pose proof (fl_prior _ _ _ _ _ _ FL r n) as L. destruct (prior c r n) as [|x l]; [cbn in L; lia|].
    inversion Hr; subst. specialize (H x ltac:(assumption)). lra. }
  rewrite !(Er_const c V n Ep E0 HS) in Q. lra.
Qed.
Lemma run_lim f b data : (forall x, V x -> 0 <= f x <= b) -> limited c V n (fun r => run data (tot f) (Some (fr r))).
Proof.
  intros Hf. assert (Pb : 0 <= b) by (apply nonneg_V; intros x Vx; destruct (Hf x Vx); lra). destruct data as [|p data].
  - exists b. intros r Hr. pose proof (fr_inv c mv V n M Ep [] FL Hn r Hr) as Hi. cbn [rounds tot]. change (nrec (fr r)) with (@nil R). change (rprod []) with 1. rewrite Rmult_1_l.
    apply (avg_bound V n M 0); [exact Hi|]. intros x Vx. destruct (Hf x Vx). rewrite Rabs_pos_eq; assumption.
  - assert (PM : 0 <= M) by (destruct p as [o e]; apply nonneg_V; intros x Vx; pose proof (Hlik o x e); pose proof (HM o x e Vx); lra).
    exists (M ^ (0 + length (p :: data)) * b). intros r Hr. apply (rounds_bounded c mv V n M Good Er Hth Hcan Hmv Hst Hlik HM Hn FF _ 0); [exact (fr_inv c mv V n M Ep [] FL Hn r Hr)|].
    intros t Ht. now apply tot_bounded.
Qed.
Lemma emp_limit g : bounded V g -> limited c V n (fun r => average (fr r) g).
Proof. intros Hg. apply (lim_ext c V n (emp c n g)); [intros r; symmetry; exact (fr_avg c mv V n M Ep [] FL r g)|]. apply emp_lim; first [exact Hn|exact (fun r => fl_prior _ _ _ _ _ _ FL r n)|assumption]. Qed.
Lemma emp_average g : bounded V g -> E0 (fun r => average (fr r) g) = Ep g.
Proof.
  intros Hg. rewrite <- (emp_mean c V n Ep E0 HS Hn (fun r => fl_prior _ _ _ _ _ _ FL r n) g Hg). f_equal. apply functional_extensionality. intros r. exact (fr_avg c mv V n M Ep [] FL r g).
Qed.
Lemma total_upper f b data : (forall x, V x -> 0 <= f x <= b) -> E0 (fun r => run data (tot f) (Some (fr r))) <= Ep (ahead data f).
Proof.
  intros Hf. pose proof (range_bounded _ _ (ahead_range data f b Hf)) as Bd. rewrite <- (emp_average (ahead data f) Bd).
  apply (sl_le _ _ _ _ _ HS); [now apply (run_lim f b)|now apply emp_limit|]. intros r Hr.
  pose proof (run_upper f b data Hf 0 (fr r) (fr_inv c mv V n M Ep [] FL Hn r Hr)) as Q. change (nrec (fr r)) with (@nil R) in Q. change (rprod []) with 1 in Q. lra.
Qed.
Lemma total_lower f b data : (forall x, V x -> 0 <= f x <= b) -> Ep (ahead data f) - missing M data * b <= E0 (fun r => run data (tot f) (Some (fr r))).
Proof.
  intros Hf. pose proof (range_bounded _ _ (ahead_range data f b Hf)) as Bd. rewrite <- (emp_average (ahead data f) Bd).
  set (C := missing M data * b). replace (E0 (fun r => average (fr r) (ahead data f)) - C) with (E0 (fun r => average (fr r) (ahead data f)) + E0 (fun _ => - C)) by (rewrite (Er_const c V n Ep E0 HS); ring).
  rewrite <- (sl_plus _ _ _ _ _ HS) by (try apply lim_const; now apply emp_limit).
  apply (sl_le _ _ _ _ _ HS); [apply lim_plus; [now apply emp_limit|apply lim_const]|now apply (run_lim f b)|]. intros r Hr.
  pose proof (run_lower f b data Hf 0 (fr r) (fr_inv c mv V n M Ep [] FL Hn r Hr)) as Q. change (nrec (fr r)) with (@nil R) in Q. change (rprod []) with 1 in Q. fold C in Q. lra.
Qed.
Lemma total_exact f b data : (forall x, V x -> 0 <= f x <= b) -> (forall o e x, In (o, e) data -> V x -> eps <= lik (md c) o x e) ->
  E0 (fun r => run data (tot f) (Some (fr r))) = Ep (ahead data f).
Proof.
  intros Hf Hl. pose proof (range_bounded _ _ (ahead_range data f b Hf)) as Bd. rewrite <- (emp_average (ahead data f) Bd).
  apply (Er_ext c V n Ep E0 HS); [now apply (run_lim f b)|now apply emp_limit|]. intros r Hr.
  pose proof (run_exact f b data Hf Hl 0 (fr r) (fr_inv c mv V n M Ep [] FL Hn r Hr)) as Q. change (nrec (fr r)) with (@nil R) in Q. change (rprod []) with 1 in Q. rewrite Q. ring.
Qed.
End C.
