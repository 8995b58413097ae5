(** Proofs for C131. *)
From Verif Require Import Base RList Ext Sums SmcModel SmcSpec SmcProofs DerProofs LinProofs LearnSpec LearnProofs RateSpec RateProofs CalSpec.
From Coq Require Import List.

Lemma SumL_NoDup_le n (I : list nat) f g : NoDup I -> (forall i, In i I -> (i < n)%nat) -> (forall i, In i I -> f i <= g i) -> (forall i, (i < n)%nat -> 0 <= g i) -> SumL I f <= Sum n g.
Proof.
  intros HN HI Hf Hg. apply Rle_trans with (SumL I g); [now apply SumL_le|]. rewrite <- SumL_seq.
  assert (X : forall (J K : list nat), NoDup J -> incl J K -> (forall i, In i K -> 0 <= g i) -> SumL J g <= SumL K g).
  { clear. induction J as [|j J IH]; intros K HN Hin Hp; [apply SumL_nonneg; exact Hp|]. destruct (in_split j K (Hin j (or_introl eq_refl))) as (K1 & K2 & ->).
    inversion HN as [|? ? Hj HN']; subst. rewrite SumL_app. assert (E1 : forall l, SumL (j :: l) g = g j + SumL l g) by reflexivity. rewrite !E1.
    assert (SumL J g <= SumL (K1 ++ K2) g); [|rewrite SumL_app in H; lra]. apply IH; [assumption| |].
    - intros x Hx. specialize (Hin x (or_intror Hx)). apply in_app_iff in Hin. destruct Hin as [H|[H|H]]; apply in_app_iff; [now left|subst; contradiction|now right].
    - intros x Hx. apply Hp. apply in_app_iff in Hx. apply in_app_iff. cbn. tauto. }
  apply X; [assumption| |]. - intros i Hi. apply in_seq. specialize (HI i Hi). lia. - intros i Hi. apply in_seq in Hi. apply Hg. lia.
Qed.

(** Bias and variance of an estimate under weights [p] *)
Lemma split_error n (p x : nat -> R) a : Sum n p = 1 -> Sum n (fun i => p i * (a - x i) ^ 2) =
  (Sum n (fun i => p i * (x i * x i)) - Sum n (fun i => p i * x i) * Sum n (fun i => p i * x i)) + (a - Sum n (fun i => p i * x i)) ^ 2.
Proof.
  intros H1. rewrite (Sum_ext _ _ (fun i => a ^ 2 * p i + ((-2 * a) * (p i * x i) + p i * (x i * x i)))) by (intros; ring).
  rewrite !Sum_plus, !Sum_scal, H1. ring.
Qed.

Section Cal.
Context {O E RND : Type}.
Variables (c : @config O E RND) (rs : nat -> RND) (dom : E -> list O) (V : loc -> Prop) (pol : list O -> E).

Lemma sessions_total stop n : (forall r l e, length (timestep (md c) r l e) = length l) -> (forall x e, V x -> SumL (dom e) (fun o => lik (md c) o x e) = 1) ->
  (forall r l e, Forall V l -> Forall V (timestep (md c) r l e)) ->
  forall hist idx l i, Forall V l -> (i < length l)%nat -> SumL (sessions stop dom pol n hist) (fun data => path_lik c rs idx data l i) = 1.
Proof.
  intros Hlen Hdom Hstep. induction n as [|n IH]; intros hist idx l i HV Hi; cbn [sessions]; [unfold SumL; cbn; ring|]. destruct (stop hist); [unfold SumL; cbn; ring|].
  rewrite SumL_flat_map. rewrite (SumL_ext _ _ (fun o => lik (md c) o (nth i l []) (pol hist))).
  - apply Hdom. rewrite Forall_forall in HV. now apply HV, nth_In.
  - intros o _. rewrite SumL_map. cbn [path_lik]. rewrite SumL_scal, IH; [ring|now apply Hstep|now rewrite Hlen].
Qed.
(** What is left of a record if the study ends earlier *)
Fixpoint cut (stop : list O -> bool) (n : nat) (hist : list O) (data : list (O * E)) : list (O * E) :=
  match n, data with
  | S n', (o, e) :: data' => if stop hist then [] else (o, e) :: cut stop n' (hist ++ [o]) data'
  | _, _ => []
  end.
Lemma cut_average stop stop' (later : forall h, stop' h = true -> stop h = true) (f : list (O * E) -> R) : (forall r l e, length (timestep (md c) r l e) = length l) -> (forall x e, V x -> SumL (dom e) (fun o => lik (md c) o x e) = 1) ->
  (forall r l e, Forall V l -> Forall V (timestep (md c) r l e)) -> forall m n pre hist idx l i, (n <= m)%nat -> Forall V l -> (i < length l)%nat ->
  SumL (sessions stop' dom pol m hist) (fun data => path_lik c rs idx data l i * f (pre ++ cut stop n hist data)) = SumL (sessions stop dom pol n hist) (fun data => path_lik c rs idx data l i * f (pre ++ data)).
Proof.
  intros Hlen Hdom Hstep. induction m as [|m IH]; intros n pre hist idx l i Hnm HV Hi.
  - replace n with 0%nat by lia. reflexivity.
  - destruct n as [|n].
    { rewrite (SumL_ext _ _ (fun data => f pre * path_lik c rs idx data l i)) by (intros; cbn [cut]; rewrite app_nil_r; ring). rewrite SumL_scal, sessions_total by assumption. unfold SumL. cbn. rewrite app_nil_r. ring. }
    destruct (stop hist) eqn:Es.
    { rewrite (SumL_ext _ _ (fun data => f pre * path_lik c rs idx data l i)).
      2:{ intros data _. destruct data as [|[o e] data]; cbn [cut]; rewrite ?Es, app_nil_r; ring. }
      rewrite SumL_scal, sessions_total by assumption. cbn [sessions]. rewrite Es. unfold SumL. cbn. rewrite app_nil_r. ring. }
    cbn [sessions]. rewrite Es. destruct (stop' hist) eqn:Es'; [apply later in Es'; congruence|]. rewrite !SumL_flat_map. apply SumL_ext. intros o _. rewrite !SumL_map. cbn [path_lik cut]. rewrite Es.
    rewrite (SumL_ext _ _ (fun data => lik (md c) o (nth i l []) (pol hist) * (path_lik c rs (S idx) data (timestep (md c) (rs idx) l (pol hist)) i * f ((pre ++ [(o, pol hist)]) ++ cut stop n (hist ++ [o]) data)))) by (intros; rewrite <- app_assoc; cbn; ring).
    rewrite SumL_scal, IH by (first [lia | now apply Hstep | now rewrite Hlen]). rewrite <- SumL_scal. apply SumL_ext. intros data _. rewrite <- app_assoc. cbn. ring.
Qed.

Section S.
Variables (stop : list O -> bool) (n : nat) (s : @state O).
Hypothesis HS : study c rs stop dom V pol n s.
Notation recs := (sessions stop dom pol n []).
Let G := st_config _ _ _ _ _ _ _ _ HS.
Let Hinv := st_state _ _ _ _ _ _ _ _ HS.

Lemma predictive_nonneg data : 0 <= predictive c rs s data.
Proof. unfold predictive. apply Sum_nonneg. intros i Hi. apply Rmult_le_pos; [apply (wt_range s i Hinv)|now apply path_nonneg]. Qed.
Lemma drawn_predictive f : drawn c rs s recs f = SumL recs (fun data => predictive c rs s data * Sum (n_particles s) (fun t => wt (final c rs s data) t * f t data)).
Proof.
  unfold drawn, generated. rewrite (Sum_ext _ _ (fun t => SumL recs (fun data => wt s t * (path_lik c rs 0 data (ls s) t * f t data)))) by (intros; now rewrite SumL_scal).
  rewrite <- SumL_Sum_swap. apply SumL_ext. intros data Hin. rewrite <- Sum_scal. apply Sum_ext. intros t Hlt.
  destruct (st_regular _ _ _ _ _ _ _ _ HS data Hin) as [Z|Z].
  - rewrite Z. unfold predictive in Z. pose proof (Sum_zero_each _ _ t (fun j Hj => Rmult_le_pos _ _ (proj1 (wt_range s j Hinv)) (path_nonneg c rs data G 0%nat (ls s) j)) Z Hlt) as Q. cbn beta in Q.
    replace (wt s t * (path_lik c rs 0 data (ls s) t * f t data)) with (wt s t * path_lik c rs 0 data (ls s) t * f t data) by ring. rewrite Q. ring.
  - destruct (predictive_recorded c rs s data G (st_threshold _ _ _ _ _ _ _ _ HS) Hinv Z) as (_ & _ & _ & _ & H). specialize (H t Hlt). unfold final. 
    replace (wt s t * (path_lik c rs 0 data (ls s) t * f t data)) with (wt s t * path_lik c rs 0 data (ls s) t * f t data) by ring. rewrite <- H. ring.
Qed.
Lemma study_total : SumL recs (predictive c rs s) = 1.
Proof.
  unfold predictive. rewrite SumL_Sum_swap. rewrite <- (full_inv_Sum s Hinv). apply Sum_ext. intros i Hi.
  rewrite SumL_scal, sessions_total; [ring|exact (step_len c G)|exact (st_normal _ _ _ _ _ _ _ _ HS)|exact (st_step _ _ _ _ _ _ _ _ HS)|exact (st_valid _ _ _ _ _ _ _ _ HS)|exact Hi].
Qed.
Lemma possible_facts data : In data recs -> predictive c rs s data <> 0 -> full_inv (final c rs s data) /\ n_particles (final c rs s data) = n_particles s.
Proof.
  intros Hin Hp. destruct (st_regular _ _ _ _ _ _ _ _ HS data Hin) as [Z|Z]; [contradiction|].
  destruct (run_regular c rs G (st_threshold _ _ _ _ _ _ _ _ HS) data 0%nat s Hinv Z) as (I1 & I2 & _). now split.
Qed.
Lemma drawn_le f g : (forall t data, In data recs -> predictive c rs s data <> 0 -> (t < n_particles s)%nat -> f t data <= g t data) -> drawn c rs s recs f <= drawn c rs s recs g.
Proof.
  intros H. rewrite !drawn_predictive. apply SumL_le. intros data Hin. destruct (Req_EM_T (predictive c rs s data) 0) as [Z|Z]; [rewrite Z; lra|].
  apply Rmult_le_compat_l; [apply predictive_nonneg|]. apply Sum_le. intros t Hlt. destruct (possible_facts data Hin Z) as [F1 F2]. apply Rmult_le_compat_l; [apply (wt_range _ t F1)|now apply H].
Qed.
Lemma drawn_pointwise (f : nat -> list (O * E) -> R) (g : list (O * E) -> R) :
  (forall data, In data recs -> predictive c rs s data <> 0 -> g data <= Sum (n_particles s) (fun t => wt (final c rs s data) t * f t data)) -> SumL recs (fun data => predictive c rs s data * g data) <= drawn c rs s recs f.
Proof.
  intros H. rewrite drawn_predictive. apply SumL_le. intros data Hin. destruct (Req_EM_T (predictive c rs s data) 0) as [Z|Z]; [rewrite Z; lra|].
  apply Rmult_le_compat_l; [apply predictive_nonneg|now apply H].
Qed.
Lemma SumL_strict (g : list (O * E) -> R) b : (forall data, In data recs -> predictive c rs s data <> 0 -> b < g data) -> b < SumL recs (fun data => predictive c rs s data * g data).
Proof.
  intros H. assert (E0 : b = SumL recs (fun data => predictive c rs s data * b)).
  { rewrite (SumL_ext _ _ (fun data => b * predictive c rs s data)) by (intros; ring). rewrite SumL_scal, study_total. ring. }
  rewrite E0 at 1. destruct (SumL_pos_ex _ _ study_total) as (data & Hin & Hz).
  apply (SumL_lt _ _ _ data Hin).
  - apply Rmult_lt_compat_l; [pose proof (predictive_nonneg data); lra|now apply H].
  - intros d Hd. destruct (Req_EM_T (predictive c rs s d) 0) as [Z|Z]; [rewrite Z; lra|]. apply Rmult_le_compat_l; [apply predictive_nonneg|apply Rlt_le; now apply H].
Qed.
Lemma drawn_error d Q (est : list (O * E) -> loc) :
  drawn c rs s recs (fun t data => squared_error d Q (est data) (at_ (final c rs s data) t)) =
  averaged c rs s recs (fun s' => Sum d (fun j => Q j * particle_cov (ws s') (ls s') j j)) +
  SumL recs (fun data => predictive c rs s data * squared_error d Q (est data) (particle_mean d (ws (final c rs s data)) (ls (final c rs s data)))).
Proof.
  rewrite drawn_predictive. unfold averaged. rewrite <- SumL_plus'. apply SumL_ext. intros data Hin. destruct (Req_EM_T (predictive c rs s data) 0) as [Z|Z]; [rewrite Z; ring|].
  destruct (possible_facts data Hin Z) as [F1 F2]. rewrite <- Rmult_plus_distr_l. f_equal. fold (final c rs s data). set (s' := final c rs s data) in *. unfold squared_error.
  rewrite (Sum_ext _ _ (fun t => Sum d (fun j => Q j * (wt s' t * (nth j (est data) 0 - nth j (at_ s' t) 0) ^ 2)))) by (intros; rewrite <- Sum_scal; apply Sum_ext; intros; ring).
  rewrite Sum_swap, <- Sum_plus. apply Sum_ext. intros j Hj. rewrite Sum_scal, <- Rmult_plus_distr_l. f_equal. rewrite <- F2. rewrite split_error by (now apply full_inv_Sum).
  destruct F1 as [HL _]. rewrite cov_mom, (mean_mom d) by (try assumption). reflexivity.
Qed.
End S.
End Cal.
