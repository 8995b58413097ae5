(** Subadditive homogeneous functions and channels. *)
From Coq Require Import Lia Lra.
From Verif Require Import Base RList Ext Sums SmcModel SmcSpec SmcProofs RiskModel RiskSpec RiskProofs DegSpec.

Lemma SumL_cons {A} (f : A -> R) a l : SumL (a :: l) f = f a + SumL l f. Proof. reflexivity. Qed.
Lemma SumL_nil {A} (f : A -> R) : SumL [] f = 0. Proof. reflexivity. Qed.
Lemma SumL_plus {A} (l : list A) f g : SumL l (fun a => f a + g a) = SumL l f + SumL l g.
Proof. induction l as [|a l IH]; [rewrite !SumL_nil; ring|rewrite !SumL_cons, IH; ring]. Qed.
Lemma SumL_exch {A B} (l : list A) (m : list B) (h : A -> B -> R) : SumL l (fun a => SumL m (fun b => h a b)) = SumL m (fun b => SumL l (fun a => h a b)).
Proof.
  induction l as [|a l IH]; [rewrite SumL_nil; induction m as [|b m IHm]; [reflexivity|rewrite SumL_cons, <- IHm, SumL_nil; ring]|].
  rewrite SumL_cons, IH, <- SumL_plus. reflexivity.
Qed.

Section Sub.
Variable F : R -> R -> R.
Variable C : R -> R -> Prop.
Hypothesis C0 : C 0 0.
Hypothesis Cp : forall a b a' b', C a b -> C a' b' -> C (a + a') (b + b').
Hypothesis Ck : forall k a b, 0 <= k -> C a b -> C (k * a) (k * b).
Hypothesis F0 : F 0 0 = 0.
Hypothesis Fp : forall a b a' b', C a b -> C a' b' -> F (a + a') (b + b') <= F a b + F a' b'.
Hypothesis Fk : forall k a b, 0 <= k -> C a b -> F (k * a) (k * b) = k * F a b.
Lemma sub_list {A} (l : list A) (k a b : A -> R) : (forall o, In o l -> 0 <= k o) -> (forall o, In o l -> C (a o) (b o)) ->
  C (SumL l (fun o => k o * a o)) (SumL l (fun o => k o * b o)) /\ F (SumL l (fun o => k o * a o)) (SumL l (fun o => k o * b o)) <= SumL l (fun o => k o * F (a o) (b o)).
Proof.
  induction l as [|o l IH]; intros Hk Hc; [rewrite !SumL_nil; split; [exact C0|lra]|].
  destruct IH as [I1 I2]; [intros; apply Hk; now right|intros; apply Hc; now right|]. rewrite !SumL_cons.
  assert (H1 : 0 <= k o) by (apply Hk; now left). assert (H2 : C (a o) (b o)) by (apply Hc; now left).
  split; [apply Cp; auto|]. eapply Rle_trans; [apply Fp; auto|]. rewrite Fk by assumption. lra.
Qed.
Lemma sub_channel {A B} (l : list A) (m : list B) (k : A -> B -> R) (a b : A -> R) : (forall o o', In o l -> In o' m -> 0 <= k o o') -> (forall o, In o l -> SumL m (k o) = 1) ->
  (forall o, In o l -> C (a o) (b o)) -> SumL m (fun o' => F (SumL l (fun o => k o o' * a o)) (SumL l (fun o => k o o' * b o))) <= SumL l (fun o => F (a o) (b o)).
Proof.
  intros Hk Hs Hc. apply Rle_trans with (SumL m (fun o' => SumL l (fun o => k o o' * F (a o) (b o)))).
  - apply SumL_le. intros o' Ho'. apply (sub_list l (fun o => k o o') a b); auto.
  - rewrite SumL_exch. apply Req_le. apply SumL_ext. intros o Ho. rewrite (SumL_ext _ _ (fun o' => F (a o) (b o) * k o o')) by (intros; ring). rewrite SumL_scal, Hs by assumption. ring.
Qed.
End Sub.

(** squares over sums *)
Definition sq (a b : R) : R := if Req_EM_T a 0 then 0 else b ^ 2 / a.
Definition sqC (a b : R) : Prop := 0 <= a /\ (a = 0 -> b = 0).
Lemma sq_k k a b : 0 <= k -> sqC a b -> sq (k * a) (k * b) = k * sq a b.
Proof.
  intros Hk [Ha Hb]. unfold sq. destruct (Req_EM_T a 0) as [->|Na]; [rewrite Rmult_0_r; destruct (Req_EM_T 0 0); lra|].
  destruct Hk as [Hk| <-]; [|rewrite Rmult_0_l; destruct (Req_EM_T 0 0); lra]. destruct (Req_EM_T (k * a) 0) as [Z|Z]; [apply Rmult_integral in Z; lra|]. field. split; lra.
Qed.
Lemma sq_plus a b a' b' : sqC a b -> sqC a' b' -> sq (a + a') (b + b') <= sq a b + sq a' b'.
Proof.
  intros [Ha Hb] [Ha' Hb']. unfold sq. destruct (Req_EM_T a 0) as [->|Na].
  - rewrite Hb by reflexivity. rewrite !Rplus_0_l. destruct (Req_EM_T a' 0); lra.
  - destruct (Req_EM_T a' 0) as [->|Na']; [rewrite Hb' by reflexivity; rewrite !Rplus_0_r; destruct (Req_EM_T a 0); lra|]. destruct (Req_EM_T (a + a') 0); [lra|].
    enough (H : b ^ 2 / a + b' ^ 2 / a' - (b + b') ^ 2 / (a + a') = (b * a' - b' * a) ^ 2 / (a * a' * (a + a'))).
    { assert (0 <= (b * a' - b' * a) ^ 2 / (a * a' * (a + a'))); [|lra]. apply Rmult_le_pos; [apply pow2_ge_0|]. left. apply Rinv_0_lt_compat. repeat apply Rmult_lt_0_compat; lra. }
    field. repeat split; lra.
Qed.
(** information terms *)
Definition inf (a b : R) : R := a * ln (a / b).
Definition infC (a b : R) : Prop := 0 <= a /\ 0 <= b /\ (b = 0 -> a = 0).
Lemma inf_k k a b : 0 <= k -> infC a b -> inf (k * a) (k * b) = k * inf a b.
Proof.
  intros Hk (Ha & Hb & Hab). unfold inf. destruct Hk as [Hk| <-]; [|ring]. destruct (Req_EM_T b 0) as [Z|Z]; [rewrite (Hab Z); ring|].
  replace (k * a / (k * b)) with (a / b) by (field; split; lra). ring.
Qed.
Lemma inf_plus a b a' b' : infC a b -> infC a' b' -> inf (a + a') (b + b') <= inf a b + inf a' b'.
Proof.
  intros (Ha & Hb & Hab) (Ha' & Hb' & Hab').
  assert (M : forall x y z, 0 <= x -> 0 <= y -> 0 <= z -> (y = 0 -> x = 0) -> inf x (y + z) <= inf x y).
  { intros x y z Hx Hy Hz Hxy. unfold inf. destruct Hx as [Hx| <-]; [|lra]. assert (Py : 0 < y) by (destruct Hy as [|<-]; [assumption|specialize (Hxy eq_refl); lra]).
    apply Rmult_le_compat_l; [lra|]. destruct Hz as [Hz| <-]; [|rewrite Rplus_0_r; lra]. left. apply ln_increasing; [apply Rdiv_lt_0_compat; lra|]. apply Rmult_lt_compat_l; [assumption|]. apply Rinv_lt_contravar; [apply Rmult_lt_0_compat|]; lra. }
  destruct Ha as [Pa| <-].
  2: { rewrite Rplus_0_l, (Rplus_comm b). unfold inf at 2. rewrite Rmult_0_l, Rplus_0_l. now apply M. }
  destruct Ha' as [Pa'| <-].
  2: { rewrite Rplus_0_r. unfold inf at 3. rewrite Rmult_0_l, Rplus_0_r. apply M; auto; lra. }
  assert (Pb : 0 < b) by (destruct Hb as [|<-]; [assumption|specialize (Hab eq_refl); lra]). assert (Pb' : 0 < b') by (destruct Hb' as [|<-]; [assumption|specialize (Hab' eq_refl); lra]).
  set (A := a + a'). set (B := b + b'). assert (PA : 0 < A) by (unfold A; lra). assert (PB : 0 < B) by (unfold B; lra).
  assert (T : forall x y, 0 < x -> 0 < y -> x * ln (A / B) + (x - y * A / B) <= inf x y).
  { intros x y Hx Hy. unfold inf. pose proof (ln_le_minus1 (A / B * / (x / y)) ltac:(apply Rmult_lt_0_compat; [apply Rdiv_lt_0_compat; assumption|apply Rinv_0_lt_compat, Rdiv_lt_0_compat; assumption])) as H.
    rewrite ln_mult, ln_Rinv in H by (try apply Rinv_0_lt_compat; apply Rdiv_lt_0_compat; assumption).
    assert (H2 : x * (ln (A / B) + - ln (x / y)) <= x * (A / B * / (x / y) - 1)) by (apply Rmult_le_compat_l; lra). replace (x * (A / B * / (x / y) - 1)) with (y * A / B - x) in H2 by (field; repeat split; lra). lra. }
  pose proof (T a b Pa Pb). pose proof (T a' b' Pa' Pb'). unfold inf at 1. assert (Eq : b * A / B + b' * A / B = A) by (unfold B; field; unfold B in PB; lra).
  assert (Q : A * ln (A / B) = a * ln (A / B) + a' * ln (A / B)) by (unfold A; ring). rewrite Q. unfold A in *. lra.
Qed.

Section Deg.
Context {O O' E E' RND RND' : Type}.
Variables (c : @config O E RND) (c' : @config O' E' RND') (s : @state O) (s' : @state O') (os : list O) (os' : list O') (e : E) (e' : E') (K : O -> O' -> R).
Hypothesis Hw : ws s' = ws s.
Hypothesis Hl : ls s' = ls s.
Hypothesis Hnn : Forall (fun x => 0 <= x) (ws s).
Hypothesis Lnn : forall o x, In o os -> In x (ls s) -> 0 <= lik (md c) o x e.
Hypothesis Ch : noisy_version c c' s os os' e e' K.
Let n := n_particles s.
Lemma n_same : n_particles s' = n. Proof. unfold n_particles, n, n_particles. now rewrite Hl. Qed.
Lemma wt_same i : wt s' i = wt s i. Proof. unfold wt. now rewrite Hw. Qed.
Lemma at_same i : at_ s' i = at_ s i. Proof. unfold at_. now rewrite Hl. Qed.
Lemma wt_nn i : 0 <= wt s i.
Proof. unfold wt. destruct (Nat.lt_ge_cases i (length (ws s))) as [H|H]; [apply (proj1 (Forall_forall _ _) Hnn); now apply nth_In|rewrite nth_overflow by assumption; lra]. Qed.
Lemma at_in i : (i < n)%nat -> In (at_ s i) (ls s). Proof. intros H. now apply nth_In. Qed.
Lemma joint_channel o' i : In o' os' -> (i < n)%nat -> wt s' i * lik (md c') o' (at_ s' i) e' = SumL os (fun o => K o o' * (wt s i * lik (md c) o (at_ s i) e)).
Proof.
  intros Ho Hi. rewrite wt_same, at_same. destruct Ch as (_ & _ & H). rewrite H by (try assumption; now apply at_in). rewrite <- SumL_scal. apply SumL_ext. intros; ring.
Qed.
Lemma sum_channel o' (g : nat -> R) : In o' os' -> Sum n (fun i => wt s' i * lik (md c') o' (at_ s' i) e' * g i) = SumL os (fun o => K o o' * Sum n (fun i => wt s i * lik (md c) o (at_ s i) e * g i)).
Proof.
  intros Ho. rewrite (Sum_ext _ _ (fun i => SumL os (fun o => K o o' * (wt s i * lik (md c) o (at_ s i) e) * g i))).
  2: { intros i Hi. rewrite joint_channel by assumption. rewrite Rmult_comm, <- SumL_scal. apply SumL_ext. intros; ring. }
  rewrite <- SumL_Sum_swap. apply SumL_ext. intros o _. rewrite <- Sum_scal. apply Sum_ext. intros; ring.
Qed.
Lemma evidence_channel o' : In o' os' -> evidence c' s' o' e' = SumL os (fun o => K o o' * evidence c s o e).
Proof.
  intros Ho. unfold evidence. rewrite n_same. rewrite (Sum_ext _ _ (fun i => wt s' i * lik (md c') o' (at_ s' i) e' * 1)) by (intros; ring). rewrite sum_channel by assumption.
  apply SumL_ext. intros o _. f_equal. apply Sum_ext. intros; ring.
Qed.
Lemma joint_nn o i : In o os -> (i < n)%nat -> 0 <= wt s i * lik (md c) o (at_ s i) e.
Proof. intros Ho Hi. apply Rmult_le_pos; [apply wt_nn|apply Lnn; [assumption|now apply at_in]]. Qed.
Lemma evidence_zero o i : In o os -> evidence c s o e = 0 -> (i < n)%nat -> wt s i * lik (md c) o (at_ s i) e = 0.
Proof.
  intros Ho Z Hi. destruct (joint_nn o i Ho Hi) as [P|P]; [|now symmetry]. exfalso. assert (Q : wt s i * lik (md c) o (at_ s i) e <= evidence c s o e); [|lra].
  unfold evidence. fold n. clear P Z. 
  assert (G : forall m f, (i < m)%nat -> (forall k, (k < m)%nat -> 0 <= f k) -> f i <= Sum m f).
  { clear. intros m. revert i. induction m as [|m IH]; intros i f Hi Hf; [lia|]. rewrite Sum_S. destruct i as [|i].
    - assert (0 <= Sum m (fun i => f (S i))) by (apply Sum_nonneg; intros; apply Hf; lia). lra.
    - assert (0 <= f 0%nat) by (apply Hf; lia). assert (f (S i) <= Sum m (fun i => f (S i))) by (apply (IH i (fun i => f (S i))); [lia|intros; apply Hf; lia]). lra. }
  apply (G n (fun i => wt s i * lik (md c) o (at_ s i) e) Hi). intros; now apply joint_nn.
Qed.

Theorem information_degrades : mutual_information c' s' os' e' <= mutual_information c s os e.
Proof.
  unfold mutual_information. rewrite n_same. fold n.
  rewrite SumL_Sum_swap, SumL_Sum_swap. apply Sum_le. intros i Hi. cbv zeta.
  apply Rle_trans with (SumL os' (fun o' => inf (SumL os (fun o => K o o' * (wt s i * lik (md c) o (at_ s i) e))) (SumL os (fun o => K o o' * (wt s i * evidence c s o e))))).
  - apply Req_le, SumL_ext. intros o' Ho'. unfold inf. rewrite joint_channel, evidence_channel, wt_same by assumption. do 3 f_equal. rewrite <- SumL_scal. apply SumL_ext. intros; ring.
  - destruct Ch as (K1 & K2 & _). apply (sub_channel inf infC); auto.
    + repeat split; lra.
    + intros a b a' b' (A1 & A2 & A3) (B1 & B2 & B3). split; [lra|split; [lra|]]. intros Z. rewrite A3, B3; lra.
    + intros k a b Hk (A1 & A2 & A3). split; [now apply Rmult_le_pos|split; [now apply Rmult_le_pos|]]. intros Z. apply Rmult_integral in Z. destruct Z as [->|Z]; [ring|rewrite (A3 Z); ring].
    + unfold inf; ring.
    + exact inf_plus.
    + exact inf_k.
    + intros o Ho. assert (N1 := joint_nn o i Ho Hi). assert (N2 : 0 <= evidence c s o e) by (apply Sum_nonneg; intros; now apply joint_nn). pose proof (wt_nn i). split; [assumption|split; [now apply Rmult_le_pos|]].
      intros Z. apply Rmult_integral in Z. destruct Z as [Z|Z]; [rewrite Z; ring|now apply evidence_zero].
Qed.

End Deg.

(** evidence times posterior variance *)
Lemma weighted_variance {O E RND} (c : @config O E RND) (s : @state O) o e (x : nat -> R) : (forall i, (i < n_particles s)%nat -> 0 <= wt s i * lik (md c) o (at_ s i) e) ->
  evidence c s o e * variance (n_particles s) (posterior c s o e) x =
  Sum (n_particles s) (fun i => wt s i * lik (md c) o (at_ s i) e * x i ^ 2) - sq (evidence c s o e) (Sum (n_particles s) (fun i => wt s i * lik (md c) o (at_ s i) e * x i)).
Proof.
  intros Hnn. set (n := n_particles s). set (j := fun i => wt s i * lik (md c) o (at_ s i) e) in *. change (evidence c s o e) with (Sum n j).
  unfold sq. destruct (Req_EM_T (Sum n j) 0) as [Z|Z].
  - rewrite Z. assert (J : forall i, (i < n)%nat -> j i = 0).
    { change (forall i, (i < n)%nat -> 0 <= j i) in Hnn. clear -Z Hnn. clearbody n j. revert j Z Hnn. induction n as [|m IH]; intros j Z Hnn i Hi; [lia|]. rewrite Sum_S in Z. assert (0 <= j 0%nat) by (apply Hnn; lia).
      assert (0 <= Sum m (fun i => j (S i))) by (apply Sum_nonneg; intros; apply Hnn; lia). destruct i as [|i]; [lra|]. apply (IH (fun i => j (S i))); [lra|intros; apply Hnn; lia|lia]. }
    rewrite (Sum_zero n (fun i => wt s i * lik (md c) o (at_ s i) e * x i ^ 2)); [ring|]. intros i Hi. fold (j i). rewrite J by assumption. ring.
  - set (N := Sum n j) in *. unfold variance. set (m1 := Sum n (fun i => j i * x i)). assert (P : forall i, posterior c s o e i = j i / N) by reflexivity.
    assert (M : Sum n (fun k => posterior c s o e k * x k) = m1 / N).
    { unfold m1, Rdiv. rewrite (Rmult_comm _ (/ N)), <- Sum_scal. apply Sum_ext. intros i _. rewrite P. unfold Rdiv. ring. }
    rewrite M. rewrite (Sum_ext n _ (fun i => / N * (j i * x i ^ 2 - 2 * (m1 / N) * (j i * x i) + (m1 / N) ^ 2 * j i))) by (intros i _; rewrite P; unfold Rdiv; ring).
    rewrite Sum_scal, Sum_plus, Sum_minus, !Sum_scal. fold m1. fold N. change (Sum n (fun i => wt s i * lik (md c) o (at_ s i) e * x i ^ 2)) with (Sum n (fun i => j i * x i ^ 2)). change (Sum n (fun i => wt s i * lik (md c) o (at_ s i) e * x i)) with m1. field. exact Z.
Qed.

Lemma variance_degrades {O O' E E' RND RND'} (c : @config O E RND) (c' : @config O' E' RND') (s : @state O) (s' : @state O') os os' e e' K (x : nat -> R) :
  ws s' = ws s -> ls s' = ls s -> Forall (fun x => 0 <= x) (ws s) -> (forall o x, In o os -> In x (ls s) -> 0 <= lik (md c) o x e) -> noisy_version c c' s os os' e e' K ->
  SumL os (fun o => evidence c s o e * variance (n_particles s) (posterior c s o e) x) <= SumL os' (fun o' => evidence c' s' o' e' * variance (n_particles s') (posterior c' s' o' e') x).
Proof.
  intros Hw Hl Hnn Lnn Ch. set (n := n_particles s). assert (En : n_particles s' = n) by (now apply n_same).
  set (j := fun o i => wt s i * lik (md c) o (at_ s i) e). set (j' := fun o' i => wt s' i * lik (md c') o' (at_ s' i) e').
  assert (J : forall o i, In o os -> (i < n)%nat -> 0 <= j o i) by (intros; apply (joint_nn c s os e Hnn Lnn); assumption).
  assert (J' : forall o' i, In o' os' -> (i < n)%nat -> 0 <= j' o' i).
  { intros o' i Ho' Hi. unfold j'. rewrite (joint_channel c c' s s' os os' e e' K Hw Hl Ch) by assumption. apply SumL_nonneg. intros o Ho. apply Rmult_le_pos; [now apply Ch|now apply J]. }
  rewrite (SumL_ext os _ (fun o => Sum n (fun i => j o i * x i ^ 2) + - sq (evidence c s o e) (Sum n (fun i => j o i * x i)))) by (intros o Ho; unfold n; rewrite weighted_variance by (intros; now apply J); fold n; unfold Rminus; reflexivity).
  rewrite (SumL_ext os' _ (fun o' => Sum n (fun i => j' o' i * x i ^ 2) + - sq (evidence c' s' o' e') (Sum n (fun i => j' o' i * x i)))) by (intros o' Ho'; rewrite weighted_variance by (rewrite En; intros; now apply J'); rewrite En; unfold Rminus; reflexivity).
  rewrite !SumL_plus.
  assert (Q2 : SumL os' (fun o' => Sum n (fun i => j' o' i * x i ^ 2)) = SumL os (fun o => Sum n (fun i => j o i * x i ^ 2))).
  { rewrite (SumL_ext os' _ (fun o' => SumL os (fun o => K o o' * Sum n (fun i => j o i * x i ^ 2)))) by (intros o' Ho'; apply (sum_channel c c' s s' os os' e e' K Hw Hl Ch o' (fun i => x i ^ 2) Ho')).
    rewrite SumL_exch. apply SumL_ext. intros o Ho. rewrite (SumL_ext _ _ (fun o' => Sum n (fun i => j o i * x i ^ 2) * K o o')) by (intros; ring). rewrite SumL_scal. destruct Ch as (_ & K2 & _). rewrite K2 by assumption. ring. }
  rewrite Q2. apply Rplus_le_compat_l. 
  rewrite (SumL_ext os _ (fun o => -1 * sq (evidence c s o e) (Sum n (fun i => j o i * x i)))) by (intros; ring). rewrite (SumL_ext os' _ (fun o => -1 * sq (evidence c' s' o e') (Sum n (fun i => j' o i * x i)))) by (intros; ring). rewrite !SumL_scal.
  enough (SumL os' (fun o' => sq (evidence c' s' o' e') (Sum n (fun i => j' o' i * x i))) <= SumL os (fun o => sq (evidence c s o e) (Sum n (fun i => j o i * x i)))) by lra.
  rewrite (SumL_ext os' _ (fun o' => sq (SumL os (fun o => K o o' * evidence c s o e)) (SumL os (fun o => K o o' * Sum n (fun i => j o i * x i))))).
  2: { intros o' Ho'. f_equal; [now apply (evidence_channel c c' s s' os os' e e' K)|apply (sum_channel c c' s s' os os' e e' K Hw Hl Ch o' x Ho')]. }
  destruct Ch as (K1 & K2 & _). apply (sub_channel sq sqC); auto.
  - split; [lra|reflexivity].
  - intros a b a' b' (A1 & A2) (B1 & B2). split; [lra|]. intros Z. rewrite A2, B2; lra.
  - intros k a b Hk (A1 & A2). split; [now apply Rmult_le_pos|]. intros Z. apply Rmult_integral in Z. destruct Z as [->|Z]; [ring|rewrite (A2 Z); ring].
  - unfold sq. destruct (Req_EM_T 0 0); lra.
  - exact sq_plus.
  - exact sq_k.
  - intros o Ho. split; [apply Sum_nonneg; intros; now apply J|]. intros Z. apply Sum_zero. intros i Hi. unfold j. rewrite (evidence_zero c s os e Hnn Lnn o i Ho Z Hi). ring.
Qed.

Lemma loss_swap {O E RND} (c : @config O E RND) Q s os e : expected_posterior_loss c Q s os e = Sum (length Q) (fun j => nth j Q 0 * SumL os (fun o => evidence c s o e * variance (n_particles s) (posterior c s o e) (fun i => nth j (at_ s i) 0))).
Proof.
  unfold expected_posterior_loss, loss. rewrite (SumL_ext os _ (fun o => Sum (length Q) (fun j => nth j Q 0 * (evidence c s o e * variance (n_particles s) (posterior c s o e) (fun i => nth j (at_ s i) 0))))).
  - rewrite SumL_Sum_swap. apply Sum_ext. intros j _. now rewrite SumL_scal.
  - intros o _. rewrite <- Sum_scal. apply Sum_ext. intros; ring.
Qed.

Theorem loss_degrades {O O' E E' RND RND'} (c : @config O E RND) (c' : @config O' E' RND') Q (s : @state O) (s' : @state O') os os' e e' K :
  Forall (fun x => 0 <= x) Q -> ws s' = ws s -> ls s' = ls s -> Forall (fun x => 0 <= x) (ws s) -> (forall o x, In o os -> In x (ls s) -> 0 <= lik (md c) o x e) -> noisy_version c c' s os os' e e' K ->
  expected_posterior_loss c Q s os e <= expected_posterior_loss c' Q s' os' e'.
Proof.
  intros HQ Hw Hl Hnn Lnn Ch. rewrite !loss_swap. apply Sum_le. intros j Hj. apply Rmult_le_compat_l; [apply (proj1 (Forall_forall _ _) HQ); now apply nth_In|].
  eapply Rle_trans; [now apply (variance_degrades c c' s s' os os' e e' K)|]. apply Req_le, SumL_ext. intros o' _. f_equal. unfold variance, at_. now rewrite Hl.
Qed.

Lemma Sum_pick n a (f : nat -> R) : Sum n (fun k => if Nat.eqb k a then f k else 0) = if (a <? n)%nat then f a else 0.
Proof.
  revert a f. induction n as [|n IH]; intros a f; [reflexivity|]. rewrite Sum_S. destruct a as [|a].
  - cbn [Nat.eqb]. rewrite Sum_zero by reflexivity. cbn. ring.
  - cbn [Nat.eqb]. rewrite (IH a (fun k => f (S k))). change (S a <? S n)%nat with (a <? n)%nat. ring.
Qed.
