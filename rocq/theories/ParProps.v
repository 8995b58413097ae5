(** Properties C57 to C59: parallel and accelerated execution. *)
From Verif Require Import Base RList Ext TwoModel ParModel ParProofs.

(** A likelihood array computed entry by entry, as the Model interface prescribes. *)
Definition entrywise {O M E A} (f : O -> M -> E -> A) (os : list O) (mps : list M) (eps : list E) : tensor A :=
  T (length os) (length mps) (length eps) (map (fun o => map (fun m => map (fun e => f o m e) eps) mps) os).

Lemma f_equal4_T {A} a b c (x : list (list (list A))) a' b' c' x' : a = a' -> b = b' -> c = c' -> x = x' -> T a b c x = T a' b' c' x'. Proof. now intros -> -> -> ->. Qed.
(** C57 *)
Theorem c57_parallel_equals_serial {O M E} (f : O -> M -> E -> R) k thr order os mps eps : (0 < k)%nat -> Permutation order (seq 0 k) ->
  par_likelihood (entrywise f) (Some k) thr order os mps eps = Ok (entrywise f os mps eps).
Proof.
  intros Hk P. unfold par_likelihood. destruct (Z.of_nat (length mps) <=? thr)%Z; [reflexivity|]. destruct (array_split_spec mps k Hk) as (chunks & -> & Hc & Hcat & _). cbn [bind].
  rewrite map_sync_any_order by (now rewrite Hc). rewrite map2_const_l by (now rewrite seq_length).
  assert (Hne : chunks <> []) by (destruct chunks; cbn in Hc; [lia|discriminate]).
  unfold concat_axis1. destruct (map (fun c => entrywise f os c eps) chunks) as [|t ts] eqn:Em; [destruct chunks; [now destruct Hne|discriminate]|]. rewrite <- Em.
  assert (Et : dim0 t = length os /\ dim2 t = length eps). { destruct chunks as [|c cs]; [discriminate|]. cbn in Em. injection Em as <- _. split; reflexivity. }
  destruct Et as [E0 E2]. rewrite E0, E2.
  assert (Fb : forallb (fun u => Nat.eqb (dim0 u) (length os) && Nat.eqb (dim2 u) (length eps)) (map (fun c => entrywise f os c eps) chunks) = true).
  { apply forallb_forall. intros u Hu. apply in_map_iff in Hu. destruct Hu as (c & <- & _). cbn. now rewrite !Nat.eqb_refl. }
  rewrite Fb. f_equal. apply f_equal4_T; try reflexivity.
  - rewrite map_map. cbn [dim1 entrywise]. rewrite <- Hcat. clear. induction chunks as [|c cs IH]; [reflexivity|]. cbn. rewrite app_length. unfold total_nat in *. cbn. now rewrite IH.
  - rewrite <- Hcat. apply (nth_ext _ _ [] []); [now rewrite !map_length, seq_length|]. intros i Hi. rewrite map_length, seq_length in Hi.
    rewrite (nth_indep _ [] ((fun i => concat (map (fun u => nth i (cells u) []) (map (fun c => entrywise f os c eps) chunks))) 0%nat)) by (now rewrite map_length, seq_length).
    rewrite (map_nth (fun i => concat (map (fun u => nth i (cells u) []) (map (fun c => entrywise f os c eps) chunks)))), seq_nth by assumption. cbn [Nat.add].
    destruct (nth_error os i) as [o|] eqn:Eo; [|apply nth_error_None in Eo; lia].
    rewrite (nth_error_nth (map (fun o => map (fun m => map (fun e => f o m e) eps) (concat chunks)) os) i [] (x := map (fun m => map (fun e => f o m e) eps) (concat chunks))) by (now rewrite nth_error_map, Eo).
    rewrite concat_map, map_map. f_equal. apply map_ext. intros c. cbn [cells entrywise]. apply nth_error_nth. now rewrite nth_error_map, Eo.
Qed.
(** Serial below the threshold for any model whatever, with or without engines; otherwise a missing or empty view is an error. *)
Theorem c57_serial_branch {O M E} (serial : list O -> list M -> list E -> tensor R) dv thr order os mps eps : (Z.of_nat (length mps) <= thr)%Z -> par_likelihood serial dv thr order os mps eps = Ok (serial os mps eps).
Proof. intros H. unfold par_likelihood. destruct (Z.leb_spec (Z.of_nat (length mps)) thr); [reflexivity|lia]. Qed.
Theorem c57_no_view {O M E} (serial : list O -> list M -> list E -> tensor R) thr order os mps eps : (thr < Z.of_nat (length mps))%Z ->
  par_likelihood serial None thr order os mps eps = Err RuntimeError /\ par_likelihood serial (Some 0%nat) thr order os mps eps = Err ValueError.
Proof. intros H. unfold par_likelihood. destruct (Z.leb_spec (Z.of_nat (length mps)) thr); [lia|]. split; reflexivity. Qed.
(** An engine that does not deliver makes the call fail: no result leaves out model parameters. *)
Lemma collect_length {B} (slots : list (option B)) l : collect slots = Some l -> forall j, (j < length slots)%nat -> nth_error slots j <> Some None.
Proof.
  revert l; induction slots as [|[b|] s IH]; intros l H j Hj; cbn in *; [lia| |discriminate]. destruct (collect s) as [r|] eqn:E; [|discriminate]. destruct j as [|j]; [discriminate|]. cbn. apply (IH r eq_refl). lia.
Qed.
Theorem c57_lost_engine {O M E} (serial : list O -> list M -> list E -> tensor R) k thr order os mps eps j : (thr < Z.of_nat (length mps))%Z -> (j < k)%nat -> ~ In j order ->
  par_likelihood serial (Some k) thr order os mps eps = Err RuntimeError.
Proof.
  intros Ht Hj Hn. unfold par_likelihood. destruct (Z.leb_spec (Z.of_nat (length mps)) thr); [lia|]. destruct (array_split_spec mps k ltac:(lia)) as (chunks & -> & Hc & _). cbn [bind].
  destruct (map_sync order (fun _ c => serial os c eps) chunks) as [l|] eqn:Em; [exfalso|reflexivity]. unfold map_sync in Em.
  assert (G : forall slots, length slots = k -> nth_error slots j = Some None -> let s' := fold_left (fun slots i => match nth_error chunks i with Some a => write i (serial os a eps) slots | None => slots end) order slots in length s' = k /\ nth_error s' j = Some None).
  { clear Em. induction order as [|i order IH]; intros slots Hs Hnj; cbn [fold_left]; [now split|]. apply IH; [intros X; apply Hn; now right| |].
    - destruct (nth_error chunks i); [now rewrite write_length|assumption].
    - destruct (nth_error chunks i) as [a|] eqn:Ei; [|assumption]. assert (i < length chunks)%nat by (apply nth_error_Some; congruence). rewrite write_nth by lia. destruct (Nat.eqb_spec j i) as [->|]; [exfalso; apply Hn; now left|assumption]. }
  destruct (G (repeat None (length chunks))) as [L N]; [now rewrite repeat_length|rewrite nth_error_repeat by lia; reflexivity|]. cbv zeta in L, N. apply (collect_length _ _ Em j); [lia|exact N].
Qed.
Theorem c57_default_threshold k : threshold (Some k) None = (10 * Z.of_nat k)%Z /\ threshold None None = 0%Z /\ forall dv t, threshold dv (Some t) = t.
Proof. repeat split. Qed.
(** The split itself: contiguous, nothing lost, sizes differing by at most one. *)
Theorem c57_even_split {A} (l : list A) k chunks : (0 < k)%nat -> array_split l k = Ok chunks ->
  length chunks = k /\ concat chunks = l /\ forall c, In c chunks -> length c = (length l / k)%nat \/ length c = S (length l / k).
Proof.
  intros Hk H. destruct (array_split_spec l k Hk) as (ch & E & L & C & S). rewrite E in H. injection H as <-. split; [assumption|]. split; [assumption|]. intros c Hc. apply (in_map (@length A)) in Hc. rewrite S in Hc. unfold section_sizes in Hc.
  apply in_app_or in Hc. destruct Hc as [Hc|Hc]; apply repeat_spec in Hc; auto.
Qed.
Example c57_example : par_likelihood (entrywise (fun o m e => INR (o + 10 * m + 100 * e))) (Some 2%nat) 1 [1; 0]%nat [0; 1]%nat [1; 2; 3]%nat [5]%nat
  = Ok (entrywise (fun o m e => INR (o + 10 * m + 100 * e)) [0; 1]%nat [1; 2; 3]%nat [5]%nat).
Proof. apply c57_parallel_equals_serial; [lia|]. apply perm_swap. Qed.

(** C58: the shapes of serial simulations. *)
Definition sim_shape {M E} (sim : nat -> list M -> list E -> nat -> sim_result) : Prop := forall i mps eps r,
  match sim i mps eps r with
  | SScalar _ => r = 1%nat /\ length mps = 1%nat /\ length eps = 1%nat
  | STensor t => dim0 t = r /\ dim1 t = length mps /\ dim2 t = length eps
  end.
(** Below the threshold the serial simulation is returned; without engines the call fails. *)
Theorem c58_serial_branch_partial {M E} (sim : nat -> list M -> list E -> nat -> sim_result) k thr order mps eps r (by_models : bool) :
  (Z.of_nat (if by_models then length mps else length eps) <= thr)%Z -> par_simulate sim (Some k) thr order mps eps r by_models = Ok (sim 0%nat mps eps r).
Proof. intros H. unfold par_simulate. destruct by_models; apply Z.leb_le in H; rewrite H; reflexivity. Qed.
Theorem c58_no_view {M E} (sim : nat -> list M -> list E -> nat -> sim_result) thr order mps eps r by_models : par_simulate sim None thr order mps eps r by_models = Err RuntimeError.
Proof. reflexivity. Qed.
Lemma tensors_Ok l ts : tensors l = Ok ts -> l = map STensor ts.
Proof. revert ts; induction l as [|[z|t] l IH]; intros ts H; cbn in H; [now injection H as <-|discriminate|]. destruct (tensors l) as [r|]; [|discriminate]. cbn in H. injection H as <-. cbn. now rewrite (IH r eq_refl). Qed.
Lemma Forall_dims {A} (P : tensor A -> Prop) ts : Forall P ts -> forall t, In t ts -> P t. Proof. apply Forall_forall. Qed.
(** One engine above the threshold: correct. *)
Theorem c58_one_engine {M E} (sim : nat -> list M -> list E -> nat -> sim_result) thr mps eps r (by_models : bool) t : sim_shape sim -> (thr < Z.of_nat (if by_models then length mps else length eps))%Z ->
  sim 1%nat mps eps r = STensor t -> (forall i, length (nth i (cells t) []) = length mps) -> length (cells t) = r -> exists t', par_simulate sim (Some 1%nat) thr [0%nat] mps eps r by_models = Ok (STensor t') /\ t' = t.
Proof.
  intros Hs Ht E0 Hl Hc. pose proof (Hs 1%nat mps eps r) as S. rewrite E0 in S. destruct S as (S0 & S1 & S2). assert (Sp : forall A (l : list A), array_split l 1 = Ok [l]).
  { intros A l. unfold array_split, section_sizes. rewrite Nat.mod_1_r, Nat.div_1_r. cbn. now rewrite firstn_all. }
  exists t. split; [|reflexivity]. unfold par_simulate. destruct by_models; (match goal with |- context [(?a <=? thr)%Z] => destruct (Z.leb_spec a thr); [lia|] end); rewrite Sp; cbn [bind]; unfold map_sync; cbn; rewrite E0; cbn; rewrite !Nat.eqb_refl; cbn; f_equal; f_equal; destruct t as [d0 d1 d2 c]; cbn in *.
  - unfold total_nat. cbn. rewrite app_nil_r, Nat.add_0_r. reflexivity.
  - unfold total_nat. cbn. rewrite Nat.add_0_r. f_equal. subst. rewrite (map_ext _ (fun i => nth i c [])) by (intros; apply app_nil_r). clear. induction c as [|x c IH]; [reflexivity|]. cbn. f_equal. rewrite <- seq_shift, map_map. exact IH.
Qed.
(** Two or more engines, split over models: whatever is returned has [k * repeat] rows in the repetition axis and too few models. *)
Theorem c58_split_by_models_refuted {M E} (sim : nat -> list M -> list E -> nat -> sim_result) k thr order mps eps r t : sim_shape sim -> (2 <= k)%nat -> Permutation order (seq 0 k) -> (thr < Z.of_nat (length mps))%Z -> (0 < length mps)%nat -> (0 < r)%nat ->
  par_simulate sim (Some k) thr order mps eps r true = Ok (STensor t) ->
  dim0 t = (k * r)%nat /\ (k * dim1 t = length mps)%nat /\ dim2 t = length eps /\ dim0 t <> r /\ dim1 t <> length mps.
Proof.
  intros Hs Hk P Ht Hm Hr H. unfold par_simulate in H. destruct (Z.leb_spec (Z.of_nat (length mps)) thr); [lia|]. destruct (array_split_spec mps k ltac:(lia)) as (chunks & Ec & Lc & Cc & Sc). rewrite Ec in H. cbn [bind] in H.
  rewrite map_sync_any_order in H by (now rewrite Lc). destruct (tensors _) as [ts|] eqn:Et in H; [|discriminate]. cbn [bind] in H. apply tensors_Ok in Et.
  assert (D : Forall2 (fun c t => dim0 t = r /\ dim1 t = length c /\ dim2 t = length eps) chunks ts).
  { clear -Et Hs. revert Et. generalize 0%nat at 1. revert ts. induction chunks as [|c cs IH]; intros [|u ts] s Et; cbn in Et; try discriminate; [constructor|]. injection Et as E1 E2. constructor; [|eapply IH; exact E2]. pose proof (Hs (S s) c eps r) as S. now rewrite E1 in S. }
  destruct (concat_axis0 ts) as [t'|] eqn:E0; [|discriminate]. injection H as <-. unfold concat_axis0 in E0. destruct ts as [|t0 ts']; [discriminate|]. set (ts := t0 :: ts') in *.
  destruct (forallb _ ts) eqn:Ef; [|discriminate]. injection E0 as <-. cbn [dim0 dim1 dim2]. rewrite forallb_forall in Ef.
  assert (L : length ts = k). { rewrite <- Lc. symmetry. clear -D. induction D; cbn; auto. }
  assert (S0 : total_nat (map dim0 ts) = (k * r)%nat). { rewrite <- L. clear -D. induction D as [|c u cs us (H & _) D IH]; [reflexivity|]. unfold total_nat in *. cbn. lia. }
  assert (S1 : (k * dim1 t0 = length mps)%nat).
  { rewrite <- Cc, <- L. assert (Q : forall u, In u ts -> dim1 u = dim1 t0) by (intros u Hu; specialize (Ef u Hu); apply andb_true_iff in Ef; destruct Ef as [Ef _]; now apply Nat.eqb_eq in Ef).
    clear -D Q. induction D as [|c u cs us (_ & H & _) D IH]; [reflexivity|]. cbn. rewrite app_length, <- H, <- IH by (intros; apply Q; now right). rewrite (Q u) by (now left). lia. }
  assert (S2 : dim2 t0 = length eps) by (inversion D; subst; tauto).
  split; [exact S0|]. split; [exact S1|]. split; [exact S2|]. split; [|nia]. intros Q. assert (k * r = r)%nat by (rewrite <- S0; exact Q). nia.
Qed.
(** What these arrays contain: the blocks of the engines one after the other, in the order of the engines. *)
Theorem c58_split_by_models_blocks {M E} (sim : nat -> list M -> list E -> nat -> sim_result) k thr order mps eps r t : (1 <= k)%nat -> Permutation order (seq 0 k) -> (thr < Z.of_nat (length mps))%Z ->
  par_simulate sim (Some k) thr order mps eps r true = Ok (STensor t) ->
  exists chunks ts, array_split mps k = Ok chunks /\ length ts = k /\ (forall i, (i < k)%nat -> exists u, nth_error ts i = Some u /\ sim (S i) (nth i chunks []) eps r = STensor u) /\
    forall i q, (i < k)%nat -> (forall u, In u ts -> length (cells u) = r) -> (q < r)%nat -> nth (i * r + q) (cells t) [] = nth q (cells (nth i ts t)) [].
Proof.
  intros Hk P Ht H. unfold par_simulate in H. destruct (Z.leb_spec (Z.of_nat (length mps)) thr); [lia|]. destruct (array_split_spec mps k ltac:(lia)) as (chunks & Ec & Lc & Cc & Sc). rewrite Ec in H. cbn [bind] in H.
  rewrite map_sync_any_order in H by (now rewrite Lc). destruct (tensors _) as [ts|] eqn:Et in H; [|discriminate]. cbn [bind] in H. apply tensors_Ok in Et.
  destruct (concat_axis0 ts) as [t'|] eqn:E0; [|discriminate]. injection H as <-. exists chunks, ts. split; [assumption|].
  assert (L : length ts = k). { apply (f_equal (@length _)) in Et. rewrite map_length, map2_length, seq_length, Lc in Et by (now rewrite seq_length). lia. }
  split; [assumption|]. split.
  - intros i Hi. destruct (nth_error ts i) as [u|] eqn:Eu; [|apply nth_error_None in Eu; lia]. exists u. split; [reflexivity|]. apply (f_equal (fun l => nth_error l i)) in Et. rewrite nth_error_map, Eu in Et. cbn in Et.
    assert (X : forall (l : list (list M)) s i, (i < length l)%nat -> nth_error (map2 (fun i0 c => sim (S i0) c eps r) (seq s (length l)) l) i = Some (sim (S (s + i)) (nth i l []) eps r)).
    { clear. induction l as [|c l IH]; intros s i Hi; [cbn in Hi; lia|]. destruct i as [|i]; cbn; [now rewrite Nat.add_0_r|]. cbn in Hi. rewrite IH by lia. do 3 f_equal. lia. }
    rewrite X in Et by lia. now injection Et.
  - intros i q Hi Hc Hq. unfold concat_axis0 in E0. destruct ts as [|t0 ts'] eqn:Ets; [discriminate|]. rewrite <- Ets in *. destruct (forallb _ _) in E0; [|discriminate]. injection E0 as <-. cbn [cells]. clear Ets Et.
    assert (X : forall d, nth (i * r + q) (concat (map cells ts)) [] = nth q (cells (nth i ts d)) []); [|apply X]. intros d.
    rewrite <- L in Hi. clear -Hi Hc Hq. revert i Hi. induction ts as [|u ts IH]; intros i Hi; [cbn in Hi; lia|]. cbn [map concat]. pose proof (Hc u (or_introl eq_refl)) as Hu. destruct i as [|i]; cbn [nth].
    + cbn. rewrite app_nth1 by lia. reflexivity.
    + rewrite app_nth2 by (cbn; lia). rewrite <- IH by (cbn in Hi; try lia; intros; apply Hc; now right). f_equal. cbn. lia.
Qed.
(** Sizes that do not divide evenly raise instead. *)
Theorem c58_uneven_split_refuted {M E} (sim : nat -> list M -> list E -> nat -> sim_result) k thr order mps eps r : sim_shape sim -> (2 <= k)%nat -> Permutation order (seq 0 k) -> (thr < Z.of_nat (length mps))%Z -> (0 < r)%nat -> (length mps mod k <> 0)%nat ->
  par_simulate sim (Some k) thr order mps eps r true = Err ValueError.
Proof.
  intros Hs Hk P Ht Hr Hmod. destruct (par_simulate sim (Some k) thr order mps eps r true) as [[z|t]|e] eqn:H.
  - exfalso. unfold par_simulate in H. destruct (Z.leb_spec (Z.of_nat (length mps)) thr); [lia|]. destruct (array_split_spec mps k ltac:(lia)) as (chunks & Ec & Lc & _). rewrite Ec in H. cbn [bind] in H. rewrite map_sync_any_order in H by (now rewrite Lc). destruct (tensors _) in H; [|discriminate]. cbn [bind] in H. destruct (concat_axis0 a) in H; discriminate.
  - exfalso. assert (Hm : (0 < length mps)%nat) by (destruct mps; [rewrite Nat.mod_0_l in Hmod by lia; now destruct Hmod|cbn; lia]). destruct (c58_split_by_models_refuted sim k thr order mps eps r t Hs Hk P Ht Hm Hr H) as (_ & Q & _). rewrite <- Q, Nat.mul_comm, Nat.mod_mul in Hmod by lia. now destruct Hmod.
  - f_equal. unfold par_simulate in H. destruct (Z.leb_spec (Z.of_nat (length mps)) thr); [lia|]. destruct (array_split_spec mps k ltac:(lia)) as (chunks & Ec & Lc & _). rewrite Ec in H. cbn [bind] in H. rewrite map_sync_any_order in H by (now rewrite Lc).
    assert (TV : forall l e', tensors l = Err e' -> e' = ValueError). { clear. induction l as [|[z|t] l IH]; intros e' H; cbn in H; [discriminate|congruence|]. destruct (tensors l) as [ts|e2]; cbn in H; [discriminate|]. injection H as <-. now apply IH. }
    destruct (tensors _) as [ts|e'] eqn:Et in H; [|cbn in H; injection H as <-; now apply TV in Et]. cbn [bind] in H. unfold concat_axis0 in H. destruct ts as [|t0 ts]; [now injection H as <-|]. destruct (forallb _ _) in H; [discriminate|now injection H as <-].
Qed.
(** Split over experiments: the experiments are laid out along the model axis. *)
Theorem c58_split_by_experiments_refuted {M E} (sim : nat -> list M -> list E -> nat -> sim_result) k thr order mps eps r t : sim_shape sim -> (2 <= k)%nat -> Permutation order (seq 0 k) -> (thr < Z.of_nat (length eps))%Z -> (0 < length eps)%nat -> (0 < length mps)%nat ->
  par_simulate sim (Some k) thr order mps eps r false = Ok (STensor t) ->
  dim1 t = (k * length mps)%nat /\ (k * dim2 t = length eps)%nat /\ dim1 t <> length mps /\ dim2 t <> length eps.
Proof.
  intros Hs Hk P Ht He Hm H. unfold par_simulate in H. destruct (Z.leb_spec (Z.of_nat (length eps)) thr); [lia|]. destruct (array_split_spec eps k ltac:(lia)) as (chunks & Ec & Lc & Cc & Sc). rewrite Ec in H. cbn [bind] in H.
  rewrite map_sync_any_order in H by (now rewrite Lc). destruct (tensors _) as [ts|] eqn:Et in H; [|discriminate]. cbn [bind] in H. apply tensors_Ok in Et.
  assert (D : Forall2 (fun c t => dim0 t = r /\ dim1 t = length mps /\ dim2 t = length c) chunks ts).
  { clear -Et Hs. revert Et. generalize 0%nat at 1. revert ts. induction chunks as [|c cs IH]; intros [|u ts] s Et; cbn in Et; try discriminate; [constructor|]. injection Et as E1 E2. constructor; [|eapply IH; exact E2]. pose proof (Hs (S s) mps c r) as S. now rewrite E1 in S. }
  destruct (concat_axis1 ts) as [t'|] eqn:E0; [|discriminate]. injection H as <-. unfold concat_axis1 in E0. destruct ts as [|t0 ts']; [discriminate|]. set (ts := t0 :: ts') in *.
  destruct (forallb _ ts) eqn:Ef; [|discriminate]. injection E0 as <-. cbn [dim0 dim1 dim2]. rewrite forallb_forall in Ef.
  assert (L : length ts = k). { rewrite <- Lc. symmetry. clear -D. induction D; cbn; auto. }
  assert (S0 : total_nat (map dim1 ts) = (k * length mps)%nat). { rewrite <- L. clear -D. induction D as [|c u cs us (_ & H & _) D IH]; [reflexivity|]. unfold total_nat in *. cbn. lia. }
  assert (S1 : (k * dim2 t0 = length eps)%nat).
  { rewrite <- Cc, <- L. assert (Q : forall u, In u ts -> dim2 u = dim2 t0) by (intros u Hu; specialize (Ef u Hu); apply andb_true_iff in Ef; destruct Ef as [_ Ef]; now apply Nat.eqb_eq in Ef).
    clear -D Q. induction D as [|c u cs us (_ & _ & H) D IH]; [reflexivity|]. cbn. rewrite app_length, <- H, <- IH by (intros; apply Q; now right). rewrite (Q u) by (now left). lia. }
  split; [exact S0|]. split; [exact S1|]. split; [|nia]. intros Q. assert (k * length mps = length mps)%nat by (rewrite <- S0; exact Q). nia.
Qed.
(** The hypotheses are met, and the wrong shape really comes out. *)
Definition zero_sim (i : nat) (mps eps : list nat) (r : nat) : sim_result := STensor (T r (length mps) (length eps) (repeat (repeat (repeat 0%Z (length eps)) (length mps)) r)).
Example c58_example : sim_shape zero_sim /\ exists t, par_simulate zero_sim (Some 2%nat) 1 [1; 0]%nat [7; 8]%nat [9]%nat 3 true = Ok (STensor t) /\ dim0 t = 6%nat /\ dim1 t = 1%nat.
Proof. split; [intros i mps eps r; cbn; auto|]. eexists. split; [reflexivity|split; reflexivity]. Qed.

(** C59 *)
Theorem c59_gpu_equals_cpu schedule mem os models expparams : length mem = (length models * length expparams)%nat -> Permutation schedule (list_prod (seq 0 (length models)) (seq 0 (length expparams))) ->
  gpu_likelihood schedule mem os models expparams = precession_likelihood os models expparams.
Proof.
  intros Hm P. unfold gpu_likelihood, precession_likelihood. f_equal. apply map_ext. intros o.
  assert (Hs : forall id, In id schedule -> (fst id < length models)%nat /\ (snd id < length expparams)%nat).
  { intros [i j] H. apply (Permutation_in _ P), in_prod_iff in H. destruct H as [H1 H2]. apply in_seq in H1, H2. cbn. lia. }
  destruct (kernel_any_schedule models expparams schedule mem Hm Hs) as [L G]. cbv zeta in L, G. set (final := fold_left _ schedule mem) in *.
  apply (nth_ext _ _ [] []); [now rewrite !map_length, seq_length|]. intros i Hi. rewrite !map_length, seq_length in Hi.
  rewrite (nth_indep _ [] (map (fun p => pr0_like p o) [])) by (now rewrite !map_length, seq_length). rewrite map_nth.
  rewrite (nth_indep _ [] ((fun i => firstn (length expparams) (skipn (i * length expparams) final)) 0%nat)) by (now rewrite map_length, seq_length).
  rewrite (map_nth (fun i => firstn (length expparams) (skipn (i * length expparams) final))), seq_nth by assumption. cbn [Nat.add].
  rewrite (nth_indep _ [] ((fun w => map (fun t => prec_like t w o) expparams) 0)) by (now rewrite map_length). rewrite (map_nth (fun w => map (fun t => prec_like t w o) expparams)).
  assert (Lrow : length (firstn (length expparams) (skipn (i * length expparams) final)) = length expparams) by (rewrite firstn_length, skipn_length, L, Hm; nia).
  apply (nth_ext _ _ 0 0); [now rewrite !map_length|]. intros j Hj. rewrite map_length, Lrow in Hj.
  rewrite (nth_indep _ 0 (pr0_like 0 o)) by (now rewrite map_length, Lrow). rewrite (map_nth (fun p => pr0_like p o)).
  rewrite (nth_indep (map (fun t => prec_like t (nth i models 0) o) expparams) 0 (prec_like 0 (nth i models 0) o)) by (now rewrite map_length). rewrite (map_nth (fun t => prec_like t (nth i models 0) o)).
  assert (N : nth j (firstn (length expparams) (skipn (i * length expparams) final)) 0 = nth (i * length expparams + j) final 0).
  { rewrite <- (firstn_skipn (i * length expparams) final) at 2. rewrite app_nth2; rewrite firstn_length, Nat.min_l by (rewrite L, Hm; nia); [|lia]. replace (i * length expparams + j - i * length expparams)%nat with j by lia.
    rewrite <- (firstn_skipn (length expparams) (skipn (i * length expparams) final)) at 2. rewrite app_nth1 by (rewrite Lrow; assumption). reflexivity. }
  rewrite N. destruct (G i j Hi Hj) as [G1 _]. rewrite G1 by (apply (Permutation_in _ (Permutation_sym P)), in_prod_iff; split; apply in_seq; lia).
  unfold prec_like, inv_like, inv_pr0, gpu_pr0. f_equal. f_equal. f_equal. lra.
Qed.
(** The two classes accept the same frequencies (default minimum frequency). *)
Theorem c59_same_validity w : gpu_valid w = inv_valid 0 w.
Proof. reflexivity. Qed.
Example c59_example : gpu_likelihood [(1, 0); (0, 0)]%nat [7; 7] [1%Z] [1; 2] [3] = precession_likelihood [1%Z] [1; 2] [3].
Proof. apply c59_gpu_equals_cpu; [reflexivity|]. apply perm_swap. Qed.
Print Assumptions c57_parallel_equals_serial.
Print Assumptions c57_serial_branch.
Print Assumptions c57_no_view.
Print Assumptions c57_lost_engine.
Print Assumptions c57_default_threshold.
Print Assumptions c57_even_split.
Print Assumptions c58_serial_branch_partial.
Print Assumptions c58_no_view.
Print Assumptions c58_one_engine.
Print Assumptions c58_split_by_models_refuted.
Print Assumptions c58_split_by_models_blocks.
Print Assumptions c58_uneven_split_refuted.
Print Assumptions c58_split_by_experiments_refuted.
Print Assumptions c59_gpu_equals_cpu.
Print Assumptions c59_same_validity.
