(** C142: the plotting methods of SMCUpdater and its risk method. *)
From Coq Require Import ZArith String List Lia Lra Sorted.
From Verif Require Import Base RList Ext Sums SmcModel PartModel RoModel RoSpec RoProps GfModel FigModel.
Import ListNotations.
Open Scope R_scope.

(** ** Slices *)
(** Python's rule for slices: negative bounds count from the end, missing ones are the ends, and those outside are moved to the ends. *)
Definition from_end (n : nat) (z : Z) : Z := (if z <? 0 then z + Z.of_nat n else z)%Z.
Definition step_of (s : slice) : Z := match s_step s with None => 1%Z | Some z => z end.
Definition selects (n : nat) (s : slice) (k : nat) : Prop :=
  (k < n)%nat /\ let z := Z.of_nat k in
  if Z.ltb 0 (step_of s)
  then let i := match s_start s with None => 0%Z | Some i => Z.max 0 (from_end n i) end in
       (i <= z)%Z /\ (match s_stop s with None => True | Some j => z < from_end n j end)%Z /\ (step_of s | z - i)%Z
  else let i := match s_start s with None => (Z.of_nat n - 1)%Z | Some i => Z.min (Z.of_nat n - 1) (from_end n i) end in
       (z <= i)%Z /\ (match s_stop s with None => True | Some j => from_end n j < z end)%Z /\ (step_of s | z - i)%Z.

Lemma steps_up a b st z : (0 < st)%Z -> let len := (if a <? b then (b - a - 1) / st + 1 else 0)%Z in
  ((a <= z < b)%Z /\ (st | z - a)%Z <-> exists i, (0 <= i < len)%Z /\ z = (a + i * st)%Z).
Proof.
  cbv zeta. intros P. destruct (Z.ltb_spec a b) as [L|L]; [|split; [intros ((? & ?) & _); lia|intros (i & ? & _); lia]]. split.
  - intros ((A & B) & (i & E)). exists i. split; [|lia]. split; [nia|]. enough (i <= (b - a - 1) / st)%Z by lia. apply Z.div_le_lower_bound; nia.
  - intros (i & (I0 & I1) & ->). assert (I2 : (i <= (b - a - 1) / st)%Z) by lia. pose proof (Z.mul_div_le (b - a - 1) st P). split; [nia|]. exists i. ring.
Qed.
Lemma steps_down a b st z : (st < 0)%Z -> let len := (if b <? a then (a - b - 1) / (- st) + 1 else 0)%Z in
  ((b < z <= a)%Z /\ (st | z - a)%Z <-> exists i, (0 <= i < len)%Z /\ z = (a + i * st)%Z).
Proof.
  cbv zeta. intros P. destruct (Z.ltb_spec b a) as [L|L]; [|split; [intros ((? & ?) & _); lia|intros (i & ? & _); lia]]. split.
  - intros ((A & B) & (i & E)). exists i. split; [|lia]. split; [nia|]. enough (i <= (a - b - 1) / (- st))%Z by lia. apply Z.div_le_lower_bound; nia.
  - intros (i & (I0 & I1) & ->). assert (I2 : (i <= (a - b - 1) / (- st))%Z) by lia. pose proof (Z.mul_div_le (a - b - 1) (- st) ltac:(lia)). split; [nia|]. exists i. ring.
Qed.
(** The indices are those of Python's rule, in the order of the step; only step 0 fails. *)
Theorem c142_slice n s : (step_of s = 0%Z -> slice_indices n s = Err ValueError) /\
  (step_of s <> 0%Z -> exists is, slice_indices n s = Ok is /\ (forall k, In k is <-> selects n s k) /\
     StronglySorted (fun a b => if Z.ltb 0 (step_of s) then (a < b)%nat else (b < a)%nat) is).
Proof.
  unfold slice_indices. fold (step_of s). split; [intros ->; reflexivity|]. intros N. rewrite (proj2 (Z.eqb_neq _ _) N). eexists. split; [reflexivity|].
  set (st := step_of s) in *. assert (D : (0 < st \/ st < 0)%Z) by lia. destruct D as [D|D].
  - replace (st <? 0)%Z with false by (symmetry; apply Z.ltb_ge; lia). replace (0 <? st)%Z with true by (symmetry; now apply Z.ltb_lt).
    set (a := match s_start s with Some z => adjust (Z.of_nat n) 0 (Z.of_nat n) z | None => 0%Z end). set (b := match s_stop s with Some z => adjust (Z.of_nat n) 0 (Z.of_nat n) z | None => Z.of_nat n end).
    assert (A0 : (0 <= a)%Z) by (unfold a, adjust; destruct (s_start s); repeat match goal with |- context [(?x <? ?y)%Z] => destruct (Z.ltb_spec x y) end; lia).
    split.
    + intros k. rewrite in_map_iff. transitivity ((a <= Z.of_nat k < b)%Z /\ (st | Z.of_nat k - a)%Z).
      * rewrite (steps_up a b st (Z.of_nat k) D). split; [intros (i & E & I)|intros (i & I & E)].
        { apply in_seq in I. exists (Z.of_nat i). nia. }
        { exists (Z.to_nat i). split; [rewrite Z2Nat.id by lia; lia|apply in_seq; lia]. }
      * unfold selects. fold st. rewrite (proj2 (Z.ltb_lt _ _) D). cbv zeta. unfold a, b, adjust, from_end. destruct (s_start s) as [x|], (s_stop s) as [y|];
          repeat match goal with |- context [(?x <? ?y)%Z] => destruct (Z.ltb_spec x y) end; try (split; [intros ((? & ?) & ?)|intros (? & ? & ? & ?)]; repeat split; try lia; 
          match goal with H : (_ | _)%Z |- (_ | _)%Z => first [exact H | replace (Z.max 0 _) with x by lia; exact H | replace (Z.max 0 _) with (x + Z.of_nat n)%Z by lia; exact H | replace (Z.max 0 _) with 0%Z by lia; exact H | replace (Z.max 0 x) with x in H by lia; exact H | replace (Z.max 0 (x + Z.of_nat n))%Z with (x + Z.of_nat n)%Z in H by lia; exact H | replace (Z.max 0 (x + Z.of_nat n))%Z with 0%Z in H by lia; exact H | exfalso; lia] | _ => idtac end).
    + clearbody a. generalize (Z.to_nat (if (a <? b)%Z then (b - a - 1) / st + 1 else 0)%Z). intros m. generalize 0%nat. induction m as [|m IH]; intros o; cbn; constructor; [apply IH|].
      apply Forall_map, Forall_forall. intros x I. apply in_seq in I. nia.
  - replace (st <? 0)%Z with true by (symmetry; now apply Z.ltb_lt). replace (0 <? st)%Z with false by (symmetry; apply Z.ltb_ge; lia).
    set (a := match s_start s with Some z => adjust (Z.of_nat n) (-1) (Z.of_nat n - 1) z | None => (Z.of_nat n - 1)%Z end). set (b := match s_stop s with Some z => adjust (Z.of_nat n) (-1) (Z.of_nat n - 1) z | None => (-1)%Z end).
    assert (B0 : (-1 <= b)%Z) by (unfold b, adjust; destruct (s_stop s); repeat match goal with |- context [(?x <? ?y)%Z] => destruct (Z.ltb_spec x y) end; lia).
    set (len := (if (b <? a)%Z then (a - b - 1) / - st + 1 else 0)%Z).
    assert (P : forall i, (0 <= i < len)%Z -> (b < a + i * st)%Z). { intros i I. pose proof (proj2 (steps_down a b st (a + i * st)%Z D)) as Q. cbv zeta in Q. fold len in Q. destruct Q as (Q & _); [eauto|lia]. }
    split.
    + intros k. rewrite in_map_iff. transitivity ((b < Z.of_nat k <= a)%Z /\ (st | Z.of_nat k - a)%Z).
      * rewrite (steps_down a b st (Z.of_nat k) D). fold len. split; [intros (i & E & I)|intros (i & I & E)].
        { apply in_seq in I. exists (Z.of_nat i). split; [lia|]. pose proof (P (Z.of_nat i) ltac:(lia)). lia. }
        { exists (Z.to_nat i). split; [rewrite Z2Nat.id by lia; lia|apply in_seq; lia]. }
      * unfold selects. fold st. rewrite (proj2 (Z.ltb_ge _ _) (Z.lt_le_incl _ _ D)). cbv zeta. unfold a, b, adjust, from_end. destruct (s_start s) as [x|], (s_stop s) as [y|];
          repeat match goal with |- context [(?x <? ?y)%Z] => destruct (Z.ltb_spec x y) end; try (split; [intros ((? & ?) & ?)|intros (? & ? & ? & ?)]; repeat split; try lia;
          match goal with H : (_ | _)%Z |- (_ | _)%Z => first [exact H | replace (Z.min _ _) with x by lia; exact H | replace (Z.min _ _) with (x + Z.of_nat n)%Z by lia; exact H | replace (Z.min _ _) with (Z.of_nat n - 1)%Z by lia; exact H | replace (Z.min (Z.of_nat n - 1) x) with x in H by lia; exact H | replace (Z.min (Z.of_nat n - 1) x) with (Z.of_nat n - 1)%Z in H by lia; exact H | replace (Z.min (Z.of_nat n - 1) (x + Z.of_nat n))%Z with (x + Z.of_nat n)%Z in H by lia; exact H | exfalso; lia] | _ => idtac end).
    + assert (Q : forall m o, (Z.of_nat (o + m) <= len)%Z -> StronglySorted (fun p q => (q < p)%nat) (map (fun i => Z.to_nat (a + Z.of_nat i * st)) (seq o m))).
      { induction m as [|m IH]; intros o H; cbn; constructor; [apply IH; lia|]. apply Forall_map, Forall_forall. intros x I. apply in_seq in I. pose proof (P (Z.of_nat x) ltac:(lia)). pose proof (P (Z.of_nat o) ltac:(lia)). nia. }
      apply Q. destruct (Z.leb_spec 0 len); [lia|]. exfalso. unfold len in *. clear P. destruct (Z.ltb_spec b a); [|lia]. pose proof (Z.div_pos (a - b - 1) (- st) ltac:(lia) ltac:(lia)). lia.
Qed.

(** ** The covariance *)
Definition entry_of (corr : bool) (w : list R) (l : list loc) (m n : nat) : ext :=
  if corr then xdiv (Fin (particle_cov w l m n)) (xmul (xsqrt (Fin (particle_cov w l m m))) (xsqrt (Fin (particle_cov w l n n)))) else Fin (particle_cov w l m n).
Definition slice_of (p : selection) : option slice := match p with All => Some {| s_start := None; s_stop := None; s_step := None |} | Slice s => Some s | _ => None end.
Lemma nth_map_seq {A} (f : nat -> A) n p d : (p < n)%nat -> nth p (map f (seq 0 n)) d = f p.
Proof. intros H. rewrite (nth_indep _ d (f 0%nat)) by (now rewrite map_length, seq_length). rewrite (map_nth f), seq_nth by assumption. reflexivity. Qed.
Lemma entry_matrix (corr : bool) d w l m n : (m < d)%nat -> (n < d)%nat -> nth n (nth m (if corr then est_corr d w l else map (map Fin) (est_cov d w l)) []) NaN = entry_of corr w l m n.
Proof.
  intros M N. unfold entry_of. destruct corr; [unfold est_corr|unfold est_cov; rewrite map_map].
  - rewrite (nth_map_seq _ d m []) by assumption. now rewrite (nth_map_seq _ d n NaN) by assumption.
  - rewrite (nth_map_seq _ d m []) by assumption. rewrite map_map. now rewrite (nth_map_seq _ d n NaN) by assumption.
Qed.
(** With names for all parameters, the plot of the whole matrix or of a slice shows in row i and column j the covariance (or correlation) of the i-th and
    j-th selected parameter, with ticks at all rows that carry the names of those parameters. *)
Theorem c142_covariance names d w l corr p s : length names = d -> slice_of p = Some s -> step_of s <> 0%Z ->
  exists is f, slice_indices d s = Ok is /\
  plot_covariance true names d w l corr p None = ([Hinton (length is) (length is) f; XTicks (seq 0 (length is)) (map (fun k => math (nth k names ""%string)) is); YTicks (seq 0 (length is)) (map (fun k => math (nth k names ""%string)) is); TicksOnTop], None) /\
  (forall i j, (i < length is)%nat -> (j < length is)%nat -> f i j = entry_of corr w l (nth i is 0%nat) (nth j is 0%nat)).
Proof.
  intros L E N. destruct (proj2 (c142_slice d s) N) as (is & I & Sel & _). exists is. eexists. split; [exact I|]. split.
  - unfold plot_covariance. cbn [negb]. destruct p as [|s'|z|zs]; try discriminate; injection E as <-; rewrite L, I; cbn [attempt]; unfold pick; rewrite map_map; reflexivity.
  - intros i j Hi Hj. cbv beta. assert (Q : forall k, (k < length is)%nat -> (nth k is 0 < d)%nat) by (intros k Hk; now apply (Sel (nth k is 0%nat)), nth_In). now rewrite entry_matrix by auto.
Qed.
(** By default all parameters are shown. *)
Theorem c142_whole d : slice_indices d {| s_start := None; s_stop := None; s_step := None |} = Ok (seq 0 d).
Proof.
  unfold slice_indices. cbn [s_step s_start s_stop]. change (1 =? 0)%Z with false. change (1 <? 0)%Z with false. cbv iota zeta. f_equal.
  replace (Z.to_nat _) with d by (destruct (Z.ltb_spec 0 (Z.of_nat d)); [rewrite Z.div_1_r; lia|lia]). rewrite <- (map_id (seq 0 d)) at 2. apply map_ext. intros. lia.
Qed.
(** A list of indices always fails, though numpy arrays accept one, and so does one index; nothing is drawn, as without mpltools. *)
Theorem c142_covariance_index_refuted names d w l corr zs z labels : plot_covariance true names d w l corr (Several zs) labels = ([], Some (Raised TypeError)) /\
  fst (plot_covariance true names d w l corr (One z) labels) = [] /\ snd (plot_covariance true names d w l corr (One z) labels) <> None.
Proof.
  split; [reflexivity|]. unfold plot_covariance. cbn [negb]. destruct (list_index names z) as [a|e]; cbn [attempt]; [|split; [reflexivity|discriminate]].
  destruct (list_index _ z) as [b|e]; cbn [attempt]; split; try reflexivity; discriminate.
Qed.
Theorem c142_no_mpltools names d w l corr p labels : plot_covariance false names d w l corr p labels = ([], Some NoMpltools).
Proof. reflexivity. Qed.
(** Given labels are used for the rows that are shown and are not selected by the slice: with one label per parameter the rows of a slice get wrong labels. *)
Theorem c142_tick_labels_refuted w l : exists f, plot_covariance true ["a"; "b"]%string 2 w l false (Slice {| s_start := Some 1%Z; s_stop := None; s_step := None |}) (Some ["A"; "B"]%string) =
  ([Hinton 1 1 f; XTicks [0]%nat ["A"; "B"]%string; YTicks [0]%nat ["A"; "B"]%string; TicksOnTop], None) /\ f 0%nat 0%nat = Fin (particle_cov w l 1 1).
Proof. eexists. split; reflexivity. Qed.

(** ** The marginal *)
Definition true_value (t : truth) (idx : nat) : option R := match t with NoTruth => None | Vector x => nth_error x idx | Table (r :: _) => nth_error r idx | Table [] => None end.
(** The figure is the marginal of C80, the name of the parameter if wanted, and a line at the parameter of the (first) true model if one is given, within unchanged limits. *)
Theorem c142_marginal names d s w l idx n sm rmin rmax lab ylim t : let fig := plot_posterior_marginal names d s w l idx n sm rmin rmax lab ylim t in
  (snd fig = None <-> (idx < d)%nat /\ (exists c, posterior_marginal_smoothed s w l idx n sm rmin rmax = Ok c) /\ (lab = true -> (idx < length names)%nat) /\ (t <> NoTruth -> true_value t idx <> None)) /\
  (snd fig = None -> exists xs ys, posterior_marginal_smoothed s w l idx n sm rmin rmax = Ok (xs, ys) /\
     fst fig = [Curve xs ys] ++ (if lab then [XName ("$" ++ nth idx names "" ++ "$")%string] else []) ++
       match true_value t idx with None => [] | Some x => [VLine x (fst ylim - 1 / 10) (snd ylim + 1 / 10); YLimits (fst ylim) (snd ylim)] end).
Proof.
  cbv zeta. unfold plot_posterior_marginal.
  assert (T : match t with NoTruth => skip | _ => match (match t with Table [] => None | Table (r :: _) => nth_error r idx | Vector x => nth_error x idx | NoTruth => None end) with None => fail IndexError | Some x => draw (VLine x (fst ylim - 1 / 10) (snd ylim + 1 / 10)) ;; draw (YLimits (fst ylim) (snd ylim)) end end =
    match true_value t idx with Some x => ([VLine x (fst ylim - 1 / 10) (snd ylim + 1 / 10); YLimits (fst ylim) (snd ylim)], None) | None => match t with NoTruth => skip | _ => fail IndexError end end).
  { destruct t as [|x|[|r rs]]; cbn [true_value]; try reflexivity; now destruct (nth_error _ idx). }
  rewrite T. clear T. destruct (Nat.ltb_spec idx d) as [L|L].
  2:{ cbn. split; [|discriminate]. split; [discriminate|lia]. }
  destruct (posterior_marginal_smoothed s w l idx n sm rmin rmax) as [(xs & ys)|e]; cbn [attempt].
  2:{ cbn. split; [|discriminate]. split; [discriminate|]. intros (_ & (c & ?) & _). discriminate. }
  assert (X : forall m f, (([m], None) : drawing) ;; f = (m :: fst f, snd f)) by reflexivity. unfold draw at 1. rewrite X. cbn [fst snd].
  assert (V : forall a, snd (match true_value t idx with Some x => (a x, None) | None => match t with NoTruth => skip | _ => fail IndexError end end) = None <-> (t <> NoTruth -> true_value t idx <> None)).
  { intros a. destruct t as [|x|rs]; [cbn; split; [congruence|reflexivity]| |]; destruct (true_value _ idx); cbn; split; try discriminate; try reflexivity; intros H; exfalso; (apply H; [discriminate|reflexivity]). }
  destruct lab.
  - destruct (nth_error names idx) as [nm|] eqn:Nm.
    + assert (Ln : (idx < length names)%nat) by (apply nth_error_Some; congruence). unfold draw. rewrite X. cbn [fst snd]. rewrite V. split; [split; [intros H; eauto 6|intros (_ & _ & _ & H); exact H]|].
      intros H. exists xs, ys. split; [reflexivity|]. rewrite (nth_error_nth names idx _ Nm). unfold math. cbn [app]. do 2 f_equal. destruct t as [|x|rs]; [reflexivity| |]; destruct (true_value _ idx); try reflexivity; exfalso; apply H; congruence || discriminate.
    + cbn. split; [|discriminate]. split; [discriminate|]. intros (_ & _ & H & _). apply nth_error_None in Nm. specialize (H eq_refl). lia.
  - change (skip ;; ?f) with (fst f, snd f). cbn [seqd skip fst snd app]. rewrite V. split; [split; [intros H; repeat split; eauto; discriminate|intros (_ & _ & _ & H); exact H]|].
    intros H. exists xs, ys. split; [reflexivity|]. cbn [app]. f_equal. destruct t as [|x|rs]; [reflexivity| |]; destruct (true_value _ idx); try reflexivity; exfalso; apply H; congruence || discriminate.
Qed.
(** Of a table of true models only the first is shown. *)
Theorem c142_true_models_refuted names d s w l idx n sm rmin rmax lab ylim r rs : 
  plot_posterior_marginal names d s w l idx n sm rmin rmax lab ylim (Table (r :: rs)) = plot_posterior_marginal names d s w l idx n sm rmin rmax lab ylim (Vector r).
Proof. reflexivity. Qed.

(** ** The contour *)
Theorem c142_contour d w l i1 i2 r1 r2 sm : let fig := plot_posterior_contour d w l i1 i2 r1 r2 sm in
  (snd fig = None <-> (i1 < d)%nat /\ (i2 < d)%nat /\ l <> [] /\ (2 <= r1)%nat /\ (2 <= r2)%nat) /\
  (snd fig = None -> exists x y z, posterior_mesh w l i1 i2 r1 r2 sm = (x, y, z) /\ fst fig = [Contour r2 r1 x y z]).
Proof.
  cbv zeta. unfold plot_posterior_contour. destruct (Nat.ltb_spec i1 d), (Nat.ltb_spec i2 d); cbn [andb negb]; try (cbn; split; [split; [discriminate|lia]|discriminate]).
  destruct l as [|x l]; [cbn; split; [split; [discriminate|intuition congruence]|discriminate]|].
  destruct (Nat.ltb_spec r1 2), (Nat.ltb_spec r2 2); cbn [orb]; try (cbn; split; [split; [discriminate|lia]|discriminate]).
  destruct (posterior_mesh w (x :: l) i1 i2 r1 r2 sm) as ((a & b) & c) eqn:E. cbn. split; [split; [intros _; repeat split; auto; discriminate|reflexivity]|]. intros _. exists a, b, c. split; reflexivity.
Qed.
(** The height that is drawn at a point is in general not the density there (the mesh of C80 is transposed). *)
Theorem c142_contour_refuted : exists x y z, plot_posterior_contour 2 [1/4; 3/4] [[0; 0]; [1; 2]] 0 1 2 2 1 = ([Contour 2 2 x y z], None) /\
  exists a b, (a < 2)%nat /\ (b < 2)%nat /\ z a b <> gauss_kde2 1 [1/4; 3/4] [[0; 0]; [1; 2]] 0 1 (x a b) (y a b).
Proof. destruct c80_mesh_refuted as (a & b & A & B & H). do 3 eexists. split; [reflexivity|]. exists a, b. split; [exact A|]. split; [exact B|]. exact H. Qed.

(** ** The risk *)
(** [risk] is the Bayes risk of the single experiment with that value exactly if experiments have one field; models whose experiments have several fields
    cannot use it whatever the argument. *)
Theorem c142_risk {X V} (bayes : list (list (string * X)) -> res V) fields x0 : 
  (forall f, fields = [f] -> risk bayes fields x0 = bayes [[(f, x0)]]) /\ (length fields <> 1%nat -> risk bayes fields x0 = Err ValueError).
Proof. split; [intros f ->; reflexivity|]. destruct fields as [|f [|g fs]]; cbn; [reflexivity|congruence|reflexivity]. Qed.

(** Concrete cases: a slice with a negative step, and a plot of each kind *)
Example c142_slice_case : slice_indices 5 {| s_start := None; s_stop := Some 0%Z; s_step := Some (-2)%Z |} = Ok [4; 2]%nat /\ slice_indices 5 {| s_start := Some (-3)%Z; s_stop := Some 9%Z; s_step := None |} = Ok [2; 3; 4]%nat.
Proof. split; vm_compute; reflexivity. Qed.
Example c142_marginal_case : exists c, posterior_marginal_smoothed [0; 1]%nat [1/2; 1/2] [[0]; [1]] 0 3 0 None None = Ok c.
Proof. unfold posterior_marginal_smoothed, posterior_marginal. cbn [map nth Nat.ltb Nat.leb bind]. unfold Rltb. destruct (Rlt_dec 0 0); [lra|]. eexists; reflexivity. Qed.

Print Assumptions c142_slice.
Print Assumptions c142_covariance.
Print Assumptions c142_whole.
Print Assumptions c142_covariance_index_refuted.
Print Assumptions c142_no_mpltools.
Print Assumptions c142_tick_labels_refuted.
Print Assumptions c142_marginal.
Print Assumptions c142_true_models_refuted.
Print Assumptions c142_contour.
Print Assumptions c142_contour_refuted.
Print Assumptions c142_risk.
