(** C141: the rebit plots. *)
From Coq Require Import String List Lia Lra Psatz.
From Verif Require Import Base RList Sums SmcModel PartModel PartSpec PartProofs PlotModel Cplx TomoModel TomoSpec TomoProofs TomoProofs2 TomoProps PlotProps2 PicModel PicProofs.
Import ListNotations.
Open Scope R_scope.

(** ** States lie inside the circle *)
Definition in_disc (r2 : R) (p : R * R) : Prop := fst p ^ 2 + snd p ^ 2 <= r2.
(** Two different axes other than the first *)
Definition proper (b : basis) (ax : axes) : Prop := (0 < fst ax < bdim b ^ 2)%nat /\ (0 < snd ax < bdim b ^ 2)%nat /\ fst ax <> snd ax.
Theorem c141_states_in_disc b rho ax : tomographic b -> density (bdim b) rho -> proper b ax ->
  in_disc (2 * (1 - / INR (bdim b))) (rebit_point ax (state_to_modelparams b rho)).
Proof.
  intros T D ((A1 & A2) & (B1 & B2) & N). destruct ax as [i j]. cbn [fst snd] in *. destruct (bloch_radius b rho T D) as (Q & _).
  pose proof (Sum_two_le (bdim b ^ 2 - 1) (fun a => nth (S a) (state_to_modelparams b rho) 0 ^ 2) (i - 1) (j - 1) (fun k _ => pow2_ge_0 _) ltac:(lia) ltac:(lia) ltac:(lia)) as X.
  cbv beta in X. replace (S (i - 1)) with i in X by lia. replace (S (j - 1)) with j in X by lia.
  unfold in_disc, rebit_point. cbn [fst snd]. rewrite !Rpow_mult_distr. replace (sqrt 2 ^ 2) with 2 by (rewrite pow2_sqrt; lra). nra.
Qed.
Theorem c141_states_in_circle b rho ax : tomographic b -> bdim b = 2%nat -> density 2 rho -> proper b ax -> in_disc 1 (rebit_point ax (state_to_modelparams b rho)).
Proof.
  intros T E D A. rewrite <- E in D. pose proof (c141_states_in_disc b rho ax T D A) as Q. rewrite E in Q. unfold in_disc in *. replace (INR 2) with 2 in Q by reflexivity. lra.
Qed.
(** With the first axis, that of the identity, every state is drawn at the same coordinate, on the edge of the circle. *)
Theorem c141_identity_axis_refuted b rho j : tomographic b -> bdim b = 2%nat -> density 2 rho -> fst (rebit_point (0%nat, j) (state_to_modelparams b rho)) = 1.
Proof.
  intros T E D. rewrite <- E in D. destruct (bloch_radius b rho T D) as (_ & F). cbn [rebit_point fst]. rewrite F, E. replace (INR 2) with 2 by reflexivity. field. apply Rgt_not_eq, sqrt_lt_R0. lra.
Qed.

(** ** What is drawn *)
Definition in_axes (ax : axes) (n : nat) : Prop := (fst ax < n)%nat /\ (snd ax < n)%nat.
Definition decorations (b : drawn_basis) (ax : axes) : list mark :=
  [AxisNames (axis_name (nth (fst ax) (names_of b) ""%string)) (axis_name (nth (snd ax) (names_of b) ""%string)); Circle (0, 0) 1; Window (- (11 / 10), 11 / 10) (- (11 / 10), 11 / 10)].
Definition mean_of (p : prior) (force : option mat) : option mat := match force with Some m => Some m | None => p_mean p end.
Definition option_dec {A} (dec : forall a b : A, {a = b} + {a <> b}) (x y : option A) : {x = y} + {x <> y}.
Proof. decide equality. Defined.
Definition rows_of (ps : params) : list loc := match ps with Rows l => l | _ => [] end.

Lemma done_seq a b : snd (a ;; b) = None <-> snd a = None /\ snd b = None.
Proof. destruct a as [m [e|]]; cbn; split; try tauto; try discriminate; intros (H & _); discriminate. Qed.
Lemma marks_seq a b : snd a = None -> fst (a ;; b) = fst a ++ fst b.
Proof. destruct a as [m [e|]]; cbn; [discriminate|reflexivity]. Qed.
Lemma done_colour n k d : snd (colour n k d) = None <-> (k < n)%nat /\ snd d = None.
Proof. unfold colour. destruct (Nat.ltb_spec k n); cbn; split; try tauto; try discriminate; intros (H1 & _); lia. Qed.
Lemma marks_colour n k d : snd (colour n k d) = None -> fst (colour n k d) = fst d.
Proof. unfold colour. destruct (k <? n)%nat; [reflexivity|discriminate]. Qed.
Lemma done_points w ps ax label : snd (plot_rebit_modelparams w ps ax label) = None <-> (exists l, ps = Rows l) /\ in_axes ax w.
Proof.
  unfold plot_rebit_modelparams, in_axes. destruct ps as [|x|l]; try (cbn; split; [discriminate|intros ((? & ?) & _); discriminate]).
  destruct (Nat.ltb_spec (fst ax) w), (Nat.ltb_spec (snd ax) w); cbn; split; try discriminate; try (intros (_ & ?); lia); intros _; try reflexivity; (split; [eauto|lia]).
Qed.
Lemma marks_points w ps ax label : snd (plot_rebit_modelparams w ps ax label) = None -> fst (plot_rebit_modelparams w ps ax label) = [Points label (map (rebit_point ax) (rows_of ps))].
Proof. unfold plot_rebit_modelparams. destruct ps as [|x|l]; cbn; try discriminate. destruct (_ && _); [reflexivity|discriminate]. Qed.
Lemma done_decorate b ax : snd (plot_decorate_rebits (Some b) ax) = None <-> in_axes ax (length (names_of b)).
Proof.
  unfold plot_decorate_rebits, in_axes. rewrite done_seq. rewrite <- !nth_error_Some. destruct (nth_error (names_of b) (fst ax)), (nth_error (names_of b) (snd ax)); cbn; split; intros H; try (split; congruence); destruct H; congruence.
Qed.
Lemma marks_decorate b ax : snd (plot_decorate_rebits (Some b) ax) = None -> fst (plot_decorate_rebits (Some b) ax) = decorations b ax.
Proof.
  intros D. apply done_decorate in D as (A & B). unfold plot_decorate_rebits. rewrite (nth_error_nth' _ ""%string A), (nth_error_nth' _ ""%string B). reflexivity.
Qed.
Lemma rows_or ps : ps <> Nothing -> (forall x, ps <> Single x) -> exists l, ps = Rows l.
Proof. destruct ps as [|x|l]; [congruence|intros _ H; now specialize (H x)|eauto]. Qed.
Ltac marks := repeat (rewrite marks_seq by assumption); repeat (rewrite marks_colour by assumption).

Definition prior_figure (p : prior) (ax : axes) (n_samples : nat) (true_state : params) (force : option mat) (legend : bool) : list mark :=
  [Points "Prior" (map (rebit_point ax) (p_sample p n_samples))] ++
  (match true_state with Nothing => [] | _ => [Points "True" (map (rebit_point ax) (rows_of true_state))] end) ++
  (match mean_of p force with None => [] | Some m => [Points "Mean" [rebit_point ax (state_to_modelparams (basis_of (p_basis p)) m)]] end) ++
  decorations (p_basis p) ax ++ (if legend then [Legend] else []).
(** [plot_rebit_prior] draws the samples, the true state if one is given, the mean if the prior has one or it is forced, the decorations and the
    legend, and succeeds exactly if the palette exists and has the colours used, the axes exist and the true state is a table. *)
Theorem c141_prior pal p ax n_samples true_state force legend k : let d := plot_rebit_prior pal p ax n_samples true_state force legend k in
  (snd d = None <->
   (exists n, pal = Some n /\ (0 < n)%nat /\ (true_state <> Nothing -> (1 < n)%nat) /\ (mean_of p force <> None -> (k < n)%nat)) /\
   (forall x, true_state <> Single x) /\ in_axes ax (width_of (p_basis p)) /\ in_axes ax (length (names_of (p_basis p)))) /\
  (snd d = None -> fst d = prior_figure p ax n_samples true_state force legend).
Proof.
  cbv zeta. unfold plot_rebit_prior. fold (mean_of p force). destruct pal as [n|]; cbn [colours attempt].
  2:{ split; [|discriminate]. split; [discriminate|]. intros ((n & E & _) & _); discriminate. }
  assert (T : snd match true_state with Nothing => skip | _ => colour n 1 (plot_rebit_modelparams (width_of (p_basis p)) true_state ax "True") end = None <->
    (true_state <> Nothing -> (1 < n)%nat /\ (exists l, true_state = Rows l) /\ in_axes ax (width_of (p_basis p)))).
  { destruct true_state as [|x|l]; [cbn; split; [congruence|reflexivity]| |]; rewrite done_colour, done_points; (split; [auto|]); intros H; apply H; discriminate. }
  assert (M : snd match mean_of p force with None => skip | Some m => colour n k (plot_rebit_modelparams (width_of (p_basis p)) (Rows [state_to_modelparams (basis_of (p_basis p)) m]) ax "Mean") end = None <->
    (mean_of p force <> None -> (k < n)%nat /\ in_axes ax (width_of (p_basis p)))).
  { destruct (mean_of p force) as [m|]; [|cbn; split; [congruence|reflexivity]]. rewrite done_colour, done_points. split; [tauto|]. intros H. destruct H as (H1 & H2); [discriminate|]. eauto. }
  split.
  - rewrite !done_seq, T, M, done_colour, done_points, done_decorate. split.
    + intros ((A & _ & B) & C & D & F & _). split; [exists n; split; [reflexivity|]; split; [assumption|]; split; [intros X; apply C, X|intros X; apply D, X]|]. split; [|auto].
      intros x ->. destruct C as (_ & (l & C) & _); discriminate.
    + intros ((n' & [= <-] & A & B & C) & D & F & G). split; [eauto|]. split; [|split; [auto|]]; [|split; [assumption|now destruct legend]].
      intros X. split; [auto|]. split; [now apply rows_or|assumption].
  - intros H. rewrite !done_seq in H. destruct H as (H1 & H2 & H3 & H4 & H5). unfold prior_figure.
    rewrite (marks_seq _ _ H1), (marks_seq _ _ H2), (marks_seq _ _ H3), (marks_seq _ _ H4). rewrite (marks_colour _ _ _ H1), (marks_decorate _ _ H4).
    rewrite done_colour in H1. rewrite marks_points by tauto. cbn [rows_of]. f_equal. f_equal; [|f_equal; [|f_equal; now destruct legend]].
    + destruct true_state as [|x|l]; [reflexivity| |]; rewrite (marks_colour _ _ _ H2); rewrite done_colour in H2; now rewrite marks_points by tauto.
    + destruct (mean_of p force) as [m|]; [|reflexivity]. rewrite (marks_colour _ _ _ H3). rewrite done_colour in H3. now rewrite marks_points by tauto.
Qed.
(** Everything drawn for a prior over qubit states lies inside the circle. *)
Definition inside_circle (m : mark) : Prop := match m with Points _ pts | Outline pts => Forall (in_disc 1) pts | _ => True end.
Definition is_state (b : basis) (x : loc) : Prop := exists rho, density (bdim b) rho /\ x = state_to_modelparams b rho.
Theorem c141_prior_inside pal p ax n_samples true_state force legend k : let b := basis_of (p_basis p) in
  tomographic b -> bdim b = 2%nat -> proper b ax -> Forall (is_state b) (p_sample p n_samples) -> Forall (is_state b) (rows_of true_state) ->
  (forall m, mean_of p force = Some m -> density 2 m) -> snd (plot_rebit_prior pal p ax n_samples true_state force legend k) = None ->
  Forall inside_circle (fst (plot_rebit_prior pal p ax n_samples true_state force legend k)).
Proof.
  cbv zeta. intros T E A S1 S2 S3 D. rewrite (proj2 (c141_prior _ _ _ _ _ _ _ _) D). unfold prior_figure.
  assert (Q : forall l, Forall (is_state (basis_of (p_basis p))) l -> Forall (in_disc 1) (map (rebit_point ax) l)).
  { intros l H. apply Forall_map. apply Forall_impl with (2 := H). intros x (rho & Dr & ->). rewrite E in Dr. now apply c141_states_in_circle. }
  apply Forall_app. split; [repeat constructor; now apply Q|]. apply Forall_app. split; [destruct true_state as [|x|l]; repeat constructor; now apply Q|]. apply Forall_app. split.
  - destruct (mean_of p force) as [m|] eqn:M; [|constructor]. constructor; [|constructor]. constructor; [|constructor]. apply c141_states_in_circle; auto.
  - apply Forall_app. split; [repeat constructor|destruct legend; repeat constructor].
Qed.

(** ** The posterior *)
Definition posterior_figure (w : list R) (l : list loc) (b : drawn_basis) (p : option prior) (true_rows : list loc) (n_std : R) (ax : axes) (legend : bool)
    (region : option string) (eig : eig2) (hull : res (list (R * R))) : list mark :=
  [Points "Posterior" (map (rebit_point ax) l); Points "True" (map (rebit_point ax) true_rows)] ++
  (match p with Some p => match p_mean p with Some m => [Points "Prior Mean" [rebit_point ax (state_to_modelparams (basis_of (p_basis p)) m)]] | None => [] end | None => [] end) ++
  [Points "Posterior Mean" [rebit_point ax (est_mean (width_of b) w l)]] ++
  (if option_dec string_dec region (Some "cov"%string) then [Patch (rebit_ellipse eig (width_of b) ax w l n_std)] else
   if option_dec string_dec region (Some "hull"%string) then match hull with Ok vs => [Outline (map (fun v => (fst v * sqrt 2, snd v * sqrt 2)) vs)] | Err _ => [] end else []) ++
  decorations b ax ++ (if legend then [Legend] else []).
Theorem c141_posterior pal w l b p true_state n_std ax legend region eig hull : let d := plot_rebit_posterior pal w l b p true_state n_std ax legend region eig hull in
  (snd d = None <->
   (exists n, pal = Some n /\ (2 < n)%nat /\ (p <> None -> (3 < n)%nat)) /\ (exists rows, true_state = Rows rows) /\
   (forall q, p = Some q -> p_mean q <> None /\ in_axes ax (width_of (p_basis q))) /\ (region = Some "hull"%string -> exists vs, hull = Ok vs) /\
   in_axes ax (width_of b) /\ in_axes ax (length (names_of b))) /\
  (snd d = None -> fst d = posterior_figure w l b p (rows_of true_state) n_std ax legend region eig hull).
Proof.
  cbv zeta. unfold plot_rebit_posterior. destruct pal as [n|]; cbn [colours attempt].
  2:{ split; [|discriminate]. split; [discriminate|]. intros ((n & E & _) & _); discriminate. }
  assert (P : snd match p with None => skip | Some p => match p_mean p with None => fail AttributeError | Some m => colour n 3 (plot_rebit_modelparams (width_of (p_basis p)) (Rows [state_to_modelparams (basis_of (p_basis p)) m]) ax "Prior Mean") end end = None <->
    (forall q, p = Some q -> (3 < n)%nat /\ p_mean q <> None /\ in_axes ax (width_of (p_basis q)))).
  { destruct p as [p|]; [|cbn; split; [congruence|reflexivity]]. destruct (p_mean p) as [m|] eqn:M.
    - rewrite done_colour, done_points. split; [intros (H1 & _ & H2) q [= <-]; rewrite M; split; [assumption|split; [discriminate|assumption]]|]. intros H. destruct (H p eq_refl) as (H1 & _ & H2). eauto.
    - cbn. split; [discriminate|]. intros H. destruct (H p eq_refl) as (_ & H1 & _). contradiction. }
  assert (G : snd match region with Some r => if String.eqb r "cov" then draw (Patch (rebit_ellipse eig (width_of b) ax w l n_std))
       else if String.eqb r "hull" then attempt hull (fun vs => draw (Outline (map (fun v => (fst v * sqrt 2, snd v * sqrt 2)) vs))) else skip | None => skip end = None <->
       (region = Some "hull"%string -> exists vs, hull = Ok vs)).
  { destruct region as [r|]; [|cbn; split; [congruence|reflexivity]]. destruct (String.eqb_spec r "cov") as [->|N1]; [cbn; split; [congruence|reflexivity]|].
    destruct (String.eqb_spec r "hull") as [->|N2]; [|cbn; split; [congruence|reflexivity]]. destruct hull as [vs|e]; cbn; split; try discriminate; eauto. intros H. destruct (H eq_refl) as (? & ?). discriminate. }
  split.
  - rewrite !done_seq, P, G, !done_colour, !done_points, done_decorate. split.
    + intros ((A & _ & B) & (C & D & _) & F & (K & _ & _) & I & J & _). split; [exists n; split; [reflexivity|]; split; [assumption|]; intros X; destruct p as [q|]; [apply (F q eq_refl)|congruence]|].
      split; [assumption|]. split; [intros q E; destruct (F q E) as (_ & X); exact X|]. auto.
    + intros ((n' & [= <-] & A & B) & (rows & ->) & C & D & F & K). split; [split; [lia|eauto]|]. split; [split; [lia|eauto]|]. split; [intros q E; split; [apply B; congruence|now apply C]|].
      split; [split; [lia|eauto]|]. split; [assumption|]. split; [assumption|now destruct legend].
  - intros H. rewrite !done_seq in H. destruct H as (H1 & H2 & H3 & H4 & H5 & H6 & H7). unfold posterior_figure.
    rewrite (marks_seq _ _ H1), (marks_seq _ _ H2), (marks_seq _ _ H3), (marks_seq _ _ H4), (marks_seq _ _ H5), (marks_seq _ _ H6). rewrite (marks_colour _ _ _ H1), (marks_colour _ _ _ H2), (marks_colour _ _ _ H4), (marks_decorate _ _ H6).
    rewrite done_colour in H1, H2, H4. rewrite !marks_points by tauto. cbn [rows_of map app]. do 2 f_equal. f_equal; [|f_equal; f_equal; [|f_equal; now destruct legend]].
    + destruct p as [q|]; [|reflexivity]. destruct (p_mean q) as [m|]; [|discriminate]. rewrite (marks_colour _ _ _ H3). rewrite done_colour in H3. now rewrite marks_points by tauto.
    + destruct region as [r|]; [|reflexivity]. destruct (String.eqb_spec r "cov") as [->|N1]; [reflexivity|]. destruct (option_dec string_dec (Some r) (Some "cov"%string)) as [X|_]; [congruence|].
      destruct (String.eqb_spec r "hull") as [->|N2].
      * destruct (option_dec string_dec (Some "hull"%string) (Some "hull"%string)); [|congruence]. destruct hull; [reflexivity|discriminate].
      * destruct (option_dec string_dec (Some r) (Some "hull"%string)); [congruence|reflexivity].
Qed.

(** For qubits the particles, the true state, the prior's mean, the posterior mean and the region drawn by its hull lie inside the circle if the particles and
    the true state are states; the corners of the hull are points of particles. *)
Lemma point_mean d ax w l : length w = length l -> in_axes ax d ->
  rebit_point ax (est_mean d w l) = (Sum (length w) (fun i => nth i w 0 * fst (rebit_point ax (nth i l []))), Sum (length w) (fun i => nth i w 0 * snd (rebit_point ax (nth i l [])))).
Proof.
  intros L (A & B). unfold rebit_point, est_mean, particle_mean. cbn [fst snd].
  assert (Q : forall j, (j < d)%nat -> nth j (map (fun j => rdot w (col j l)) (seq 0 d)) 0 = Sum (length w) (fun i => nth i w 0 * nth j (nth i l []) 0)).
  { intros j Hj. rewrite (nth_indep _ 0 (rdot w (col 0 l))) by (now rewrite map_length, seq_length). rewrite (map_nth (fun j => rdot w (col j l))), seq_nth by assumption. cbn [Nat.add].
    unfold rdot. rewrite (rsum_map2_index _ _ _ 0 0) by (unfold col; now rewrite map_length). apply Sum_ext. intros i Hi. f_equal. unfold col.
    rewrite (nth_indep (map (fun r => nth j r 0) l) 0 (nth j [] 0)) by (rewrite map_length; lia). now rewrite (map_nth (fun r => nth j r 0)). }
  rewrite !Q by assumption. f_equal; rewrite <- Sum_scal_r; apply Sum_ext; intros; ring.
Qed.
Lemma disc_convex n (w x y : nat -> R) : (forall i, (i < n)%nat -> 0 <= w i) -> Sum n w = 1 -> (forall i, (i < n)%nat -> x i ^ 2 + y i ^ 2 <= 1) ->
  Sum n (fun i => w i * x i) ^ 2 + Sum n (fun i => w i * y i) ^ 2 <= 1.
Proof.
  intros P U H. set (X := Sum n (fun i => w i * x i)). set (Y := Sum n (fun i => w i * y i)).
  assert (Q : 0 <= Sum n (fun i => w i * ((x i - X) ^ 2 + (y i - Y) ^ 2))) by (apply Sum_nonneg; intros i Hi; apply Rmult_le_pos; [auto|apply Rplus_le_le_0_compat; apply pow2_ge_0]).
  assert (E : Sum n (fun i => w i * ((x i - X) ^ 2 + (y i - Y) ^ 2)) = Sum n (fun i => w i * (x i ^ 2 + y i ^ 2)) - (X ^ 2 + Y ^ 2)).
  { rewrite (Sum_ext _ _ (fun i => w i * (x i ^ 2 + y i ^ 2) - (2 * X * (w i * x i) + (2 * Y * (w i * y i) - (X ^ 2 + Y ^ 2) * w i)))) by (intros; ring).
    rewrite Sum_minus, Sum_plus, Sum_minus, !Sum_scal, U. fold X Y. ring. }
  assert (B : Sum n (fun i => w i * (x i ^ 2 + y i ^ 2)) <= Sum n w) by (apply Sum_le; intros i Hi; specialize (H i Hi); specialize (P i Hi); nra). lra.
Qed.
Theorem c141_posterior_inside pal w l b p true_state n_std ax legend region eig hull : let d := plot_rebit_posterior pal w l b p true_state n_std ax legend region eig hull in
  let B := basis_of b in
  prob_vector w -> length w = length l -> tomographic B -> bdim B = 2%nat -> proper B ax -> Forall (is_state B) l -> Forall (is_state B) (rows_of true_state) ->
  (forall q, p = Some q -> p_basis q = b /\ forall m, p_mean q = Some m -> density 2 m) ->
  (forall vs v, hull = Ok vs -> In v vs -> exists x, In x l /\ v = (nth (fst ax) x 0, nth (snd ax) x 0)) ->
  snd d = None -> Forall inside_circle (fst d).
Proof.
  cbv zeta. intros Pw L T E A S1 S2 S3 S4 D. pose proof (proj1 (proj1 (c141_posterior _ _ _ _ _ _ _ _ _ _ _ _)) D) as (_ & _ & _ & _ & Ax & _). rewrite (proj2 (c141_posterior _ _ _ _ _ _ _ _ _ _ _ _) D). clear D. unfold posterior_figure.
  assert (Q0 : forall x, is_state (basis_of b) x -> in_disc 1 (rebit_point ax x)) by (intros x (rho & Dr & ->); rewrite E in Dr; now apply c141_states_in_circle).
  assert (Q : forall l, Forall (is_state (basis_of b)) l -> Forall (in_disc 1) (map (rebit_point ax) l)) by (intros k H; apply Forall_map; apply Forall_impl with (2 := H); exact Q0).
  apply Forall_app. split; [constructor; [now apply Q|constructor; [now apply Q|constructor]]|]. apply Forall_app. split.
  { destruct p as [q|]; [|constructor]. destruct (S3 q eq_refl) as (Eb & Dm). destruct (p_mean q) as [m|]; [|constructor]. constructor; [|constructor]. constructor; [|constructor]. rewrite Eb. apply c141_states_in_circle; auto. }
  apply Forall_app. split; [|apply Forall_app; split].
  - constructor; [|constructor]. constructor; [|constructor]. rewrite point_mean by assumption. unfold in_disc. cbn [fst snd]. apply (disc_convex (length w) (fun i => nth i w 0)).
    + intros i Hi. destruct Pw as (P0 & _). rewrite Forall_forall in P0. apply P0, nth_In, Hi.
    + destruct Pw as (_ & P1). now rewrite <- rsum_index.
    + intros i Hi. rewrite Forall_forall in S1. apply (Q0 (nth i l [])), S1, nth_In. lia.
  - destruct (option_dec string_dec region (Some "cov"%string)); [repeat constructor|]. destruct (option_dec string_dec region (Some "hull"%string)); [|constructor]. destruct hull as [vs|]; [|constructor].
    constructor; [|constructor]. cbn [inside_circle]. apply Forall_map, Forall_forall. intros v I. destruct (S4 vs v eq_refl I) as (x & Ix & ->). rewrite Forall_forall in S1. exact (Q0 x (S1 x Ix)).
  - apply Forall_app. split; [repeat constructor|destruct legend; repeat constructor].
Qed.

(** For a qutrit in the Gell-Mann basis a basis state is drawn outside the circle with the default axes. *)
Definition third_state : mat := fun i j => if Nat.eqb i 2 && Nat.eqb j 2 then c1 else c0.
Theorem c141_qutrit_refuted : exists b, gell_mann_basis 3 = Ok b /\ tomographic b /\ density 3 third_state /\ proper b rebit_axes /\
  fst (rebit_point rebit_axes (state_to_modelparams b third_state)) ^ 2 + snd (rebit_point rebit_axes (state_to_modelparams b third_state)) ^ 2 = 4 / 3.
Proof.
  destruct (c60_gell_mann 3 ltac:(lia)) as (b & E & D & _). destruct (gell_mann_tomographic 3 b E) as (_ & T). exists b. split; [exact E|]. split; [exact T|]. split; [|split].
  - split; [split|].
    + intros i j _ _. unfold third_state. rewrite (andb_comm (Nat.eqb j 2)). destruct (Nat.eqb i 2 && Nat.eqb j 2); apply C_eq; cbn; ring.
    + intros v. unfold quad, third_state. cbn [re csum]. rewrite !Sum_S, !Sum_0. cbn. nra.
    + apply C_eq; unfold mtrace, third_state; cbn [re im csum]; rewrite !Sum_S, Sum_0; cbn; lra.
  - unfold proper, rebit_axes. rewrite D. cbn. lia.
  - pose proof (sqrt_sqrt 2 ltac:(lra)) as Q2. pose proof (sqrt_sqrt 6 ltac:(lra)) as Q6. pose proof (sqrt_lt_R0 6 ltac:(lra)) as Q0.
    cbn in E. injection E as <-. unfold rebit_point, rebit_axes, state_to_modelparams. cbn [fst snd bdim bdata map seq Nat.pow nth]. unfold set_plane, gm_diag, set_pair, mzero, third_state. cbn -[INR sqrt Rdiv pow Sum]. rewrite !Sum_S, !Sum_0.
    cbn -[INR sqrt Rdiv pow]. replace (INR 2 + INR 2 ^ 2) with 6 by (cbn; ring). replace (INR 2) with 2 by reflexivity.
    assert (K : / sqrt 6 * sqrt 6 = 1) by (field; lra). assert (K2 : (/ sqrt 6) ^ 2 = 1 / 6) by (rewrite pow_inv; replace (sqrt 6 ^ 2) with 6 by (cbn; lra); lra). unfold Rdiv. set (k := / sqrt 6) in *. clearbody k. set (s := sqrt 2) in *. clearbody s.
    transitivity (4 * k ^ 2 * (s * s)); [ring|rewrite K2, Q2; lra].
Qed.

(** ** Exceptions *)
(** Without a true state, which is the default, the posterior plot stops after the particles. *)
Theorem c141_default_true_state_refuted n w l b p n_std ax legend region eig hull : (1 < n)%nat -> in_axes ax (width_of b) ->
  plot_rebit_posterior (Some n) w l b p Nothing n_std ax legend region eig hull = ([Points "Posterior" (map (rebit_point ax) l)], Some TypeError).
Proof.
  intros H (A & B). unfold plot_rebit_posterior, colour. cbn [colours attempt]. replace (0 <? n)%nat with true by (symmetry; apply Nat.ltb_lt; lia). replace (1 <? n)%nat with true by (symmetry; now apply Nat.ltb_lt).
  unfold plot_rebit_modelparams at 1. apply Nat.ltb_lt in A, B. rewrite A, B. reflexivity.
Qed.
(** A prior without a mean (any but GADFLIDistribution) stops it as well. *)
Theorem c141_prior_without_mean_refuted n w l b q rows n_std ax legend region eig hull : (1 < n)%nat -> in_axes ax (width_of b) -> p_mean q = None ->
  plot_rebit_posterior (Some n) w l b (Some q) (Rows rows) n_std ax legend region eig hull = ([Points "Posterior" (map (rebit_point ax) l); Points "True" (map (rebit_point ax) rows)], Some AttributeError).
Proof.
  intros H (A & B) M. unfold plot_rebit_posterior, colour. cbn [colours attempt]. replace (0 <? n)%nat with true by (symmetry; apply Nat.ltb_lt; lia). replace (1 <? n)%nat with true by (symmetry; now apply Nat.ltb_lt).
  unfold plot_rebit_modelparams at 1 2. apply Nat.ltb_lt in A, B. rewrite A, B, M. reflexivity.
Qed.
(** Where matplotlib has no axes.color_cycle (since 2.2) nothing is drawn. *)
Theorem c141_modern_matplotlib_refuted p ax n ts f lg k w l b q ns region eig hull :
  plot_rebit_prior None p ax n ts f lg k = ([], Some KeyError) /\ plot_rebit_posterior None w l b q ts ns ax lg region eig hull = ([], Some KeyError).
Proof. split; reflexivity. Qed.
(** An unknown method for the region is no error: no region is drawn. *)
Theorem c141_unknown_region_refuted pal w l b p ts n_std ax legend r eig hull : r <> "cov"%string -> r <> "hull"%string ->
  plot_rebit_posterior pal w l b p ts n_std ax legend (Some r) eig hull = plot_rebit_posterior pal w l b p ts n_std ax legend None eig hull.
Proof. intros H1 H2. unfold plot_rebit_posterior. apply String.eqb_neq in H1, H2. now rewrite H1, H2. Qed.
(** The error ellipse can be wider than the circle. *)
Theorem c141_ellipse_refuted pos : e_width (plot_cov_ellipse {| val0 := 1; val1 := 1; vec0 := (1, 0); vec1 := (0, 1) |} pos 3) = 6.
Proof. unfold plot_cov_ellipse, eigsorted. cbn [val0 val1]. unfold Rltb. destruct (Rlt_dec 1 1); cbn; rewrite sqrt_1; lra. Qed.

(** A qubit prior in the Pauli basis, drawn along X and Z *)
Definition mixed_state : mat := fun i j => if Nat.eqb i j then rc (1 / 2) else c0.
Lemma mixed_density : density 2 mixed_state.
Proof.
  exact (proj1 c116_default_example).
Qed.
Example c141_case : exists b, pauli_basis 1 = Ok b /\ let db := {| basis_of := b; names_of := ["I"; "X"; "Y"; "Z"]%string |} in
  let p := {| p_sample := fun n => repeat (state_to_modelparams b mixed_state) n; p_mean := None; p_basis := db |} in
  tomographic b /\ bdim b = 2%nat /\ proper b (1%nat, 3%nat) /\ Forall (is_state b) (p_sample p 5) /\ snd (plot_rebit_prior (Some 7%nat) p (1%nat, 3%nat) 5 Nothing None true 2) = None.
Proof.
  destruct (c61_pauli 1 ltac:(lia)) as (b & E & T & D & L). exists b. split; [exact E|]. cbv zeta. split; [exact T|]. change (2 ^ 1)%nat with 2%nat in D. change (4 ^ 1)%nat with 4%nat in L. split; [exact D|].
  split; [unfold proper; rewrite D; cbn; lia|]. split.
  - cbn [p_sample]. apply Forall_forall. intros x I. apply repeat_spec in I. subst x. exists mixed_state. rewrite D. split; [exact mixed_density|reflexivity].
  - apply c141_prior. cbn [p_basis p_mean mean_of names_of]. split; [exists 7%nat; repeat split; try lia; intros; lia|]. split; [discriminate|]. unfold in_axes, width_of. cbn [basis_of fst snd names_of length]. rewrite L. lia.
Qed.

Example c141_posterior_case : exists b, pauli_basis 1 = Ok b /\ let db := {| basis_of := b; names_of := ["I"; "X"; "Y"; "Z"]%string |} in let x := state_to_modelparams b mixed_state in
  tomographic b /\ bdim b = 2%nat /\ proper b (1%nat, 3%nat) /\ Forall (is_state b) [x; x] /\
  forall eig, snd (plot_rebit_posterior (Some 7%nat) [1 / 4; 3 / 4] [x; x] db None (Rows [x]) 3 (1%nat, 3%nat) true (Some "cov"%string) eig (Err RuntimeError)) = None.
Proof.
  destruct c141_case as (b & E & T & D & A & S1 & _). exists b. split; [exact E|]. cbv zeta. split; [exact T|]. split; [exact D|]. split; [exact A|]. cbn [p_sample repeat] in S1.
  split; [inversion S1; inversion H2; repeat (constructor; [assumption|]); constructor|]. intros eig. destruct (c61_pauli 1 ltac:(lia)) as (b' & E' & _ & _ & L). rewrite E in E'. injection E' as <-. change (4 ^ 1)%nat with 4%nat in L.
  apply c141_posterior. split; [exists 7%nat; repeat split; try lia; congruence|]. split; [eauto|]. split; [discriminate|]. split; [discriminate|]. unfold in_axes, width_of. cbn [basis_of names_of fst snd length]. rewrite L. lia.
Qed.

Print Assumptions c141_states_in_disc.
Print Assumptions c141_states_in_circle.
Print Assumptions c141_identity_axis_refuted.
Print Assumptions c141_qutrit_refuted.
Print Assumptions c141_prior.
Print Assumptions c141_prior_inside.
Print Assumptions c141_posterior.
Print Assumptions c141_posterior_inside.
Print Assumptions c141_default_true_state_refuted.
Print Assumptions c141_prior_without_mean_refuted.
Print Assumptions c141_modern_matplotlib_refuted.
Print Assumptions c141_unknown_region_refuted.
Print Assumptions c141_ellipse_refuted.
