(** C154: learning does not depend on the units of the parameters *)
From Coq Require Import String.
From Verif Require Import Base RList Ext Sums SmcModel SmcSpec PartModel PartProofs TwoModel LwModel ReModel DesModel DesProps UnitSpec.
From Coq Require Import List.

Section Units.
Context {O E O' E' RND : Type}.
Variables (rho : O -> O') (g : loc -> loc) (gam : E -> E') (c : @config O E RND) (c' : @config O' E' RND).
Hypothesis HS : same_problem rho g gam c c'.
Notation conv := (converted rho g).
Notation resl := (result rho g).
Lemma L_row_conv l o e : L_row c' (map g l) (rho o) (gam e) = L_row c l o e.
Proof. unfold L_row. rewrite map_map. apply map_ext. intros x. apply (s_lik _ _ _ _ _ HS). Qed.
Lemma resample_conv r s : resample c' r (conv s) = resl (resample c r s).
Proof.
  destruct (s_rest _ _ _ _ _ HS) as (_ & _ & _ & E4). unfold resample, result. cbn [converted ws ls]. rewrite (s_rsmp _ _ _ _ _ HS r (ws s) (ls s)). destruct (rsmp c r (ws s) (ls s)) as [[w1 l1]|e]; [|reflexivity].
  cbn. unfold converted. cbn. rewrite E4. destruct (canonize c); [|reflexivity]. now rewrite (s_canon _ _ _ _ _ HS).
Qed.
Lemma maybe_conv r s : maybe_resample c' r (conv s) = resl (maybe_resample c r s).
Proof.
  destruct (s_rest _ _ _ _ _ HS) as (E1 & _). unfold maybe_resample, n_particles. cbn [converted ws ls]. rewrite map_length, E1. destruct (xltb _ _); [apply resample_conv|reflexivity].
Qed.
Lemma hyp_row_conv w l o e : hyp_row c' w (map g l) (rho o) (gam e) = hyp_row c w l o e.
Proof. unfold hyp_row. now rewrite L_row_conv. Qed.
Lemma scale_conv w l o e : norm_scale c' w (map g l) (rho o) (gam e) = norm_scale c w l o e.
Proof. unfold norm_scale. now rewrite hyp_row_conv. Qed.
Lemma norm_conv w l o e : norm_row c' w (map g l) (rho o) (gam e) = norm_row c w l o e.
Proof. unfold norm_row. now rewrite scale_conv, hyp_row_conv. Qed.
Lemma hyp_conv s os es : hypothetical_update c' (conv s) (map rho os) (map gam es) = (conv (fst (hypothetical_update c s os es)), snd (hypothetical_update c s os es)).
Proof.
  unfold hypothetical_update. cbn [converted ws ls]. rewrite !map_length. destruct (negb _); cbn [fst snd]; [reflexivity|]. unfold add_calls, converted. cbn. do 3 f_equal;
  rewrite map_map; apply map_ext; intros o; rewrite map_map; apply map_ext; intros e; [apply norm_conv|apply L_row_conv|apply scale_conv].
Qed.
Lemma install_conv r s w N e check : install c' r (conv s) w N (gam e) check = resl (install c r s w N e check).
Proof.
  unfold install. cbn [converted ls drec nrec mness rcnt jr calls]. rewrite (s_step _ _ _ _ _ HS). destruct check; [|reflexivity]. rewrite <- maybe_conv. reflexivity.
Qed.
Lemma reset_conv r s np rw : reset c' r (conv s) np None rw = resl (reset c r s np None rw).
Proof.
  destruct (s_rest _ _ _ _ _ HS) as (_ & _ & _ & E4). unfold reset, result, n_particles. cbn [converted ws ls drec nrec mness rcnt jr calls]. rewrite map_length, E4, (s_prior _ _ _ _ _ HS).
  destruct np; unfold converted; cbn; destruct (canonize c); rewrite ?(s_canon _ _ _ _ _ HS); reflexivity.
Qed.
Lemma update_conv r s o e check : update c' r (conv s) (rho o) (gam e) check = resl (update c r s o e check).
Proof.
  destruct (s_rest _ _ _ _ _ HS) as (_ & E2 & E3 & _). unfold update. set (s0 := {| ws := ws s; ls := ls s; drec := drec s ++ [o]; nrec := nrec s; mness := mness s; rcnt := rcnt s; jr := false; calls := calls s |}).
  match goal with |- context [hypothetical_update c' ?x _ _] => replace x with (conv s0) by (unfold s0, converted; cbn; now rewrite map_app) end.
  change [rho o] with (map rho [o]). change [gam e] with (map gam [e]). rewrite hyp_conv. destruct (hypothetical_update c s0 [o] [e]) as [s1 [h|x]]; cbn [fst snd]; [|reflexivity].
  destruct (h_weights h) as [|[|w0 [|]] [|]]; try reflexivity. destruct (h_norm h) as [|[|N [|]] [|]]; try reflexivity. rewrite E2, E3.
  destruct (Rleb _ _); [|apply install_conv]. destruct (zpolicy c); try reflexivity; try apply install_conv.
  rewrite reset_conv. unfold result. cbn [fst snd]. apply install_conv.
Qed.
Lemma batch_conv rs interval data : forall idx s, batch_loop c' rs interval idx (map (fun p => (rho (fst p), gam (snd p))) data) (conv s) = resl (batch_loop c rs interval idx data s).
Proof.
  induction data as [|[o e] data IH]; intros idx s; [reflexivity|]. cbn [map fst snd batch_loop]. rewrite update_conv. destruct (update c (rs idx) s o e false) as [s1 [x|]]; cbn [result fst snd]; [reflexivity|].
  destruct (Z.eqb interval 0); [reflexivity|]. destruct (Z.eqb _ 0); [|apply IH]. rewrite maybe_conv. destruct (maybe_resample c (rs idx) s1) as [s2 [x|]]; cbn [result fst snd]; [reflexivity|apply IH].
Qed.
(** Every operation does the same, with the same exceptions, *)
Theorem c154_operation x s : whole x -> step c' (conv s) (converted_op rho gam x) = resl (step c s x).
Proof.
  destruct x as [r o e check|rs os es iv|r|r|r np [only|] rw|os es]; intros Hw; cbn [converted_op step]; try contradiction.
  - apply update_conv.
  - unfold batch_update. rewrite !map_length. destruct (Nat.eqb _ _); [|reflexivity]. rewrite <- batch_conv. f_equal. clear. revert es. induction os as [|o os IH]; intros [|e es]; cbn; try reflexivity. now rewrite IH.
  - apply resample_conv.
  - apply maybe_conv.
  - apply reset_conv.
  - rewrite hyp_conv. destruct (hypothetical_update c s os es) as [s1 [h|x]]; reflexivity.
Qed.
(** so every history of operations does. *)
Theorem c154_history xs s : Forall whole xs -> run c' (conv s) (map (converted_op rho gam) xs) = conv (run c s xs).
Proof.
  unfold run. revert s. induction xs as [|x xs IH]; intros s Hw; [reflexivity|]. inversion Hw; subst. cbn [map fold_left]. rewrite c154_operation by assumption. cbn [result fst]. now apply IH.
Qed.
Theorem c154_start r n both : init c' r n both = match init c r n both with Ok s => Ok (conv s) | Err e => Err e end.
Proof. unfold init. destruct both; [reflexivity|]. f_equal. change {| ws := []; ls := []; drec := []; nrec := []; mness := Fin (INR n); rcnt := 0; jr := false; calls := 0 |} with (conv {| ws := []; ls := []; drec := []; nrec := []; mness := Fin (INR n); rcnt := 0; jr := false; calls := 0 |}) at 1. now rewrite reset_conv. Qed.
(** Sessions with designed experiments as well, if the design converts too. *)
Theorem c154_session {D} (design : D -> list R -> list loc -> res E) (design' : D -> list R -> list loc -> res E') outcome outcome' ks :
  (forall k w l, design' k w (map g l) = match design k w l with Ok e => Ok (gam e) | Err x => Err x end) -> (forall k e, outcome' k (gam e) = rho (outcome k e)) ->
  forall s, session c' design' outcome' ks (conv s) = resl (session c design outcome ks s).
Proof.
  intros HD HO. induction ks as [|[r k] ks IH]; intros s; [reflexivity|]. cbn [session]. cbn [converted ws ls]. rewrite HD. destruct (design k (ws s) (ls s)) as [e|x]; [|reflexivity].
  rewrite HO, update_conv. destruct (update c r s (outcome k e) e true) as [s1 [x|]]; cbn [result fst snd]; [reflexivity|apply IH].
Qed.
End Units.

(** ** Mean and covariance in the new units *)
Lemma nth_rescale k a x j : (j < length x)%nat -> nth j (rescale k a x) 0 = k * nth j x 0 + a.
Proof. intros H. unfold rescale. rewrite (nth_indep _ 0 ((fun w => k * w + a) 0)) by (now rewrite map_length). apply (map_nth (fun w => k * w + a)). Qed.
Lemma rdot_rescale k a j w l : length w = length l -> Forall (fun x => (j < length x)%nat) l -> rdot w (col j (map (rescale k a) l)) = k * rdot w (col j l) + a * rsum w.
Proof.
  revert l. induction w as [|y w IH]; intros [|x l] HL F; cbn in HL; try discriminate; [rewrite !rdot_nil_l; change (rsum []) with 0; ring|]. inversion F; subst. unfold col in *. cbn [map]. rewrite !rdot_cons, rsum_cons, IH by (congruence || assumption). rewrite nth_rescale by assumption. ring.
Qed.
Theorem c154_mean d k a w l j : (j < d)%nat -> length w = length l -> rsum w = 1 -> Forall (fun x => length x = d) l -> nth j (particle_mean d w (map (rescale k a) l)) 0 = k * nth j (particle_mean d w l) 0 + a.
Proof.
  intros Hj HL H1 F. unfold particle_mean. rewrite !(nth_indep _ 0 (rdot w (col 0 l))) by (now rewrite map_length, seq_length). 
  rewrite (nth_indep _ (rdot w (col 0 l)) ((fun j => rdot w (col j (map (rescale k a) l))) 0%nat)) by (now rewrite map_length, seq_length). rewrite (map_nth (fun j => rdot w (col j (map (rescale k a) l)))), (map_nth (fun j => rdot w (col j l))), seq_nth by assumption. cbn [plus].
  rewrite rdot_rescale, H1; [ring|assumption|]. eapply Forall_impl; [|exact F]. intros x ->. assumption.
Qed.
Theorem c154_covariance d k a w l m n : (m < d)%nat -> (n < d)%nat -> length w = length l -> rsum w = 1 -> Forall (fun x => length x = d) l -> particle_cov w (map (rescale k a) l) m n = k ^ 2 * particle_cov w l m n.
Proof.
  intros Hm Hn HL H1 F. unfold particle_cov. assert (Fm : Forall (fun x => (m < length x)%nat) l) by (eapply Forall_impl; [|exact F]; now intros x ->). assert (Fn : Forall (fun x => (n < length x)%nat) l) by (eapply Forall_impl; [|exact F]; now intros x ->). rewrite !rdot_rescale, H1 by assumption.
  assert (Q : rsum (map2 (fun wi xi => wi * nth m xi 0 * nth n xi 0) w (map (rescale k a) l)) = k ^ 2 * rsum (map2 (fun wi xi => wi * nth m xi 0 * nth n xi 0) w l) + k * a * (rdot w (col m l) + rdot w (col n l)) + a ^ 2 * rsum w).
  { clear H1 F. revert l HL Fm Fn. induction w as [|y w IH]; intros [|x l] HL Fm Fn; cbn in HL; try discriminate; [cbn [map map2]; rewrite !rdot_nil_l; change (rsum []) with 0; ring|]. inversion Fm; inversion Fn; subst. unfold col in *. cbn [map map2]. rewrite !rdot_cons, !rsum_cons, IH by (congruence || assumption). rewrite !nth_rescale by assumption. ring. }
  rewrite Q, H1. ring.
Qed.

(** ** The inversion model and the particle guess heuristic *)
Theorem c154_inversion k a t w_ w o : k <> 0 -> inv_like (t / k) (k * w_ + a) (k * w + a) o = inv_like t w_ w o.
Proof. intros Hk. unfold inv_like, inv_pr0. replace (t / k * (k * w + a - (k * w_ + a)) / 2) with (t * (w - w_) / 2) by (field; assumption). reflexivity. Qed.
Theorem c154_precession k t w o : k <> 0 -> prec_like (t / k) (k * w) o = prec_like t w o.
Proof. intros Hk. unfold prec_like. rewrite <- (c154_inversion k 0 t 0 w o Hk). f_equal; ring. Qed.

(** ** Liu and West's resampler *)
Lemma vscale_length k x : length (vscale k x) = length x.
Proof. apply map_length. Qed.
Lemma vscale_vadd k x y : vscale k (vadd x y) = vadd (vscale k x) (vscale k y).
Proof. unfold vscale, vadd. revert y. induction x as [|a x IH]; intros [|b y]; cbn; try reflexivity. rewrite IH. f_equal. ring. Qed.
Lemma vscale_vscale k h x : vscale k (vscale h x) = vscale h (vscale k x).
Proof. unfold vscale. rewrite !map_map. apply map_ext. intros; ring. Qed.
Lemma rdot_vscale k x z : rdot (vscale k x) z = k * rdot x z.
Proof. revert z. induction x as [|a x IH]; intros [|b z]; unfold vscale in *; cbn [map]; rewrite ?rdot_nil_l, ?rdot_nil_r; try ring. rewrite !rdot_cons, IH. ring. Qed.
Lemma matvec_scale k S z : matvec (map (vscale k) S) z = vscale k (matvec S z).
Proof. unfold matvec, vscale at 2. rewrite !map_map. apply map_ext. intros row. apply rdot_vscale. Qed.
Lemma nth_map_vscale k l i : nth i (map (vscale k) l) [] = vscale k (nth i l []).
Proof. apply (map_nth (vscale k) l [] i). Qed.
Lemma set_at_map {A B} (f : A -> B) i v l : set_at i (f v) (map f l) = map f (set_at i v l).
Proof. revert i. induction l as [|x l IH]; intros [|i]; cbn; try reflexivity. now rewrite IH. Qed.
Lemma scatter_map {A B} (f : A -> B) is vs l : scatter is (map f vs) (map f l) = map f (scatter is vs l).
Proof. revert vs l. induction is as [|i is IH]; intros [|v vs] l; cbn; try reflexivity. rewrite set_at_map. apply IH. Qed.
Lemma take_map {A B} (f : A -> B) l is : take (map f l) is = match take l is with Ok x => Ok (map f x) | Err e => Err e end.
Proof. induction is as [|i is IH]; [reflexivity|]. cbn [take]. rewrite nth_error_map. destruct (nth_error l i) as [x|]; [|reflexivity]. cbn [option_map]. rewrite IH. destruct (take l is); reflexivity. Qed.
Lemma nth_vscale k x j : nth j (vscale k x) 0 = k * nth j x 0.
Proof. unfold vscale. rewrite <- (map_nth (fun t => k * t) x 0 j). f_equal. ring. Qed.
Lemma col_scale k j l : col j (map (vscale k) l) = vscale k (col j l).
Proof. unfold col, vscale at 2. rewrite !map_map. apply map_ext. intros x. apply nth_vscale. Qed.
Lemma rdot_scale_r k w x : rdot w (vscale k x) = k * rdot w x.
Proof. rewrite rdot_comm, rdot_vscale, rdot_comm. reflexivity. Qed.
Lemma mean_scale k d w l : est_mean d w (map (vscale k) l) = vscale k (est_mean d w l).
Proof. unfold est_mean, particle_mean, vscale at 2. rewrite map_map. apply map_ext. intros j. rewrite col_scale. apply rdot_scale_r. Qed.
Lemma cov_scale k d w l : est_cov d w (map (vscale k) l) = map (vscale (k ^ 2)) (est_cov d w l).
Proof.
  unfold est_cov. rewrite map_map. apply map_ext. intros m. unfold vscale at 2. rewrite map_map. apply map_ext. intros n. unfold particle_cov. rewrite !col_scale, !rdot_scale_r.
  enough (Q : rsum (map2 (fun wi xi => wi * nth m xi 0 * nth n xi 0) w (map (vscale k) l)) = k ^ 2 * rsum (map2 (fun wi xi => wi * nth m xi 0 * nth n xi 0) w l)) by (rewrite Q; ring).
  revert l. induction w as [|y w IH]; intros [|x l]; cbn [map map2]; try (change (rsum []) with 0; ring). rewrite !rsum_cons, IH, !nth_vscale. ring.
Qed.
Lemma fro2_scale k m : fro2 (map (vscale k) m) = k ^ 2 * fro2 m.
Proof.
  unfold fro2. rewrite map_map. induction m as [|row m IH]; cbn [map]; [change (rsum []) with 0; ring|]. rewrite !rsum_cons, IH.
  enough (Q : rsum (map (fun x => x * x) (vscale k row)) = k ^ 2 * rsum (map (fun x => x * x) row)) by (rewrite Q; ring).
  induction row as [|x row IHr]; cbn [vscale map]; [change (rsum []) with 0; ring|]. unfold vscale in IHr. rewrite !rsum_cons, IHr. ring.
Qed.
Lemma zero_test k m : k <> 0 -> Reqb (sqrt (fro2 (map (vscale k) m))) 0 = Reqb (sqrt (fro2 m)) 0.
Proof.
  intros Hk. rewrite fro2_scale, sqrt_mult_alt by nra. assert (0 < sqrt (k ^ 2)) by (apply sqrt_lt_R0; nra). destruct (Req_dec (sqrt (fro2 m)) 0) as [E0|E0].
  - rewrite E0, Rmult_0_r. reflexivity.
  - rewrite !Reqb_false; [reflexivity|assumption|nra].
Qed.
Lemma eye_scale k c d : eye (k * c) d = map (vscale k) (eye c d).
Proof. unfold eye. rewrite map_map. apply map_ext. intros i. unfold vscale. rewrite map_map. apply map_ext. intros j. destruct (Nat.eqb i j); ring. Qed.
Section LW.
Variables (k : R) (valid valid' : loc -> bool) (ps : bool) (kernel : nat -> nat -> list R).
Hypothesis HV : forall x, valid' (vscale k x) = valid x.
Definition lw_conv (s : lw_state) : lw_state := {| new_locs := map (vscale k) (new_locs s); idxs := idxs s; js := js s; mus := map (vscale k) (mus s); n_calls := n_calls s |}.
Lemma pass_conv S t s : lw_pass valid' ps kernel (map (vscale k) S) t (lw_conv s) = lw_conv (lw_pass valid ps kernel S t s).
Proof.
  unfold lw_pass, lw_conv. cbn [new_locs idxs js mus n_calls]. rewrite map_length.
  assert (Q : map2 (fun mu i => vadd mu (matvec (map (vscale k) S) (kernel t i))) (map (vscale k) (mus s)) (seq 0 (length (mus s))) = map (vscale k) (map2 (fun mu i => vadd mu (matvec S (kernel t i))) (mus s) (seq 0 (length (mus s))))).
  { generalize (seq 0 (length (mus s))). induction (mus s) as [|x l IH]; intros [|i is]; cbn [map map2]; try reflexivity. rewrite IH, matvec_scale, vscale_vadd. reflexivity. }
  rewrite Q, scatter_map. set (locs := scatter _ _ _).
  assert (M : (if ps then map valid' (map (fun i => nth i (map (vscale k) locs) []) (idxs s)) else map (fun _ => true) (map (fun i => nth i (map (vscale k) locs) []) (idxs s))) = (if ps then map valid (map (fun i => nth i locs []) (idxs s)) else map (fun _ => true) (map (fun i => nth i locs []) (idxs s)))).
  { destruct ps; rewrite !map_map; [|reflexivity]. apply map_ext. intros i. rewrite nth_map_vscale. apply HV. }
  rewrite M, firstn_map. reflexivity.
Qed.
Lemma loop_conv S left : forall t s, lw_loop valid' ps kernel (map (vscale k) S) left t (lw_conv s) = lw_conv (lw_loop valid ps kernel S left t s).
Proof. induction left as [|left IH]; intros t s; [reflexivity|]. cbn [lw_loop]. destruct (idxs s) eqn:Ei; cbn [lw_conv idxs]; rewrite Ei; [reflexivity|]. rewrite pass_conv. apply IH. Qed.
(** Liu and West's resampler gives the same weights, ancestors and warnings, and locations in the new units. *)
Theorem c154_liu_west sqrtm cfg d w l n pre_mean pre_cov us junk : 0 < k -> root_scales k sqrtm ->
  lw_call valid' ps kernel sqrtm (lw_units k cfg) d w (map (vscale k) l) n (option_map (vscale k) pre_mean) (option_map (map (vscale (k ^ 2))) pre_cov) us (fun i => vscale k (junk i)) =
  match lw_call valid ps kernel sqrtm cfg d w l n pre_mean pre_cov us junk with Ok (dist, bad, calls) => Ok ((map (vscale k) (fst dist), snd dist), bad, calls) | Err e => Err e end.
Proof.
  intros Hk HR. unfold lw_call.
  replace (match option_map (vscale k) pre_mean with Some m => m | None => est_mean d w (map (vscale k) l) end) with (vscale k (match pre_mean with Some m => m | None => est_mean d w l end)) by (destruct pre_mean; [reflexivity|symmetry; apply mean_scale]).
  replace (match option_map (map (vscale (k ^ 2))) pre_cov with Some m => m | None => est_cov d w (map (vscale k) l) end) with (map (vscale (k ^ 2)) (match pre_cov with Some m => m | None => est_cov d w l end)) by (destruct pre_cov; [reflexivity|symmetry; apply cov_scale]).
  set (mean := match pre_mean with Some m => m | None => _ end). set (cov := match pre_cov with Some m => m | None => _ end). rewrite (map_length (vscale k)), zero_test by (assert (0 < k ^ 2) by nra; lra).
  cbn [lw_units c_a c_h c_maxiter c_comp c_default_n]. set (N := match n with Some n0 => n0 | None => _ end). rewrite map_length, eye_scale.
  replace (if Reqb (sqrt (fro2 cov)) 0 then map (vscale (k ^ 2)) (eye (c_comp cfg) (length cov)) else map (vscale (k ^ 2)) cov) with (map (vscale (k ^ 2)) (if Reqb (sqrt (fro2 cov)) 0 then eye (c_comp cfg) (length cov) else cov)) by (destruct (Reqb _ _); reflexivity).
  set (cov' := if Reqb _ _ then _ else _). destruct (HR cov') as [H1 H2]. destruct (sqrtm (map (vscale (k ^ 2)) cov')) as [S1 e1]. destruct (sqrtm cov') as [S0 e0]. cbn [fst snd] in H1, H2. rewrite H2. destruct (negb (isfinite e0)); [reflexivity|].
  rewrite take_map. destruct (take l (map (searchsorted_right (cumsum w)) us)) as [anc|e]; [|reflexivity]. cbn [bind].
  assert (L : lw_loop valid' ps kernel (map (vscale (c_h cfg)) S1) (c_maxiter cfg) 0 {| new_locs := map (fun i => vscale k (junk i)) (seq 0 N); idxs := seq 0 N; js := map (searchsorted_right (cumsum w)) us; mus := map (fun x => vadd (vscale (c_a cfg) x) (vscale (1 - c_a cfg) (vscale k mean))) (map (vscale k) anc); n_calls := 0 |} =
     lw_conv (lw_loop valid ps kernel (map (vscale (c_h cfg)) S0) (c_maxiter cfg) 0 {| new_locs := map junk (seq 0 N); idxs := seq 0 N; js := map (searchsorted_right (cumsum w)) us; mus := map (fun x => vadd (vscale (c_a cfg) x) (vscale (1 - c_a cfg) mean)) anc; n_calls := 0 |})).
  { rewrite <- loop_conv. f_equal; [rewrite H1, !map_map; apply map_ext; intros row; apply vscale_vscale|]. unfold lw_conv. cbn. f_equal; [now rewrite map_map|]. rewrite !map_map. apply map_ext. intros x. rewrite vscale_vadd, !(vscale_vscale k). reflexivity. }
  rewrite L. unfold lw_conv. cbn [new_locs idxs n_calls]. unfold pd_init. cbn [bind]. reflexivity.
Qed.
End LW.
(** The square root of one-by-one covariance matrices *)
Definition root1 (m : list (list R)) : list (list R) * ext := (map (map sqrt) m, Fin 0).
Lemma root1_scales k : 0 < k -> root_scales k root1.
Proof.
  intros Hk m. split; [|reflexivity]. cbn [root1 fst]. rewrite !map_map. apply map_ext. intros row. unfold vscale. rewrite !map_map. apply map_ext. intros x. rewrite sqrt_mult_alt by nra. f_equal. replace (k ^ 2) with (k * k) by ring. apply sqrt_square. lra.
Qed.
(** The same call as the updater makes it *)
Theorem c154_resampler k valid valid' ps sqrtm cfg d junk r w l : 0 < k -> (forall x, valid' (vscale k x) = valid x) -> root_scales k sqrtm ->
  lw_rsmp valid' ps sqrtm (lw_units k cfg) d (fun i => vscale k (junk i)) r w (map (vscale k) l) =
  match lw_rsmp valid ps sqrtm cfg d junk r w l with Ok (w1, l1) => Ok (w1, map (vscale k) l1) | Err e => Err e end.
Proof.
  intros Hk HV HR. unfold lw_rsmp. set (kernel := fun t i => _). pose proof (c154_liu_west k valid valid' ps kernel HV sqrtm cfg d w l None None None (map fst r) junk Hk HR) as H. cbn [option_map] in H. rewrite H.
  destruct (lw_call valid ps kernel sqrtm cfg d w l None None None (map fst r) junk) as [[[dist bad] calls]|e]; reflexivity.
Qed.
(** With zero_cov_comp left as it was, a cloud without spread is spread by a distance that does not follow the units. *)
Definition no_spread : lw_config := {| c_a := 0; c_h := 1; c_maxiter := 1; c_comp := 1; c_default_n := None |}.
Lemma no_spread_call u y : 0 <= u -> lw_rsmp (fun _ => true) true root1 {| c_a := 0; c_h := 1; c_maxiter := 1; c_comp := u; c_default_n := None |} 1 (fun _ => []) [(0, [1])] [1] [[y]] = Ok ([1], [[y + sqrt u]]).
Proof.
  intros Hc. unfold lw_rsmp, lw_call. cbn [c_a c_h c_maxiter c_comp c_default_n map fst length].
  replace (est_cov 1 [1] [[y]]) with [[0]] by (unfold est_cov, particle_cov, col, rdot, rsum; cbn; do 2 f_equal; ring).
  replace (fro2 [[0]]) with 0 by (unfold fro2, rsum; cbn; ring). rewrite sqrt_0. rewrite Reqb_true by reflexivity. unfold root1, eye. cbn [seq map Nat.eqb length isfinite negb].
  replace (searchsorted_right (cumsum [1]) 0) with 0%nat by (cbn; rewrite Rltb_true by lra; reflexivity).
  cbn [take nth_error bind lw_loop idxs]. unfold lw_pass, est_mean, particle_mean, col, uniform_weights, pd_init, matvec, vadd, vscale, rdot, rsum. cbn. rewrite Rinv_1, Rabs_R1. cbn. rewrite ?Reqb_false by lra. cbn.
  match goal with |- Ok ([?a], [[?b]]) = _ => replace b with (y + sqrt u) by ring; replace a with 1 by field end. reflexivity.
Qed.
Theorem c154_zero_covariance_refuted :
  lw_rsmp (fun _ => true) true root1 no_spread 1 (fun _ => []) [(0, [1])] [1] (map (vscale 2) [[1]]) <>
  match lw_rsmp (fun _ => true) true root1 no_spread 1 (fun _ => []) [(0, [1])] [1] [[1]] with Ok (w1, l1) => Ok (w1, map (vscale 2) l1) | Err e => Err e end.
Proof.
  unfold no_spread. cbn [map vscale]. rewrite !no_spread_call by lra. rewrite sqrt_1. cbn. intros H. injection H. lra.
Qed.

(** ** The particle guess heuristic *)
Lemma draw_scale k w l us r : cloud_draw w (map (vscale k) l) us r = match cloud_draw w l us r with Ok p => Ok (vscale k (fst p), vscale k (snd p)) | Err e => Err e end.
Proof. unfold cloud_draw, pd_sample. rewrite take_map. destruct (take l _) as [[|x [|y [|]]]|e]; reflexivity. Qed.
Lemma dist_scale k x y : 0 < k -> distance [1] (vscale k x) (vscale k y) = k * distance [1] x y.
Proof.
  intros Hk. unfold distance. destruct x as [|a x], y as [|b y]; cbn; unfold rsum; cbn; try ring. replace (1 * (k * a - k * b)) with (k * (1 * (a - b))) by ring. rewrite Rabs_mult, (Rabs_right k) by lra. ring.
Qed.
Lemma pairs_scale k w l us n : 0 < k -> forall round last,
  pgh_pairs (cloud_draw w (map (vscale k) l) us) (fun a b => Fin (distance [1] a b)) n round (option_map (fun p => (vscale k (fst p), vscale k (snd p))) last) =
  match pgh_pairs (cloud_draw w l us) (fun a b => Fin (distance [1] a b)) n round last with Ok o => Ok (option_map (fun p => (vscale k (fst p), vscale k (snd p))) o) | Err e => Err e end.
Proof.
  intros Hk. induction n as [|n IH]; intros round last; [reflexivity|]. cbn [pgh_pairs]. rewrite draw_scale. destruct (cloud_draw w l us round) as [p|e]; [|reflexivity]. cbn [bind fst snd]. rewrite dist_scale by assumption. cbn [xltb].
  destruct (Rlt_dec 0 (distance [1] (fst p) (snd p))) as [H|H].
  - rewrite !Rltb_true by nra. reflexivity.
  - rewrite !Rltb_false by nra. apply (IH (S round) (Some p)).
Qed.
(** The particle guess heuristic picks the same pair of particles: in the new units it measures at [k w_] for the time [t / k]. *)
Theorem c154_heuristic k maxiters junk us w l : 0 < k ->
  pgh_inv maxiters junk us w (map (vscale k) l) = match pgh_inv maxiters junk us w l with Ok e => Ok (fst e / k, k * snd e) | Err e => Err e end.
Proof.
  intros Hk. unfold pgh_inv, pgh. change (@None (loc * loc)) with (option_map (fun p => (vscale k (fst p), vscale k (snd p))) (@None (loc * loc))) at 1. rewrite pairs_scale by assumption.
  destruct (pgh_pairs (cloud_draw w l us) (fun a b => Fin (distance [1] a b)) maxiters 0 None) as [[[x xp]|]|e]; cbn [bind option_map fst snd]; try reflexivity.
  rewrite dist_scale by assumption. cbn [xzero]. destruct (Req_dec (distance [1] x xp) 0) as [E0|E0].
  - rewrite E0, Rmult_0_r, !Reqb_true by reflexivity. reflexivity.
  - rewrite !Reqb_false, !xdiv_Fin by nra. destruct x as [|a [|b x]]; try reflexivity. cbn. do 2 f_equal. field. split; lra.
Qed.

(** ** The whole experiment *)
(** A device of frequency [truth], the inversion model, the particle guess heuristic and Liu and West's resampler: measuring frequencies in a unit [k] times smaller changes no outcome, weight or record, and the particles only by the factor [k]. *)
Theorem c154_experiment k min_freq ps sqrtm cfg junk pr th pol z cz maxiters ejunk truth ks s : 0 < k -> root_scales k sqrtm ->
  session (inv_updater (k * min_freq) ps sqrtm (lw_units k cfg) (fun i => vscale k (junk i)) (fun r n => map (vscale k) (pr r n)) th pol z cz)
    (fun d => pgh_inv maxiters ejunk (fst d)) (fun d => device (k * truth) (snd d)) ks (converted (fun o => o) (vscale k) s) =
  result (fun o => o) (vscale k) (session (inv_updater min_freq ps sqrtm cfg junk pr th pol z cz) (fun d => pgh_inv maxiters ejunk (fst d)) (fun d => device truth (snd d)) ks s).
Proof.
  intros Hk HR. apply (c154_session (fun o => o) (vscale k) (fun e => (fst e / k, k * snd e))).
  - constructor; cbn; intros; try reflexivity.
    + rewrite nth_vscale. rewrite <- (c154_inversion k 0 (fst e) (snd e) (nth 0 x 0) o) by lra. f_equal; ring.
    + apply c154_resampler; try assumption. intros x. unfold inv_valid. rewrite nth_vscale. destruct (Rlt_dec min_freq (nth 0 x 0)); [rewrite !Rltb_true by nra|rewrite !Rltb_false by nra]; reflexivity.
    + repeat split.
  - intros d w l. apply c154_heuristic. assumption.
  - intros d e. unfold device. cbn [fst snd]. pose proof (c154_inversion k 0 (fst e) (snd e) truth 0 ltac:(lra)) as H. unfold inv_like, pr0_like in H. cbn in H. unfold inv_pr0 in *. replace (fst e / k * (k * truth - k * snd e) / 2) with (fst e * (truth - snd e) / 2) by (field; lra). reflexivity.
Qed.

(** ** Examples *)
(** Frequencies 0 and 2 (say in MHz); the heuristic measures at 0 for 1/2 microseconds. *)
Example heuristic_mhz junk : pgh_inv 1 junk (fun _ => (0, 0.6)) [0.5; 0.5] [[0]; [2]] = Ok (1 / 2, 0).
Proof.
  unfold pgh_inv, pgh. cbn [pgh_pairs]. assert (D : cloud_draw [0.5; 0.5] [[0]; [2]] (fun _ => (0, 0.6)) 0 = Ok ([0], [2])).
  { unfold cloud_draw, pd_sample, sample_index. cbn. rewrite !(Rltb_true 0) by lra. rewrite (Rltb_false 0.6) by lra. rewrite (Rltb_true 0.6) by lra. reflexivity. }
  rewrite D. cbn [bind fst snd]. replace (distance [1] [0] [2]) with 2 by (unfold distance, rsum; cbn; rewrite Rabs_left by lra; ring). cbn [xltb]. rewrite Rltb_true by lra. cbn [bind].
  replace (distance [1] [0] [2]) with 2 by (unfold distance, rsum; cbn; rewrite Rabs_left by lra; ring). cbn [xzero]. rewrite Reqb_false, xdiv_Fin by lra. reflexivity.
Qed.
(** In kHz: at 0 for 1/2000 milliseconds *)
Example heuristic_khz junk : pgh_inv 1 junk (fun _ => (0, 0.6)) [0.5; 0.5] [[0]; [2000]] = Ok (1 / 2000, 0).
Proof.
  replace [[0]; [2000]] with (map (vscale 1000) [[0]; [2]]) by (cbn; repeat f_equal; ring). rewrite c154_heuristic, heuristic_mhz by lra. cbn. do 2 f_equal; lra.
Qed.
(** The experiment in both units, square roots and all *)
Example units_session cfg junk pr truth ks s :
  session (inv_updater (1000 * 0) true root1 (lw_units 1000 cfg) (fun i => vscale 1000 (junk i)) (fun r n => map (vscale 1000) (pr r n)) (1 / 2) PError 0 true)
    (fun d => pgh_inv 10 (fun _ => VNum NaN) (fst d)) (fun d => device (1000 * truth) (snd d)) ks (converted (fun o => o) (vscale 1000) s) =
  result (fun o => o) (vscale 1000) (session (inv_updater 0 true root1 cfg junk pr (1 / 2) PError 0 true) (fun d => pgh_inv 10 (fun _ => VNum NaN) (fst d)) (fun d => device truth (snd d)) ks s).
Proof. apply c154_experiment; [lra|]. apply root1_scales. lra. Qed.
(** Celsius to Fahrenheit *)
Example units_offset : nth 0 (particle_mean 1 [1/4; 3/4] (map (rescale 1.8 32) [[0]; [100]])) 0 = 1.8 * nth 0 (particle_mean 1 [1/4; 3/4] [[0]; [100]]) 0 + 32.
Proof. apply c154_mean; [lia|reflexivity|unfold rsum; cbn; lra|repeat constructor]. Qed.

Print Assumptions c154_operation.
Print Assumptions c154_history.
Print Assumptions c154_start.
Print Assumptions c154_session.
Print Assumptions c154_mean.
Print Assumptions c154_covariance.
Print Assumptions c154_inversion.
Print Assumptions c154_precession.
Print Assumptions c154_liu_west.
Print Assumptions c154_resampler.
Print Assumptions c154_zero_covariance_refuted.
Print Assumptions c154_heuristic.
Print Assumptions c154_experiment.
