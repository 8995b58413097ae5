(** Properties C54 to C56 and C71: experiment design. *)
From Coq Require Import String.
From Verif Require Import Base RList Ext SmcModel SmcSpec SmcProps PartModel PartSpec PartProofs LwProofs2 TwoModel TwoProps DesModel.
From Coq Require Import List.

(** ** Assignments *)
Lemma put_same f v e : put f v e f = v. Proof. unfold put. now rewrite String.eqb_refl. Qed.
Lemma put_other f g v e : g <> f -> put f v e g = e g. Proof. unfold put. intros H. destruct (String.eqb_spec g f); congruence. Qed.
Lemma assign_Ok dt f v e e' : assign dt f v e = Ok e' -> exists k v', kind_of dt f = Some k /\ cast k v = Ok v' /\ e' = put f v' e.
Proof. unfold assign. destruct (kind_of dt f) as [k|]; [|discriminate]. destruct (cast k v) as [v'|] eqn:E; [|discriminate]. cbn. intros H. injection H as <-. exists k, v'. auto. Qed.
Lemma assign_all_other dt fs : forall e e' g, assign_all dt fs e = Ok e' -> ~ In g (map fst fs) -> e' g = e g.
Proof.
  induction fs as [|[f v] fs IH]; intros e e' g H Hg; [now injection H as <-|]. cbn in H, Hg. destruct (assign dt f v e) as [e1|] eqn:E; [|discriminate]. cbn in H.
  apply assign_Ok in E. destruct E as (k & v' & _ & _ & ->). rewrite (IH _ _ g H) by tauto. apply put_other. intuition congruence.
Qed.
Lemma assign_all_set dt fs : forall e e' f v, assign_all dt fs e = Ok e' -> NoDup (map fst fs) -> In (f, v) fs -> exists k v', kind_of dt f = Some k /\ cast k v = Ok v' /\ e' f = v'.
Proof.
  induction fs as [|[g u] fs IH]; intros e e' f v H ND Hi; [destruct Hi|]. cbn in H, ND. destruct (assign dt g u e) as [e1|] eqn:E; [|discriminate]. cbn in H. inversion ND as [|? ? Hn ND']; subst.
  destruct Hi as [Hi|Hi]; [|eapply IH; eassumption]. injection Hi as -> ->. apply assign_Ok in E. destruct E as (k & v' & Hk & Hc & ->). exists k, v'. split; [assumption|]. split; [assumption|].
  rewrite (assign_all_other dt fs _ _ f H Hn). apply put_same.
Qed.

(** ** C54 *)
Lemma pgh_pairs_spec draw dist left : forall round last, match pgh_pairs draw dist left round last with
  | Err e => exists r, (round <= r < round + left)%nat /\ draw r = Err e
  | Ok o => (exists r p, (round <= r < round + left)%nat /\ draw r = Ok p /\ o = Some p /\ xltb (Fin 0) (dist (fst p) (snd p)) = true /\ (forall q, (round <= q < r)%nat -> exists p', draw q = Ok p' /\ xltb (Fin 0) (dist (fst p') (snd p')) = false)) \/
     ((forall q, (round <= q < round + left)%nat -> exists p', draw q = Ok p' /\ xltb (Fin 0) (dist (fst p') (snd p')) = false) /\
      (left = 0%nat /\ o = last \/ exists p, draw (round + left - 1)%nat = Ok p /\ o = Some p /\ (0 < left)%nat))
  end.
Proof.
  induction left as [|left IH]; intros round last; cbn [pgh_pairs].
  - right. split; [intros; lia|]. left. auto.
  - destruct (draw round) as [p|e] eqn:E; cbn [bind]; [|exists round; split; [lia|assumption]]. destruct (xltb (Fin 0) (dist (fst p) (snd p))) eqn:D.
    + left. exists round, p. split; [lia|]. repeat split; try assumption. intros; lia.
    + specialize (IH (S round) (Some p)). destruct (pgh_pairs draw dist left (S round) (Some p)) as [o|e].
      * destruct IH as [(r & p' & Hr & Er & -> & Hp & Hq)|[Hq Ho]].
        -- left. exists r, p'. split; [lia|]. repeat split; try assumption. intros q Hq'. destruct (Nat.eq_dec q round) as [->|]; [eauto|apply Hq; lia].
        -- right. split; [intros q Hq'; destruct (Nat.eq_dec q round) as [->|]; [eauto|apply Hq; lia]|]. right. destruct Ho as [[-> ->]|(p' & Er & -> & _)].
           ++ exists p. replace (round + 1 - 1)%nat with round by lia. split; [assumption|]. split; [reflexivity|lia].
           ++ exists p'. replace (round + S left - 1)%nat with (S round + left - 1)%nat by lia. split; [assumption|]. split; [reflexivity|lia].
      * destruct IH as (r & Hr & Er). exists r. split; [lia|assumption].
Qed.

(** For any model distance that is a non-negative number: a returned experiment comes from the first pair at positive distance. *)
Theorem c54_experiment_from_distinct_particles draw dist dt xf tf inv tfn maxiters others junk e :
  (forall a b, exists d, dist a b = Fin d /\ 0 <= d) -> xf <> tf -> ~ In xf (map fst others) -> ~ In tf (map fst others) -> NoDup (map fst others) ->
  pgh draw dist dt xf tf inv tfn maxiters others junk = Ok e ->
  exists r x xp d, (r < maxiters)%nat /\ draw r = Ok (x, xp) /\ dist x xp = Fin d /\ 0 < d /\
    (forall q, (q < r)%nat -> exists y yp, draw q = Ok (y, yp) /\ dist y yp = Fin 0) /\
    (exists k, kind_of dt xf = Some k /\ cast k (inv x) = Ok (e xf)) /\
    (exists k, kind_of dt tf = Some k /\ cast k (tfn (Fin (1 / d))) = Ok (e tf)) /\
    (forall f v, In (f, v) others -> exists k, kind_of dt f = Some k /\ cast k v = Ok (e f)) /\
    (forall f, f <> xf -> f <> tf -> ~ In f (map fst others) -> e f = junk f).
Proof.
  intros Hd Hxt Hx Ht ND H. unfold pgh in H. pose proof (pgh_pairs_spec draw dist maxiters 0 None) as S. destruct (pgh_pairs draw dist maxiters 0 None) as [o|]; [|discriminate]. cbn [bind] in H.
  assert (Z : forall y yp, xltb (Fin 0) (dist y yp) = false -> dist y yp = Fin 0). { intros y yp F. destruct (Hd y yp) as (d & E & P). rewrite E in *. cbn in F. destruct (Rltb_spec 0 d); [discriminate|]. f_equal. lra. }
  destruct S as [(r & [x xp] & Hr & Er & -> & Hp & Hq)|[Hq Ho]].
  - cbn [fst snd] in Hp. destruct (Hd x xp) as (d & E & P). rewrite E in *. cbn in Hp. destruct (Rltb_spec 0 d) as [Hpos|]; [|discriminate]. cbn [xzero] in H. rewrite Reqb_false in H by lra. rewrite xdiv_Fin in H by lra.
    destruct (assign dt xf (inv x) junk) as [e1|] eqn:A1; [|discriminate]. cbn [bind] in H. destruct (assign dt tf (tfn (Fin (1 / d))) e1) as [e2|] eqn:A2; [|discriminate]. cbn [bind] in H.
    apply assign_Ok in A1. destruct A1 as (k1 & v1 & K1 & C1 & ->). apply assign_Ok in A2. destruct A2 as (k2 & v2 & K2 & C2 & ->).
    exists r, x, xp, d. split; [lia|]. split; [assumption|]. split; [assumption|]. split; [assumption|]. split.
    { intros q Hq'. destruct (Hq q ltac:(lia)) as ([y yp] & Ey & Fy). exists y, yp. split; [assumption|]. now apply Z. }
    split; [|split; [|split]].
    + exists k1. split; [assumption|]. rewrite (assign_all_other _ _ _ _ xf H Hx), put_other, put_same by congruence. assumption.
    + exists k2. split; [assumption|]. rewrite (assign_all_other _ _ _ _ tf H Ht), put_same. assumption.
    + intros f v Hf. destruct (assign_all_set _ _ _ _ f v H ND Hf) as (k & v' & Hk & Hc & <-). eauto.
    + intros f N1 N2 N3. rewrite (assign_all_other _ _ _ _ f H N3), !put_other by congruence. reflexivity.
  - destruct Ho as [[_ ->]|([x xp] & Er & -> & Hl)]; [discriminate|]. destruct (Hq (0 + maxiters - 1)%nat ltac:(lia)) as ([y yp] & Ey & Fy). rewrite Er in Ey. injection Ey as <- <-. cbn [fst snd] in Fy. rewrite (Z _ _ Fy) in H. cbn [xzero] in H. rewrite Reqb_true in H by reflexivity. discriminate.
Qed.
(** RuntimeError exactly when all [maxiters] pairs coincide (drawing and field assignment being able to succeed). *)
Theorem c54_runtime_error_iff draw dist dt xf tf inv tfn maxiters others junk :
  (forall a b, exists d, dist a b = Fin d /\ 0 <= d) -> (1 <= maxiters)%nat -> (forall r, exists p, draw r = Ok p) ->
  (pgh draw dist dt xf tf inv tfn maxiters others junk = Err RuntimeError <-> forall r, (r < maxiters)%nat -> exists x xp, draw r = Ok (x, xp) /\ dist x xp = Fin 0).
Proof.
  intros Hd Hm Hdr. pose proof (pgh_pairs_spec draw dist maxiters 0 None) as S. unfold pgh.
  assert (Z : forall y yp, xltb (Fin 0) (dist y yp) = false -> dist y yp = Fin 0). { intros y yp F. destruct (Hd y yp) as (d & E & P). rewrite E in *. cbn in F. destruct (Rltb_spec 0 d); [discriminate|]. f_equal. lra. }
  assert (NR : forall f v e, assign dt f v e <> Err RuntimeError). { intros f v e. unfold assign. destruct (kind_of dt f) as [[|d]|]; [destruct v as [|[|? [|]]]|destruct v as [|l]|]; cbn; try discriminate. destruct (Nat.eqb (List.length l) d); [discriminate|]. destruct l as [|? [|]]; discriminate. }
  assert (NA : forall fs e, assign_all dt fs e <> Err RuntimeError). { induction fs as [|[f v] fs IH]; intros e; cbn; [discriminate|]. destruct (assign dt f v e) eqn:A; cbn; [apply IH|]. intros E. injection E as ->. now apply (NR f v e). }
  destruct (pgh_pairs draw dist maxiters 0 None) as [o|e0]; [|destruct S as (r & _ & Er); destruct (Hdr r) as (p & Ep); congruence]. cbn [bind].
  destruct S as [(r & [x xp] & Hr & Er & -> & Hp & Hq)|[Hq Ho]].
  - cbn [fst snd] in Hp. destruct (Hd x xp) as (d & E & P). rewrite E in *. cbn in Hp. destruct (Rltb_spec 0 d) as [Hpos|]; [|discriminate]. cbn [xzero]. rewrite Reqb_false by lra. split.
    + intros H. exfalso. destruct (assign dt xf (inv x) junk) eqn:A1; cbn [bind] in H; [|apply (NR xf (inv x) junk); congruence]. destruct (assign dt tf _ a) eqn:A2; cbn [bind] in H; [now apply NA in H|]. rewrite H in A2. now apply NR in A2.
    + intros H. destruct (H r ltac:(lia)) as (y & yp & Ey & Dy). rewrite Er in Ey. injection Ey as <- <-. rewrite E in Dy. injection Dy as ->. lra.
  - destruct Ho as [[-> _]|([x xp] & Er & -> & Hl)]; [lia|]. split.
    + intros _ r Hr. destruct (Hq r ltac:(lia)) as ([y yp] & Ey & Fy). exists y, yp. split; [assumption|]. now apply Z.
    + intros H. destruct (H (0 + maxiters - 1)%nat ltac:(lia)) as (y & yp & Ey & Dy). rewrite Er in Ey. injection Ey as <- <-. rewrite Dy. cbn [xzero]. now rewrite Reqb_true by reflexivity.
Qed.
(** For any distance that is not negative, infinite or undefined ones included: RuntimeError exactly when no pair is at a positive distance
    and the last one coincides. *)
Theorem c54_runtime_error_any_distance draw dist dt xf tf inv tfn maxiters others junk :
  (forall a b, dist a b <> NInf) -> (forall a b d, dist a b = Fin d -> 0 <= d) -> (1 <= maxiters)%nat -> (forall r, exists p, draw r = Ok p) ->
  (pgh draw dist dt xf tf inv tfn maxiters others junk = Err RuntimeError <->
   (forall r, (r < maxiters)%nat -> exists x xp, draw r = Ok (x, xp) /\ (dist x xp = Fin 0 \/ dist x xp = NaN)) /\
   exists x xp, draw (maxiters - 1)%nat = Ok (x, xp) /\ dist x xp = Fin 0).
Proof.
  intros Hi Hd Hm Hdr. pose proof (pgh_pairs_spec draw dist maxiters 0 None) as S. unfold pgh.
  assert (Z : forall y yp, xltb (Fin 0) (dist y yp) = false -> dist y yp = Fin 0 \/ dist y yp = NaN).
  { intros y yp F. specialize (Hi y yp). specialize (Hd y yp). destruct (dist y yp) as [d| | |]; cbn in F; try discriminate; try congruence; [|now right]. destruct (Rltb_spec 0 d); [discriminate|]. left. f_equal. specialize (Hd d eq_refl). lra. }
  assert (Y : forall y yp, xltb (Fin 0) (dist y yp) = true -> xzero (dist y yp) = false /\ dist y yp <> Fin 0 /\ dist y yp <> NaN).
  { intros y yp F. destruct (dist y yp) as [d| | |]; cbn in F |- *; try discriminate; [|now split]. destruct (Rltb_spec 0 d) as [P|]; [|discriminate]. rewrite Reqb_false by lra. split; [reflexivity|]. split; [|discriminate]. intros Q. injection Q as ->. lra. }
  assert (NR : forall f v e, assign dt f v e <> Err RuntimeError). { intros f v e. unfold assign. destruct (kind_of dt f) as [[|d]|]; [destruct v as [|[|? [|]]]|destruct v as [|l]|]; cbn; try discriminate. destruct (Nat.eqb (List.length l) d); [discriminate|]. destruct l as [|? [|]]; discriminate. }
  assert (NA : forall fs e, assign_all dt fs e <> Err RuntimeError). { induction fs as [|[f v] fs IH]; intros e; cbn; [discriminate|]. destruct (assign dt f v e) eqn:A; cbn; [apply IH|]. intros E. injection E as ->. now apply (NR f v e). }
  assert (ND : forall x u e, bind (assign dt xf (inv x) junk) (fun e => bind (assign dt tf (tfn u) e) (assign_all dt others)) = Err e -> e <> RuntimeError).
  { intros x u e H ->. destruct (assign dt xf (inv x) junk) eqn:A1; cbn [bind] in H; [|apply (NR xf (inv x) junk); congruence]. destruct (assign dt tf _ a) eqn:A2; cbn [bind] in H; [now apply NA in H|]. rewrite H in A2. now apply NR in A2. }
  destruct (pgh_pairs draw dist maxiters 0 None) as [o|e0]; [|destruct S as (r & _ & Er); destruct (Hdr r) as (p & Ep); congruence]. cbn [bind].
  destruct S as [(r & [x xp] & Hr & Er & -> & Hp & Hq)|[Hq Ho]].
  - cbn [fst snd] in Hp. destruct (Y x xp Hp) as (Y1 & Y2 & Y3). rewrite Y1. split.
    + intros H. exfalso. now apply (ND x _ _ H).
    + intros [H _]. destruct (H r ltac:(lia)) as (y & yp & Ey & Dy). rewrite Er in Ey. injection Ey as <- <-. tauto.
  - destruct Ho as [[-> _]|([x xp] & Er & -> & Hl)]; [lia|]. cbn in Er. destruct (xzero (dist x xp)) eqn:Ez.
    + split; [|reflexivity]. intros _. split.
      * intros r Hr. destruct (Hq r ltac:(lia)) as ([y yp] & Ey & Fy). exists y, yp. split; [assumption|]. now apply Z.
      * exists x, xp. split; [assumption|]. unfold xzero in Ez. destruct (dist x xp) as [d| | |]; try discriminate. destruct (Reqb_spec d 0); [now subst|discriminate].
    + split; [intros H; exfalso; now apply (ND x _ _ H)|]. intros [_ (y & yp & Ey & Dy)]. rewrite Er in Ey. injection Ey as <- <-. rewrite Dy in Ez. cbn [xzero] in Ez. rewrite Reqb_true in Ez by reflexivity. discriminate.
Qed.
(** An infinitely distant pair is accepted and gives time zero; a pair at an undefined distance is never accepted, but if all are undefined the last one is used. *)
Theorem c54_infinite_distance_refuted : let one := fun _ : nat => Ok ([0], [1]) in let dt := [("x"%string, KVec 1); ("t"%string, KNum)] in
  (exists e, pgh one (fun _ _ => PInf) dt "x" "t" (fun x => VVec (map Fin x)) VNum 3 [] (fun _ => VNum NaN) = Ok e /\ e "t"%string = VNum (Fin 0)) /\
  (exists e, pgh one (fun _ _ => NaN) dt "x" "t" (fun x => VVec (map Fin x)) VNum 3 [] (fun _ => VNum NaN) = Ok e /\ e "t"%string = VNum NaN).
Proof. split; eexists; (split; [reflexivity|reflexivity]). Qed.
Lemma distance_nonneg Q a b : 0 <= distance Q a b.
Proof. unfold distance. apply rsum_nonneg. apply Forall_forall. intros y Hy. apply in_map_iff in Hy. destruct Hy as (z & <- & _). apply Rabs_pos. Qed.
Lemma cloud_draw_In w l us r x xp : cloud_draw w l us r = Ok (x, xp) -> In x l /\ In xp l.
Proof.
  unfold cloud_draw, pd_sample. cbn. destruct (nth_error l (sample_index w (fst (us r)))) as [y|] eqn:E1; [|discriminate]. destruct (nth_error l (sample_index w (snd (us r)))) as [yp|] eqn:E2; [|discriminate].
  cbn. intros H. injection H as <- <-. split; eapply nth_error_In; eassumption.
Qed.
(** With the default functions and distance, on the updater's own cloud. *)
Theorem c54_default w l us Q dt maxiters others junk e d : Forall (fun x => length x = d) l -> kind_of dt "x_" = Some (KVec d) -> kind_of dt "t" = Some KNum ->
  ~ In "x_"%string (map fst others) -> ~ In "t"%string (map fst others) -> NoDup (map fst others) ->
  pgh_default w l us Q dt maxiters others junk = Ok e ->
  exists x xp, In x l /\ In xp l /\ x <> xp /\ 0 < distance Q x xp /\ e "x_"%string = VVec (map Fin x) /\ e "t"%string = VNum (Fin (1 / distance Q x xp)).
Proof.
  intros Hl Kx Kt Nx Nt ND H. apply c54_experiment_from_distinct_particles in H; [|intros a b; exists (distance Q a b); split; [reflexivity|apply distance_nonneg]|discriminate|assumption..].
  destruct H as (r & x & xp & dd & _ & Er & Ed & Pd & _ & (k1 & K1 & C1) & (k2 & K2 & C2) & _). injection Ed as <-. destruct (cloud_draw_In _ _ _ _ _ _ Er) as [Ix Ixp].
  exists x, xp. split; [assumption|]. split; [assumption|]. split; [|split; [assumption|]].
  - intros ->. unfold distance in Pd. replace (map Rabs (map2 Rmult Q (map2 Rminus xp xp))) with (repeat 0 (length (map2 Rmult Q (map2 Rminus xp xp)))) in Pd.
    + rewrite rsum_repeat in Pd. lra.
    + clear. revert xp. induction Q as [|q Q IH]; intros [|y xp]; cbn; try reflexivity. rewrite IH. f_equal. rewrite Rminus_diag_eq by reflexivity. rewrite Rmult_0_r. now rewrite Rabs_R0.
  - rewrite Kx in K1. injection K1 as <-. rewrite Kt in K2. injection K2 as <-. rewrite Forall_forall in Hl. cbn in C1, C2. rewrite map_length, (Hl x Ix), Nat.eqb_refl in C1. injection C1 as <-. injection C2 as <-. auto.
Qed.
(** What the call does not do: fields given neither by the heuristic nor by [other_fields] hold uninitialised memory; a particle
    with several parameters does not fit a scalar inversion field; [maxiters = 0] never assigns [x]. *)
Theorem c54_uninitialised_fields_refuted : exists us dt j1 j2 e1 e2, pgh_default [0.5; 0.5] [[0]; [2]] us [1] dt 1 [] j1 = Ok e1 /\ pgh_default [0.5; 0.5] [[0]; [2]] us [1] dt 1 [] j2 = Ok e2 /\
  kind_of dt "w_" <> None /\ e1 "w_"%string <> e2 "w_"%string.
Proof.
  exists (fun _ => (0, 0.6)), [("x_", KVec 1); ("t", KNum); ("w_", KNum)]%string, (fun _ => VNum (Fin 0)), (fun _ => VNum (Fin 1)).
  assert (D : forall f, cloud_draw [0.5; 0.5] [[0]; [2]] (fun _ => (0, 0.6)) f = Ok ([0], [2])).
  { intros f. unfold cloud_draw, pd_sample. cbn [fst snd map]. assert (S0 : sample_index [0.5; 0.5] 0 = 0%nat) by (unfold sample_index; cbn -[Rltb Rleb]; repeat rb; try lra; reflexivity).
    assert (S1 : sample_index [0.5; 0.5] 0.6 = 1%nat) by (unfold sample_index; cbn -[Rltb Rleb]; repeat rb; try lra; reflexivity). rewrite S0, S1. reflexivity. }
  assert (L : distance [1] [0] [2] = 2). { unfold distance. cbn [map map2]. rewrite rsum_cons, rsum_nil. replace (1 * (0 - 2)) with (- (2)) by ring. rewrite Rabs_Ropp, Rabs_right by lra. ring. }
  assert (G : forall j, pgh_default [0.5; 0.5] [[0]; [2]] (fun _ => (0, 0.6)) [1] [("x_", KVec 1); ("t", KNum); ("w_", KNum)]%string 1 [] j = Ok (put "t" (VNum (Fin (1 / 2))) (put "x_" (VVec [Fin 0]) j))).
  { intros j. unfold pgh_default, pgh. cbn [pgh_pairs]. rewrite !D. cbn [bind fst snd]. rewrite L. cbn [xltb]. rewrite Rltb_true by lra. cbn [bind]. rewrite L. cbn [xzero]. rewrite Reqb_false by lra. rewrite xdiv_Fin by lra. reflexivity. }
  do 2 eexists. split; [apply G|]. split; [apply G|]. split; [discriminate|]. unfold put. cbn. intros H. injection H as H. lra.
Qed.
Theorem c54_scalar_field_needs_one_parameter dt xf x e : kind_of dt xf = Some KNum -> length x <> 1%nat -> assign dt xf (VVec (map Fin x)) e = Err ValueError.
Proof. intros K H. unfold assign. rewrite K. destruct x as [|a [|b x]]; cbn in *; [reflexivity|lia|reflexivity]. Qed.
Theorem c54_no_iterations draw dist dt xf tf inv tfn others junk : pgh draw dist dt xf tf inv tfn 0 others junk = Err UnboundLocalError.
Proof. reflexivity. Qed.

(** ** C55 *)
Theorem c55_plain_number scale base others junk n : exp_sparse scale base None others DNum junk n = Ok (EPNum (scale * base ^ n)).
Proof. reflexivity. Qed.
Theorem c55_time_field scale base tf fs dt junk n e : NoDup (map fst fs) -> kind_of dt tf = Some KNum ->
  exp_sparse scale base (Some tf) (Some fs) (DRecord dt) junk n = Ok (EPRec e) ->
  e tf = VNum (Fin (scale * base ^ n)) /\ (forall f v, f <> tf -> In (f, v) fs -> exists k, kind_of dt f = Some k /\ cast k v = Ok (e f)) /\ (forall f, f <> tf -> ~ In f (map fst fs) -> e f = junk f).
Proof.
  intros ND K H. cbn -[pow] in H. destruct (assign_all dt fs junk) as [e1|] eqn:A; [|discriminate]. cbn -[pow] in H. unfold assign in H. rewrite K in H. cbn -[pow] in H. injection H as <-. rewrite put_same. split; [reflexivity|]. split.
  - intros f v N I. destruct (assign_all_set _ _ _ _ f v A ND I) as (k & v' & Hk & Hc & <-). rewrite put_other by assumption. eauto.
  - intros f N I. rewrite put_other by assumption. exact (assign_all_other _ _ _ _ f A I).
Qed.
(** It succeeds whenever every given field exists and takes its value. *)
Theorem c55_succeeds scale base tf fs dt junk n : kind_of dt tf <> None -> Forall (fun p => exists k v, kind_of dt (fst p) = Some k /\ cast k (snd p) = Ok v) fs ->
  exists e, exp_sparse scale base (Some tf) (Some fs) (DRecord dt) junk n = Ok (EPRec e).
Proof.
  intros K F. cbn -[pow]. assert (G : forall e0, exists e1, assign_all dt fs e0 = Ok e1).
  { clear K. induction F as [|[f v] fs (k & v' & Hk & Hc) F IH]; intros e0; [cbn; eauto|]. cbn [assign_all fst snd] in *. unfold assign. rewrite Hk, Hc. cbn [bind]. apply IH. }
  destruct (G junk) as (e1 & ->). cbn [bind]. unfold assign. destruct (kind_of dt tf) as [k|]; [|now destruct K]. destruct k; cbn -[pow]; eauto.
Qed.
(** The number of experiments is the number of outcomes recorded over the whole history of the updater, resets included. *)
Theorem c55_follows_the_record {O E RND} (c : @config O E RND) (xs : list op) s scale base others junk : good_config c -> Forall (fun x => 0 <= x) (ws s) -> drec s = [] ->
  exists ms, expands xs ms /\ exp_sparse scale base None others DNum junk (length (drec (run c s xs))) = Ok (EPNum (scale * base ^ length (outcomes_of ms))).
Proof. intros Hc Hw Hd. destruct (c04_records_tell_the_history c xs s Hc Hw) as (ms & Ns & Hx & _ & Hr & _). exists ms. split; [assumption|]. rewrite Hr, Hd. reflexivity. Qed.
(** Full statement: also with a time field and the default [other_fields].  That raises. *)
Theorem c55_default_other_fields_refuted scale base tf dt junk n : exp_sparse scale base (Some tf) None dt junk n = Err AttributeError.
Proof. reflexivity. Qed.
Example c55_example : exists e, exp_sparse 2 (9 / 8) (Some "t"%string) (Some [("w"%string, VNum (Fin 5))]) (DRecord [("t"%string, KNum); ("w"%string, KNum)]) (fun _ => VNum NaN) 3 = Ok (EPRec e) /\
  e "t"%string = VNum (Fin (2 * (9 / 8) ^ 3)) /\ e "w"%string = VNum (Fin 5).
Proof. eexists. split; [reflexivity|]. split; reflexivity. Qed.

(** ** C56 *)
Section C56.
  Context {E F X : Type} (set : F -> X -> E -> E) (get : F -> E -> X) (obj : E -> ext).
  (** Assigning a field twice keeps the last value. *)
  Definition set_law : Prop := forall f x y e, set f y (set f x e) = set f y e.
  (** The design a call proposes, and what is asked of the optimizer: it reports the objective at the point it returns. *)
  Definition proposed (o : @dop E F X) : option (E * ext) :=
    match o with
    | Design (GArray e) field r true => match r_answer r with Found x f => Some (set field x e, f) | Raises _ => None end
    | _ => None
    end.
  Definition honest (o : @dop E F X) : Prop := match proposed o with Some (e, f) => f = obj e /\ f <> NaN | None => True end.
  (** Stored proposals since the last [new_exp]. *)
  Fixpoint proposals (acc : list (E * ext)) (l : list (@dop E F X)) : list (E * ext) :=
    match l with
    | [] => acc
    | NewExp :: l' => proposals [] l'
    | o :: l' => proposals (match proposed o with Some p => acc ++ [p] | None => acc end) l'
    end.
  Definition is_best (m : @memory E) (ps : list (E * ext)) : Prop :=
    match ps with
    | [] => best_cost m = None
    | _ => exists e c, best_cost m = Some c /\ best_ep m = Some e /\ In (e, c) ps /\ forall p, In p ps -> xle c (snd p)
    end.
  Lemma xle_refl c : c <> NaN -> xle c c.
  Proof. destruct c; intros H; try reflexivity; [apply xle_refl_Fin|now destruct H]. Qed.
  Lemma xltb_le a b : xltb a b = true -> xle a b.
  Proof. unfold xle. destruct a, b; cbn; try discriminate; try reflexivity. rb; [|discriminate]. intros _. apply Rleb_true. lra. Qed.
  Lemma xltb_not a b : a <> NaN -> b <> NaN -> xltb a b = false -> xle b a.
  Proof. unfold xle. destruct a, b; cbn; intros; try discriminate; try reflexivity; try congruence. match goal with H : Rltb ?x ?y = false |- _ => destruct (Rltb_spec x y) end; [discriminate|]. apply Rleb_true. lra. Qed.
  Lemma touched_set : set_law -> forall field x r e, set field x (touched set field r e) = set field x e.
  Proof. intros L field x r e. unfold touched. destruct (r_left r); [apply L|reflexivity]. Qed.
  (** One call. *)
  Lemma design_best a m g field r store ps : set_law -> (a = CG \/ a = NELDER_MEAD) -> honest (Design g field r store) -> is_best m ps -> Forall (fun p => snd p <> NaN) ps ->
    let ps' := match proposed (Design g field r store) with Some p => ps ++ [p] | None => ps end in
    is_best (fst (design set get a m g field r store)) ps' /\ Forall (fun p => snd p <> NaN) ps' /\
    (forall p, proposed (Design g field r store) = Some p -> snd (design set get a m g field r store) = Ok (best_ep (fst (design set get a m g field r store)))).
  Proof.
    intros L Ha Hh Hb Hn. destruct g as [|eg|eg]; cbn; [split; [exact Hb|]; split; [exact Hn|intros; discriminate]..|].
    assert (Ea : forall (A : Type) (n c t : A), match a with NULL => n | CG | NELDER_MEAD => c | NCG => t end = c) by (intros; destruct Ha as [-> | ->]; reflexivity). rewrite Ea. clear Ea.
    unfold honest in Hh. cbn in Hh. destruct (r_answer r) as [x f|ex].
    2:{ destruct store; cbn; split; auto; split; auto; intros; discriminate. }
    destruct store; [|split; [exact Hb|]; split; [exact Hn|intros; discriminate]]. destruct Hh as [Hf Hfn].
    assert (Hn' : Forall (fun p => snd p <> NaN) (ps ++ [(set field x eg, f)])) by (apply Forall_app; split; [assumption|constructor; [assumption|constructor]]).
    rewrite !touched_set by assumption. destruct ps as [|p0 ps].
    - cbn in Hb. rewrite Hb. cbn. split; [|split; [exact Hn'|intros; reflexivity]]. exists (set field x eg), f. repeat split; [now left|]. intros p [<-|[]]. cbn. now apply xle_refl.
    - destruct Hb as (e & c & Hc & He & Hin & Hmin). rewrite Hc. assert (Hcn : c <> NaN) by (rewrite Forall_forall in Hn; exact (Hn _ Hin)). destruct (xltb f c) eqn:D; cbn.
      + split; [|split; [exact Hn'|intros; reflexivity]]. exists (set field x eg), f. split; [reflexivity|]. split; [reflexivity|]. split; [right; apply in_or_app; right; now left|].
        intros p [<-|Hp]; [apply (xle_trans _ c); [now apply xltb_le|apply Hmin; now left]|]. apply in_app_or in Hp. destruct Hp as [Hp|[<-|[]]]; [|now apply xle_refl]. apply (xle_trans _ c); [now apply xltb_le|]. apply Hmin. now right.
      + split; [|split; [exact Hn'|intros; reflexivity]]. exists e, c. split; [assumption|]. split; [assumption|]. split; [destruct Hin as [Hin|Hin]; [now left|right; apply in_or_app; now left]|].
        intros p [<-|Hp]; [apply Hmin; now left|]. apply in_app_or in Hp. destruct Hp as [Hp|[<-|[]]]; [apply Hmin; now right|]. cbn. now apply xltb_not.
  Qed.
  Lemma run_best a l : set_law -> (a = CG \/ a = NELDER_MEAD) -> Forall honest l -> forall m ps, is_best m ps -> Forall (fun p => snd p <> NaN) ps ->
    is_best (drun set get a m l) (proposals ps l) /\ Forall (fun p => snd p <> NaN) (proposals ps l).
  Proof.
    intros L Ha H. induction H as [|o l Ho H IH]; intros m ps Hb Hn; [split; assumption|]. unfold drun in *. cbn [fold_left]. destruct o as [|g field r store].
    - cbn [proposals dstep]. apply IH; [reflexivity|constructor].
    - cbn [proposals dstep]. destruct (design_best a m g field r store ps L Ha Ho Hb Hn) as (B & N & _). apply IH; assumption.
  Qed.
  Lemma proposals_app l1 : forall acc l2, proposals acc (l1 ++ l2) = proposals (proposals acc l1) l2.
  Proof. induction l1 as [|o l1 IH]; intros acc l2; [reflexivity|]. destruct o; cbn [app proposals]; apply IH. Qed.
  (** Any history on a CG or NELDER_MEAD designer ending in a stored design whose optimizer returned: the returned experiment is
      among the stored proposals since the last [new_exp] and has the least objective value of them. *)
  Theorem c56_best_so_far_partial a l g field r p : set_law -> (a = CG \/ a = NELDER_MEAD) -> Forall honest (l ++ [Design g field r true]) -> proposed (Design g field r true) = Some p ->
    exists e c, snd (design set get a (drun set get a new_exp l) g field r true) = Ok (Some e) /\ In (e, c) (proposals [] (l ++ [Design g field r true])) /\ c = obj e /\
      forall e' c', In (e', c') (proposals [] (l ++ [Design g field r true])) -> c' = obj e' /\ xle (obj e) (obj e').
  Proof.
    intros L Ha H Hp. apply Forall_app in H. destruct H as [Hl Hd]. inversion Hd as [|? ? Hd' _]; subst. destruct (run_best a l L Ha Hl new_exp [] eq_refl (Forall_nil _)) as [B N].
    destruct (design_best a _ g field r true _ L Ha Hd' B N) as (B' & _ & R). specialize (R p Hp). rewrite proposals_app. cbn [proposals]. rewrite Hp in *. set (ps := proposals [] l ++ [p]) in *.
    assert (HB : exists e c, best_cost (fst (design set get a (drun set get a new_exp l) g field r true)) = Some c /\ best_ep (fst (design set get a (drun set get a new_exp l) g field r true)) = Some e /\ In (e, c) ps /\ forall q, In q ps -> xle c (snd q)).
    { unfold is_best in B'. destruct ps as [|q qs] eqn:Eq; [|exact B']. apply (f_equal (@length _)) in Eq. unfold ps in Eq. rewrite app_length in Eq. cbn in Eq. lia. }
    destruct HB as (e & c & _ & He & Hin & Hmin).
    (* every proposal carries its objective value *)
    assert (V : forall l acc, Forall honest l -> Forall (fun q => snd q = obj (fst q)) acc -> Forall (fun q => snd q = obj (fst q)) (proposals acc l)).
    { clear. induction l as [|o l IH]; intros acc H A; [assumption|]. inversion H as [|? ? Ho H']; subst. destruct o as [|g field r store]; cbn [proposals]; [apply IH; [assumption|constructor]|]. apply IH; [assumption|].
      unfold honest in Ho. destruct (proposed (Design g field r store)) as [[e f]|]; [|assumption]. apply Forall_app. split; [assumption|]. constructor; [exact (proj1 Ho)|constructor]. }
    assert (VV : Forall (fun q => snd q = obj (fst q)) ps). { unfold ps. apply Forall_app. split; [apply V; [assumption|constructor]|]. constructor; [|constructor]. unfold honest in Hd'. rewrite Hp in Hd'. destruct p. exact (proj1 Hd'). }
    rewrite Forall_forall in VV. exists e, c. pose proof (VV _ Hin) as Vc. cbn in Vc. split; [rewrite R, He; reflexivity|]. split; [assumption|]. split; [assumption|]. intros e' c' H'. pose proof (VV _ H') as V'. cbn in V'. split; [assumption|].
    specialize (Hmin _ H'). cbn in Hmin. now rewrite <- Vc, <- V'.
  Qed.
  (** Without [store_guess] the memory is untouched, and the optimizer's point is returned. *)
  Theorem c56_unstored a m e field r x f : set_law -> (a = CG \/ a = NELDER_MEAD) -> r_answer r = Found x f -> design set get a m (GArray e) field r false = (m, Ok (Some (set field x e))).
  Proof. intros L [-> | ->] H; cbn; rewrite H, touched_set by assumption; reflexivity. Qed.
  (** NULL never remembers a cost, so the last guess is returned whatever the objective says. *)
  Theorem c56_null_refuted m e field r : set_law -> (forall f e, set f (get f e) e = e) -> best_cost m = None ->
    design set get NULL m (GArray e) field r true = ({| best_cost := None; best_ep := Some e |}, Ok (Some e)).
  Proof. intros L G H. cbn. rewrite H, L, G. reflexivity. Qed.
  Theorem c56_null_forever l : best_cost (drun set get NULL new_exp l) = None.
  Proof.
    assert (G : forall l m, best_cost m = None -> best_cost (drun set get NULL m l) = None); [|now apply G]. clear l. induction l as [|o l IH]; intros m H; [assumption|]. unfold drun in *. cbn [fold_left]. apply IH.
    destruct o as [|[|e|e] field r [|]]; cbn; try assumption; try reflexivity. now rewrite H.
  Qed.
  (** NCG whose optimizer gave up (TypeError, the "too flat" branch): raises once a cost is known. *)
  Theorem c56_ncg_flat_refuted m e field r b : r_answer r = Raises TypeError -> best_cost m = Some b -> design set get NCG m (GArray e) field r true = (m, Err TypeError).
  Proof. intros H Hb. cbn. rewrite H, Hb. reflexivity. Qed.
  (** A first cost of NaN is never beaten. *)
  Theorem c56_nan_refuted a m e e0 field r x f : (a = CG \/ a = NELDER_MEAD) -> best_cost m = Some NaN -> best_ep m = Some e0 -> r_answer r = Found x f ->
    design set get a m (GArray e) field r true = (m, Ok (Some e0)).
  Proof. intros Ha Hm He Hr. assert (D : xltb f NaN = false) by (destruct f; reflexivity). destruct Ha as [-> | ->]; cbn; rewrite Hr, Hm, D, He; reflexivity. Qed.
  (** Callables, documented as guesses, and heuristics never work. *)
  Theorem c56_callable_guess_refuted a m e field r store : design set get a m (GCallable e) field r store = (m, Err TypeError) /\ design set get a m GHeuristic field r store = (m, Err NotImplementedError).
  Proof. split; reflexivity. Qed.
  Theorem c56_constructor code : match new_designer (E := E) code with Ok (_, m) => (0 <= code <= 3)%Z /\ m = new_exp | Err e => e = ValueError /\ ~ (0 <= code <= 3)%Z end.
  Proof.
    unfold new_designer, algo_of. destruct (Z.eqb_spec code 0); [cbn; split; [lia|reflexivity]|]. destruct (Z.eqb_spec code 1); [cbn; split; [lia|reflexivity]|]. destruct (Z.eqb_spec code 2); [cbn; split; [lia|reflexivity]|].
    destruct (Z.eqb_spec code 3); [cbn; split; [lia|reflexivity]|]. cbn. split; [reflexivity|lia].
  Qed.
End C56.
(** A designer over experiments that are one number, objective x^2: guesses 3, 1, 2 give back 3, 1, 1. *)
Example c56_example : let st := fun (_ : unit) (x : R) (_ : R) => x in let rep := fun x => {| r_answer := Found x (Fin (x * x)); r_left := Some 7 |} in
  set_law st /\ Forall (honest st (fun x => Fin (x * x))) [Design (GArray 0) tt (rep 3) true; Design (GArray 0) tt (rep 1) true; Design (GArray 0) tt (rep 2) true] /\
  snd (design st (fun _ e => e) CG (drun st (fun _ e => e) CG new_exp [Design (GArray 0) tt (rep 3) true; Design (GArray 0) tt (rep 1) true]) (GArray 0) tt (rep 2) true) = Ok (Some 1).
Proof.
  cbv zeta. split; [intros f x y e; reflexivity|]. split; [repeat constructor; discriminate|]. cbn -[Rltb]. rewrite (Rltb_true (1 * 1) (3 * 3)) by lra. cbn -[Rltb]. rewrite (Rltb_false (2 * 2) (1 * 1)) by lra. reflexivity.
Qed.

(** ** C71 *)
Theorem c71_ensemble_calls_a_possible_member {A} tol (members : list (res A * R)) u : 0 <= u < 1 -> members <> [] -> Forall (fun m => 0 <= snd m) members -> rsum (map snd members) = 1 -> 0 <= tol ->
  exists i m, nth_error members i = Some m /\ 0 < snd m /\ ensemble tol members u = fst m /\
    rsum (firstn i (map snd members)) <= u < rsum (firstn (S i) (map snd members)).
Proof.
  intros Hu Hne Hp Hs Ht. unfold ensemble, np_choice. rewrite map_length, Nat.eqb_refl, Hs. rewrite (Rltb_false tol) by (rewrite Rminus_diag_eq, Rabs_R0; lra).
  replace (Nat.eqb (length members) 0) with false by (destruct members; [now destruct Hne|reflexivity]).
  replace (existsb (fun x => Rltb x 0) (map snd members)) with false.
  2:{ symmetry. apply not_true_is_false. intros H. apply existsb_exists in H. destruct H as (x & Hx & Hlt). apply in_map_iff in Hx. destruct Hx as (m & <- & Hm). rewrite Forall_forall in Hp. specialize (Hp m Hm). rewrite Rltb_false in Hlt by lra. discriminate. }
  cbn [orb negb bind]. rewrite (map_ext _ (fun x => x)) by (intros; field). rewrite map_id.
  assert (PV : prob_vector (map snd members)). { split; [|assumption]. apply Forall_forall. intros x Hx. apply in_map_iff in Hx. destruct Hx as (m & <- & Hm). rewrite Forall_forall in Hp. auto. }
  assert (Hlt : (searchsorted_right (cumsum (map snd members)) u < length (map snd members))%nat) by (apply searchsorted_from_lt; [lra|rewrite map_length; destruct members; [now destruct Hne|cbn; lia]]).
  remember (searchsorted_right (cumsum (map snd members)) u) as i eqn:Ei. symmetry in Ei. destruct (searchsorted_from_spec 0 (map snd members) u (proj1 PV) i Ei Hlt) as [H1 H2]. specialize (H2 (proj1 Hu)).
  rewrite map_length in Hlt. destruct (nth_error members i) as [m|] eqn:Em; [|apply nth_error_None in Em; lia]. exists i, m. split; [exact Em|].
  split; [|split; [|lra]].
  - assert (Hsplit : rsum (firstn (S i) (map snd members)) = rsum (firstn i (map snd members)) + snd m).
    { rewrite <- (firstn_skipn i (firstn (S i) (map snd members))), rsum_app, firstn_firstn, Nat.min_l by lia. f_equal. rewrite <- (firstn_skipn i members) at 1. assert (Sk : skipn i members = m :: skipn (S i) members).
      { clear -Em. revert i Em. induction members as [|y l IH]; intros [|i] Em; cbn in *; [discriminate..|injection Em as ->; reflexivity|]. now apply IH. }
      rewrite Sk, map_app, firstn_app, map_length, firstn_length, Nat.min_l by lia. replace (S i - i)%nat with 1%nat by lia. rewrite skipn_app, firstn_length, map_length, firstn_length.
      rewrite skipn_all2 by (rewrite firstn_length, map_length, firstn_length; lia). replace (i - Nat.min (S i) (Nat.min i (length members)))%nat with 0%nat by lia. cbn. rewrite rsum_cons, rsum_nil. ring. }
    lra.
  - rewrite (nth_error_nth (map fst members) i (Err IndexError) (x := fst m)); [reflexivity|]. now rewrite nth_error_map, Em.
Qed.
Print Assumptions c54_experiment_from_distinct_particles.
Print Assumptions c54_runtime_error_iff.
Print Assumptions c54_runtime_error_any_distance.
Print Assumptions c54_infinite_distance_refuted.
Print Assumptions c54_default.
Print Assumptions c54_uninitialised_fields_refuted.
Print Assumptions c54_scalar_field_needs_one_parameter.
Print Assumptions c54_no_iterations.
Print Assumptions c55_plain_number.
Print Assumptions c55_time_field.
Print Assumptions c55_succeeds.
Print Assumptions c55_follows_the_record.
Print Assumptions c55_default_other_fields_refuted.
Print Assumptions c56_best_so_far_partial.
Print Assumptions c56_unstored.
Print Assumptions c56_null_refuted.
Print Assumptions c56_null_forever.
Print Assumptions c56_ncg_flat_refuted.
Print Assumptions c56_nan_refuted.
Print Assumptions c56_callable_guess_refuted.
Print Assumptions c56_constructor.
Print Assumptions c71_ensemble_calls_a_possible_member.
