(** Concrete cases meeting the hypotheses of theorems whose own files show none. *)
From Coq Require Import Lia Lra.
From Verif Require Import DesModel DesProps DerModel DerSpec DerProps TwoModel TwoProps TomoModel TomoSpec TomoProps HeurModel HeurProps UtilModel UtilProps RoModel RoSpec RoProps MiscModel MiscProps.
From Verif Require Import Base RList Ext Sums Cplx SmcModel SmcSpec SmcProofs2 SmcProofs3 SmcDemo SmcProps PartModel PartSpec PartProofs LwModel LwSpec LwProps.

(** C09: three particles, one without weight. *)
Lemma case_weights : prob_vector [1/2; 0; 1/2].
Proof. split; [repeat constructor; lra|unfold rsum; cbn; lra]. Qed.
Example case_c09 : exists x, n_ess [1/2; 0; 1/2] = Fin x /\ 1 <= x <= 3.
Proof.
  destruct (c09_n_ess_bounds _ case_weights) as (x & H & B & _). exists x. split; [exact H|]. cbn in B. lra.
Qed.
(** C09, C10: the updater of SmcDemo.v on its first outcome. *)
Lemma case_applied p : applied (demo p) (new_total (demo p) demo_state 0%nat tt).
Proof.
  unfold applied, new_total. rewrite demo_evidence0. pose proof eps_small_half. pose proof eps_pos.
  destruct (Rlt_dec _ _); cbn; lra.
Qed.
Example case_c10 : let s1 := fst (update (demo PError) tt demo_state 0%nat tt false) in
  ess_low (demo PError) s1 = false -> update (demo PError) tt demo_state 0%nat tt true = (s1, None).
Proof.
  intros s1 H. apply (c10_resample_iff_ess_low (demo PError) tt demo_state 0%nat tt); try apply demo_good; try apply demo_inv; try apply case_applied; auto.
Qed.

(** C24: standardised displacement +1 or -1 with equal chances; two particles with covariance 1/4. *)
Definition fair_signs (f : list R -> R) : R := (f [1] + f [-1]) / 2.
Lemma fair_signs_kernel : kernel_expectation 1 fair_signs.
Proof.
  unfold fair_signs. constructor.
  - intros f g H. now rewrite !H.
  - intros f g. lra.
  - intros k f. lra.
  - lra.
  - intros p H. replace p with 0%nat by lia. cbn. lra.
  - intros p q H H'. replace p with 0%nat by lia. replace q with 0%nat by lia. cbn. lra.
Qed.
Lemma case_cov : entry (est_cov 1 [1/2; 1/2] [[0]; [1]]) 0 0 = 1/4.
Proof. unfold entry, est_cov; cbn. unfold particle_cov, particle_mean, rdot, rsum, col; cbn. lra. Qed.
Lemma case_root : square_root 1 [[1/2]] (est_cov 1 [1/2; 1/2] [[0]; [1]]).
Proof.
  split; [split; [reflexivity|intros r [<-|[]]; reflexivity]|]. intros p q H H'. replace p with 0%nat by lia. replace q with 0%nat by lia.
  rewrite case_cov. unfold Sum, entry; cbn. lra.
Qed.
Example case_c24 : let m := est_mean 1 [1/2; 1/2] [[0]; [1]] in
  Sum 2 (fun j => nth j [1/2; 1/2] 0 * fair_signs (fun z =>
    (nth 0 (lw_point 1 (3/5) (4/5) m [[1/2]] (nth j [[0]; [1]] []) z) 0 - nth 0 m 0) *
    (nth 0 (lw_point 1 (3/5) (4/5) m [[1/2]] (nth j [[0]; [1]] []) z) 0 - nth 0 m 0))) = 1/4.
Proof.
  intros m. rewrite <- case_cov.
  apply (c24_covariance_preserved 1 fair_signs [1/2; 1/2] [[0]; [1]] (3/5) (4/5) [[1/2]] 0 0); try lia; try reflexivity.
  - apply fair_signs_kernel.
  - split; [repeat constructor; lra|unfold rsum; cbn; lra].
  - apply case_root.
  - lra.
Qed.

(** C37: one parameter of the underlying model, then two means and two variances. *)
Example case_c37 : hyper_entry 1 (fun o x (_ : unit) => pr0_like (nth 0 x 0) o) 3 [1/4; 2; 5; 1; 4] tt =
  Ok (1/4 * (sqrt 1 * normal_density 2 1 3) + (1 - 1/4) * (sqrt 4 * normal_density 5 4 3)).
Proof. rewrite c37_components_partial by (cbn; lra). reflexivity. Qed.

(** C44 *)
Example case_c44 : exists y, from_simplex [1/4; 3/4] = Ok (map Fin y) /\ last y 0 = 0 /\ to_simplex y = Ok (map Fin [1/4; 3/4]).
Proof. apply c44_round_trip_back; [discriminate|repeat constructor; lra|unfold rsum; cbn; lra]. Qed.

(** C71 *)
Definition case_members : list (res nat * R) := [(Ok 7%nat, 1/4); (Ok 8%nat, 0); (Err ValueError, 3/4)].
Example case_c71 : ensemble (1/1000) case_members (1/8) = Ok 7%nat /\
  ensemble (1/1000) case_members (1/2) = Err ValueError.
Proof.
  assert (P : Forall (fun m : res nat * R => 0 <= snd m) case_members) by (repeat constructor; cbn; lra).
  assert (T : rsum (map snd case_members) = 1) by (unfold rsum; cbn; lra).
  split; [destruct (c71_ensemble_calls_a_possible_member (1/1000) case_members (1/8) ltac:(lra) ltac:(discriminate) P T ltac:(lra)) as (i & m & N & Q & -> & B)
         |destruct (c71_ensemble_calls_a_possible_member (1/1000) case_members (1/2) ltac:(lra) ltac:(discriminate) P T ltac:(lra)) as (i & m & N & Q & -> & B)];
  unfold rsum in B; destruct i as [|[|[|i]]]; cbn in N, B; try (injection N as <-; cbn in *; try reflexivity; lra); destruct i; discriminate.
Qed.

(** C78: two particles against one, with a kernel that is positive everywhere. *)
Example case_c78 : exists x, kl_divergence 1 (fun x => exp (- x)) 1 (Locs [[0]; [1]]) [1/4; 3/4] (Locs [[2]]) [1] = Fin x.
Proof.
  eexists. apply c78_unit_bandwidth.
  - repeat constructor; lra.
  - unfold rsum; cbn; lra.
  - intros i _. unfold kde, Sum; cbn. match goal with |- context [exp ?a] => pose proof (exp_pos a) end. lra.
Qed.

(** C81: two clusters and one particle outside every cluster. *)
Example case_c81 : exists within between, est_cluster_covs [0; 1; -1]%Z [1/2; 1/4; 1/4] [[0]; [2]; [9]] 0 0 = Ok (within, between, within + between) /\
  0 <= within /\ 0 <= between.
Proof.
  destruct (c81_metric_in_unit_interval [0; 1; -1]%Z [1/2; 1/4; 1/4] [[0]; [2]; [9]] 0) as (wi & be & H & H1 & H2 & _); try reflexivity.
  - split; [repeat constructor; lra|unfold rsum; cbn; lra].
  - intros z [<-|[<-|[<-|[]]]]; lia.
  - exists 2%nat. intros z Hz. cbn. split; [intros [<-|[<-|[<-|[]]]]; lia|intros H; destruct (Z.eq_dec z 0); [left; lia|right; left; lia]].
  - exists wi, be. auto.
Qed.

(** C93: the measurement |0><0| on the maximally mixed qubit in the Pauli basis. *)
Definition ket0 : mat := fun i j => if Nat.eqb i 0 && Nat.eqb j 0 then c1 else c0.
Definition biased : mat := fun i j => cmul (rc (if Nat.eqb i 0 then 3/4 else 1/4)) (delta i j).
Lemma ket0_projector : projector 2 ket0.
Proof.
  split.
  - intros i j Hi Hj. destruct i as [|[|i]], j as [|[|j]]; try lia; apply C_eq; cbn; ring.
  - intros i j Hi Hj. unfold mmul. rewrite !csum_S, !csum_0. destruct i as [|[|i]], j as [|[|j]]; try lia; apply C_eq; cbn; ring.
Qed.
Lemma biased_density : density 2 biased.
Proof. apply c64_nonvacuous. Qed.
Example case_c93 : exists b, pauli_basis 1 = Ok b /\
  tomo_like (state_to_modelparams b ket0) (state_to_modelparams b biased) 1 = 3/4 /\
  tomo_like (state_to_modelparams b ket0) (state_to_modelparams b biased) 0 = 1/4.
Proof.
  destruct (c61_pauli 1 ltac:(lia)) as (b & E1 & T & D & _). exists b. split; [exact E1|].
  change (2 ^ 1)%nat with 2%nat in D.
  destruct (c93_born b ket0 biased T) as (_ & H1 & H0); [rewrite D; apply ket0_projector|rewrite D; apply biased_density|].
  rewrite H1, H0, D. unfold mtrace, mmul. rewrite !csum_S, !csum_0. unfold delta. cbn. split; field.
Qed.

(** C03, C04, C07, C11: the updater of SmcDemo.v. *)
Example case_c03 : exists h, snd (hypothetical_update (demo PError) demo_state [0; 1]%nat [tt]) = Ok h /\
  exists W N, nth 0 (nth 1 (h_weights h) []) [] = W /\ nth 0 (nth 1 (h_norm h) []) 0 = N /\
    exists h1, snd (hypothetical_update (demo PError) demo_state [1%nat] [tt]) = Ok h1 /\ h_weights h1 = [[W]] /\ h_norm h1 = [[N]].
Proof.
  destruct (snd (hypothetical_update (demo PError) demo_state [0; 1]%nat [tt])) as [h|x] eqn:Q; [|discriminate Q].
  exists h. split; [reflexivity|].
  destruct (c03_arrays_agree_with_single_calls _ _ _ _ _ Q 1%nat 0%nat 1%nat tt eq_refl eq_refl) as (h1 & W & N & H & HW & HN & EW & EN).
  exists W, N. split; [exact EW|]. split; [exact EN|]. exists h1. auto.
Qed.
Example case_c04 : let xs := [OUpdate tt 0%nat tt true; OBatch (fun _ => tt) [1; 0]%nat [tt; tt] 2] in
  exists ms Ns, expands xs ms /\ drec (run (demo PError) demo_state xs) = outcomes_of ms /\
    applied_norms (demo PError) demo_state ms Ns /\ nrec (run (demo PError) demo_state xs) = Ns.
Proof.
  intros xs. destruct (c04_records_tell_the_history (demo PError) xs demo_state) as (ms & Ns & X & _ & D & P & N).
  - apply demo_good.
  - repeat constructor; cbn; lra.
  - exists ms, Ns. auto.
Qed.
Example case_c07 : batch_update (demo PError) (fun _ => tt) demo_state [0; 1; 0]%nat [tt; tt; tt] 2 =
  run_until_exn (demo PError) demo_state (batch_plan (fun _ => tt) 2 0 [(0%nat, tt); (1%nat, tt); (0%nat, tt)]).
Proof. exact (c07_batch_is_one_by_one (demo PError) (fun _ => tt) demo_state [0; 1; 0]%nat [tt; tt; tt] 2%Z eq_refl ltac:(discriminate)). Qed.
Example case_c11 : ws (fst (reset (demo PError) tt demo_state None (Some [0%nat]) true)) = [1/2; 1/2].
Proof.
  destruct (c11_reset_only_params (demo PError) tt demo_state [0%nat] true 1) as (_ & H & _).
  - apply demo_good.
  - repeat constructor; intros [].
  - intros j [<-|[]]. lia.
  - intros row [<-|[<-|[]]]; reflexivity.
  - intros m H. exact H.
  - rewrite H. cbn. f_equal; [lra|f_equal; lra].
Qed.

(** C40: a coin with probability one third. *)
Example case_c40 : exists q0 q1, coin_score (1/3) 0 = Fin q0 /\ coin_score (1/3) 1 = Fin q1 /\
  fisher 2 (fun o => coin_like (1/3) (Z.of_nat o)) (fun _ o => match o with O => q0 | _ => q1 end) 0 0 = 9/2.
Proof.
  assert (F : forall o, exists q, coin_score (1/3) o = Fin q).
  { intros o. unfold coin_score, xdiv. rewrite !Reqb_false by lra. eexists. reflexivity. }
  destruct (F 0%Z) as (q0 & E0), (F 1%Z) as (q1 & E1). exists q0, q1. split; [exact E0|]. split; [exact E1|].
  rewrite (c40_coin_value (1/3)) by (lra || assumption). field.
Qed.
