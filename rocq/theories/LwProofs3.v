(** Liu-West: end-to-end statements and witnesses. *)
From Verif Require Import Base RList Ext Sums SmcModel PartModel PartSpec SmcProofs2 PartProofs LwModel LwSpec LwProofs LwProofs2.

Lemma the_cov_nonzero c d w l : prob_vector w -> length l = length w ->
  (exists p q, (p < d)%nat /\ (q < d)%nat /\ entry (est_cov d w l) p q <> 0) -> the_cov c d w l None = est_cov d w l.
Proof.
  intros Hp Hl (p & q & Hpd & Hqd & H). unfold the_cov. rewrite Reqb_false; [reflexivity|]. intros E.
  apply H. now apply (proj1 (fro2_zero d w l Hp Hl)).
Qed.
Lemma the_cov_zero c d w l : prob_vector w -> length l = length w ->
  (forall p q, (p < d)%nat -> (q < d)%nat -> entry (est_cov d w l) p q = 0) -> the_cov c d w l None = eye (c_comp c) d.
Proof.
  intros Hp Hl H. unfold the_cov. rewrite Reqb_true by now apply (fro2_zero d w l Hp Hl).
  f_equal. unfold est_cov. now rewrite map_length, seq_length.
Qed.

Lemma sumsq_pos (r : list R) : 0 <= rsum (map (fun x => x * x) r) /\ ((exists x, In x r /\ x <> 0) -> 0 < rsum (map (fun x => x * x) r)).
Proof.
  induction r as [|y r [IH1 IH2]]; [split; [unfold rsum; cbn; lra|intros (x & [] & _)]|]. cbn [map]. rewrite rsum_cons. pose proof (Rle_0_sqr y) as Hy. unfold Rsqr in Hy.
  split; [lra|]. intros (x & [<-|Hx] & Hn); [|assert (0 < rsum (map (fun x => x * x) r)) by (apply IH2; now exists x); lra].
  assert (0 < y * y) by (pose proof (Rsqr_pos_lt y Hn) as H; exact H). lra.
Qed.
Lemma the_cov_given c d w l C : (exists r x, In r C /\ In x r /\ x <> 0) -> the_cov c d w l (Some C) = C.
Proof.
  intros (r & x & Hr & Hx & Hn). unfold the_cov. rewrite Reqb_false; [reflexivity|]. intros E.
  assert (P : 0 < fro2 C); [|apply sqrt_eq_0 in E; lra].
  unfold fro2. clear E. induction C as [|r0 C IH]; [contradiction|]. cbn [map]. rewrite rsum_cons.
  destruct (sumsq_pos r0) as [H1 H2].
  assert (H3 : 0 <= rsum (map (fun r => rsum (map (fun x => x * x) r)) C)) by (apply rsum_map_nonneg; intros q _; apply sumsq_pos).
  destruct Hr as [->|Hr]; [assert (0 < rsum (map (fun x => x * x) r)) by (apply H2; now exists x); lra|]. specialize (IH Hr). lra.
Qed.

Lemma firstn_same {A} (l : list A) n : length l = n -> firstn n l = l.
Proof. intros <-. apply firstn_all. Qed.

Section Draw.
Variable valid : loc -> bool.
Variable postselect : bool.
Variable kernel : nat -> nat -> list R.
Variable sqrtm : list (list R) -> list (list R) * ext.
Variable c : lw_config.

Lemma nth_start_mus d w l pm us junk n i : (i < length us)%nat ->
  nth i (mus (start c d w l pm us junk n)) [] =
  vadd (vscale (c_a c) (nth (sample_index w (nth i us 0)) l [])) (vscale (1 - c_a c) (the_mean d w l pm)).
Proof. exact (nth_mus d w l pm us c i). Qed.

(** Every particle whose first proposal is accepted is the Liu-West point of its own ancestor. *)
Lemma call_first d w l n_arg pm pc us junk : prob_vector w -> length l = length w ->
  Forall (fun u => 0 <= u < 1) us -> length us = the_n c l n_arg -> (forall m, isfinite (snd (sqrtm m)) = true) ->
  (0 < c_maxiter c)%nat -> (forall x, In x l -> length x = d) -> (forall t i, length (kernel t i) = d) ->
  is_matrix d (fst (sqrtm (the_cov c d w l pc))) -> length (the_mean d w l pm) = d ->
  let pt := fun i j => lw_point d (c_a c) (c_h c) (the_mean d w l pm) (fst (sqrtm (the_cov c d w l pc))) (nth j l []) (kernel 0%nat i) in
  exists dist left calls, lw_call valid postselect kernel sqrtm c d w l n_arg pm pc us junk = Ok (dist, left, calls) /\
    forall i, (i < length us)%nat -> exists j, (j < length w)%nat /\ in_slot w j (nth i us 0) /\
      ((postselect = true -> valid (pt i j) = true) -> nth i (fst dist) [] = pt i j).
Proof.
  intros Hp Hl Hu Hn Hf Hmax Hd Hk HS Hpm pt. do 3 eexists. split; [apply call_unfold; auto|].
  intros i Hi. exists (sample_index w (nth i us 0)).
  pose proof (prob_vector_nonempty w Hp) as Hne.
  assert (Hw : w <> []) by (destruct w; [simpl in Hne; lia|discriminate]).
  assert (Hui : 0 <= nth i us 0 < 1) by (rewrite Forall_forall in Hu; apply Hu, nth_In; assumption).
  assert (Hr : (sample_index w (nth i us 0%R) < length w)%nat) by now apply sample_index_range.
  split; [assumption|]. split; [now apply sample_index_slot|].
  assert (E : vadd (nth i (mus (start c d w l pm us junk (the_n c l n_arg))) []) (matvec (map (vscale (c_h c)) (fst (sqrtm (the_cov c d w l pc)))) (kernel 0%nat i)) = pt i (sample_index w (nth i us 0))).
  { rewrite nth_start_mus by assumption. unfold pt. apply point_eq; [assumption| |assumption|apply Hk].
    apply Hd, nth_In. now rewrite Hl. }
  intros Hv. cbn [fst]. destruct (c_maxiter c) as [|k]; [lia|]. rewrite <- E. apply (loop_first valid postselect kernel _ (the_n c l n_arg)).
  - now apply start_inv.
  - reflexivity.
  - lia.
  - intros Hpost. rewrite E. auto.
Qed.

(** Every settled particle is centred on the shrunken location of some drawn ancestor. *)
Lemma call_centres d w l n_arg us junk : prob_vector w -> length l = length w ->
  Forall (fun u => 0 <= u < 1) us -> length us = the_n c l n_arg -> (forall m, isfinite (snd (sqrtm m)) = true) ->
  (forall x, In x l -> length x = d) -> (forall t i, length (kernel t i) = d) ->
  is_matrix d (fst (sqrtm (the_cov c d w l None))) ->
  exists dist left calls, lw_call valid postselect kernel sqrtm c d w l n_arg None None us junk = Ok (dist, left, calls) /\
    forall i, (i < length us)%nat -> ~ In i left -> exists k t j, (k <= i)%nat /\ (j < length w)%nat /\ in_slot w j (nth k us 0) /\
      nth i (fst dist) [] = lw_point d (c_a c) (c_h c) (est_mean d w l) (fst (sqrtm (the_cov c d w l None))) (nth j l []) (kernel t k).
Proof.
  intros Hp Hl Hu Hn Hf Hd Hk HS. do 3 eexists. split; [apply call_unfold; auto|].
  intros i Hi N. cbn [fst].
  pose proof (prob_vector_nonempty w Hp) as Hne.
  assert (Hw : w <> []) by (destruct w; [simpl in Hne; lia|discriminate]).
  set (S0 := fst (sqrtm (the_cov c d w l None))) in *.
  destruct (loop_centres valid postselect kernel (map (vscale (c_h c)) S0) (the_n c l n_arg) (c_maxiter c) 0
     (start c d w l None us junk (the_n c l n_arg)) (mus (start c d w l None us junk (the_n c l n_arg)))) with (i := i) as (k & t & Hki & E).
  - now apply start_inv.
  - symmetry. apply firstn_same. cbn [start mus idxs]. now rewrite map_length, seq_length.
  - intros k Hk' N'. exfalso. apply N'. cbn [start idxs]. apply in_seq. lia.
  - intros k Hk'. cbn [start idxs] in *. rewrite seq_length in Hk'. now rewrite seq_nth.
  - lia.
  - exact N.
  - exists k, t, (sample_index w (nth k us 0)).
    assert (Huk : 0 <= nth k us 0 < 1) by (rewrite Forall_forall in Hu; apply Hu, nth_In; lia).
    assert (Hr : (sample_index w (nth k us 0%R) < length w)%nat) by now apply sample_index_range.
    split; [assumption|]. split; [assumption|]. split; [now apply sample_index_slot|].
    etransitivity; [exact E|]. rewrite nth_start_mus by lia. cbn [the_mean]. apply point_eq; [assumption| |unfold est_mean, particle_mean; now rewrite map_length, seq_length|apply Hk].
    apply Hd, nth_In. now rewrite Hl.
Qed.
End Draw.

(** ** A kernel with the required moments, in every dimension: independent signs. *)
Fixpoint signs (d : nat) (f : list R -> R) : R :=
  match d with
  | 0%nat => f []
  | S d' => (signs d' (fun z => f (1 :: z)) + signs d' (fun z => f (-1 :: z))) / 2
  end.
Lemma signs_ext d : forall f g, (forall z, length z = d -> f z = g z) -> signs d f = signs d g.
Proof.
  induction d as [|d IH]; intros f g H; cbn [signs]; [now apply H|].
  rewrite (IH (fun z => f (1 :: z)) (fun z => g (1 :: z))), (IH (fun z => f (-1 :: z)) (fun z => g (-1 :: z))); [reflexivity| |];
    intros z Hz; apply H; simpl; now rewrite Hz.
Qed.
Lemma signs_plus d : forall f g, signs d (fun z => f z + g z) = signs d f + signs d g.
Proof.
  induction d as [|d IH]; intros f g; cbn [signs]; [reflexivity|].
  rewrite (IH (fun z => f (1 :: z)) (fun z => g (1 :: z))), (IH (fun z => f (-1 :: z)) (fun z => g (-1 :: z))). lra.
Qed.
Lemma signs_scal d : forall k f, signs d (fun z => k * f z) = k * signs d f.
Proof.
  induction d as [|d IH]; intros k f; cbn [signs]; [reflexivity|].
  rewrite (IH k (fun z => f (1 :: z))), (IH k (fun z => f (-1 :: z))). lra.
Qed.
Lemma signs_const d : forall k, signs d (fun _ => k) = k.
Proof. induction d as [|d IH]; intros k; cbn [signs]; [reflexivity|]. rewrite IH. lra. Qed.
Lemma signs_mean d : forall p, (p < d)%nat -> signs d (fun z => nth p z 0) = 0.
Proof.
  induction d as [|d IH]; intros p Hp; [lia|]. cbn [signs]. destruct p as [|p]; cbn [nth].
  - rewrite !signs_const. lra.
  - rewrite IH by lia. lra.
Qed.
Lemma signs_cov d : forall p q, (p < d)%nat -> (q < d)%nat -> signs d (fun z => nth p z 0 * nth q z 0) = if Nat.eqb p q then 1 else 0.
Proof.
  induction d as [|d IH]; intros p q Hp Hq; [lia|]. cbn [signs]. destruct p as [|p], q as [|q]; cbn [nth Nat.eqb].
  - rewrite !signs_const. lra.
  - rewrite !signs_scal, signs_mean by lia. lra.
  - rewrite (signs_ext d _ (fun z => 1 * nth p z 0)) by (intros; ring).
    rewrite (signs_ext d (fun z => nth p z 0 * -1) (fun z => -1 * nth p z 0)) by (intros; ring).
    rewrite !signs_scal, signs_mean by lia. lra.
  - rewrite IH by lia. destruct (Nat.eqb p q); lra.
Qed.
Lemma signs_kernel d : kernel_expectation d (signs d).
Proof.
  constructor.
  - apply signs_ext.
  - apply signs_plus.
  - apply signs_scal.
  - apply signs_const.
  - apply signs_mean.
  - apply signs_cov.
Qed.

(** ** Witness for C25 *)
Definition c25_cfg : lw_config := {| c_a := 1; c_h := 0; c_maxiter := 2; c_comp := 1; c_default_n := None |}.
Definition c25_valid (x : loc) : bool := Reqb (nth 0 x 0) 0.
Lemma c25_witness :
  lw_call c25_valid true (fun _ _ => [0]) (fun m => (m, Fin 0)) c25_cfg 1 [1/2; 1/2] [[0]; [1]] None None None [0; 1/2] (fun _ => [])
  = Ok (([[0]; [0]], [Fin (1/2); Fin (1/2)]), [], 2%nat).
Proof.
  rewrite call_unfold.
  2:{ split; [repeat constructor; lra|]. unfold rsum; simpl; lra. }
  2:{ reflexivity. }
  2:{ repeat constructor; lra. }
  2:{ reflexivity. }
  cbn [fst].
  assert (Es : map (sample_index [1/2; 1/2]) [0; 1/2] = [0%nat; 1%nat]).
  { unfold sample_index, searchsorted_right, cumsum. simpl. repeat rb; (lra || reflexivity). }
  assert (Em : mus (start c25_cfg 1 [1/2; 1/2] [[0]; [1]] None [0; 1/2] (fun _ => []) 2) = [[0]; [1]]).
  { cbn [start mus the_mean c25_cfg c_a].
    rewrite <- (map_map (sample_index [1/2;1/2]) (fun k => vadd (vscale 1 (nth k [[0]; [1]] [])) (vscale (1 - 1) (est_mean 1 [1 / 2; 1 / 2] [[0]; [1]])))).
    rewrite Es. unfold vadd, vscale, est_mean, particle_mean. simpl. repeat f_equal; ring. }
  set (S0 := map (vscale (c_h c25_cfg)) (the_cov c25_cfg 1 [1 / 2; 1 / 2] [[0]; [1]] None)).
  assert (HS : forall z, exists x, matvec S0 [z] = [0] /\ x = z).
  { intros z. exists z. split; [|reflexivity]. unfold S0, the_cov, est_cov. set (b := Reqb _ _). clearbody b.
    destruct b; unfold matvec, vscale, eye; simpl; f_equal; unfold rdot, rsum; simpl; ring. }
  assert (HS0 : matvec S0 [0] = [0]) by (destruct (HS 0) as (x & H & _); exact H).
  change (the_n c25_cfg [[0]; [1]] None) with 2%nat. change (c_maxiter c25_cfg) with 2%nat.
  assert (E1 : lw_pass c25_valid true (fun _ _ => [0]) S0 0 (start c25_cfg 1 [1 / 2; 1 / 2] [[0]; [1]] None [0; 1 / 2] (fun _ => []) 2)
     = {| new_locs := [[0]; [1]]; idxs := [1%nat]; js := select [false; true] (map (searchsorted_right (cumsum [1/2;1/2])) [0; 1/2]); mus := [[0]]; n_calls := 1 |}).
  { unfold lw_pass. rewrite Em. cbn [start idxs js new_locs n_calls]. cbn [seq length map2 map]. rewrite HS0.
    unfold vadd. cbn [map2]. rewrite !Rplus_0_r. unfold scatter. cbn [set_at map nth].
    unfold c25_valid. cbn [nth]. rewrite (Reqb_true 0 0), (Reqb_false 1 0) by lra. cbn [map negb select length firstn]. reflexivity. }
  assert (E2 : forall j, lw_pass c25_valid true (fun _ _ => [0]) S0 1 {| new_locs := [[0]; [1]]; idxs := [1%nat]; js := j; mus := [[0]]; n_calls := 1 |}
     = {| new_locs := [[0]; [0]]; idxs := []; js := select [false] j; mus := []; n_calls := 2 |}).
  { intros j. unfold lw_pass. cbn [idxs js new_locs n_calls mus]. cbn [seq length map2 map]. rewrite HS0.
    unfold vadd. cbn [map2]. rewrite !Rplus_0_r. unfold scatter. cbn [set_at map nth].
    unfold c25_valid. cbn [nth]. rewrite (Reqb_true 0 0) by lra. cbn [map negb select length firstn]. reflexivity. }
  assert (EL : lw_loop c25_valid true (fun _ _ => [0]) S0 2 0 (start c25_cfg 1 [1 / 2; 1 / 2] [[0]; [1]] None [0; 1 / 2] (fun _ => []) 2)
     = {| new_locs := [[0]; [0]]; idxs := []; js := select [false] (select [false; true] (map (searchsorted_right (cumsum [1/2;1/2])) [0; 1/2])); mus := []; n_calls := 2 |}).
  { cbn [lw_loop]. rewrite E1. cbn [start idxs seq]. rewrite E2. reflexivity. }
  cbv zeta. match goal with |- context [lw_loop _ _ _ ?S1 2 0 ?st] => change (lw_loop c25_valid true (fun _ _ => [0]) S1 2 0 st) with (lw_loop c25_valid true (fun _ _ => [0]) S0 2 0 (start c25_cfg 1 [1 / 2; 1 / 2] [[0]; [1]] None [0; 1 / 2] (fun _ => []) 2)) end.
  rewrite EL. cbn [new_locs idxs n_calls]. unfold uniform_weights. simpl. repeat f_equal; lra.
Qed.
