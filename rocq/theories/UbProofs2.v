(** Proofs for C129: the Liu-West resampler without shrinking and without noise is unbiased. *)
From Coq Require Import List Lia Lra Psatz.
From Verif Require Import Base RList Ext Sums SmcModel SmcSpec SmcProofs PartModel PartSpec PartProofs LwModel LwSpec LwProofs LwProofs2 LwProofs3 ReModel ReSpec ReProofs ReProofs2 ConvSpec PfSpec PfProofs PfProofs3.
Import ListNotations.

Lemma boot_unbiased {O E} (c : @config O E (list (R * list R))) valid postselect sqrtm cfg d n junk (V : loc -> Prop) Eu Ez :
  rsmp c = lw_rsmp valid postselect sqrtm cfg d junk -> c_default_n cfg = None \/ c_default_n cfg = Some n -> (0 < c_maxiter cfg)%nat ->
  (forall m, isfinite (snd (sqrtm m)) = true) -> (forall m, is_matrix d m -> is_matrix d (fst (sqrtm m))) ->
  c_a cfg = 1 -> c_h cfg = 0 -> (forall x, V x -> length x = d) -> (postselect = true -> forall x, V x -> valid x = true) ->
  uniform_law Eu -> kernel_expectation d Ez -> forall g, unbiased c (within V n) (draws Eu Ez n) g.
Proof.
  intros Hc Hdef Hmax Hfin Hroot Ha Hh Hlen Hval HEu HEz g w l Hp Hl HW.
  pose proof (within_clouds d n V Hlen l HW) as HC.
  set (c' := {| md := md c; prior := prior c; rsmp := lw_rsmp (fun _ => true) postselect sqrtm cfg d junk;
    rthresh := rthresh c; zpolicy := zpolicy c; zthresh := zthresh c; canonize := canonize c |}).
  assert (Htrue : postselect = true -> forall x : loc, length x = d -> (fun _ : loc => true) x = true) by reflexivity.
  rewrite (swap valid postselect sqrtm cfg d n junk V Eu Ez HEu HEz Hdef Hmax Hfin Hroot Ha Hh Hlen Hval c Hc (fun x => match x with Ok (w', l') => cloud_average w' l' g | Err _ => 0 end) w l Hp Hl HW).
  cbv beta. change (draws Eu Ez n (fun r => match rsmp c' r w l with Ok (w', l') => cloud_average w' l' g | Err _ => 0 end) = cloud_average w l g).
  rewrite (expected_average (fun _ => true) postselect sqrtm cfg d n junk Eu Ez HEu HEz Hdef Hmax Hfin Hroot Htrue c' eq_refl w l g Hp Hl HC).
  unfold cloud_average. rewrite <- Hl. apply Sum_ext. intros j Hj. f_equal. destruct HC as [_ HC].
  assert (Lj : length (nth j l []) = d) by (apply HC, nth_In; now rewrite <- Hl).
  rewrite (ez_ext d Ez HEz _ (fun _ => g (nth j l []) * 1)); [rewrite (ez_scal d Ez HEz _ (fun _ => 1)), (ez_one d Ez HEz); ring|]. intros z _. unfold point. cbn [fst snd]. rewrite (still cfg d Ha Hh) by assumption. ring.
Qed.
