(** Proofs about the array code of the updater and of the derived models. *)
From Verif Require Import Base Ext RList Sums DomModel TwoModel DerModel SmcModel RiskModel Nd NdModel NdModel2 NdSpec NdProofs.

Lemma rsum_seq_ext n (f g : nat -> R) : (forall i, (i < n)%nat -> f i = g i) -> rsum (map f (seq 0 n)) = rsum (map g (seq 0 n)).
Proof. intros H. f_equal. apply map_ext_in. intros i Hi. apply in_seq in Hi. apply H; lia. Qed.
Lemma xsum_seq_ext n (f g : nat -> ext) : (forall i, (i < n)%nat -> f i = g i) -> xsum (map f (seq 0 n)) = xsum (map g (seq 0 n)).
Proof. intros H. f_equal. apply map_ext_in. intros i Hi. apply in_seq in Hi. apply H; lia. Qed.

Section Upd.
Context {O E : Type}.
Variable like_arr : nd O -> nd R -> list E -> res (nd R).
Variable dO : O.

Lemma hyp_arr w locs outcomes es n_o n_e f : is3 (like_arr outcomes locs es) n_o (length w) n_e f ->
  exists W L N, hyp_arrays like_arr (vec 0 w) locs outcomes es = Ok (W, L, N) /\
    is3 (Ok W) n_o n_e (length w) (fun o k i => nth i w 0 * f o i k / fix_norm (rsum (map (fun i => nth i w 0 * f o i k) (seq 0 (length w))))) /\
    is3 (Ok L) n_o n_e (length w) (fun o k i => f o i k) /\
    is3 (Ok N) n_o n_e 1 (fun o k _ => rsum (map (fun i => nth i w 0 * f o i k) (seq 0 (length w)))).
Proof.
  intros (L0 & E1 & E2 & E3). unfold hyp_arrays. rewrite E1. destruct L0 as [sh g]. cbn [shp get] in *. subst sh. nds.
  eexists _, _, _. split; [reflexivity|]. split; [|split].
  - eexists; split; [reflexivity|]. split; [reflexivity|]. intros o k i H1 H2 H3. nds. pins. rewrite E3 by assumption. do 2 f_equal.
    apply rsum_seq_ext. intros j Hj. nds. pins. rewrite E3 by assumption. reflexivity.
  - eexists; split; [reflexivity|]. split; [reflexivity|]. intros o k i H1 H2 H3. nds. now apply E3.
  - eexists; split; [reflexivity|]. split; [reflexivity|]. intros o k i H1 H2 H3. nds.
    apply rsum_seq_ext. intros j Hj. nds. pins. rewrite E3 by assumption. reflexivity.
Qed.

(** last element apart *)
Lemma locate2 {A} (a b : nd A) i ix : locate a [b] i ix = if (i <? dim 0 a)%nat then get a (i :: ix) else get b ((i - dim 0 a)%nat :: ix).
Proof. reflexivity. Qed.

Lemma risk_arr w locs os es n_o n_e f : is3 (like_arr (vec dO (removelast os)) locs es) n_o (length w) n_e f ->
  exists N W, risk_arrays like_arr dO (vec 0 w) locs os es = Ok (N, W) /\
    let lastw k i := (1 - rsum (map (fun o => f o i k) (seq 0 n_o))) * nth i w 0 in
    let scale o k := rsum (map (fun i => nth i w 0 * f o i k) (seq 0 (length w))) in
    let Nl k := rsum (map (lastw k) (seq 0 (length w))) in
    is2 (Ok N) (S n_o) n_e (fun o k => if (o <? n_o)%nat then scale o k else Nl k) /\
    is3 (Ok W) (S n_o) n_e (length w) (fun o k i =>
      if (o <? n_o)%nat then Fin (nth i w 0 * f o i k / fix_norm (scale o k)) else xdiv (Fin (lastw k i)) (Fin (Nl k))).
Proof.
  intros H. unfold risk_arrays. destruct (hyp_arr _ _ _ _ _ _ _ H) as (W & L & N & E0 & (W' & EW & EW2 & EW3) & (L' & EL & EL2 & EL3) & (N' & EN & EN2 & EN3)).
  injection EW as <-. injection EL as <-. injection EN as <-. rewrite E0. cbn [bind].
  destruct W as [sW gW], L as [sL gL], N as [sN gN]. cbn [shp get] in *. subst sW sL sN. nds.
  unfold take. nds. eexists _, _. split; [reflexivity|]. cbv zeta. split.
  - eexists; split; [reflexivity|]. split; [reflexivity|]. intros o k H1 H2. nds. destruct (Nat.ltb_spec o n_o).
    + apply EN3; lia.
    + apply rsum_seq_ext. intros j Hj. nds. pins. f_equal. f_equal. apply rsum_seq_ext. intros o' Ho'. nds. pins. now apply EL3.
  - eexists; split; [reflexivity|]. split; [reflexivity|]. intros o k i H1 H2 H3. nds. destruct (Nat.ltb_spec o n_o).
    + rewrite EW3 by lia. reflexivity.
    + f_equal; f_equal.
      * nds. pins. f_equal. f_equal. apply rsum_seq_ext. intros o' Ho'. nds. pins. now apply EL3.
      * apply rsum_seq_ext. intros j Hj. nds. pins. f_equal. f_equal. apply rsum_seq_ext. intros o' Ho'. nds. pins. now apply EL3.
Qed.

Lemma bayes_risk_arr Q w d l os es n_o n_e f : length w = length l -> length Q = d ->
  is3 (like_arr (vec dO (removelast os)) (mat2 0 d l) es) n_o (length w) n_e f ->
  exists Nf Wf, 
    (exists N W, risk_arrays like_arr dO (vec 0 w) (mat2 0 d l) os es = Ok (N, W) /\ is2 (Ok N) (S n_o) n_e Nf /\ is3 (Ok W) (S n_o) n_e (length w) Wf) /\
    is1 (bayes_risk_array like_arr dO (vec 0 Q) (vec 0 w) (mat2 0 d l) os es) n_e (fun k =>
      xsum (map (fun o => xmul (Fin (Nf o k)) (xsum (map (fun i => xmul (Wf o k i) (xsum (map (fun j =>
        xmul (Fin (nth j Q 0)) (xsq (xsub (Fin (nth j (nth i l []) 0)) (xsum (map (fun i' => xmul (Wf o k i') (Fin (nth j (nth i' l []) 0))) (seq 0 (length w)))))))
        (seq 0 d)))) (seq 0 (length w))))) (seq 0 (S n_o)))).
Proof.
  intros Hl HQ H. destruct (risk_arr _ _ _ _ _ _ _ H) as (N & W & E0 & (N' & EN & EN2 & EN3) & (W' & EW & EW2 & EW3)).
  injection EN as <-. injection EW as <-.
  exists (fun o k => get N [o; k]), (fun o k i => get W [o; k; i]). split.
  { exists N, W. split; [exact E0|]. split; [exists N|exists W]; (split; [reflexivity|split; [assumption|reflexivity]]). }
  clear EN3 EW3. remember (S n_o) as mo eqn:Hmo. clear Hmo. unfold bayes_risk_array. rewrite E0. cbn [bind]. clear E0 H. rewrite <- HQ. rewrite Hl in *.
  destruct W as [sW gW], N as [sN gN]. cbn [shp get] in *. subst sW sN. unfold dot. nds.
  eexists. split; [reflexivity|]. split; [reflexivity|]. intros k Hk. nds. apply xsum_seq_ext. intros o Ho. nds. pins. f_equal.
  apply xsum_seq_ext. intros i Hi. nds. pins. f_equal. apply xsum_seq_ext. intros j Hj. nds. pins. reflexivity.
Qed.

Lemma information_gain_arr w locs os es n_o n_e f :
  is3 (like_arr (vec dO (removelast os)) locs es) n_o (length w) n_e f ->
  exists Nf Wf,
    (exists N W, risk_arrays like_arr dO (vec 0 w) locs os es = Ok (N, W) /\ is2 (Ok N) (S n_o) n_e Nf /\ is3 (Ok W) (S n_o) n_e (length w) Wf) /\
    is1 (information_gain_array like_arr dO (vec 0 w) locs os es) n_e (fun k =>
      xsum (map (fun o => xmul (Fin (Nf o k)) (xsum (map (fun i => xmul (Wf o k i) (xln (xdiv (Wf o k i) (Fin (nth i w 0))))) (seq 0 (length w))))) (seq 0 (S n_o)))).
Proof.
  intros H. destruct (risk_arr _ _ _ _ _ _ _ H) as (N & W & E0 & (N' & EN & EN2 & EN3) & (W' & EW & EW2 & EW3)).
  injection EN as <-. injection EW as <-.
  exists (fun o k => get N [o; k]), (fun o k i => get W [o; k; i]). split.
  { exists N, W. split; [exact E0|]. split; [exists N|exists W]; (split; [reflexivity|split; [assumption|reflexivity]]). }
  clear EN3 EW3. remember (S n_o) as mo eqn:Hmo. clear Hmo. unfold information_gain_array. rewrite E0. cbn [bind]. clear E0 H.
  destruct W as [sW gW], N as [sN gN]. cbn [shp get] in *. subst sW sN. nds.
  eexists. split; [reflexivity|]. split; [reflexivity|]. intros k Hk. nds. apply xsum_seq_ext. intros o Ho. nds. pins. f_equal.
  apply xsum_seq_ext. intros i Hi. nds. pins. reflexivity.
Qed.
End Upd.

(** ** Lists of the entry-level model in index form *)
Section Bridge.
Context {O E RND : Type}.
Variable c : @config O E RND.

Lemma map2_seq {A B C} (f : A -> B -> C) l m da db : length l = length m -> map2 f l m = map (fun i => f (nth i l da) (nth i m db)) (seq 0 (length l)).
Proof. intros H. now apply map2_index. Qed.
Lemma hyp_row_index w l o e : length w = length l -> hyp_row c w l o e = map (fun i => nth i w 0 * lik (md c) o (nth i l []) e) (seq 0 (length w)).
Proof.
  intros H. unfold hyp_row, L_row. rewrite (map2_seq Rmult w _ 0 0) by (now rewrite map_length). apply map_ext_in. intros i Hi. apply in_seq in Hi.
  now rewrite (nth_map_in _ l i 0 []) by lia.
Qed.
Lemma norm_scale_index w l o e : length w = length l ->
  norm_scale c w l o e = rsum (map (fun i => nth i w 0 * lik (md c) o (nth i l []) e) (seq 0 (length w))).
Proof. intros H. unfold norm_scale. now rewrite hyp_row_index. Qed.
Lemma norm_row_index w l o e : length w = length l ->
  norm_row c w l o e = map (fun i => nth i w 0 * lik (md c) o (nth i l []) e / fix_norm (norm_scale c w l o e)) (seq 0 (length w)).
Proof. intros H. unfold norm_row. rewrite hyp_row_index by assumption. now rewrite map_map. Qed.
Lemma last_raw_index w l os e dO : length w = length l ->
  last_raw c w l os e = map (fun i => (1 - rsum (map (fun o => lik (md c) (nth o (removelast os) dO) (nth i l []) e) (seq 0 (length (removelast os))))) * nth i w 0) (seq 0 (length w)).
Proof.
  intros H. unfold last_raw. rewrite (map2_seq _ w l 0 []) by assumption. apply map_ext. intros i. f_equal. f_equal. f_equal.
  rewrite <- (map_nth_seq (removelast os) dO) at 1. now rewrite map_map.
Qed.
Lemma nth_seq_map {A} (f : nat -> A) n i d : (i < n)%nat -> nth i (map f (seq 0 n)) d = f i.
Proof. intros H. rewrite (nth_map_in f (seq 0 n) i d 0%nat) by (now rewrite seq_length). now rewrite seq_nth. Qed.
Lemma nth_snoc {A} (l : list A) x i d : (i < S (length l))%nat -> nth i (l ++ [x]) d = if (i <? length l)%nat then nth i l d else x.
Proof.
  intros H. destruct (Nat.ltb_spec i (length l)); [now apply app_nth1|]. assert (i = length l) by lia. subst. rewrite app_nth2 by lia. now rewrite Nat.sub_diag.
Qed.

Lemma risk_sum_index (h : list ext -> ext) w l os e dO : 
  xsum (map2 (fun N wh => xmul (Fin N) (h wh)) (risk_N c w l os e) (risk_w c w l os e))
  = xsum (map (fun o => xmul (Fin (if (o <? length (removelast os))%nat then norm_scale c w l (nth o (removelast os) dO) e else rsum (last_raw c w l os e)))
      (h (if (o <? length (removelast os))%nat then map Fin (norm_row c w l (nth o (removelast os) dO) e)
          else map (fun x => xdiv (Fin x) (Fin (rsum (last_raw c w l os e)))) (last_raw c w l os e)))) (seq 0 (S (length (removelast os))))).
Proof.
  f_equal. unfold risk_N, risk_w. rewrite (map2_seq _ _ _ 0 []) by (now rewrite !app_length, !map_length).
  rewrite app_length, map_length. cbn [length]. rewrite Nat.add_1_r. apply map_ext_in. intros o Ho. apply in_seq in Ho.
  rewrite !nth_snoc by (rewrite map_length; lia). rewrite !map_length. destruct (Nat.ltb_spec o (length (removelast os))); [|reflexivity].
  now rewrite (nth_map_in _ (removelast os) o 0 dO), (nth_map_in _ (removelast os) o [] dO) by assumption.
Qed.

Lemma var_hyp_index Q wh l : length wh = length l ->
  var_hyp Q wh l = xsum (map (fun i => xmul (nth i wh NaN) (xsum (map (fun j =>
     xmul (Fin (nth j Q 0)) (xsq (xsub (Fin (nth j (nth i l []) 0)) (xsum (map (fun i' => xmul (nth i' wh NaN) (Fin (nth j (nth i' l []) 0))) (seq 0 (length wh)))))))
     (seq 0 (length Q))))) (seq 0 (length wh))).
Proof.
  intros H. unfold var_hyp. rewrite (map2_seq _ wh l NaN []) by assumption. apply xsum_seq_ext. intros i Hi. f_equal. apply xsum_seq_ext. intros j Hj.
  unfold xsq, mu_hyp. rewrite (map2_seq _ wh l NaN []) by assumption. reflexivity.
Qed.
Lemma kld_index wh w : length wh = length w ->
  kld wh w = xsum (map (fun i => xmul (nth i wh NaN) (xln (xdiv (nth i wh NaN) (Fin (nth i w 0))))) (seq 0 (length wh))).
Proof. intros H. unfold kld. now rewrite (map2_seq _ wh w NaN 0) by assumption. Qed.

Variable like_arr : nd O -> nd R -> list E -> res (nd R).
Variables (dO : O) (dE : E).

(** the hypothetical weights of one outcome, as a list *)
Definition wrow (w : list R) l os e o : list ext := 
  if (o <? length (removelast os))%nat then map Fin (norm_row c w l (nth o (removelast os) dO) e)
  else map (fun x => xdiv (Fin x) (Fin (rsum (last_raw c w l os e)))) (last_raw c w l os e).
Lemma wrow_length w l os e o : length w = length l -> length (wrow w l os e o) = length w.
Proof. intros H. unfold wrow. destruct (_ <? _)%nat; rewrite map_length; [rewrite norm_row_index by assumption|rewrite (last_raw_index _ _ _ _ dO) by assumption]; now rewrite map_length, seq_length. Qed.

Lemma risk_arr_lists w l d os es : length w = length l ->
  is3 (like_arr (vec dO (removelast os)) (mat2 0 d l) es) (length (removelast os)) (length w) (length es)
    (fun o i k => lik (md c) (nth o (removelast os) dO) (nth i l []) (nth k es dE)) ->
  exists N W, risk_arrays like_arr dO (vec 0 w) (mat2 0 d l) os es = Ok (N, W) /\
    (forall o k, (o < S (length (removelast os)))%nat -> (k < length es)%nat ->
      get N [o; k] = (if (o <? length (removelast os))%nat then norm_scale c w l (nth o (removelast os) dO) (nth k es dE) else rsum (last_raw c w l os (nth k es dE)))) /\
    (forall o k i, (o < S (length (removelast os)))%nat -> (k < length es)%nat -> (i < length w)%nat ->
      get W [o; k; i] = nth i (wrow w l os (nth k es dE) o) NaN).
Proof.
  intros Hl H. destruct (risk_arr like_arr dO _ _ _ _ _ _ _ H) as (N & W & E0 & (N' & EN & EN2 & EN3) & (W' & EW & EW2 & EW3)).
  injection EN as <-. injection EW as <-. exists N, W. split; [exact E0|]. split.
  - intros o k Ho Hk. rewrite EN3 by assumption. rewrite norm_scale_index, (last_raw_index _ _ _ _ dO) by assumption. reflexivity.
  - intros o k i Ho Hk Hi. rewrite EW3 by assumption. unfold wrow. destruct (Nat.ltb_spec o (length (removelast os))).
    + rewrite norm_row_index by assumption. rewrite map_map, nth_seq_map by assumption. now rewrite norm_scale_index by assumption.
    + rewrite (last_raw_index _ _ _ _ dO) by assumption. rewrite map_map, nth_seq_map by assumption. reflexivity.
Qed.

Lemma bayes_risk_lists Q w l d os es : length w = length l -> length Q = d ->
  is3 (like_arr (vec dO (removelast os)) (mat2 0 d l) es) (length (removelast os)) (length w) (length es)
    (fun o i k => lik (md c) (nth o (removelast os) dO) (nth i l []) (nth k es dE)) ->
  is1 (bayes_risk_array like_arr dO (vec 0 Q) (vec 0 w) (mat2 0 d l) os es) (length es) (fun k => bayes_risk1 c Q w l os (nth k es dE)).
Proof.
  intros Hl HQ H. destruct (risk_arr_lists _ _ _ _ _ Hl H) as (N & W & E0 & HN & HW).
  destruct (bayes_risk_arr like_arr dO Q w d l os es _ _ _ Hl HQ H) as (Nf & Wf & (N1 & W1 & E1 & (N2 & E2 & _ & HN2) & (W2 & E3 & _ & HW2)) & (a & Ea & Sa & Ga)).
  injection E2 as <-. injection E3 as <-. rewrite E0 in E1. injection E1 as <- <-.
  exists a. split; [exact Ea|]. split; [exact Sa|]. intros k Hk. rewrite Ga by assumption. unfold bayes_risk1. rewrite (risk_sum_index _ _ _ _ _ dO).
  apply xsum_seq_ext. intros o Ho. rewrite <- HN2, HN by lia. f_equal. fold (wrow w l os (nth k es dE) o).
  rewrite var_hyp_index by (now rewrite wrow_length). rewrite wrow_length by assumption. apply xsum_seq_ext. intros i Hi.
  rewrite <- HW2, HW by assumption. f_equal. rewrite HQ. apply xsum_seq_ext. intros j Hj. do 4 f_equal. apply map_ext_in. intros i' Hi'. apply in_seq in Hi'.
  rewrite <- HW2, HW by (assumption || lia). reflexivity.
Qed.

Lemma information_gain_lists w l d os es : length w = length l ->
  is3 (like_arr (vec dO (removelast os)) (mat2 0 d l) es) (length (removelast os)) (length w) (length es)
    (fun o i k => lik (md c) (nth o (removelast os) dO) (nth i l []) (nth k es dE)) ->
  is1 (information_gain_array like_arr dO (vec 0 w) (mat2 0 d l) os es) (length es) (fun k => eig1 c w l os (nth k es dE)).
Proof.
  intros Hl H. destruct (risk_arr_lists _ _ _ _ _ Hl H) as (N & W & E0 & HN & HW).
  destruct (information_gain_arr like_arr dO w (mat2 0 d l) os es _ _ _ H) as (Nf & Wf & (N1 & W1 & E1 & (N2 & E2 & _ & HN2) & (W2 & E3 & _ & HW2)) & (a & Ea & Sa & Ga)).
  injection E2 as <-. injection E3 as <-. rewrite E0 in E1. injection E1 as <- <-.
  exists a. split; [exact Ea|]. split; [exact Sa|]. intros k Hk. rewrite Ga by assumption. unfold eig1. rewrite (risk_sum_index (fun wh => kld wh w) _ _ _ _ dO).
  apply xsum_seq_ext. intros o Ho. rewrite <- HN2, HN by lia. f_equal. fold (wrow w l os (nth k es dE) o).
  rewrite kld_index by (now apply wrow_length). rewrite wrow_length by assumption. apply xsum_seq_ext. intros i Hi.
  rewrite <- HW2, HW by assumption. reflexivity.
Qed.
End Bridge.
