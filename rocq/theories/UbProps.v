(** C129: the estimated total likelihood is right on average, for any number of particles. *)
From Coq Require Import List Lia Lra Psatz FunctionalExtensionality.
From Verif Require Import Base RList Ext Sums SmcModel SmcSpec SmcProofs SmcProofs2 LinProofs PartModel PartSpec PartProofs LearnSpec LearnProofs RateSpec LwModel LwSpec LwProofs LwProofs2 LwProofs3 ReModel ReSpec ReProofs ReProofs2 ReProofs3 ReProps ConvSpec ConvProofs ConvProofs2 ConvProps  PfSpec PfProofs PfProofs2 PfProofs3 PfProps UbSpec UbProofs UbProofs2.
Import ListNotations.

Section Props.
Context {O E RND : Type}.
Implicit Types (c : @config O E RND).

Lemma total_prod V n M k (s : @state O) : Inv V n M k s -> total s = rprod (nrec s).
Proof.
  intros (_ & _ & _ & HN). assert (PN : Forall (fun x => 0 < x) (nrec s)) by (pose proof eps_pos; apply Forall_impl with (2 := HN); intros x [Hx _]; lra).
  assert (PP : 0 < rprod (nrec s)) by (clear HN; induction PN; [change (rprod []) with 1; lra|rewrite rprod_cons; now apply Rmult_lt_0_compat]).
  unfold total. now rewrite (log_total_exp s PN), exp_ln.
Qed.
Lemma avg_one V n M k (s : @state O) : Inv V n M k s -> average s (fun _ => 1) = 1.
Proof. intros ((L1 & L2 & L3) & _). unfold average, cloud_average. rewrite rsum_index, L1 in L3. now rewrite Sum_scal_r, L3, Rmult_1_r. Qed.
Section Hyp.
Context (c : @config O E RND) (mv : E -> loc -> loc) (V : loc -> Prop) (n : nat) (M : R) (Good : RND -> Prop) (Ep : (loc -> R) -> R) (E0 Er : (RND -> R) -> R) (data : list (O * E)).
Hypothesis FL : setting c mv V Ep M.
Hypothesis HS : sampling c V n Ep E0.
Hypothesis FF : faithful c V n Good Er.
Hypothesis HU : forall g, bounded V g -> unbiased c (within V n) Er g.
Hypothesis Hn : (0 < n)%nat.
Lemma expected_ext (F : @state O -> R) f b : (forall x, V x -> 0 <= f x <= b) -> (forall s, Inv V n M (length data) s -> F s = rprod (nrec s) * average s f) ->
  expected c n E0 Er data F = E0 (fun r => rounds c Er data (tot f) (Some (fresh c n r))).
Proof.
  intros Hf HF. pose proof (run_lim c mv V n M Good Ep E0 Er FL HS FF HU Hn f b data Hf) as L.
  assert (Q : forall r, Forall V (prior c r n) -> rounds c Er data (fun t => match t with Some s => F s | None => 0 end) (Some (fresh c n r)) = rounds c Er data (tot f) (Some (fresh c n r))).
  { intros r Hr. pose proof (fr_inv c mv V n M Ep [] FL Hn r Hr) as Hi. destruct FL as [Hth _ Hcan Hmv Hst Hlik HM _].
    apply Rle_antisym; apply (rounds_le c mv V n M Good Er Hth Hcan Hmv Hst Hlik HM Hn FF data 0 _ _ _ Hi); intros [s|] Hs; cbn [tot]; try lra; apply Req_le; [|symmetry]; now apply HF. }
  unfold expected. apply (Er_ext c V n Ep E0 HS); [|exact L|exact Q]. destruct L as [B HB]. exists B. intros r Hr. rewrite Q by assumption. now apply HB.
Qed.
Lemma ones : forall x, V x -> 0 <= (fun _ : loc => 1) x <= 1. Proof. intros; lra. Qed.
Lemma expected_total : expected c n E0 Er data total = E0 (fun r => rounds c Er data (tot (fun _ => 1)) (Some (fresh c n r))).
Proof. apply (expected_ext total (fun _ => 1) 1 ones). intros s Hs. now rewrite (total_prod V n M _ s Hs), (avg_one V n M _ s Hs), Rmult_1_r. Qed.
Lemma ahead_one : ahead c mv data (fun _ => 1) = given c mv data.
Proof. apply functional_extensionality. intros x. unfold ahead. ring. Qed.

(** Runs that end early count zero, which costs at most machine epsilon times the largest likelihoods of the remaining data; apart from that
    the estimate is right on average. *)
Theorem c129_total_likelihood :
  probability c mv Ep data - missing M data <= expected c n E0 Er data total <= probability c mv Ep data.
Proof.
  rewrite expected_total. unfold probability. rewrite <- ahead_one. split.
  - pose proof (total_lower c mv V n M Good Ep E0 Er FL HS FF HU Hn (fun _ => 1) 1 data ones). lra.
  - exact (total_upper c mv V n M Good Ep E0 Er FL HS FF HU Hn (fun _ => 1) 1 data ones).
Qed.
(** When no particle gives a datum of the record a likelihood below machine epsilon, it is exactly right. *)
Theorem c129_exactly_unbiased : (forall o e x, In (o, e) data -> V x -> eps <= lik (md c) o x e) -> expected c n E0 Er data total = probability c mv Ep data.
Proof. intros Hl. rewrite expected_total. unfold probability. rewrite <- ahead_one. exact (total_exact c mv V n M Good Ep E0 Er FL HS FF HU Hn (fun _ => 1) 1 data ones Hl). Qed.
(** So is the posterior average of any bounded non-negative function times the total likelihood. *)
Theorem c129_unnormalised_average f b : (forall x, V x -> 0 <= f x <= b) ->
  let exact := Ep (fun x => given c mv data x * f (moved mv data x)) in
  exact - missing M data * b <= expected c n E0 Er data (fun s => total s * average s f) <= exact /\
  ((forall o e x, In (o, e) data -> V x -> eps <= lik (md c) o x e) -> expected c n E0 Er data (fun s => total s * average s f) = exact).
Proof.
  intros Hf exact. rewrite (expected_ext _ f b Hf) by (intros s Hs; now rewrite (total_prod V n M _ s Hs)).
  split; [split|intros Hl].
  - exact (total_lower c mv V n M Good Ep E0 Er FL HS FF HU Hn f b data Hf).
  - exact (total_upper c mv V n M Good Ep E0 Er FL HS FF HU Hn f b data Hf).
  - exact (total_exact c mv V n M Good Ep E0 Er FL HS FF HU Hn f b data Hf Hl).
Qed.
(** Hence large overestimates are rare, however few particles there are. *)
Theorem c129_overestimates_are_rare k : 0 < k -> 0 < probability c mv Ep data ->
  expected c n E0 Er data (fun s => indicator (Rleb (k * probability c mv Ep data) (total s))) <= / k.
Proof.
  intros Hk HP. set (p := probability c mv Ep data) in *. assert (Pkp : 0 < k * p) by now apply Rmult_lt_0_compat.
  pose proof (proj2 c129_total_likelihood) as U. fold p in U.
  assert (Q : expected c n E0 Er data (fun s => indicator (Rleb (k * p) (total s))) <= / (k * p) * expected c n E0 Er data total).
  { rewrite expected_total. pose proof (run_lim c mv V n M Good Ep E0 Er FL HS FF HU Hn (fun _ => 1) 1 data ones) as L. rewrite <- (sl_scal _ _ _ _ _ HS) by exact L. unfold expected.
    assert (Iv0 : forall r, Forall V (prior c r n) -> Iv V n M 0 (Some (@fresh O E RND c n r))) by (intros r Hr; exact (fr_inv c mv V n M Ep [] FL Hn r Hr)).
    destruct FL as [Hth _ Hcan Hmv Hst Hlik HM _]. apply (sl_le _ _ _ _ _ HS).
    - exists 1. intros r Hr. apply (rounds_bounded c mv V n M Good Er Hth Hcan Hmv Hst Hlik HM Hn FF data 0); [now apply Iv0|].
      intros [s|] _; [destruct (Rleb _ _); cbn [indicator]|]; rewrite ?Rabs_R0, ?Rabs_R1; lra.
    - apply (lim_mult c V n (fun _ => / (k * p))); [apply lim_const|exact L].
    - intros r Hr. rewrite <- (rounds_scal c mv V n M Good Er Hth Hcan Hmv Hst Hlik HM Hn FF data (/ (k * p)) 0) by now apply Iv0.
      apply (rounds_le c mv V n M Good Er Hth Hcan Hmv Hst Hlik HM Hn FF data 0 _ _ _ (Iv0 r Hr)). intros [s|] Hs; cbn [tot]; [|rewrite Rmult_0_r; lra].
      rewrite (avg_one V n M _ s Hs), Rmult_1_r, <- (total_prod V n M _ s Hs). assert (PT : 0 <= total s) by (rewrite (total_prod V n M _ s Hs); exact (rprod_pos V n M _ s Hs)).
      destruct (Rleb_spec (k * p) (total s)) as [X|X]; cbn [indicator].
      + apply Rmult_le_reg_l with (k * p); [assumption|]. rewrite <- Rmult_assoc, Rinv_r, Rmult_1_r, Rmult_1_l by lra. exact X.
      + apply Rmult_le_pos; [apply Rlt_le, Rinv_0_lt_compat, Pkp|exact PT]. }
  apply Rle_trans with (1 := Q). apply Rle_trans with (/ (k * p) * p); [apply Rmult_le_compat_l; [apply Rlt_le, Rinv_0_lt_compat, Pkp|exact U]|].
  apply Req_le. field. lra.
Qed.
End Hyp.
End Props.

(** The Liu-West resampler with a = 1, h = 0 is unbiased (and faithful, c128_liu_west). *)
Theorem c129_liu_west {O E} (c : @config O E (list (R * list R))) valid postselect sqrtm cfg d n junk (V : loc -> Prop) Eu Ez :
  rsmp c = lw_rsmp valid postselect sqrtm cfg d junk -> c_default_n cfg = None \/ c_default_n cfg = Some n -> (0 < c_maxiter cfg)%nat ->
  (forall m, isfinite (snd (sqrtm m)) = true) -> (forall m, is_matrix d m -> is_matrix d (fst (sqrtm m))) ->
  c_a cfg = 1 -> c_h cfg = 0 -> (forall x, V x -> length x = d) -> (postselect = true -> forall x, V x -> valid x = true) ->
  uniform_law Eu -> kernel_expectation d Ez -> forall g, unbiased c (within V n) (draws Eu Ez n) g.
Proof. exact (boot_unbiased c valid postselect sqrtm cfg d n junk V Eu Ez). Qed.

(** The coin of c128_example: two heads have probability 5/16, and the updater says so on average with any number of particles. *)
Example c129_example n : (0 < n)%nat -> let xs := [[1/4]; [3/4]] in let ps := [1/2; 1/2] in
  expected coin_filter n (fun F => independent xs ps n (fun l => F (map (fun x => (0, x)) l))) (draws riemann (signs 1) n) two_heads total = 5 / 16.
Proof.
  intros Hn xs ps. destruct c128_example as (FL & HS & FF & _ & _). fold xs ps in FL, HS, FF.
  assert (C1 : clip 0 1 (1/4) = 1/4) by (unfold clip; rewrite Rmax_right, Rmin_right by lra; reflexivity). assert (C3 : clip 0 1 (3/4) = 3/4) by (unfold clip; rewrite Rmax_right, Rmin_right by lra; reflexivity).
  assert (ST : setting coin_filter (fun _ x => x) (fun x => In x xs) (fun g : loc -> R => Sum 2 (fun k => nth k ps 0 * g (nth k xs []))) 1) by (destruct FL; constructor; try assumption; intros k Hk; cbn in Hk; lia).
  rewrite (c129_exactly_unbiased coin_filter (fun _ x => x) (fun x => In x xs) n 1 (good_draws n 1) _ _ _ two_heads ST (HS n) (FF n)); try assumption.
  - unfold probability, two_heads, xs, ps. cbn [given]. rewrite !Sum_S, !Sum_0. cbn [nth coin_filter md lik Z.eqb Pos.eqb]. rewrite C1, C3. field.
  - intros g _. apply (c129_liu_west coin_filter (fun x => Rleb 0 (nth 0 x 0) && Rleb (nth 0 x 0) 1)%bool true (fun m => (m, Fin 0)) boot_lw 1 n (fun _ => [7])); try reflexivity.
    + now left.
    + cbn. lia.
    + intros m Hm. exact Hm.
    + intros x [<-|[<-|[]]]; reflexivity.
    + intros _ x [<-|[<-|[]]]; cbn; rewrite !Rleb_true by lra; reflexivity.
    + exact riemann_uniform.
    + exact (signs_kernel 1).
  - intros o e x [H|[H|[]]] Vx; injection H as <- <-; pose proof eps_small; destruct Vx as [<-|[<-|[]]]; cbn; rewrite ?C1, ?C3; lra.
Qed.

(** With shrinking the estimate is biased: two particles, the outcome's likelihood the square of the parameter. *)
Definition square_shrink : @config Z unit (list (R * list R)) :=
  {| md := {| lik := fun o x _ => let p := clip 0 1 (nth 0 x 0) ^ 2 in if Z.eqb o 1 then p else 1 - p; timestep := fun _ l _ => l; canon := fun l => l |};
     prior := read; rsmp := rsmp coin_shrink; rthresh := 2; zpolicy := PError; zthresh := 0; canonize := true |}.
Section Shrink.
Notation xs := [[1/4]; [3/4]].
Notation ps := [1/2; 1/2].
Notation Ep := (fun g : loc -> R => Sum 2 (fun k => nth k ps 0 * g (nth k xs []))).
Notation W := (fun x : loc => length x = 1%nat /\ 1/4 <= nth 0 x 0 <= 3/4).
Notation c := square_shrink.
Lemma sq_lik x : 1/4 <= nth 0 x 0 <= 3/4 -> lik (md c) 1%Z x tt = nth 0 x 0 ^ 2.
Proof. intros H. cbn [c md lik Z.eqb Pos.eqb]. unfold clip. rewrite Rmax_right, Rmin_right by lra. reflexivity. Qed.
Lemma sq_nonneg o x e : 0 <= lik (md c) o x e.
Proof. cbn. destruct (Z.eqb o 1); pose proof (clip_range (nth 0 x 0)); nra. Qed.
Lemma sq_le o x e : lik (md c) o x e <= 1.
Proof. cbn. destruct (Z.eqb o 1); pose proof (clip_range (nth 0 x 0)); nra. Qed.
Lemma sq_setting : setting c (fun _ x => x) (fun x => In x xs) Ep 1.
Proof.
  constructor; try (intros; reflexivity).
  + cbn. lra.
  + intros r n. cbn. unfold read. now rewrite map_length, seq_length.
  + intros. cbn. now rewrite map_id.
  + intros e x Hx. exact Hx.
  + apply sq_nonneg.
  + intros; apply sq_le.
  + intros k Hk. cbn in Hk. lia.
Qed.
(** What the two rounds amount to on average, for two given particles [u] and [v] *)
Definition outcome (u v : R) : R :=
  let z := (u ^ 2 + v ^ 2) / 2 in let p := u ^ 2 / (u ^ 2 + v ^ 2) in let m := p * u + (1 - p) * v in
  z * (p * (98/100 * u + 2/100 * m) ^ 2 + (1 - p) * (98/100 * v + 2/100 * m) ^ 2).
Lemma sq_ev k (s : @state Z) : Inv W 2 1 k s -> eps <= evidence c s 1%Z tt.
Proof.
  intros Hi. pose proof eps_small as Q. assert (Q' : eps <= 1/16) by (unfold eps; apply Rle_trans with (/ 2 ^ 4); [apply Rinv_le_contravar; [apply pow_lt; lra|apply Rle_pow; [lra|lia]]|lra]).
  rewrite avg_ev. apply Rle_trans with (average s (fun _ => eps)).
  - destruct Hi as ((L1 & L2 & L3) & _). unfold average, cloud_average. rewrite rsum_index, L1 in L3. rewrite Sum_scal_r, L3. lra.
  - apply (avg_le W 2 1 k); [assumption|]. intros x [_ Vx]. rewrite sq_lik by assumption. nra.
Qed.
Lemma sq_rounds u v : 1/4 <= u <= 3/4 -> 1/4 <= v <= 3/4 ->
  rounds c (draws riemann (signs 1) 2) two_heads (fun t => match t with Some s => total s | None => 0 end) (Some (fresh c 2 [(0, [u]); (0, [v])])) = outcome u v.
Proof.
  intros Hu Hv. set (s := fresh c 2 [(0, [u]); (0, [v])]).
  destruct sq_setting as [Hth Hpr Hcan Hmv _ Hlik _ _].
  assert (Ls : ls s = [[u]; [v]]) by reflexivity. assert (Ws : ws s = [/ 2; / 2]) by (change (ws s) with (repeat (/ INR 2) 2); cbn; replace (1 + 1) with 2 by lra; reflexivity).
  assert (Is : Inv W 2 1 0 s).
  { unfold Inv, full_inv. rewrite Ls, Ws. change (nrec s) with (@nil R). split; [split; [reflexivity|split; [repeat constructor; lra|unfold rsum; cbn; lra]]|].
    split; [split; [reflexivity|constructor; [now split|constructor; [now split|constructor]]]|]. split; [reflexivity|constructor]. }
  pose proof (sq_ev 0 s Is) as He. pose proof eps_pos as Pe.
  cbn [rounds two_heads]. rewrite Rltb_false by lra.
  destruct (upd_shape c (fun _ x => x) W 2 1 Hth Hcan Hmv Hlik 0 s 1%Z tt Is He) as (b & K & K1 & K2 & Kb & K3).
  destruct (pst_prob c Hlik s 1%Z tt (proj1 Is) He) as [P1 P2]. rewrite Ls in P2. rewrite map_id, Ls in *. set (w := pst c s 1%Z tt) in *. set (l := [[u]; [v]]) in *.
  assert (bT : b = true).
  { rewrite Kb. destruct (c09_bounds w P1) as (y & -> & By & _). rewrite P2 in By. cbn [xltb rthresh c]. apply Rltb_true. cbn in By |- *. lra. }
  rewrite bT in K3. clear Kb bT b.
  assert (HC : clouds 1 2 l) by (split; [reflexivity|]; intros x [<-|[<-|[]]]; reflexivity).
  assert (D1 : c_default_n shrink_lw = None \/ c_default_n shrink_lw = Some 2%nat) by (now left). assert (D2 : (0 < c_maxiter shrink_lw)%nat) by (cbn; lia).
  assert (D3 : forall m : list (list R), isfinite (snd (m, Fin 0)) = true) by reflexivity.
  assert (D4 : forall m : list (list R), is_matrix 1 m -> is_matrix 1 (fst (m, Fin 0))) by (intros m Hm; exact Hm).
  assert (D5 : true = true -> forall x : loc, length x = 1%nat -> true = true) by reflexivity.
  pose proof (lw_law (fun _ => true) true (fun m => (m, Fin 0)) shrink_lw 1 2 (fun _ => [7]) riemann (signs 1) riemann_uniform (signs_kernel 1) D1 D2 D3 D4 D5 c eq_refl) as HR.
  set (z := evidence c s 1%Z tt) in *.
  assert (Zv : z = (u ^ 2 + v ^ 2) / 2).
  { unfold z. rewrite avg_ev. unfold average, cloud_average. rewrite Ls, Ws. cbn [length l]. rewrite !Sum_S, Sum_0. cbn [nth l]. rewrite !sq_lik by assumption. cbn [nth]. field. }
  set (g := fun x : loc => lik (md c) 1%Z x tt).
  assert (Mn : exists p, w = [p; 1 - p] /\ p = u ^ 2 / (u ^ 2 + v ^ 2)).
  { exists (u ^ 2 / (u ^ 2 + v ^ 2)). split; [|reflexivity]. assert (Wn : forall i, (i < 2)%nat -> nth i w 0 = / 2 * (nth 0 (nth i l []) 0 ^ 2) / z).
    { intros i Hi. unfold w, pst. rewrite norm_row_nth by (try apply Is; assumption). unfold bayes. fold (evidence c s 1%Z tt). fold z. unfold wt, at_. rewrite Ls, Ws. fold l.
      destruct i as [|[|i]]; [| |lia]; cbn [nth l]; rewrite sq_lik by assumption; cbn [nth]; field; lra. }
    destruct w as [|w0 [|w1 [|]]]; try discriminate P2. pose proof (Wn 0%nat ltac:(lia)) as Q0. pose proof (Wn 1%nat ltac:(lia)) as Q1. cbn [nth l] in Q0, Q1. rewrite Zv in Q0, Q1.
    assert (Pz : 0 < u ^ 2 + v ^ 2) by nra. f_equal; [rewrite Q0; field; lra|]. f_equal. rewrite Q1. field. lra. }
  destruct Mn as (p & Wp & Ep').
  (* the second round: whatever is resampled in it, the evidence found before counts *)
  assert (R2 : forall r, good_draws 2 1 r -> exists s1, K (rsmp c r w l) = s1 /\ Inv W 2 1 1 s1).
  { intros r Hr. eexists. split; [reflexivity|]. cbn [rsmp c coin_shrink]. rewrite (call_value (fun _ => true) true (fun m => (m, Fin 0)) shrink_lw 1 2 (fun _ => [7]) D1 D2 D3 D4 D5 r w l Hr P1 P2 HC).
    unfold answer. destruct (K3 (uniform_weights 2) (map (point (fun m => (m, Fin 0)) shrink_lw 1 w l) (picked w r))) as [B1 B2].
    destruct Hr as [G1 G2]. unfold Inv, full_inv. rewrite B1, B2, K2. change (nrec s) with (@nil R).
    assert (LL : length (map (point (fun m => (m, Fin 0)) shrink_lw 1 w l) (picked w r)) = 2%nat) by (unfold picked; now rewrite !map_length).
    split; [split; [now rewrite LL|apply uniform_prob; lia]|]. split; [split; [exact LL|]|].
    - unfold picked. rewrite map_map, Forall_map. rewrite Forall_forall in G2 |- *. intros q Hq. destruct (G2 q Hq) as [Gq _].
      assert (W0 : w <> []) by (intros W0; rewrite W0 in P2; cbn in P2; lia). pose proof (sample_index_range w (fst q) W0) as SR. rewrite P2 in SR. cbn [l length] in SR.
      unfold point, lw_point. cbn [fst snd seq map shrink_lw c_a c_h]. split; [reflexivity|]. cbn [nth].
      assert (Bm : 1/4 <= nth 0 (est_mean 1 w l) 0 <= 3/4).
      { unfold est_mean. rewrite mean_mom by (try lia; now rewrite P2). change (1/4 <= cloud_average w l (fun x => nth 0 x 0) <= 3/4). unfold cloud_average. cbn [length l]. rewrite !Sum_S, Sum_0. rewrite Wp. cbn [nth l].
        destruct P1 as [P1 _]. rewrite Wp in P1. apply Forall_inv in P1 as A1. apply Forall_inv_tail, Forall_inv in P1. cbv beta in A1, P1. clear - A1 P1 Hu Hv. nra. }
      assert (Bx : 1/4 <= nth 0 (nth (sample_index w (fst q)) l []) 0 <= 3/4) by (destruct (sample_index w (fst q)) as [|[|i]]; [| |lia]; cbn [nth l]; assumption).
      rewrite Rmult_0_l, Rplus_0_r. lra.
    - split; [reflexivity|]. constructor; [|constructor]. split; [exact He|]. unfold z. apply (ev_le_M c W 2 1 sq_nonneg (fun o x e _ => sq_le o x e) 0 s 1%Z tt Is). }
  rewrite (rl_ext _ _ _ _ HR _ (fun r => z * (fun x => match x with Ok (w', l') => cloud_average w' l' g | Err _ => 0 end) (rsmp c r w l))).
  - rewrite (rl_scal _ _ _ _ HR w l z (fun x => match x with Ok (w', l') => cloud_average w' l' g | Err _ => 0 end) P1 P2 HC).
    rewrite (expected_average (fun _ => true) true (fun m => (m, Fin 0)) shrink_lw 1 2 (fun _ => [7]) riemann (signs 1) riemann_uniform (signs_kernel 1) D1 D2 D3 D4 D5 c eq_refl w l g P1 P2 HC).
    assert (Em : est_mean 1 w l = [p * u + (1 - p) * v]).
    { change (est_mean 1 w l) with [nth 0 (particle_mean 1 w l) 0]. f_equal. rewrite mean_mom by (try lia; now rewrite P2). change (cloud_average w l (fun x => nth 0 x 0) = p * u + (1 - p) * v).
      unfold cloud_average. cbn [length l]. rewrite !Sum_S, Sum_0, Wp. cbn [nth l]. ring. }
    assert (Pt : forall j, (j < 2)%nat -> signs 1 (fun zz => g (point (fun m => (m, Fin 0)) shrink_lw 1 w l (j, zz))) = (98/100 * nth 0 (nth j l []) 0 + 2/100 * (p * u + (1 - p) * v)) ^ 2).
    { intros j Hj. set (val := 98/100 * nth 0 (nth j l []) 0 + 2/100 * (p * u + (1 - p) * v)).
      rewrite (ez_ext 1 _ (signs_kernel 1) _ (fun _ => val ^ 2 * 1)); [rewrite (ez_scal 1 _ (signs_kernel 1) _ (fun _ => 1)), (ez_one 1 _ (signs_kernel 1)); ring|].
      intros zz _. unfold g, point, lw_point. cbn [fst snd seq map shrink_lw c_a c_h]. rewrite Em. cbn [nth]. 
      assert (PB : 0 <= p <= 1) by (destruct P1 as [P1 _]; rewrite Wp in P1; apply Forall_inv in P1 as A1; apply Forall_inv_tail, Forall_inv in P1; cbv beta in A1, P1; lra).
      assert (Bx : 1/4 <= nth 0 (nth j l []) 0 <= 3/4) by (destruct j as [|[|i]]; [| |lia]; cbn [nth l]; assumption).
      rewrite sq_lik.
      - cbn [nth]. unfold val. rewrite Rmult_0_l, Rplus_0_r, Rmult_1_r. f_equal. field.
      - cbn [nth]. rewrite Rmult_0_l, Rplus_0_r. nra. }
    rewrite P2. cbn [length l]. rewrite !Sum_S, Sum_0, !Pt by lia. rewrite Wp. cbn [nth l]. unfold outcome. rewrite <- Zv, <- Ep'. ring.
  - intros r Hr. rewrite K1. destruct (R2 r Hr) as (s1 & E1 & I1). rewrite E1. pose proof (sq_ev 1 s1 I1) as He1. rewrite Rltb_false by lra.
    destruct (upd_shape c (fun _ x => x) W 2 1 Hth Hcan Hmv Hlik 1 s1 1%Z tt I1 He1) as (b' & K' & K1' & K2' & _ & _).
    assert (Nn : nrec s1 = [z]) by (rewrite <- E1, K2; reflexivity).
    rewrite (rl_ext _ _ _ _ HR _ (fun _ => z * evidence c s1 1%Z tt)).
    + rewrite (rl_const _ _ _ _ HR). f_equal. rewrite avg_ev. unfold average. rewrite <- E1. destruct (rl_ok _ _ _ _ HR r w l Hr P1 P2 HC) as (w' & l' & Er' & _). rewrite Er'. destruct (K3 w' l') as [-> ->]. reflexivity.
    + intros r' _. rewrite K1'. unfold total. rewrite log_total_exp by (rewrite K2', Nn; repeat constructor; lra). rewrite K2', Nn. cbn [app].
      rewrite !rprod_cons. change (rprod []) with 1. rewrite exp_ln; [ring|]. rewrite Rmult_1_r. apply Rmult_lt_0_compat; lra.
Qed.
Theorem c129_shrinking_refuted :
  let E0 := fun F => independent xs ps 2 (fun l => F (map (fun x => (0, x)) l)) in
  setting c (fun _ x => x) (fun x => In x xs) Ep 1 /\ sampling c (fun x => In x xs) 2 Ep E0 /\
  (forall o e x, In (o, e) two_heads -> In x xs -> eps <= lik (md c) o x e) /\
  expected c 2 E0 (draws riemann (signs 1) 2) two_heads total < probability c (fun _ x => x) Ep two_heads.
Proof.
  cbv zeta. split; [exact sq_setting|]. split; [apply (c128_finite_priors c xs ps 2 half_prob eq_refl); reflexivity|]. split.
  - assert (Q' : eps <= 1/16) by (unfold eps; apply Rle_trans with (/ 2 ^ 4); [apply Rinv_le_contravar; [apply pow_lt; lra|apply Rle_pow; [lra|lia]]|lra]).
    intros o e x [H|[H|[]]] Vx; injection H as <- <-; destruct Vx as [<-|[<-|[]]]; rewrite sq_lik by (cbn; lra); cbn [nth]; lra.
  - unfold expected. cbn [independent length]. rewrite !Sum_S, !Sum_0. cbn [nth map]. rewrite !sq_rounds by lra.
    unfold probability, two_heads. cbn [given]. rewrite !Sum_S, !Sum_0. cbn [nth]. rewrite !sq_lik by (cbn; lra). cbn [nth]. unfold outcome. lra.
Qed.
End Shrink.
Print Assumptions c129_total_likelihood.
Print Assumptions c129_exactly_unbiased.
Print Assumptions c129_unnormalised_average.
Print Assumptions c129_overestimates_are_rare.
Print Assumptions c129_liu_west.
Print Assumptions c129_example.
Print Assumptions c129_shrinking_refuted.
