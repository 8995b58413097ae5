(** Proofs about the distributions. *)
From Verif Require Import Base RList Ext Sums DomModel DomProofs SmcModel LwModel LwProofs DistModel DistSpec.

(** ** Induction over nested distributions *)
Section Ind.
  Context (P : dist -> Prop)
    (HU : forall rs, P (Uniform rs)) (HC : forall v, P (Constant v)) (HS : forall g, P (Scalar g)) (HM : forall m s, P (MVNormal m s))
    (HL : forall rs w, P (Slanted rs w)) (HR : forall k, P (Rows k)) (HD : forall b, P (DiscreteUniform b))
    (HP : forall d v m, P d -> P (Postselected d v m)) (HT : forall d r, P d -> P (ConstrainedSum d r))
    (HX : forall l, Forall P l -> P (Product l)) (HI : forall w l s, Forall P l -> P (Mixture w l s)).
  Fixpoint dist_induction (d : dist) : P d :=
    match d return P d with
    | Uniform rs => HU rs | Constant v => HC v | Scalar g => HS g | MVNormal m s => HM m s | Slanted rs w => HL rs w | Rows k => HR k | DiscreteUniform b => HD b
    | Postselected d v m => HP d v m (dist_induction d)
    | ConstrainedSum d r => HT d r (dist_induction d)
    | Product l => HX l ((fix go l := match l return Forall P l with [] => Forall_nil P | d :: l' => Forall_cons d (dist_induction d) (go l') end) l)
    | Mixture w l s => HI w l s ((fix go l := match l return Forall P l with [] => Forall_nil P | d :: l' => Forall_cons d (dist_induction d) (go l') end) l)
    end.
End Ind.

(** ** Postselection *)
Section Post.
  Context (draw : nat -> nat -> res (list (list ext))) (valid : list ext -> bool).
  Context (draw_len : forall r k rows, draw r k = Ok rows -> length rows = k).
  (** Pending indices among [idxs] after [k] further rounds from [round]. *)
  Definition pend (p : nat -> nat -> list ext) (round : nat) (idxs : list nat) (k : nat) : list nat :=
    filter (fun i => forallb (fun q => negb (valid (p (round + q)%nat i))) (seq 0 k)) idxs.
  Lemma scatter_rows idxs (new samples : list (list ext)) : NoDup idxs -> length new = length idxs -> (forall i, In i idxs -> (i < length samples)%nat) ->
    map (fun i => nth i (scatter idxs new samples) []) idxs = new.
  Proof.
    intros ND Hl Hr. apply (nth_ext _ _ [] []); [now rewrite map_length|]. intros a Ha. rewrite map_length in Ha.
    rewrite (nth_indep _ [] ((fun i => nth i (scatter idxs new samples) []) 0%nat)) by (now rewrite map_length). rewrite (map_nth (fun i => nth i (scatter idxs new samples) [])). now apply scatter_same.
  Qed.
  Lemma forallb_shift f k : forallb f (seq 0 (S k)) = f 0%nat && forallb (fun q => f (S q)) (seq 0 k).
  Proof.
    cbn [seq forallb]. f_equal. rewrite <- seq_shift. induction (seq 0 k) as [|x l IH]; [reflexivity|]. cbn. now rewrite IH.
  Qed.
  Lemma pend_S p round idxs k : pend p round idxs (S k) = pend p (S round) (filter (fun i => negb (valid (p round i))) idxs) k.
  Proof.
    unfold pend. induction idxs as [|i idxs IH]; [reflexivity|]. cbn [filter].
    assert (F : forallb (fun q => negb (valid (p (round + q)%nat i))) (seq 0 (S k)) = negb (valid (p round i)) && forallb (fun q => negb (valid (p (S round + q)%nat i))) (seq 0 k)).
    { rewrite (forallb_shift (fun q => negb (valid (p (round + q)%nat i)))). rewrite Nat.add_0_r. f_equal. clear. induction (seq 0 k) as [|x l IH]; [reflexivity|]. cbn [forallb]. rewrite IH. do 4 f_equal. lia. }
    rewrite F. destruct (negb (valid (p round i))); cbn [andb]; [|exact IH]. cbn [filter]. rewrite IH. reflexivity.
  Qed.
  Lemma pend_ext p p' round idxs k : (forall q i, (round <= q)%nat -> p q i = p' q i) -> pend p round idxs k = pend p' round idxs k.
  Proof.
    intros H. unfold pend. apply filter_ext. intros i. induction (seq 0 k) as [|x l IH]; [reflexivity|]. cbn. rewrite IH, H by lia. reflexivity.
  Qed.
  Definition asked p round idxs left : Prop := forall k, (k < left)%nat -> pend p round idxs k <> [] -> draw (round + k)%nat (length (pend p round idxs k)) = Ok (map (p (round + k)%nat) (pend p round idxs k)).
  Lemma post_loop_spec left : forall round samples idxs, NoDup idxs -> (forall i, In i idxs -> (i < length samples)%nat) ->
    match post_loop draw valid left round samples idxs with
    | Ok s => exists p, asked p round idxs left /\ pend p round idxs left = [] /\ length s = length samples /\
        (forall i, ~ In i idxs -> nth i s [] = nth i samples []) /\
        (forall i, In i idxs -> exists k, (k < left)%nat /\ valid (p (round + k)%nat i) = true /\ (forall q, (q < k)%nat -> valid (p (round + q)%nat i) = false) /\ nth i s [] = p (round + k)%nat i)
    | Err e => (exists r k, (round <= r < round + left)%nat /\ draw r k = Err e /\ (0 < k)%nat) \/
               (e = RuntimeError /\ exists p, asked p round idxs left /\ pend p round idxs left <> [])
    end.
  Proof.
    induction left as [|left IH]; intros round samples idxs ND Hr.
    - destruct idxs as [|i idxs]; cbn [post_loop].
      + exists (fun _ _ => []). repeat split; try reflexivity; [intros k Hk; lia|]. intros i [].
      + right. split; [reflexivity|]. exists (fun _ _ => []). split; [intros k Hk; lia|]. unfold pend. cbn. discriminate.
    - destruct idxs as [|i0 idxs0]; [exists (fun _ _ => []); repeat split; try reflexivity; [intros k Hk []; unfold pend; reflexivity|intros i []]|].
      set (idxs := i0 :: idxs0) in *. cbn [post_loop]. change (match idxs with [] => Ok samples | _ :: _ => bind (draw round (length idxs)) (fun new =>
               let samples' := scatter idxs new samples in post_loop draw valid left (S round) samples' (filter (fun i => negb (valid (nth i samples' []))) idxs)) end)
        with (bind (draw round (length idxs)) (fun new => let samples' := scatter idxs new samples in post_loop draw valid left (S round) samples' (filter (fun i => negb (valid (nth i samples' []))) idxs))).
      destruct (draw round (length idxs)) as [new|e] eqn:D; cbn [bind]; [|left; exists round, (length idxs); repeat split; try lia; try assumption; unfold idxs; cbn; lia].
      set (samples' := scatter idxs new samples). set (rest := filter (fun i => negb (valid (nth i samples' []))) idxs). pose proof (draw_len _ _ _ D) as Hn.
      assert (NDr : NoDup rest) by (apply NoDup_filter; assumption). assert (Hr' : forall i, In i rest -> (i < length samples')%nat).
      { intros i Hi. apply filter_In in Hi. unfold samples'. rewrite scatter_length. now apply Hr. }
      specialize (IH (S round) samples' rest NDr Hr'). pose proof (scatter_rows idxs new samples ND Hn Hr) as SR.
      set (ext_p := fun (p : nat -> nat -> list ext) r i => if Nat.eqb r round then nth i samples' [] else p r i).
      assert (P0 : forall p i, ext_p p round i = nth i samples' []) by (intros; unfold ext_p; now rewrite Nat.eqb_refl).
      assert (P1 : forall p q i, (S round <= q)%nat -> ext_p p q i = p q i) by (intros p q i Hq; unfold ext_p; destruct (Nat.eqb_spec q round); [lia|reflexivity]).
      assert (PS : forall p k, pend (ext_p p) round idxs (S k) = pend p (S round) rest k).
      { intros p k. rewrite pend_S. rewrite (pend_ext (ext_p p) p) by (apply P1). f_equal. apply filter_ext. intros i. now rewrite P0. }
      assert (AS : forall p, asked p (S round) rest left -> asked (ext_p p) round idxs (S left)).
      { intros p Ha k Hk Hne. destruct k as [|k].
        - unfold pend. cbn [seq forallb]. assert (F : filter (fun _ : nat => true) idxs = idxs) by (clear; induction idxs as [|x l IH]; [reflexivity|]; cbn; now rewrite IH). rewrite F, Nat.add_0_r, D. f_equal.
          rewrite <- SR at 1. apply map_ext. intros i. now rewrite P0.
        - rewrite PS in *. replace (round + S k)%nat with (S round + k)%nat by lia. rewrite Ha by (assumption || lia). f_equal. apply map_ext. intros i. rewrite P1 by lia. reflexivity. }
      destruct (post_loop draw valid left (S round) samples' rest) as [s|e].
      + destruct IH as (p & A & B & C & F & G). exists (ext_p p). split; [now apply AS|]. split; [now rewrite PS|]. split; [unfold samples' in C; now rewrite scatter_length in C|]. split.
        * intros i Hi. rewrite F; [unfold samples'; now apply scatter_other|]. intros Hx. apply filter_In in Hx. tauto.
        * intros i Hi. destruct (valid (nth i samples' [])) eqn:V.
          -- exists 0%nat. rewrite Nat.add_0_r, P0. split; [lia|]. split; [assumption|]. split; [intros; lia|]. apply F. intros Hx. apply filter_In in Hx. rewrite V in Hx. now destruct Hx.
          -- destruct (G i) as (k & K1 & K2 & K3 & K4); [apply filter_In; split; [assumption|]; now rewrite V|]. exists (S k). replace (round + S k)%nat with (S round + k)%nat by lia.
             rewrite P1 by lia. split; [lia|]. split; [assumption|]. split; [|assumption]. intros [|q] Hq; [now rewrite Nat.add_0_r, P0|]. rewrite P1 by lia. replace (round + S q)%nat with (S round + q)%nat by lia. apply K3. lia.
      + destruct IH as [(r & k & H1 & H2 & H3)|(-> & p & A & B)]; [left; exists r, k; split; [lia|]; now split|]. right. split; [reflexivity|]. exists (ext_p p). split; [now apply AS|]. now rewrite PS.
  Qed.
End Post.

Lemma pend_pending valid p n r : pend valid p 0 (seq 0 n) r = pending valid p n r.
Proof. reflexivity. Qed.

(** ** Shapes *)
Lemma hstack_A2 l : l <> [] -> Forall (fun a => match a with A2 _ _ => True | A1 _ => False end) l -> hstack l = concat1 l.
Proof. intros H F. destruct l as [|[x|c x] l]; try reflexivity. inversion F; contradiction. Qed.
Lemma map2_app_shape n c d (x y : list (list ext)) : length x = n -> length y = n -> Forall (fun r => length r = c) x -> Forall (fun r => length r = d) y ->
  length (map2 (@app ext) x y) = n /\ Forall (fun r => length r = (c + d)%nat) (map2 (@app ext) x y).
Proof.
  intros Hx Hy Fx Fy. split; [rewrite map2_length; congruence|]. clear Hx Hy. revert y Fy; induction Fx as [|a x Ha Fx IH]; intros [|b y] Fy; cbn [map2]; try constructor.
  - inversion Fy; subst. rewrite app_length. congruence.
  - inversion Fy; subst. now apply IH.
Qed.
Lemma concat1_cons c x l : l <> [] -> concat1 (A2 c x :: l) = bind (concat1 l) (fun b => match b with
  | A2 d y => if Nat.eqb (length x) (length y) then Ok (A2 (c + d) (map2 (@app ext) x y)) else Err ValueError | A1 _ => Err ValueError end).
Proof. destruct l; [now intros []|reflexivity]. Qed.
Lemma concat0_cons c x l : l <> [] -> concat0 (A2 c x :: l) = bind (concat0 l) (fun b => match b with
  | A2 d y => if Nat.eqb c d then Ok (A2 c (x ++ y)) else Err ValueError | A1 _ => Err ValueError end).
Proof. destruct l; [now intros []|reflexivity]. Qed.
Lemma concat1_shape n l ds : l <> [] -> Forall2 (shape_ok n) ds l -> exists a, concat1 l = Ok a /\ shape_ok n (fold_right Nat.add 0%nat ds) a.
Proof.
  intros Hl F. revert Hl; induction F as [|d a ds l Ha F IH]; intros Hl; [now destruct Hl|]. destruct a as [x|c x]; [destruct Ha|]. destruct l as [|b l].
  - inversion F; subst. exists (A2 c x). split; [reflexivity|]. cbn [fold_right]. now rewrite Nat.add_0_r.
  - destruct (IH ltac:(discriminate)) as (a' & E & S'). destruct a' as [y|d' y]; [destruct S'|]. destruct Ha as (-> & Hx & Fx). destruct S' as (-> & Hy & Fy).
    rewrite concat1_cons by discriminate. rewrite E. cbn [bind]. rewrite Hx, Hy, Nat.eqb_refl. eexists. split; [reflexivity|]. destruct (map2_app_shape n d (fold_right Nat.add 0%nat ds) x y Hx Hy Fx Fy). split; [reflexivity|]. now split.
Qed.
Lemma concat0_shape ns l d : l <> [] -> Forall2 (fun m a => shape_ok m d a) ns l -> exists a, concat0 l = Ok a /\ shape_ok (fold_right Nat.add 0%nat ns) d a.
Proof.
  intros Hl F. revert Hl; induction F as [|m a ns l Ha F IH]; intros Hl; [now destruct Hl|]. destruct a as [x|c x]; [destruct Ha|]. destruct l as [|b l].
  - inversion F; subst. exists (A2 c x). split; [reflexivity|]. cbn [fold_right]. now rewrite Nat.add_0_r.
  - destruct (IH ltac:(discriminate)) as (a' & E & S'). destruct a' as [y|d' y]; [destruct S'|]. destruct Ha as (-> & Hx & Fx). destruct S' as (-> & Hy & Fy).
    rewrite concat0_cons by discriminate. rewrite E. cbn [bind]. rewrite Nat.eqb_refl. eexists. split; [reflexivity|]. split; [reflexivity|]. split; [cbn [fold_right]; rewrite app_length; congruence|]. now apply Forall_app.
Qed.
Lemma rows_shape n d (f : nat -> list R) : (forall i, length (f i) = d) -> shape_ok n d (A2 d (map (fun i => map Fin (f i)) (nrange n))).
Proof.
  intros H. split; [reflexivity|]. unfold nrange. split; [now rewrite map_length, seq_length|]. apply Forall_forall. intros r Hr. apply in_map_iff in Hr. destruct Hr as (i & <- & _). now rewrite map_length.
Qed.
(** The loops over the parts, named. *)
Definition factors n w := fix go (k : nat) (l : list dist) : res (list arr) :=
  match l with [] => Ok [] | f :: l' => bind (sample f n (sub w k)) (fun a => bind (go (S k) l') (fun r => Ok (a :: r))) end.
Definition parts w := fix go (k : nat) (l : list dist) (ns : list nat) : res (list arr) :=
  match l, ns with
  | f :: l', m :: ns' => if Nat.eqb m 0 then go (S k) l' ns' else bind (sample f m (sub w k)) (fun a => bind (go (S k) l' ns') (fun r => Ok (a :: r)))
  | _, _ => Ok []
  end.
Lemma sample_product l n w : sample (Product l) n w = bind (factors n w 0 l) hstack.
Proof. reflexivity. Qed.
Lemma sample_mixture weights l shuffle n w : sample (Mixture weights l shuffle) n w =
  bind (parts w 0 l (counts (here w) n weights)) (fun ps => bind (concat0 ps) (fun a =>
              if shuffle then match a with
                              | A1 x => Ok (A1 (pick_rows (shuffled (here w) (length x)) x NaN))
                              | A2 c x => Ok (A2 c (pick_rows (shuffled (here w) (length x)) x []))
                              end
              else Ok a)).
Proof. reflexivity. Qed.
Lemma doc_product l : documented (Product l) -> l <> [] /\ Forall documented l.
Proof. cbn. intros [H A]. split; [assumption|]. clear H. induction l as [|d l IH]; constructor; [apply A|now apply IH]. Qed.
Lemma doc_mixture weights l s : documented (Mixture weights l s) -> l <> [] /\ length weights = length l /\ Forall (fun d => documented d /\ n_rvs d = n_rvs (hd (Uniform []) l)) l.
Proof.
  cbn. intros (H & L & A). split; [assumption|]. split; [assumption|]. clear H L. generalize dependent (n_rvs (hd (Uniform []) l)). intros m A. induction l as [|d l IH]; constructor; [now split; apply A|now apply IH].
Qed.
Definition fine (d : dist) (n : nat) (w : source) : Prop :=
  (exists a, sample d n w = Ok a /\ shape_ok n (n_rvs d) a) \/ (sample d n w = Err RuntimeError /\ has_postselection d = true).
Lemma sub_good w k : good_source w -> good_source (sub w k).
Proof. intros H p. apply H. Qed.
Lemma pick_rows_perm {A} (x : list A) order d : Permutation order (seq 0 (length x)) -> Permutation (pick_rows order x d) x.
Proof.
  intros H. unfold pick_rows. etransitivity; [apply Permutation_map; exact H|]. now rewrite map_nth_seq.
Qed.
Lemma nat_sum_pos ns n : fold_right Nat.add 0%nat ns = n -> (0 < n)%nat -> exists m, In m ns /\ (0 < m)%nat.
Proof.
  intros <-. induction ns as [|m ns IH]; cbn; [lia|]. intros H. destruct m as [|m]; [|exists (S m); split; [now left|lia]]. destruct (IH H) as (x & Hx & Hp). exists x. split; [now right|assumption].
Qed.
Lemma sample_fine d : forall n w, documented d -> good_source w -> (0 < n)%nat -> fine d n w.
Proof.
  induction d using dist_induction; intros n om Hd Hw Hn.
  - left. eexists. split; [reflexivity|]. cbn [n_rvs]. apply (rows_shape n (length rs) (fun i => uniform_row rs (unif (here om) i))). intros i. unfold uniform_row. rewrite map2_length; [reflexivity|now rewrite seq_length].
  - left. eexists. split; [reflexivity|]. cbn [n_rvs]. split; [reflexivity|]. split; [apply repeat_length|]. apply Forall_forall. intros r Hr. apply repeat_spec in Hr. subst. apply map_length.
  - left. eexists. split; [reflexivity|]. cbn [n_rvs]. apply (rows_shape n 1 (fun i => [g (raw (here om) i)])). reflexivity.
  - left. cbn in Hd. destruct Hd as [H1 H2]. cbn [sample]. rewrite H1, Nat.eqb_refl. replace (forallb _ s) with true by (symmetry; apply forallb_forall; intros r Hr; rewrite Forall_forall in H2; apply Nat.eqb_eq; auto). cbn [andb].
    eexists. split; [reflexivity|]. cbn [n_rvs]. apply (rows_shape n (length m) (fun i => mvnormal_row m s (gauss (here om) i))). intros i. unfold mvnormal_row. rewrite map2_length; unfold matvec; rewrite map_length; congruence.
  - left. eexists. split; [reflexivity|]. cbn [n_rvs]. apply (rows_shape n (length rs) (fun i => slanted_row rs w (gauss (here om) i) (unif (here om) i))). intros i. unfold slanted_row. rewrite map2_length; [reflexivity|now rewrite seq_length].
  - left. eexists. split; [reflexivity|]. cbn [n_rvs]. apply (rows_shape n k (rawrow (here om) k)). intros i. apply (gd_row _ (Hw [])).
  - destruct Hd.
  - cbn in Hd. set (dr := fun r k => bind (sample d k (sub om r)) (assignable (n_rvs d) k)).
    assert (Hdr : forall r k, (0 < k)%nat -> (exists rows, dr r k = Ok rows /\ length rows = k /\ Forall (fun x => length x = n_rvs d) rows) \/ dr r k = Err RuntimeError).
    { intros r k Hk. unfold dr. destruct (IHd k (sub om r) Hd (sub_good om r Hw) Hk) as [(a & E & Sa)|[E _]]; rewrite E; cbn [bind]; [|now right]. left. destruct a as [x|c x]; [destruct Sa|]. destruct Sa as (-> & H1 & H2).
      exists x. cbn [assignable]. rewrite Nat.eqb_refl. auto. }
    assert (L0 : forall left round samples idxs, NoDup idxs -> (forall i, In i idxs -> (i < length samples)%nat) -> (forall i, (i < length samples)%nat -> ~ In i idxs -> length (nth i samples []) = n_rvs d) ->
       match post_loop dr v left round samples idxs with Ok s => length s = length samples /\ Forall (fun x => length x = n_rvs d) s | Err e => e = RuntimeError end).
    { induction left as [|left IH]; intros round samples idxs ND Hr Hlen.
      - destruct idxs as [|i idxs]; cbn [post_loop]; [|reflexivity]. split; [reflexivity|]. apply Forall_forall. intros x Hx. apply In_nth with (d := []) in Hx. destruct Hx as (i & Hi & <-). apply Hlen; [assumption|intros []].
      - destruct idxs as [|i0 idxs0]; [cbn [post_loop]; split; [reflexivity|]; apply Forall_forall; intros x Hx; apply In_nth with (d := []) in Hx; destruct Hx as (i & Hi & <-); apply Hlen; [assumption|intros []]|].
        cbn [post_loop]. set (idxs := i0 :: idxs0) in *. destruct (Hdr round (length idxs)) as [(new & E & Hn' & Fn)|E]; [cbn; lia| |rewrite E; reflexivity]. rewrite E. cbn [bind].
        set (samples' := scatter idxs new samples). assert (Ls : length samples' = length samples) by apply scatter_length.
        specialize (IH (S round) samples' (filter (fun i => negb (v (nth i samples' []))) idxs)).
        destruct (post_loop dr v left (S round) samples' _); [rewrite <- Ls|]; apply IH.
        + now apply NoDup_filter.
        + intros i Hi. apply filter_In in Hi. rewrite Ls. now apply Hr.
        + intros i Hi Hni. rewrite Ls in Hi. destruct (in_dec Nat.eq_dec i idxs) as [Hin|Hin].
          * apply In_nth with (d := 0%nat) in Hin. destruct Hin as (a0 & Ha & <-). unfold samples'. rewrite scatter_same by assumption. rewrite Forall_forall in Fn. apply Fn, nth_In. lia.
          * unfold samples'. rewrite scatter_other by assumption. now apply Hlen.
        + now apply NoDup_filter.
        + intros i Hi. apply filter_In in Hi. rewrite Ls. now apply Hr.
        + intros i Hi Hni. rewrite Ls in Hi. destruct (in_dec Nat.eq_dec i idxs) as [Hin|Hin].
          * apply In_nth with (d := 0%nat) in Hin. destruct Hin as (a0 & Ha & <-). unfold samples'. rewrite scatter_same by assumption. rewrite Forall_forall in Fn. apply Fn, nth_In. lia.
          * unfold samples'. rewrite scatter_other by assumption. now apply Hlen. }
    specialize (L0 m 0%nat (repeat [] n) (seq 0 n)). unfold fine. cbn [sample n_rvs has_postselection]. fold dr. unfold postselect.
    destruct (post_loop dr v m 0 (repeat [] n) (seq 0 n)) as [s|e]; cbn [bind].
    + left. eexists. split; [reflexivity|]. destruct L0 as [A B]; [apply seq_NoDup|intros i Hi; apply in_seq in Hi; rewrite repeat_length; lia|intros i Hi Hx; rewrite repeat_length in Hi; destruct Hx; apply in_seq; lia|].
      split; [reflexivity|]. split; [now rewrite repeat_length in A|assumption].
    + right. split; [|reflexivity]. f_equal. apply L0; [apply seq_NoDup|intros i Hi; apply in_seq in Hi; rewrite repeat_length; lia|intros i Hi Hx; rewrite repeat_length in Hi; destruct Hx; apply in_seq; lia].
  - cbn in Hd. destruct (IHd n om Hd Hw Hn) as [(a & E & Sa)|[E Hp]].
    + destruct a as [x|c x]; [destruct Sa|]. left. cbn [sample]. rewrite E. cbn [bind]. eexists. split; [reflexivity|]. destruct Sa as (-> & H1 & H2). split; [reflexivity|]. split; [now rewrite map_length|].
      apply Forall_forall. intros y Hy. apply in_map_iff in Hy. destruct Hy as (z & <- & Hz). unfold constrain. rewrite map_length. rewrite Forall_forall in H2. now apply H2.
    + right. cbn [sample]. rewrite E. split; [reflexivity|assumption].
  - apply doc_product in Hd. destruct Hd as [Hne Hd]. rename H into IHl.
    assert (G : forall k, (exists as_, factors n om k l = Ok as_ /\ Forall2 (shape_ok n) (map n_rvs l) as_) \/ (factors n om k l = Err RuntimeError /\ existsb has_postselection l = true)).
    { clear Hne. induction l as [|f l IH]; intros k; [left; exists []; split; [reflexivity|constructor]|]. inversion IHl as [|? ? I1 I2]; subst. inversion Hd as [|? ? D1 D2]; subst.
      cbn [factors existsb]. destruct (I1 n (sub om k) D1 (sub_good om k Hw) Hn) as [(a & E & Sa)|[E Hp]]; rewrite E; cbn [bind]; [|right; split; [reflexivity|now rewrite Hp]].
      destruct (IH I2 D2 (S k)) as [(as_ & E2 & S2)|[E2 Hp]]; unfold factors in *; rewrite E2; cbn [bind]; [|right; split; [reflexivity|rewrite Hp; apply orb_true_r]].
      left. eexists. split; [reflexivity|]. cbn [map]. now constructor. }
    unfold fine. rewrite sample_product. destruct (G 0%nat) as [(as_ & E & S2)|[E Hp]]; rewrite E; cbn [bind]; [|right; now split]. left.
    assert (Ha : as_ <> []) by (destruct l; [now destruct Hne|]; inversion S2; discriminate).
    rewrite hstack_A2; [|assumption|]. 2:{ clear - S2. induction S2 as [|d a ds l' Ha S2 IH]; constructor; [destruct a; [destruct Ha|exact I]|assumption]. }
    apply concat1_shape; assumption.
  - apply doc_mixture in Hd. destruct Hd as (Hne & Hlw & Hd). rename H into IHl. set (D := n_rvs (hd (Uniform []) l)) in *.
    destruct (gd_counts _ (Hw []) n w) as [Hc1 Hc2]. specialize (Hc2 ltac:(destruct w, l; try discriminate; now destruct Hne)).
    assert (G : forall ns k, length ns = length l -> (exists as_, parts om k l ns = Ok as_ /\ Forall2 (fun m a => shape_ok m D a) (filter (fun m => negb (Nat.eqb m 0)) ns) as_) \/ (parts om k l ns = Err RuntimeError /\ existsb has_postselection l = true)).
    { clear Hne Hlw Hc1 Hc2. clearbody D. induction l as [|f l IH]; intros [|m ns] k Hl; try discriminate; [left; exists []; split; [reflexivity|constructor]|]. inversion IHl as [|? ? I1 I2]; subst. inversion Hd as [|? ? [D1 D1'] D2]; subst. injection Hl as Hl.
      cbn [parts existsb filter]. destruct (Nat.eqb_spec m 0) as [->|Hm]; cbn [negb].
      - destruct (IH I2 D2 ns (S k) Hl) as [?|[E2 Hp]]; [now left|]. right. split; [exact E2|]. rewrite Hp. apply orb_true_r.
      - destruct (I1 m (sub om k) D1 (sub_good om k Hw) ltac:(lia)) as [(a & E & Sa)|[E Hp]]; rewrite E; cbn [bind]; [|right; split; [reflexivity|now rewrite Hp]].
        destruct (IH I2 D2 ns (S k) Hl) as [(as_ & E2 & S2)|[E2 Hp]]; unfold parts in *; rewrite E2; cbn [bind]; [|right; split; [reflexivity|rewrite Hp; apply orb_true_r]].
        left. eexists. split; [reflexivity|]. now constructor. }
    unfold fine. rewrite sample_mixture. fold (here om) in Hc1, Hc2. destruct (G (counts (here om) n w) 0%nat (eq_trans Hc1 Hlw)) as [(as_ & E & S2)|[E Hp]]; rewrite E; cbn [bind]; [|right; now split]. left.
    assert (Ha : as_ <> []).
    { destruct (nat_sum_pos _ _ Hc2 Hn) as (m & Hm & Hp). unfold here in *. intros ->. inversion S2 as [Hf|]. assert (H0 : In m (filter (fun m => negb (Nat.eqb m 0)) (counts (om []) n w))) by (apply filter_In; split; [assumption|]; destruct m; [lia|reflexivity]).
      rewrite <- Hf in H0. destruct H0. }
    destruct (concat0_shape _ _ _ Ha S2) as (a & E2 & Sa). rewrite E2. cbn [bind].
    assert (Sum0 : fold_right Nat.add 0%nat (filter (fun m => negb (Nat.eqb m 0)) (counts (here om) n w)) = n).
    { transitivity (fold_right Nat.add 0%nat (counts (here om) n w)); [|exact Hc2]. clear. generalize (counts (here om) n w). intros l0. induction l0 as [|m ns IH]; [reflexivity|]. cbn [filter fold_right]. destruct (Nat.eqb_spec m 0) as [->|]; cbn [negb fold_right]; [exact IH|now rewrite IH]. }
    rewrite Sum0 in Sa. assert (ED : n_rvs (Mixture w l s) = D) by (destruct l; reflexivity). rewrite ED. destruct s; [|exists a; now split]. destruct a as [x|c x]; [destruct Sa|]. destruct Sa as (-> & H1 & H2).
    eexists. split; [reflexivity|]. split; [reflexivity|]. pose proof (pick_rows_perm x (shuffled (here om) (length x)) [] (gd_shuffled _ (Hw []) _)) as PP. split; [rewrite (Permutation_length PP); assumption|].
    eapply Permutation_Forall; [|exact H2]. now symmetry.
Qed.
