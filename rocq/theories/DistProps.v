(** Properties C48 to C53: distributions. *)
From Verif Require Import Base RList Ext Sums DomModel DomProofs SmcModel LwModel LwProofs DistModel DistSpec DistProofs DistProofs2.

(** C48: a sample of the uniform distribution, coordinate by coordinate, for an arbitrary row [i] and range [j]. *)
Theorem c48_affine_in_the_draw rs n w : exists rows, sample (Uniform rs) n w = Ok (A2 (length rs) rows) /\ length rows = n /\
  forall i j lo hi, (i < n)%nat -> nth_error rs j = Some (lo, hi) -> nth_error (nth i rows []) j = Some (Fin (lo + unif (here w) i j * (hi - lo))).
Proof.
  eexists. split; [reflexivity|]. split; [unfold nrange; now rewrite map_length, seq_length|]. intros i j lo hi Hi Hj.
  assert (Hlj : (j < length rs)%nat) by (apply nth_error_Some; congruence).
  unfold nrange. rewrite (nth_indep _ [] (map Fin (uniform_row rs (unif (here w) 0)))) by (now rewrite map_length, seq_length). rewrite (map_nth (fun i => map Fin (uniform_row rs (unif (here w) i)))), seq_nth by assumption.
  rewrite nth_error_map. unfold uniform_row. cbn [Nat.add].
  rewrite (nth_error_nth' _ 0) by (rewrite map2_length; [assumption|now rewrite seq_length]). cbn. do 2 f_equal.
  rewrite (nth_map2 _ _ _ j (lo, hi) 0%nat) by (rewrite ?seq_length; lia). rewrite seq_nth by assumption. rewrite (nth_error_nth rs j (lo, hi) Hj). cbn. reflexivity.
Qed.
Theorem c48_inside_the_box rs n w : good_source w -> Forall (fun r => fst r <= snd r) rs -> exists rows, sample (Uniform rs) n w = Ok (A2 (length rs) rows) /\
  forall i j lo hi, (i < n)%nat -> nth_error rs j = Some (lo, hi) -> exists x, nth_error (nth i rows []) j = Some (Fin x) /\ lo <= x <= hi /\ (lo < hi -> x < hi) /\ (unif (here w) i j = 0 -> x = lo).
Proof.
  intros Hw Ho. destruct (c48_affine_in_the_draw rs n w) as (rows & E & _ & H). exists rows. split; [assumption|]. intros i j lo hi Hi Hj.
  eexists. split; [now apply (H i j lo hi)|]. rewrite Forall_forall in Ho. pose proof (Ho _ (nth_error_In rs j Hj)) as Hlh. cbn in Hlh. pose proof (gd_unif _ (Hw []) i j) as Hu. fold (here w) in Hu.
  split; [|split]; [nra|intros; nra|intros ->; ring].
Qed.
(** The constructor: one [low, high] pair or a list of them; rows shorter than two entries are refused. *)
Theorem c48_constructor r : match new_uniform r with
  | Ok (Uniform rs) => Forall2 (fun row p => exists tl, row = fst p :: snd p :: tl) (match r with R1 l => [l] | R2 l => l end) rs
  | Ok _ => False
  | Err e => e = IndexError /\ exists row, In row (match r with R1 l => [l] | R2 l => l end) /\ (length row < 2)%nat
  end.
Proof.
  unfold new_uniform. change (match r with R1 l => [l] | R2 l => l end) with (range_rows r). induction (range_rows r) as [|row l IH]; [cbn; constructor|]. cbn [get_ranges]. destruct row as [|lo [|hi tl]].
  - cbn. split; [reflexivity|]. exists []. split; [now left|cbn; lia].
  - cbn. split; [reflexivity|]. exists [lo]. split; [now left|cbn; lia].
  - cbn [get_range bind]. destruct (get_ranges l) as [rs|e]; cbn in IH |- *.
    + constructor; [now exists tl|assumption].
    + destruct IH as (-> & row & Hi & Hl). split; [reflexivity|]. exists row. split; [now right|assumption].
Qed.
Theorem c48_constant v n w : exists rows, sample (Constant v) n w = Ok (A2 (length v) rows) /\ length rows = n /\ forall i, (i < n)%nat -> nth i rows [] = map Fin v.
Proof.
  eexists. split; [reflexivity|]. split; [apply repeat_length|]. intros i Hi. apply (repeat_spec n (map Fin v)). apply nth_In. now rewrite repeat_length.
Qed.
Definition zeros_source : source := fun _ => {| unif := fun _ _ => 0; gauss := fun _ _ => 0; raw := fun _ => 0; rawrow := fun k _ => repeat 0 k; bits := fun _ => 0%nat;
  counts := fun n ws => match ws with [] => [] | _ :: ws' => n :: repeat 0%nat (length ws') end; shuffled := fun n => seq 0 n |}.
Example zeros_good : good_source zeros_source.
Proof.
  intros p. split; cbn; intros; [lra|now rewrite repeat_length| |apply Permutation_refl]. destruct weights as [|x ws]; cbn; [now split|]. rewrite repeat_length. split; [reflexivity|]. intros _. induction ws; cbn; [lia|]. lia.
Qed.
Example c48_example : new_uniform (R2 [[0; 1]; [2; 3; 4]]) = Ok (Uniform [(0, 1); (2, 3)]) /\ new_uniform (R1 [0; 1]) = Ok (Uniform [(0, 1)]) /\ new_uniform (R2 [[0; 1]; [5]]) = Err IndexError. Proof. repeat split. Qed.

(** C49 *)
Theorem c49_shape d n w : documented d -> good_source w -> (0 < n)%nat -> has_postselection d = false -> exists a, sample d n w = Ok a /\ shape_ok n (n_rvs d) a.
Proof. intros Hd Hw Hn Hp. destruct (sample_fine d n w Hd Hw Hn) as [H|[_ H]]; [assumption|congruence]. Qed.
Theorem c49_shape_or_postselection_fails d n w : documented d -> good_source w -> (0 < n)%nat ->
  match sample d n w with Ok a => shape_ok n (n_rvs d) a | Err e => e = RuntimeError /\ has_postselection d = true end.
Proof. intros Hd Hw Hn. destruct (sample_fine d n w Hd Hw Hn) as [(a & -> & H)|[-> H]]; auto. Qed.
Theorem c49_product_concatenates_columns l n w c rows : documented (Product l) -> good_source w -> (0 < n)%nat -> sample (Product l) n w = Ok (A2 c rows) ->
  exists blocks, length blocks = length l /\ (forall k f, nth_error l k = Some f -> exists x, sample f n (fun path => w (k :: path)) = Ok (A2 (n_rvs f) x) /\ nth_error blocks k = Some x) /\
    forall i, (i < n)%nat -> nth i rows [] = concat (map (fun x => nth i x []) blocks).
Proof. apply product_rows. Qed.
Theorem c49_mixture_takes_rows_from_components weights l shuffle n w c rows : documented (Mixture weights l shuffle) -> good_source w -> (0 < n)%nat -> sample (Mixture weights l shuffle) n w = Ok (A2 c rows) ->
  exists ns blocks, length ns = length l /\ fold_right Nat.add 0%nat ns = n /\ length blocks = length l /\
    (forall k f m, nth_error l k = Some f -> nth_error ns k = Some m ->
      (m = 0%nat /\ nth_error blocks k = Some []) \/ exists x, sample f m (fun path => w (k :: path)) = Ok (A2 (n_rvs f) x) /\ length x = m /\ nth_error blocks k = Some x) /\
    (if shuffle then Permutation rows (concat blocks) else rows = concat blocks).
Proof. apply mixture_rows. Qed.
(** Not every distribution keeps to the shape, and a mixture cannot be sampled zero times. *)
Theorem c49_discrete_uniform_refuted b n w : exists x, sample (DiscreteUniform b) n w = Ok (A1 x) /\ length x = n /\ ~ shape_ok n (n_rvs (DiscreteUniform b)) (A1 x).
Proof. eexists. split; [reflexivity|]. split; [unfold nrange; now rewrite map_length, seq_length|intros []]. Qed.
(** Such samples do not become columns of a product either: they are put one after the other. *)
Theorem c49_product_of_bits_refuted bs n w : bs <> [] -> exists x, sample (Product (map DiscreteUniform bs)) n w = Ok (A1 x) /\ length x = (length bs * n)%nat /\
  forall k i, (k < length bs)%nat -> (i < n)%nat -> nth (k * n + i) x NaN = Fin (INR (bits (w [k]) i)).
Proof.
  intros N. cbn [sample]. set (go := fix go (k : nat) (l : list dist) : res (list arr) := match l with [] => Ok [] | f :: l' => bind (sample f n (sub w k)) (fun a => bind (go (S k) l') (fun r => Ok (a :: r))) end).
  set (one k := map (fun i => Fin (INR (bits (w [k]) i))) (nrange n)). assert (L1 : forall k, length (one k) = n) by (intros k; unfold one, nrange; now rewrite map_length, seq_length).
  assert (G : forall bs k, go k (map DiscreteUniform bs) = Ok (map (fun j => A1 (one j)) (seq k (length bs)))).
  { clear -one. induction bs as [|b bs IH]; intros k; [reflexivity|]. cbn [map go]. cbn [sample bind]. fold go. rewrite IH. reflexivity. }
  rewrite G. cbn [bind]. exists (concat (map one (seq 0 (length bs)))). split; [|split].
  - destruct bs as [|b bs]; [congruence|]. cbn [length seq map hstack]. generalize 0%nat as k. clear -one. induction (length bs) as [|m IH]; intros k; [cbn; now rewrite app_nil_r|].
    cbn [seq map concat] in *. change (concat0 (A1 (one k) :: A1 (one (S k)) :: ?r)) with (bind (concat0 (A1 (one (S k)) :: r)) (fun b => match b with A1 y => Ok (A1 (one k ++ y)) | A2 _ _ => Err ValueError end)).
    rewrite (IH (S k)). reflexivity.
  - clear -L1. generalize 0%nat as k. induction (length bs) as [|m IH]; intros k; [reflexivity|]. cbn [seq map concat]. rewrite app_length, L1, IH. lia.
  - intros k i Hk Hi. assert (Q : forall m j k, (k < m)%nat -> nth (k * n + i) (concat (map one (seq j m))) NaN = Fin (INR (bits (w [(j + k)%nat]) i))).
    { clear -L1 Hi. induction m as [|m IH]; intros j k Hk; [lia|]. cbn [seq map concat]. destruct k as [|k].
      - rewrite app_nth1 by (rewrite L1; lia). rewrite Nat.add_0_r. unfold one, nrange. cbn [Nat.mul Nat.add]. rewrite (nth_indep _ NaN (Fin (INR (bits (w [j]) 0)))) by now rewrite map_length, seq_length.
        rewrite (map_nth (fun i => Fin (INR (bits (w [j]) i)))). now rewrite seq_nth.
      - rewrite app_nth2 by (rewrite L1; lia). rewrite L1. replace (S k * n + i - n)%nat with (k * n + i)%nat by lia. rewrite IH by lia. now rewrite Nat.add_succ_r. }
    exact (Q _ 0%nat k Hk).
Qed.
Theorem c49_empty_mixture_sample_refuted weights l shuffle w : documented (Mixture weights l shuffle) -> good_source w -> sample (Mixture weights l shuffle) 0 w = Err ValueError.
Proof.
  intros Hd Hw. rewrite sample_mixture. apply doc_mixture in Hd. destruct Hd as (Hne & Hlw & _).
  destruct (gd_counts _ (Hw []) 0%nat weights) as [Hc1 Hc2]. specialize (Hc2 ltac:(destruct weights, l; try discriminate; now destruct Hne)). fold (here w) in Hc1, Hc2.
  assert (P : forall l k ns, fold_right Nat.add 0%nat ns = 0%nat -> parts w k l ns = Ok []).
  { clear. induction l as [|f l IH]; intros k [|m ns] H; [reflexivity..|]. cbn in H. assert (m = 0%nat /\ fold_right Nat.add 0%nat ns = 0%nat) as [-> H'] by lia. cbn. now apply IH. }
  rewrite P by assumption. reflexivity.
Qed.
Theorem c49_mixture_constructor weights l shuffle : new_mixture weights l shuffle = (if Nat.eqb (length l) 0 || negb (Nat.eqb (length weights) (length l)) then Err AttributeError else Ok (Mixture weights l shuffle)).
Proof. destruct l as [|d l]; [reflexivity|]. unfold new_mixture. change (Nat.eqb (length (d :: l)) 0) with false. cbn [orb]. destruct (Nat.eqb (length weights) (length (d :: l))); reflexivity. Qed.
Example c49_example : documented (Product [Mixture [0.5; 0.5] [Uniform [(0, 1)]; Constant [2]] true; Postselected (Uniform [(0, 1); (0, 1)]) (fun _ => true) 5; ConstrainedSum (Rows 3) 1]) /\
  n_rvs (Product [Mixture [0.5; 0.5] [Uniform [(0, 1)]; Constant [2]] true; Postselected (Uniform [(0, 1); (0, 1)]) (fun _ => true) 5; ConstrainedSum (Rows 3) 1]) = 6%nat.
Proof. split; [|reflexivity]. cbn. repeat split; discriminate. Qed.

(** C50: [draw r k] stands for the r-th call of the wrapped distribution's [sample(k)].  On success there are proposals [p] the
    distribution really made, and row [i] of the result is its first valid proposal, kept from then on. *)
Theorem c50_first_valid_proposals draw valid n maxiters junk s : (forall r k rows, draw r k = Ok rows -> length rows = k) -> length junk = n ->
  postselect draw valid junk n maxiters = Ok s ->
  length s = n /\ exists p, proposals draw valid p n maxiters /\ forall i, (i < n)%nat -> exists k, (k < maxiters)%nat /\ valid (p k i) = true /\ (forall q, (q < k)%nat -> valid (p q i) = false) /\ nth i s [] = p k i.
Proof.
  intros Hd Hj E. pose proof (post_loop_spec draw valid Hd maxiters 0 junk (seq 0 n) (seq_NoDup n 0)) as H. specialize (H ltac:(intros i Hi; apply in_seq in Hi; lia)). unfold postselect in E. rewrite E in H.
  destruct H as (p & Ha & _ & Hl & _ & H). split; [congruence|]. exists p. split.
  - intros q Hq Hne. specialize (Ha q Hq). rewrite pend_pending in Ha. now apply Ha.
  - intros i Hi. destruct (H i ltac:(apply in_seq; lia)) as (k & Hk). exists k. exact Hk.
Qed.
Theorem c50_all_valid draw valid n maxiters junk s : (forall r k rows, draw r k = Ok rows -> length rows = k) -> length junk = n ->
  postselect draw valid junk n maxiters = Ok s -> length s = n /\ Forall (fun r => valid r = true) s.
Proof.
  intros Hd Hj E. destruct (c50_first_valid_proposals _ _ _ _ _ _ Hd Hj E) as (Hl & p & _ & H). split; [assumption|]. apply Forall_forall. intros r Hr. apply (In_nth _ _ []) in Hr. destruct Hr as (i & Hi & <-).
  destruct (H i ltac:(lia)) as (k & _ & Hv & _ & ->). assumption.
Qed.
(** RuntimeError means that after [maxiters] rounds some index had no valid proposal. *)
Theorem c50_error draw valid n maxiters junk e : (forall r k, exists rows, draw r k = Ok rows /\ length rows = k) -> length junk = n ->
  postselect draw valid junk n maxiters = Err e -> e = RuntimeError /\ exists p, proposals draw valid p n maxiters /\ exists i, (i < n)%nat /\ forall k, (k < maxiters)%nat -> valid (p k i) = false.
Proof.
  intros Hd Hj E. assert (Hd' : forall r k rows, draw r k = Ok rows -> length rows = k) by (intros r k rows Er; destruct (Hd r k) as (rows' & Er' & Hl); congruence).
  pose proof (post_loop_spec draw valid Hd' maxiters 0 junk (seq 0 n) (seq_NoDup n 0)) as H. specialize (H ltac:(intros i Hi; apply in_seq in Hi; lia)). unfold postselect in E. rewrite E in H.
  destruct H as [(r & k & _ & Er & _)|(-> & p & Ha & Hp)]; [destruct (Hd r k) as (rows & Er' & _); congruence|]. split; [reflexivity|]. exists p. split.
  - intros q Hq Hne. specialize (Ha q Hq). rewrite pend_pending in Ha. now apply Ha.
  - rewrite pend_pending in Hp. destruct (pending valid p n maxiters) as [|i l] eqn:Ep; [now destruct Hp|]. assert (Hi : In i (pending valid p n maxiters)) by (rewrite Ep; now left).
    unfold pending in Hi. apply filter_In in Hi. destruct Hi as [Hi Hf]. apply in_seq in Hi. exists i. split; [lia|]. intros k Hk. rewrite forallb_forall in Hf. specialize (Hf k ltac:(apply in_seq; lia)). now apply negb_true_iff in Hf.
Qed.
(** If every index gets a valid proposal within [maxiters] rounds the call succeeds, and [n = 0] succeeds at once. *)
Theorem c50_success draw valid n maxiters junk p : (forall r k rows, draw r k = Ok rows -> length rows = k) -> length junk = n -> proposals draw valid p n maxiters ->
  (forall i, (i < n)%nat -> exists k, (k < maxiters)%nat /\ valid (p k i) = true) -> exists s, postselect draw valid junk n maxiters = Ok s.
Proof.
  intros Hd Hj Hp Hv. unfold postselect.
  assert (G : forall left round samples, length samples = n -> (round + left = maxiters)%nat -> exists s, post_loop draw valid left round samples (pending valid p n round) = Ok s).
  { induction left as [|left IH]; intros round samples Hs Hr.
    - assert (E : pending valid p n round = []); [|rewrite E; cbn; eauto]. destruct (pending valid p n round) as [|i l] eqn:Ei; [reflexivity|]. exfalso.
      assert (Hi : In i (pending valid p n round)) by (rewrite Ei; now left). unfold pending in Hi. apply filter_In in Hi. destruct Hi as [Hi Hf]. apply in_seq in Hi. destruct (Hv i ltac:(lia)) as (k & Hk & Hvk).
      rewrite forallb_forall in Hf. specialize (Hf k ltac:(apply in_seq; lia)). rewrite Hvk in Hf. discriminate.
    - destruct (pending valid p n round) as [|i l] eqn:Ei; [cbn; eauto|]. cbn [post_loop]. rewrite <- Ei. rewrite Hp by (lia || congruence). cbn [bind].
      set (samples' := scatter (pending valid p n round) (map (p round) (pending valid p n round)) samples).
      assert (ND : NoDup (pending valid p n round)) by (unfold pending; apply NoDup_filter, seq_NoDup).
      assert (Hb : forall j, In j (pending valid p n round) -> (j < length samples)%nat) by (intros j Hj'; unfold pending in Hj'; apply filter_In in Hj'; destruct Hj' as [Hj' _]; apply in_seq in Hj'; lia).
      assert (Hrow : forall j, In j (pending valid p n round) -> nth j samples' [] = p round j).
      { intros j Hj'. pose proof (scatter_rows (pending valid p n round) (map (p round) (pending valid p n round)) samples ND (map_length _ _) Hb) as S. fold samples' in S. exact (proj1 map_ext_in_iff S j Hj'). }
      replace (filter (fun i0 => negb (valid (nth i0 samples' []))) (pending valid p n round)) with (pending valid p n (S round)).
      + apply IH; [|lia]. unfold samples'. now rewrite scatter_length.
      + rewrite (filter_ext_in _ (fun i0 => negb (valid (p round i0)))) by (intros j Hj'; now rewrite Hrow). unfold pending. rewrite filter_filter_and. apply filter_ext. intros j. rewrite seq_S, forallb_app. cbn. now rewrite andb_true_r. }
  specialize (G maxiters 0%nat junk Hj ltac:(lia)). replace (pending valid p n 0) with (seq 0 n) in G; [assumption|]. unfold pending. cbn. clear. induction (seq 0 n) as [|x l IH]; cbn; [reflexivity|]. now rewrite <- IH.
Qed.
(** The class itself, wrapping any documented distribution. *)
Theorem c50_postselected_distribution d valid maxiters n w : documented d -> good_source w -> (0 < n)%nat ->
  match sample (Postselected d valid maxiters) n w with
  | Ok a => exists rows, a = A2 (n_rvs d) rows /\ length rows = n /\ Forall (fun r => valid r = true /\ length r = n_rvs d) rows
  | Err e => e = RuntimeError
  end.
Proof.
  intros Hd Hw Hn. pose proof (c49_shape_or_postselection_fails (Postselected d valid maxiters) n w Hd Hw Hn) as S. destruct (sample (Postselected d valid maxiters) n w) as [a|e] eqn:E; [|tauto].
  cbn [sample] in E. apply bind_Ok in E. destruct E as (rows & E & Ea). injection Ea as <-. cbn in S. destruct S as (_ & Hl & Hf). exists rows. split; [reflexivity|]. split; [assumption|].
  set (draw := fun r k => bind (sample d k (sub w r)) (assignable (n_rvs d) k)) in E.
  (* calls for zero rows never happen; replace them by an empty answer *)
  set (draw' := fun r k => if Nat.eqb k 0 then Ok [] else draw r k).
  assert (X : forall left round s idxs, post_loop draw valid left round s idxs = post_loop draw' valid left round s idxs).
  { induction left as [|left IH]; intros round s [|i idxs]; cbn [post_loop]; try reflexivity. unfold draw' at 1. cbn [length Nat.eqb]. destruct (draw round (S (length idxs))); cbn [bind]; [apply IH|reflexivity]. }
  unfold postselect in E. rewrite X in E. fold (postselect draw' valid (repeat [] n) n maxiters) in E. apply c50_all_valid in E; [|intros r k rs|apply repeat_length].
  - destruct E as [_ E]. rewrite Forall_forall in *. intros r Hr. split; auto.
  - unfold draw'. destruct (Nat.eqb_spec k 0) as [->|Hk]; [intros H; now injection H as <-|]. intros H. unfold draw in H. apply bind_Ok in H. destruct H as (a & Ha & H).
    destruct (fine_A2 d k (sub w r) a Hd (sub_good w r Hw) ltac:(lia) Ha) as (x & -> & Hx & _). cbn in H. rewrite Nat.eqb_refl in H. injection H as <-. assumption.
Qed.
Example c50_example : postselect (fun r k => Ok (repeat [Fin (INR r)] k)) (fun row => match row with [Fin x] => Rltb 0 x | _ => false end) [[]; []] 2 3 = Ok [[Fin 1]; [Fin 1]] /\
  postselect (fun r k => Ok (repeat [Fin (INR r)] k)) (fun row => match row with [Fin x] => Rltb 0 x | _ => false end) [[]; []] 2 1 = Err RuntimeError.
Proof.
  split; unfold postselect; cbn -[Rltb INR]; change (INR 0) with 0; rewrite Rltb_false by lra; cbn -[Rltb INR]; [|reflexivity]. change (INR 1) with 1. rewrite Rltb_true by lra. reflexivity.
Qed.

(** C51 *)
Theorem c51_positive_totals desired s : 0 < rsum s -> xsum (constrain desired (map Fin s)) = Fin desired.
Proof.
  intros H. unfold constrain. rewrite xsum_Fin. cbn [xsign]. rewrite (Rltb_true 0 (rsum s)) by assumption.
  rewrite map_map. rewrite (map_ext _ (fun x => Fin (desired / rsum s * x))).
  - rewrite <- (map_map (fun x => desired / rsum s * x) Fin), xsum_Fin. f_equal. rewrite rsum_scal. field. lra.
  - intros x. cbn [xmul]. rewrite xdiv_Fin by lra. f_equal. field. lra.
Qed.
(** Full statement: every row with a non-zero total.  It fails for every negative total: the total comes out as [- desired]. *)
Theorem c51_negative_totals_refuted desired s : rsum s < 0 -> xsum (constrain desired (map Fin s)) = Fin (- desired).
Proof.
  intros H. unfold constrain. rewrite xsum_Fin. cbn [xsign]. rewrite (Rltb_false 0 (rsum s)), (Rltb_true (rsum s) 0) by lra.
  rewrite map_map. rewrite (map_ext _ (fun x => Fin (- desired / rsum s * x))).
  - rewrite <- (map_map (fun x => - desired / rsum s * x) Fin), xsum_Fin. f_equal. rewrite rsum_scal. field. lra.
  - intros x. cbn [xmul]. rewrite xdiv_Fin by lra. f_equal. field. lra.
Qed.
(** What the sign does achieve: entries keep their sign for a positive requested total. *)
Theorem c51_entries_keep_their_sign desired s : 0 < desired -> rsum s <> 0 -> forall i x, nth_error s i = Some x ->
  exists y, nth_error (constrain desired (map Fin s)) i = Some (Fin y) /\ y = desired / Rabs (rsum s) * x.
Proof.
  intros Hd H i x Hi. unfold constrain. rewrite xsum_Fin, nth_error_map, nth_error_map, Hi. cbn [option_map xsign]. eexists. split; [|reflexivity]. f_equal. destruct (Rltb_spec 0 (rsum s)) as [P|P].
  - cbn [xmul]. rewrite xdiv_Fin by lra. rewrite Rabs_right by lra. f_equal. field. lra.
  - rewrite Rltb_true by lra. cbn [xmul]. rewrite xdiv_Fin by lra. rewrite Rabs_left by lra. f_equal. field. lra.
Qed.
Theorem c51_zero_total desired s : rsum s = 0 -> s <> [] -> xsum (constrain desired (map Fin s)) = NaN.
Proof.
  intros H Hne. unfold constrain. rewrite xsum_Fin, H. cbn [xsign]. rewrite !Rltb_false by lra. destruct s as [|x s]; [now destruct Hne|]. cbn [map]. rewrite xsum_cons. cbn [xmul]. rewrite Rmult_0_r, Rmult_0_l. rewrite xdiv_00. reflexivity.
Qed.
Theorem c51_distribution d desired n w a : documented d -> good_source w -> (0 < n)%nat -> sample (ConstrainedSum d desired) n w = Ok a ->
  exists rows, sample d n w = Ok (A2 (n_rvs d) rows) /\ a = A2 (n_rvs d) (map (constrain desired) rows).
Proof.
  intros Hd Hw Hn H. cbn [sample] in H. apply bind_Ok in H. destruct H as (b & E & H). destruct (fine_A2 d n w b Hd Hw Hn E) as (x & -> & _ & _). injection H as <-. eauto.
Qed.
Example c51_example : xsum (constrain 1 (map Fin [1; 2])) = Fin 1 /\ xsum (constrain 1 (map Fin [1; -2])) = Fin (-1).
Proof. split; [apply c51_positive_totals|apply c51_negative_totals_refuted]; rewrite !rsum_cons, rsum_nil; lra. Qed.

(** C52 *)
Theorem c52_beta_moments_of_shapes a b : 0 < a -> 0 < b -> sh_mean (beta_of_shapes a b) = beta_moment a b 1 /\ sh_var (beta_of_shapes a b) = beta_moment a b 2 - beta_moment a b 1 ^ 2.
Proof. intros Ha Hb. unfold beta_moment. cbn. split; field; nra. Qed.
Theorem c52_beta_requested_moments m v : 0 < m < 1 -> 0 < v < m * (1 - m) -> exists s, new_beta None None (Some m) (Some v) = Ok s /\ 0 < sh_alpha s /\ 0 < sh_beta s /\
  beta_moment (sh_alpha s) (sh_beta s) 1 = m /\ beta_moment (sh_alpha s) (sh_beta s) 2 - beta_moment (sh_alpha s) (sh_beta s) 1 ^ 2 = v.
Proof.
  intros Hm Hv. eexists. split; [reflexivity|]. cbn [sh_alpha sh_beta beta_of_moments].
  assert (Ea : m ^ 2 * (1 - m) / v - m = m * ((m * (1 - m) - v) / v)) by (field; lra). assert (Eb : (1 - m) ^ 2 * m / v - (1 - m) = (1 - m) * ((m * (1 - m) - v) / v)) by (field; lra).
  assert (Hq : 0 < (m * (1 - m) - v) / v) by (apply Rdiv_lt_0_compat; lra). rewrite Ea, Eb. set (q := (m * (1 - m) - v) / v) in *. assert (Ev : v = m * (1 - m) / (q + 1)) by (unfold q; field; split; nra).
  split; [nra|]. split; [nra|]. unfold beta_moment. cbn. replace (m * q + (1 - m) * q) with q by ring. split; [field; lra|]. rewrite Ev. field. lra.
Qed.
Theorem c52_beta_round_trip a b : 0 < a -> 0 < b -> let s := beta_of_shapes a b in sh_alpha (beta_of_moments (sh_mean s) (sh_var s)) = a /\ sh_beta (beta_of_moments (sh_mean s) (sh_var s)) = b.
Proof. intros Ha Hb. cbn. split; field; repeat split; nra. Qed.
Theorem c52_beta_moments_round_trip m v : 0 < m < 1 -> 0 < v < m * (1 - m) -> let s := beta_of_moments m v in sh_mean (beta_of_shapes (sh_alpha s) (sh_beta s)) = m /\ sh_var (beta_of_shapes (sh_alpha s) (sh_beta s)) = v.
Proof.
  intros Hm Hv s. destruct (c52_beta_requested_moments m v Hm Hv) as (s' & E & Pa & Pb & E1 & E2). injection E as <-. fold s in Pa, Pb, E1, E2. destruct (c52_beta_moments_of_shapes _ _ Pa Pb) as [M1 M2]. rewrite M1, M2. tauto.
Qed.
Theorem c52_gamma_moments_of_shapes a b : 0 < a -> 0 < b -> sh_mean (gamma_of_shapes a b) = gamma_moment a b 1 /\ sh_var (gamma_of_shapes a b) = gamma_moment a b 2 - gamma_moment a b 1 ^ 2.
Proof. intros Ha Hb. unfold gamma_moment. cbn. split; field; nra. Qed.
Theorem c52_gamma_requested_moments m v : 0 < m -> 0 < v -> exists s, new_gamma None None (Some m) (Some v) = Ok s /\ 0 < sh_alpha s /\ 0 < sh_beta s /\
  gamma_moment (sh_alpha s) (sh_beta s) 1 = m /\ gamma_moment (sh_alpha s) (sh_beta s) 2 - gamma_moment (sh_alpha s) (sh_beta s) 1 ^ 2 = v.
Proof.
  intros Hm Hv. eexists. split; [reflexivity|]. cbn [sh_alpha sh_beta gamma_of_moments]. split; [apply Rdiv_lt_0_compat; nra|]. split; [apply Rdiv_lt_0_compat; nra|]. unfold gamma_moment. cbn. split; field; lra.
Qed.
Theorem c52_gamma_round_trip a b : 0 < a -> 0 < b -> let s := gamma_of_shapes a b in sh_alpha (gamma_of_moments (sh_mean s) (sh_var s)) = a /\ sh_beta (gamma_of_moments (sh_mean s) (sh_var s)) = b.
Proof. intros Ha Hb. cbn. split; field; lra. Qed.
(** The beta-binomial moments are the sums over the [n + 1] outcomes. *)
Theorem c52_betabin_is_a_distribution n a b : 0 < a -> 0 < b -> (forall k, 0 <= betabin_pmf n a b k) /\ Sum (S n) (betabin_pmf n a b) = 1.
Proof.
  intros Ha Hb. split; [|now apply betabin_total]. intros k. unfold betabin_pmf. apply Rmult_le_pos; [apply pos_INR|]. pose proof (rising_pos (a + b) n ltac:(lra)). pose proof (rising_pos a k Ha). pose proof (rising_pos b (n - k) Hb).
  apply Rlt_le, Rdiv_lt_0_compat; [nra|assumption].
Qed.
Theorem c52_betabin_moments_of_shapes n a b : 0 < a -> 0 < b -> let mu := sh_mean (betabin_of_shapes n a b) in
  Sum (S n) (fun k => INR k * betabin_pmf n a b k) = mu /\ Sum (S n) (fun k => (INR k - mu) ^ 2 * betabin_pmf n a b k) = sh_var (betabin_of_shapes n a b).
Proof.
  intros Ha Hb mu. unfold mu. cbn [sh_mean sh_var betabin_of_shapes]. split; [now apply betabin_mean|]. set (m := INR n * a / (a + b)).
  rewrite (Sum_ext _ _ (fun k => INR k * INR k * betabin_pmf n a b k + ((- (2 * m)) * (INR k * betabin_pmf n a b k) + m ^ 2 * betabin_pmf n a b k))) by (intros; ring).
  rewrite !Sum_plus, !Sum_scal, betabin_square, betabin_mean, betabin_total by assumption. unfold m. field. lra.
Qed.
Lemma betabin_inverse n a b : (2 <= n)%nat -> 0 < a -> 0 < b -> let s := betabin_of_shapes n a b in
  sh_mean s ^ 2 + INR n * (sh_var s - sh_mean s) <> 0 /\ sh_alpha (betabin_of_moments n (sh_mean s) (sh_var s)) = a /\ sh_beta (betabin_of_moments n (sh_mean s) (sh_var s)) = b.
Proof.
  intros Hn Ha Hb s. unfold s. cbn [sh_mean sh_var sh_alpha sh_beta betabin_of_moments betabin_of_shapes]. apply (le_INR 2) in Hn. change (INR 2) with 2 in Hn. set (N := INR n) in *. set (t := a + b).
  assert (Ht : 0 < t) by (unfold t; lra). assert (Hab : 0 < a * b) by nra.
  assert (D : (N * a / t) ^ 2 + N * (N * a * b * (t + N) / (t ^ 2 * (t + 1)) - N * a / t) = N ^ 2 * (N - 1) * (a * b) / (t ^ 2 * (t + 1))) by (unfold t; field; split; unfold t in *; lra).
  assert (E : N * a * b * (t + N) / (t ^ 2 * (t + 1)) + (N * a / t) ^ 2 - N * (N * a / t) = - (N * (N - 1) * (a * b) / (t * (t + 1)))) by (unfold t; field; split; unfold t in *; lra).
  assert (P : 0 < N ^ 2 * (N - 1) * (a * b)) by (apply Rmult_lt_0_compat; [apply Rmult_lt_0_compat; nra|assumption]).
  split; [|split].
  - rewrite D. apply Rgt_not_eq. apply Rdiv_lt_0_compat; [assumption|]. apply Rmult_lt_0_compat; [apply pow_lt; lra|lra].
  - rewrite D, E. field. repeat split; try lra; nra.
  - replace ((N - N * a / t) * (N * a / t) - N * (N * a * b * (t + N) / (t ^ 2 * (t + 1)))) with (- (N ^ 2 * (N - 1) * (a * b) / (t ^ 2 * (t + 1)))) by (rewrite <- D; field; split; lra).
    rewrite E. replace (N - N * a / t) with (N * b / t) by (unfold t; field; unfold t in *; lra). field. repeat split; try lra; nra.
Qed.
Theorem c52_betabin_round_trip n a b : (2 <= n)%nat -> 0 < a -> 0 < b -> let s := betabin_of_shapes n a b in
  sh_alpha (betabin_of_moments n (sh_mean s) (sh_var s)) = a /\ sh_beta (betabin_of_moments n (sh_mean s) (sh_var s)) = b.
Proof. intros Hn Ha Hb. apply (betabin_inverse n a b Hn Ha Hb). Qed.
(** Admissible moments: more variance than a binomial, less than all-or-nothing. *)
Theorem c52_betabin_requested_moments n m v : (2 <= n)%nat -> 0 < m < INR n -> m * (INR n - m) / INR n < v < m * (INR n - m) ->
  exists s, new_betabin n None None (Some m) (Some v) = Ok s /\ 0 < sh_alpha s /\ 0 < sh_beta s /\
    Sum (S n) (fun k => INR k * betabin_pmf n (sh_alpha s) (sh_beta s) k) = m /\ Sum (S n) (fun k => (INR k - m) ^ 2 * betabin_pmf n (sh_alpha s) (sh_beta s) k) = v.
Proof.
  intros Hn Hm Hv. eexists. split; [reflexivity|]. set (s := betabin_of_moments n m v). assert (HN : 2 <= INR n) by (apply (le_INR 2) in Hn; exact Hn).
  assert (P1 : 0 < m * (INR n - m) - v) by lra. assert (P2 : 0 < INR n * v - m * (INR n - m)).
  { destruct Hv as [Hv _]. apply (Rmult_lt_compat_l (INR n)) in Hv; [|lra]. replace (INR n * (m * (INR n - m) / INR n)) with (m * (INR n - m)) in Hv by (field; lra). lra. }
  set (q := (m * (INR n - m) - v) / (INR n * v - m * (INR n - m))). assert (Hq : 0 < q) by (now apply Rdiv_lt_0_compat).
  assert (Ea : sh_alpha s = m * q) by (unfold s, q; cbn [sh_alpha betabin_of_moments]; field; repeat split; nra).
  assert (Eb : sh_beta s = (INR n - m) * q) by (unfold s, q; cbn [sh_beta betabin_of_moments]; field; repeat split; nra).
  assert (Pa : 0 < sh_alpha s) by (rewrite Ea; nra). assert (Pb : 0 < sh_beta s) by (rewrite Eb; nra). split; [assumption|]. split; [assumption|].
  destruct (c52_betabin_moments_of_shapes n _ _ Pa Pb) as [M V]. assert (Em : sh_mean (betabin_of_shapes n (sh_alpha s) (sh_beta s)) = m).
  { cbn [sh_mean betabin_of_shapes]. rewrite Ea, Eb. field. nra. }
  cbv zeta in M, V. rewrite Em in M, V. split; [assumption|]. rewrite V. cbn [sh_var betabin_of_shapes]. rewrite Ea, Eb.
  assert (Ev : v * (1 + INR n * q) = m * (INR n - m) * (1 + q)) by (unfold q; field; lra).
  assert (Hd : 0 < 1 + INR n * q) by nra. replace v with (m * (INR n - m) * (1 + q) / (1 + INR n * q)) by (rewrite <- Ev; field; lra). field. repeat split; nra.
Qed.
(** One trial: the variance is fixed by the mean, so shapes cannot be recovered (0/0 in the code; hence [2 <= n] above). *)
Theorem c52_betabin_single_trial a b : 0 < a -> 0 < b -> let s := betabin_of_shapes 1 a b in sh_var s = sh_mean s * (1 - sh_mean s) /\ sh_mean s ^ 2 + INR 1 * (sh_var s - sh_mean s) = 0.
Proof. intros Ha Hb. cbn. split; field; lra. Qed.
Theorem c52_arguments alpha beta mean var f g : choose alpha beta mean var f g =
  match alpha, beta with Some a, Some b => Ok (f a b) | _, _ => match mean, var with Some m, Some v => Ok (g m v) | _, _ => Err ValueError end end.
Proof. destruct alpha, beta, mean, var; reflexivity. Qed.
Example c52_example : sh_mean (betabin_of_shapes 4 1 3) = 1 /\ sh_var (betabin_of_shapes 4 1 3) = 6 / 5 /\ sh_alpha (betabin_of_moments 4 1 (6 / 5)) = 1.
Proof. cbn. repeat split; field_simplify; lra. Qed.

(** C53: the class asks scipy for shape 1, location mu and scale sigma. *)
Theorem c53_what_is_sampled mu sigma n w : exists rows, sample (lognormal_dist mu sigma) n w = Ok (A2 1 rows) /\ length rows = n /\
  forall i, (i < n)%nat -> nth i rows [] = [Fin (mu + sigma * exp (raw (here w) i))].
Proof.
  eexists. split; [reflexivity|]. split; [unfold nrange; now rewrite map_length, seq_length|]. intros i Hi. unfold nrange.
  rewrite (nth_indep _ [] ((fun i => [Fin (lognorm 1 mu sigma (raw (here w) i))]) 0%nat)) by (now rewrite map_length, seq_length). rewrite (map_nth (fun i => [Fin (lognorm 1 mu sigma (raw (here w) i))])), seq_nth by assumption.
  unfold lognorm. cbn [Nat.add]. rewrite Rmult_1_l. reflexivity.
Qed.
(** Full statement: equals exp(mu + sigma z) for every draw z.  True exactly at the defaults. *)
Theorem c53_only_at_the_defaults_partial mu sigma : (forall z, lognorm 1 mu sigma z = exp (mu + sigma * z)) <-> mu = 0 /\ sigma = 1.
Proof.
  split.
  - intros H. unfold lognorm in H. pose proof (H 0) as H0. pose proof (H 1) as H1. pose proof (H (-1)) as H2. pose proof (H 2) as H3.
    rewrite !Rmult_1_l in *. rewrite Rmult_0_r, exp_0, Rplus_0_r in H0. 
    set (e := exp 1). assert (He : 2 < e) by (pose proof (exp_ineq1 1 ltac:(lra)); unfold e; lra). assert (Ee2 : exp 2 = e * e) by (unfold e; rewrite <- exp_plus; f_equal; ring).
    assert (Ei : exp (-1) = / e) by (unfold e; rewrite <- exp_Ropp; f_equal; ring).
    set (g := exp mu) in *. set (s := exp sigma). assert (Hg : 0 < g) by apply exp_pos. assert (Hs : 0 < s) by apply exp_pos.
    assert (E1 : exp (mu + sigma * 1) = g * s) by (rewrite exp_plus, Rmult_1_r; reflexivity).
    assert (E3 : exp (mu + sigma * 2) = g * (s * s)) by (rewrite exp_plus; replace (sigma * 2) with (sigma + sigma) by ring; rewrite exp_plus; reflexivity).
    assert (E2 : exp (mu + sigma * -1) = g / s) by (rewrite exp_plus; replace (sigma * -1) with (- sigma) by ring; rewrite exp_Ropp; reflexivity).
    rewrite E1 in H1. rewrite E3, Ee2 in H3. rewrite E2, Ei in H2. fold e in H1.
    (* differences of consecutive values: sigma (e-1) = g (s-1), sigma e (e-1) = g s (s-1) *)
    assert (D1 : sigma * (e - 1) = g * (s - 1)) by lra. assert (D2 : sigma * (e - 1) * e = g * (s - 1) * s) by nra.
    assert (Hse : s = e \/ sigma = 0). { rewrite D1 in D2. assert (X : g * (s - 1) * (e - s) = 0) by lra. apply Rmult_integral in X. destruct X as [X|X]; [right|left; lra]. rewrite <- D1 in X. apply Rmult_integral in X. destruct X; lra. }
    destruct Hse as [Hse|Hse].
    + assert (sigma = 1) by (apply exp_inv; exact Hse). split; [|assumption]. assert (g = sigma) by nra. apply exp_inv. rewrite exp_0. fold g. lra.
    + exfalso. rewrite Hse in H0. pose proof (exp_ineq1 mu) as X. fold g in X. destruct (Req_dec mu 0) as [M|M]; [unfold g in *; rewrite M, exp_0 in H0; lra|specialize (X M); lra].
  - intros [-> ->] z. unfold lognorm. rewrite Rmult_1_l. rewrite !Rplus_0_l, !Rmult_1_l. reflexivity.
Qed.
Theorem c53_refuted : exists mu sigma z, 0 < sigma /\ lognorm 1 mu sigma z <> exp (mu + sigma * z) /\ lognorm 1 mu sigma z < 0.
Proof.
  exists (-2), 1, 0. split; [lra|]. unfold lognorm. rewrite !Rmult_0_r, exp_0. pose proof (exp_pos (-2 + 0)). split; lra.
Qed.
Print Assumptions c48_affine_in_the_draw.
Print Assumptions c48_inside_the_box.
Print Assumptions c48_constructor.
Print Assumptions c48_constant.
Print Assumptions c49_shape.
Print Assumptions c49_shape_or_postselection_fails.
Print Assumptions c49_product_concatenates_columns.
Print Assumptions c49_mixture_takes_rows_from_components.
Print Assumptions c49_discrete_uniform_refuted.
Print Assumptions c49_product_of_bits_refuted.
Print Assumptions c49_empty_mixture_sample_refuted.
Print Assumptions c49_mixture_constructor.
Print Assumptions c50_first_valid_proposals.
Print Assumptions c50_all_valid.
Print Assumptions c50_error.
Print Assumptions c50_success.
Print Assumptions c50_postselected_distribution.
Print Assumptions c51_positive_totals.
Print Assumptions c51_negative_totals_refuted.
Print Assumptions c51_entries_keep_their_sign.
Print Assumptions c51_zero_total.
Print Assumptions c51_distribution.
Print Assumptions c52_beta_moments_of_shapes.
Print Assumptions c52_beta_requested_moments.
Print Assumptions c52_beta_round_trip.
Print Assumptions c52_beta_moments_round_trip.
Print Assumptions c52_gamma_moments_of_shapes.
Print Assumptions c52_gamma_requested_moments.
Print Assumptions c52_gamma_round_trip.
Print Assumptions c52_betabin_is_a_distribution.
Print Assumptions c52_betabin_moments_of_shapes.
Print Assumptions c52_betabin_round_trip.
Print Assumptions c52_betabin_requested_moments.
Print Assumptions c52_betabin_single_trial.
Print Assumptions c52_arguments.
Print Assumptions c53_what_is_sampled.
Print Assumptions c53_only_at_the_defaults_partial.
Print Assumptions c53_refuted.
