(** Theorems for properties C28-C30 (domains) and C43 (structured arrays). *)
From Verif Require Import Base RList Ext DomModel DomSpec DomProofs DomProofs2.

(** C28 *)
Theorem c28_finite_lists_each_member_once a b : exists d,
  int_domain_new (Fin (IZR a)) (Fin (IZR b)) = Ok d /\ id_is_finite d = true /\
  NoDup (id_values d) /\ (forall z, In z (id_values d) <-> (a <= z <= b)%Z).
Proof.
  exists {| i_min := ZFin a; i_max := ZFin b |}. split; [apply int_new_Z|]. split; [reflexivity|].
  unfold id_values. cbn [i_min i_max]. split; [apply arange_NoDup|]. intros z. rewrite arange_In. lia.
Qed.

Theorem c28_n_members a b d : int_domain_new (Fin (IZR a)) (Fin (IZR b)) = Ok d -> (a <= b + 1)%Z ->
  id_n_members d = Some (Z.of_nat (length (id_values d))) /\ id_n_members d = Some (b - a + 1)%Z.
Proof.
  rewrite int_new_Z. intros E H. injection E as <-. unfold id_values, id_n_members. cbn [i_min i_max]. rewrite arange_length. split; [|reflexivity].
  f_equal. lia.
Qed.

(** Reversed bounds leave the list empty but report a negative number of members. *)
Theorem c28_n_members_reversed_refuted : exists d, int_domain_new (Fin 3) (Fin 1) = Ok d /\
  id_values d = [] /\ id_n_members d = Some (-1)%Z.
Proof. exists {| i_min := ZFin 3; i_max := ZFin 1 |}. split; [exact (int_new_Z 3 1)|]. split; reflexivity. Qed.

(** Membership for every kind of bound: a point array is accepted iff all its entries are real
    integers within the bounds. *)
Theorem c28_membership mn mx :
  (forall b, b = mn \/ b = mx -> b = PInf \/ b = NInf \/ exists z, b = Fin (IZR z)) ->
  exists d, int_domain_new mn mx = Ok d /\
    (id_is_finite d = true <-> (exists z, mn = Fin (IZR z)) /\ (exists z, mx = Fin (IZR z))) /\
    (id_is_finite d = false -> id_n_members d = None) /\
    (forall ps, id_in_domain d ps = true <->
      Forall (fun p => exists z, p = PRe (Fin (IZR z)) /\ xle mn (Fin (IZR z)) /\ xle (Fin (IZR z)) mx) ps).
Proof.
  intros H.
  assert (Hb : forall b, b = PInf \/ b = NInf \/ (exists z, b = Fin (IZR z)) -> exists zb, int_bound b = Ok zb /\ b2x zb = b /\ (is_inf zb = false <-> exists z, b = Fin (IZR z))).
  { intros b [->|[->|(z & ->)]].
    - exists ZPos. repeat split; try discriminate. intros (z & E); discriminate.
    - exists ZNeg. repeat split; try discriminate. intros (z & E); discriminate.
    - exists (ZFin z). cbn [int_bound]. rewrite trunc_IZR. repeat split. now exists z. }
  destruct (Hb mn (H mn (or_introl eq_refl))) as (za & Ea & Xa & Ia). destruct (Hb mx (H mx (or_intror eq_refl))) as (zb & Eb & Xb & Ib).
  exists {| i_min := za; i_max := zb |}. split; [unfold int_domain_new; now rewrite Ea, Eb|]. split; [|split].
  - unfold id_is_finite. cbn [i_min i_max]. rewrite andb_true_iff, !negb_true_iff, Ia, Ib. reflexivity.
  - unfold id_is_finite, id_n_members. cbn [i_min i_max]. destruct za, zb; cbn; intros; try reflexivity; discriminate.
  - intros ps. rewrite id_in_all, forallb_forall, Forall_forall.
    assert (G : forall p, id_in_domain {| i_min := za; i_max := zb |} [p] = true <-> exists z, p = PRe (Fin (IZR z)) /\ xle mn (Fin (IZR z)) /\ xle (Fin (IZR z)) mx).
    { intros p. rewrite id_in_one. cbn [i_min i_max]. rewrite <- Xa, <- Xb. unfold xle. split; intros (z & E & H1 & H2); exists z; (split; [exact E|]); split.
      - destruct za; cbn in *; [reflexivity| |contradiction]. apply Rleb_true. now apply IZR_le.
      - destruct zb; cbn in *; [contradiction| |reflexivity]. apply Rleb_true. now apply IZR_le.
      - destruct za as [|a|]; cbn in *; [exact I| |discriminate]. destruct (Rleb_spec (IZR a) (IZR z)); [now apply le_IZR|discriminate].
      - destruct zb as [|a|]; cbn in *; [discriminate| |exact I]. destruct (Rleb_spec (IZR z) (IZR a)); [now apply le_IZR|discriminate]. }
    split; intros Hp p Hin; apply G; auto.
Qed.

(** All finite bounds, integral or not, in either order: they are cut towards zero, the list is the interval between, the count is the
    difference plus one even when that is negative; NaN is refused. *)
Theorem c28_any_finite_bounds x y : exists a b d, int_domain_new (Fin x) (Fin y) = Ok d /\
  (Rabs (IZR a) <= Rabs x < Rabs (IZR a) + 1 /\ 0 <= x * IZR a) /\ (Rabs (IZR b) <= Rabs y < Rabs (IZR b) + 1 /\ 0 <= y * IZR b) /\
  NoDup (id_values d) /\ (forall z, In z (id_values d) <-> (a <= z <= b)%Z) /\ id_n_members d = Some (b - a + 1)%Z /\
  length (id_values d) = Z.to_nat (b - a + 1) /\ int_domain_new NaN (Fin y) = Err ValueError /\ int_domain_new (Fin x) NaN = Err ValueError.
Proof.
  assert (T : forall x, Rabs (IZR (trunc x)) <= Rabs x < Rabs (IZR (trunc x)) + 1 /\ 0 <= x * IZR (trunc x)).
  { intros u. unfold trunc. destruct (Rltb_spec u 0) as [H|H].
    - pose proof (base_Int_part (- u)) as [B1 B2]. rewrite opp_IZR. set (k := Int_part (- u)) in *.
      assert (K : (0 <= k)%Z) by (destruct (Z_lt_le_dec k 0) as [L|L]; [exfalso; assert (IZR k <= -1) by (apply (IZR_le k (-1)); lia); lra|assumption]).
      apply IZR_le in K. rewrite Rabs_Ropp, (Rabs_right (IZR k)), (Rabs_left u) by lra. split; [lra|nra].
    - pose proof (base_Int_part u) as [B1 B2]. set (k := Int_part u) in *.
      assert (K : (0 <= k)%Z) by (destruct (Z_lt_le_dec k 0) as [L|L]; [exfalso; assert (IZR k <= -1) by (apply (IZR_le k (-1)); lia); lra|assumption]).
      apply IZR_le in K. rewrite (Rabs_right (IZR k)), (Rabs_right u) by lra. split; [lra|nra]. }
  exists (trunc x), (trunc y), {| i_min := ZFin (trunc x); i_max := ZFin (trunc y) |}. split; [reflexivity|]. split; [apply T|]. split; [apply T|].
  unfold id_values, id_n_members. cbn [i_min i_max]. split; [apply arange_NoDup|]. split; [intros z; rewrite arange_In; lia|]. split; [reflexivity|].
  split; [rewrite arange_length; f_equal; lia|]. split; reflexivity.
Qed.

(** Membership agrees with the list. *)
Theorem c28_member_iff_listed a b d z : int_domain_new (Fin (IZR a)) (Fin (IZR b)) = Ok d ->
  (id_in_domain d [PRe (Fin (IZR z))] = true <-> In z (id_values d)).
Proof.
  rewrite int_new_Z. intros E. injection E as <-. rewrite id_in_one. unfold id_values. cbn [i_min i_max b_le b_ge]. rewrite arange_In. split.
  - intros (z' & E & H1 & H2). injection E as E. apply eq_IZR in E. subst z'. lia.
  - intros H. exists z. split; [reflexivity|]. lia.
Qed.

(** Fractional bounds are rounded towards zero, so a lower bound of 1/2 admits 0. *)
Theorem c28_fractional_bound_admits_smaller_refuted : exists d, int_domain_new (Fin (1/2)) (Fin 5) = Ok d /\ In 0%Z (id_values d) /\
  id_in_domain d [PRe (Fin 0)] = true /\ IZR 0 < 1/2.
Proof.
  exists {| i_min := ZFin 0; i_max := ZFin 5 |}. split.
  - unfold int_domain_new, int_bound.
    assert (E : trunc (1/2) = 0%Z).
    { unfold trunc. rewrite Rltb_false by lra. unfold Int_part. rewrite <- (up_tech (1/2) 0); [reflexivity|lra|simpl; lra]. }
    rewrite E. change (Fin 5) with (Fin (IZR 5)). rewrite (trunc_IZR 5). reflexivity.
  - split; [apply arange_In; lia|]. split; [|lra]. apply id_in_one. exists 0%Z. cbn. repeat split; lia.
Qed.

(** C29.  Factors given as separate arguments. *)
Theorem c29_separate_arguments {B} (ds : list (domain B)) : ds <> [] -> exists ex, product_new (map ADom ds) = Ok (ds, ex).
Proof. intros H. eexists. now apply product_new_ok. Qed.
(** Factors given as one list, as the docstring allows, are not unpacked. *)
Theorem c29_list_argument_refuted {B} (ds : list (domain B)) : product_new [AList ds] = Err AttributeError.
Proof. exact (product_new_list ds). Qed.

Theorem c29_values_and_count {B} (ds : list (domain B)) : ds <> [] -> Forall good_factor ds -> (forall d, In d ds -> d_values d <> []) ->
  exists vals, prod_values ds = Ok vals /\ NoDup vals /\ (forall p, In p vals <-> in_product (map d_values ds) p) /\
    prod_n_members ds = Some (Z.of_nat (length vals)).
Proof.
  intros H1 H2 H3. exists (map (@concat B) (cart (map d_values ds))). split; [now apply prod_values_ok|].
  apply prod_values_spec; auto. now apply prod_values_ok.
Qed.
(** With an empty factor the product is empty (n_members is 0) but listing it raises. *)
Theorem c29_empty_factor_refuted {B} (ds : list (domain B)) d : In d ds -> d_values d = [] -> prod_values ds = Err ValueError.
Proof. exact (prod_values_empty ds d). Qed.

Theorem c29_membership {B} (ds : list (domain B)) (in1 : nat -> list B -> bool) points : Forall (fun d => (0 < d_item d)%nat) ds ->
  (forall k d0, (k < length ds)%nat -> forall a, d_in (nth k ds d0) a = forallb (in1 k) (a_data a)) ->
  a_data points <> [] -> wf_arr points -> a_item points = nsum (map d_item ds) ->
  exists b, prod_in_domain ds points = Ok b /\
    (b = true <-> forall e, In e (a_data points) -> exists t, e = concat t /\ map (@length B) t = map d_item ds /\
       forall k, (k < length ds)%nat -> in1 k (nth k t []) = true).
Proof. exact (prod_in_domain_ok ds in1 points). Qed.

Theorem c29_to_then_from {B} (ds : list (domain B)) a : ds <> [] -> Forall (fun d => (0 < d_item d)%nat) ds -> a_data a <> [] -> wf_arr a ->
  a_item a = nsum (map d_item ds) ->
  exists l, to_regular_arrays ds a = Ok l /\ length l = length ds /\ from_regular_arrays ds l = Ok a.
Proof. exact (to_from ds a). Qed.
Theorem c29_from_then_to {B} (ds : list (domain B)) n l : ds <> [] -> (0 < n)%nat -> Forall (fun a => arr_len a = n) l -> Forall wf_arr l ->
  map a_item l = map d_item ds -> Forall (fun d => (0 < d_item d)%nat) ds ->
  exists a, from_regular_arrays ds l = Ok a /\ arr_len a = n /\ to_regular_arrays ds a = Ok l.
Proof. exact (from_to ds n l). Qed.
Theorem c29_finite_continuous {B} (ds : list (domain B)) :
  (prod_finite ds = true <-> forall d, In d ds -> d_finite d = true) /\ (prod_continuous ds = true <-> exists d, In d ds /\ d_continuous d = true).
Proof. split; [apply forallb_forall|apply existsb_exists]. Qed.

(** C30 *)
Theorem c30_lists_each_count_vector_once junk d : (0 < m_k d)%nat -> exists vals, md_values junk d = Ok vals /\ NoDup vals /\
  (forall v, In v vals <-> length v = m_k d /\ Forall (fun z => (0 <= z)%Z) v /\ zsum v = Z.of_nat (m_n d)) /\
  length vals = md_n_members d.
Proof.
  intros H. exists (md_rows d). split; [now apply md_values_ok|]. split; [apply md_rows_NoDup|]. split; [|now apply md_rows_length].
  intros v. now apply md_rows_In.
Qed.
(** n_members is (n+k-1)! / ((k-1)! n!). *)
Theorem c30_n_members d : (0 < m_k d)%nat ->
  (md_n_members d * (fact (m_k d - 1) * fact (m_n d)) = fact (m_n d + m_k d - 1))%nat.
Proof.
  intros H. unfold md_n_members. rewrite <- (binom_fact (m_n d + m_k d - 1) (m_k d - 1)) by lia.
  now replace (m_n d + m_k d - 1 - (m_k d - 1))%nat with (m_n d) by lia.
Qed.
Theorem c30_membership d junk vals ps : (0 < m_k d)%nat -> md_values junk d = Ok vals -> Forall (fun p => length p = m_k d) ps ->
  (md_in_domain d ps = true <-> forall p, In p ps -> In p vals).
Proof.
  intros Hk E Hp. rewrite md_values_ok in E by assumption. injection E as <-. rewrite md_in_all, forallb_forall. rewrite Forall_forall in Hp.
  split; intros H p Hin; specialize (H p Hin).
  - apply md_rows_In; [assumption|]. split; [auto|]. now apply md_in_one.
  - apply md_in_one. apply md_rows_In in H; [|assumption]. tauto.
Qed.
Theorem c30_example_point d junk vals : (0 < m_k d)%nat -> md_values junk d = Ok vals -> In (md_example d) vals.
Proof.
  intros Hk E. rewrite md_values_ok in E by assumption. injection E as <-. apply md_rows_In; [assumption|]. unfold md_example.
  split; [cbn; rewrite repeat_length; lia|]. split.
  - constructor; [lia|]. apply Forall_forall. intros z Hz. apply repeat_spec in Hz. lia.
  - cbn. assert (G : forall m, fold_right Z.add 0%Z (repeat 0%Z m) = 0%Z) by (induction m as [|m IH]; cbn; [reflexivity|exact IH]). rewrite G. lia.
Qed.

(** C43 *)
Theorem c43_join_then_separate {B} n (arrays : list (arr B)) : arrays <> [] -> (0 < n)%nat -> Forall (fun a => arr_len a = n) arrays ->
  Forall wf_arr arrays -> Forall (fun a => (0 < a_item a)%nat) arrays ->
  bind (join_struct_arrays arrays) (fun j => separate_struct_array j (map a_item arrays)) = Ok arrays.
Proof. exact (join_separate n arrays). Qed.
Theorem c43_separate_then_join {B} (a : arr B) sizes : sizes <> [] -> a_data a <> [] -> Forall (fun s => (0 < s)%nat) sizes -> wf_arr a ->
  a_item a = nsum sizes -> bind (separate_struct_array a sizes) join_struct_arrays = Ok a.
Proof. exact (separate_join a sizes). Qed.
(** Arrays without elements can be joined but not separated again. *)
Theorem c43_empty_arrays_refuted {B} : exists arrays : list (arr B), arrays <> [] /\ Forall wf_arr arrays /\
  bind (join_struct_arrays arrays) (fun j => separate_struct_array j (map a_item arrays)) = Err ValueError.
Proof. exists [{| a_item := 8; a_data := [] |}]. split; [discriminate|]. split; [repeat constructor|reflexivity]. Qed.
Theorem c43_length_mismatch_rejected {B} (a0 : arr B) r : (exists a, In a r /\ arr_len a <> arr_len a0) -> join_struct_arrays (a0 :: r) = Err ValueError.
Proof. exact (join_mismatch a0 r). Qed.

(** Non-vacuity *)
Definition ex_factor (vals : list (list nat)) (k : nat) : domain nat :=
  {| d_item := k; d_finite := true; d_continuous := false; d_n_members := Z.of_nat (length vals); d_values := vals;
     d_example := hd [] vals; d_in := fun a => forallb (fun e => existsb (fun v => if list_eq_dec Nat.eq_dec v e then true else false) vals) (a_data a) |}.
Example c29_hypotheses : let ds := [ex_factor [[1];[2]] 1; ex_factor [[3;4];[5;6];[7;8]] 2]%nat in
  ds <> [] /\ Forall good_factor ds /\ prod_values ds = Ok [[1;3;4];[1;5;6];[1;7;8];[2;3;4];[2;5;6];[2;7;8]]%nat /\ prod_n_members ds = Some 6%Z /\
  prod_in_domain ds {| a_item := 3; a_data := [[1;3;4];[2;7;8]]%nat |} = Ok true /\ prod_in_domain ds {| a_item := 3; a_data := [[1;3;4];[3;7;8]]%nat |} = Ok false.
Proof.
  cbv zeta. split; [discriminate|]. split; [|repeat split].
  repeat constructor; cbn; repeat (constructor || (intros [H|H]; try discriminate; try (destruct H; discriminate || contradiction)) || intuition (subst; try reflexivity; try discriminate)).
Qed.
Example c43_hypotheses : let l := [ {| a_item := 1; a_data := [[1];[2]]%nat |}; {| a_item := 2; a_data := [[3;4];[5;6]]%nat |} ] in
  Forall (fun a => arr_len a = 2%nat) l /\ Forall wf_arr l /\ join_struct_arrays l = Ok {| a_item := 3; a_data := [[1;3;4];[2;5;6]]%nat |}.
Proof. repeat split; repeat constructor. Qed.
Example c30_hypotheses : md_values [] {| m_n := 2; m_k := 3 |} = Ok [[2;0;0];[1;1;0];[1;0;1];[0;2;0];[0;1;1];[0;0;2]]%Z.
Proof. reflexivity. Qed.
Example c28_hypotheses : exists d, int_domain_new (Fin (IZR (-2))) PInf = Ok d /\ id_in_domain d [PRe (Fin (IZR 7)); PRe (Fin (IZR (-2)))] = true.
Proof.
  destruct (c28_membership (Fin (IZR (-2))) PInf) as (d & E & _ & _ & H).
  - intros b [->| ->]; [right; right; now exists (-2)%Z|now left].
  - exists d. split; [exact E|]. apply H. repeat constructor; [exists 7%Z|exists (-2)%Z]; (split; [reflexivity|]); unfold xle; cbn [xleb]; split; try reflexivity; apply Rleb_true; apply IZR_le; lia.
Qed.

(** The example point belongs to the domain whenever any integer does, for every kind of bound. *)
Theorem c28_example_point mn mx d z : int_domain_new mn mx = Ok d ->
  id_in_domain d [PRe (Fin (IZR z))] = true -> id_in_domain d [PRe (Fin (IZR (id_example d)))] = true.
Proof.
  intros _. rewrite !id_in_one. intros (z' & E & H1 & H2). exists (id_example d). split; [reflexivity|].
  unfold id_example. destruct (i_min d) as [|a|], (i_max d) as [|b|]; cbn [b_le b_ge] in *; repeat split; try easy; lia.
Qed.
Example c28_example_point_case : exists d, int_domain_new NInf (Fin 5) = Ok d /\ id_example d = 5%Z /\ id_in_domain d [PRe (Fin (IZR 3))] = true.
Proof.
  exists {| i_min := ZNeg; i_max := ZFin 5 |}. split.
  - unfold int_domain_new, int_bound. change (Fin 5) with (Fin (IZR 5)). now rewrite (trunc_IZR 5).
  - split; [reflexivity|]. apply id_in_one. exists 3%Z. cbn. repeat split; lia.
Qed.

(** ** C85 Real intervals.  An array is accepted iff every entry is a real number (possibly
    infinite, never NaN or complex) between the bounds. *)
Theorem c85_membership d ps : rd_in_domain d ps = true <->
  Forall (fun p => exists x, p = PRe x /\ xle (r_min d) x /\ xle x (r_max d)) ps.
Proof.
  rewrite rd_in_all, forallb_forall, Forall_forall. split; intros H p Hp; apply rd_in_one; now apply H.
Qed.
(** NaN and complex entries are never accepted, and a NaN bound accepts nothing. *)
Theorem c85_nan_rejected d ps : (In PIm ps \/ In (PRe NaN) ps \/ (ps <> [] /\ (r_min d = NaN \/ r_max d = NaN))) -> rd_in_domain d ps = false.
Proof.
  intro H. destruct (rd_in_domain d ps) eqn:E; [|reflexivity]. exfalso. apply c85_membership in E. rewrite Forall_forall in E.
  destruct H as [H|[H|[H [Hn|Hn]]]].
  - destruct (E _ H) as (x & Ex & _). discriminate.
  - destruct (E _ H) as (x & Ex & _ & Hx). injection Ex as <-. discriminate.
  - destruct ps as [|p ps]; [easy|]. destruct (E p (or_introl eq_refl)) as (x & _ & Hx & _). rewrite Hn in Hx. destruct x; discriminate.
  - destruct ps as [|p ps]; [easy|]. destruct (E p (or_introl eq_refl)) as (x & _ & _ & Hx). rewrite Hn in Hx. destruct x; discriminate.
Qed.
(** The example point is a finite member whenever the domain has a finite member. *)
Theorem c85_example_point d x : rd_in_domain d [PRe (Fin x)] = true ->
  rd_in_domain d [PRe (rd_example d)] = true /\ exists y, rd_example d = Fin y.
Proof.
  rewrite !rd_in_one. intros (y & E & H1 & H2). injection E as <-. unfold rd_example.
  destruct (r_min d) as [a| | |] eqn:Ea, (r_max d) as [b| | |] eqn:Eb; cbn [xinf negb]; try discriminate; (split; [eexists; split; [reflexivity|]|eexists; reflexivity]);
    rewrite ?xle_Fin in *; try (split; [reflexivity || lra|reflexivity || lra]).
Qed.
(** A bound at infinity on the wrong side leaves only an infinite member, which the example misses. *)
Theorem c85_example_point_refuted : exists d, rd_in_domain d [PRe PInf] = true /\ rd_in_domain d [PRe (rd_example d)] = false.
Proof. exists {| r_min := PInf; r_max := PInf |}. split; reflexivity. Qed.
Example c85_case : rd_in_domain {| r_min := Fin 1; r_max := PInf |} [PRe (Fin 2); PRe PInf] = true /\
  rd_in_domain {| r_min := Fin 1; r_max := PInf |} [PRe (Fin 2); PRe (Fin 0)] = false.
Proof.
  split; [apply c85_membership; repeat constructor; eexists; (split; [reflexivity|]); cbn [r_min r_max]; rewrite ?xle_Fin; (split; [lra || reflexivity|reflexivity])|].
  destruct (rd_in_domain _ _) eqn:E; [|reflexivity]. apply c85_membership in E. inversion E as [|? ? _ E2]. inversion E2 as [|? ? (y & Ey & Hy & _) _]. injection Ey as <-. cbn [r_min] in Hy. rewrite xle_Fin in Hy. lra.
Qed.

Print Assumptions c28_finite_lists_each_member_once.
Print Assumptions c28_n_members.
Print Assumptions c28_n_members_reversed_refuted.
Print Assumptions c28_membership.
Print Assumptions c28_any_finite_bounds.
Print Assumptions c28_member_iff_listed.
Print Assumptions c28_fractional_bound_admits_smaller_refuted.
Print Assumptions c29_separate_arguments.
Print Assumptions c29_list_argument_refuted.
Print Assumptions c29_values_and_count.
Print Assumptions c29_empty_factor_refuted.
Print Assumptions c29_membership.
Print Assumptions c29_to_then_from.
Print Assumptions c29_from_then_to.
Print Assumptions c29_finite_continuous.
Print Assumptions c30_lists_each_count_vector_once.
Print Assumptions c30_n_members.
Print Assumptions c30_membership.
Print Assumptions c30_example_point.
Print Assumptions c43_join_then_separate.
Print Assumptions c43_separate_then_join.
Print Assumptions c43_empty_arrays_refuted.
Print Assumptions c43_length_mismatch_rejected.
Print Assumptions c28_example_point.
Print Assumptions c85_membership.
Print Assumptions c85_nan_rejected.
Print Assumptions c85_example_point.
Print Assumptions c85_example_point_refuted.
