(** Properties C97 and C98: simple_est.py. *)
From Coq Require Import String.
From Verif Require Import Base RList Ext SmcModel SmcSpec SimpleModel SimpleProofs.
From Coq Require Import List.

(** ** C97: every column of the data ends in the right place *)
Definition at_arr {A} (a : arr A) (i : nat) : option A := match a with Arr0 x => if Nat.eqb i 0 then Some x else None | Arr1 l => nth_error l i end.
(** What the table holds in row [i] of a column, if anything *)
Definition cell (t : dtable) (i : nat) (c : column) : option R :=
  match t with
  | Plain2 _ rows => match nth_error rows i with Some row => nth_error row (fst c) | None => None end
  | Plain1 row => if Nat.eqb i 0 then nth_error row (fst c) else None
  | Recs names rows => match at_arr rows i with Some row => if in_dec string_dec (snd c) names then Some (row (snd c)) else None | None => None end
  end.
Definition has_row (t : dtable) (i : nat) : Prop :=
  match t with Plain2 _ rows => (i < length rows)%nat | Plain1 _ => i = 0%nat | Recs _ (Arr0 _) => i = 0%nat | Recs _ (Arr1 rows) => (i < length rows)%nat end.
Definition has_column (t : dtable) (c : column) : Prop :=
  match t with Plain2 cols _ => (fst c < cols)%nat | Plain1 row => (fst c < length row)%nat | Recs names _ => In (snd c) names end.
(** Plain arrays are rectangular. *)
Definition rectangular (t : dtable) : Prop := match t with Plain2 cols rows => Forall (fun row => length row = cols) rows | _ => True end.
Definition same_rows {A} (t : dtable) (a : arr A) : Prop := forall i, at_arr a i <> None <-> has_row t i.

Lemma existsb_names f names : existsb (String.eqb f) names = true <-> In f names.
Proof. rewrite existsb_exists. split; [intros (x & Hx & E); apply String.eqb_eq in E; now subst|intros H; exists f; split; [assumption|apply String.eqb_refl]]. Qed.
Lemma take_spec t c : rectangular t -> has_column t c -> exists v, take t c = Ok v /\ forall i, at_arr v i = cell t i c.
Proof.
  intros Hr Hc. destruct t as [cols rows|row|names rows]; cbn [take has_column rectangular] in *.
  - replace (Nat.ltb (fst c) cols) with true by (symmetry; now apply Nat.ltb_lt). eexists. split; [reflexivity|]. intros i. cbn [at_arr cell]. rewrite nth_error_map.
    destruct (nth_error rows i) as [row|] eqn:Ei; [|reflexivity]. cbn. symmetry. apply nth_error_nth'. rewrite Forall_forall in Hr. rewrite (Hr row) by (eapply nth_error_In; eassumption). assumption.
  - replace (Nat.ltb (fst c) (length row)) with true by (symmetry; now apply Nat.ltb_lt). eexists. split; [reflexivity|]. intros i. cbn [at_arr cell]. destruct (Nat.eqb i 0); [|reflexivity]. symmetry. now apply nth_error_nth'.
  - replace (existsb (String.eqb (snd c)) names) with true by (symmetry; now apply existsb_names). eexists. split; [reflexivity|]. intros i. cbn [cell]. destruct (in_dec string_dec (snd c) names) as [_|n]; [|contradiction].
    destruct rows as [row|rows]; cbn [amap at_arr]; [now destruct (Nat.eqb i 0)|]. rewrite nth_error_map. now destruct (nth_error rows i).
Qed.
Lemma take_missing t c : ~ has_column t c -> exists e, take t c = Err e.
Proof.
  intros H. destruct t as [cols rows|row|names rows]; cbn [take has_column] in *.
  - replace (Nat.ltb (fst c) cols) with false by (symmetry; apply Nat.ltb_ge; lia). eauto.
  - replace (Nat.ltb (fst c) (length row)) with false by (symmetry; apply Nat.ltb_ge; lia). eauto.
  - destruct (existsb (String.eqb (snd c)) names) eqn:E; [apply existsb_names in E; contradiction|eauto].
Qed.
Lemma cell_row t i c : rectangular t -> has_column t c -> cell t i c <> None <-> has_row t i.
Proof.
  intros Hr Hc. destruct t as [cols rows|row|names rows]; cbn [cell has_row has_column rectangular] in *.
  - rewrite <- nth_error_Some. destruct (nth_error rows i) as [row|] eqn:Ei; [|tauto]. rewrite Forall_forall in Hr. rewrite nth_error_Some. rewrite (Hr row) by (eapply nth_error_In; eassumption). split; [discriminate|tauto].
  - destruct (Nat.eqb_spec i 0) as [->|Hi]; [rewrite nth_error_Some; tauto|tauto].
  - destruct (in_dec string_dec (snd c) names) as [_|n]; [|contradiction]. destruct rows as [r|rows]; cbn [at_arr].
    + destruct (Nat.eqb_spec i 0) as [->|Hi]; [split; [reflexivity|discriminate]|tauto].
    + rewrite <- nth_error_Some. destruct (nth_error rows i); [split; discriminate|tauto].
Qed.
Lemma at_amap {A B} (f : A -> B) a i : at_arr (amap f a) i = option_map f (at_arr a i).
Proof. destruct a as [x|l]; cbn [amap at_arr]; [now destruct (Nat.eqb i 0)|apply nth_error_map]. Qed.
Lemma nth_error_map2 {A B C} (f : A -> B -> C) : forall l m i, nth_error (map2 f l m) i = match nth_error l i, nth_error m i with Some a, Some b => Some (f a b) | _, _ => None end.
Proof. induction l as [|a l IH]; intros [|b m] [|i]; cbn; try reflexivity; [now destruct (nth_error l i)|]. apply IH. Qed.
Lemma at_azip {A B C} (f : A -> B -> C) a b : (forall i, at_arr a i <> None <-> at_arr b i <> None) -> (match a, b with Arr0 _, Arr0 _ | Arr1 _, Arr1 _ => True | _, _ => False end) ->
  exists r, azip f a b = Ok r /\ (match a, r with Arr0 _, Arr0 _ | Arr1 _, Arr1 _ => True | _, _ => False end) /\ forall i, at_arr r i = match at_arr a i, at_arr b i with Some x, Some y => Some (f x y) | _, _ => None end.
Proof.
  intros H Hs. destruct a as [x|l], b as [y|m]; try contradiction; cbn [azip].
  - eexists. split; [reflexivity|]. split; [exact I|]. intros i. cbn. now destruct (Nat.eqb i 0).
  - assert (E : length l = length m).
    { destruct (Nat.lt_trichotomy (length l) (length m)) as [Hl|[Hl|Hl]]; [|assumption|]; exfalso.
      - specialize (H (length l)). cbn in H. rewrite !nth_error_Some in H. lia.
      - specialize (H (length m)). cbn in H. rewrite !nth_error_Some in H. lia. }
    rewrite E, Nat.eqb_refl. eexists. split; [reflexivity|]. split; [exact I|]. intros i. cbn. apply nth_error_map2.
Qed.

Definition shape_of {A} (a : arr A) : bool := match a with Arr0 _ => false | Arr1 _ => true end.
Lemma take_shape t c v c' v' : take t c = Ok v -> take t c' = Ok v' -> shape_of v = shape_of v'.
Proof.
  destruct t as [cols rows|row|names rows]; cbn [take]; intros H H'.
  - destruct (Nat.ltb _ _); [|discriminate]. destruct (Nat.ltb (fst c') _); [|discriminate]. now injection H as <-; injection H' as <-.
  - destruct (Nat.ltb _ _); [|discriminate]. destruct (Nat.ltb (fst c') _); [|discriminate]. now injection H as <-; injection H' as <-.
  - destruct (existsb _ _); [|discriminate]. destruct (existsb (String.eqb (snd c')) _); [|discriminate]. injection H as <-; injection H' as <-. now destruct rows.
Qed.
Lemma kind_In fs f k : NoDup (map fst fs) -> In (f, k) fs -> kind_of fs f = Some k.
Proof.
  unfold kind_of. induction fs as [|[g k'] fs IH]; intros ND Hi; [contradiction|]. cbn [find fst]. inversion ND as [|? ? Hn ND']; subst. destruct Hi as [E|Hi].
  - injection E as -> ->. now rewrite String.eqb_refl.
  - destruct (String.eqb_spec g f) as [->|Hg]; [|now apply IH]. exfalso. apply Hn. change f with (fst (f, k)). now apply in_map.
Qed.
Lemma field_put f v g e : field g (put f v (EFieldsOf e)) = if String.eqb g f then v else e g.
Proof. reflexivity. Qed.

(** The loop over the dictionary *)
Lemma set_fields_spec t fs c0 v0 : rectangular t -> NoDup (map fst fs) -> has_column t c0 -> take t c0 = Ok v0 -> forall l ep,
  (forall f c, In (f, c) l -> has_column t c /\ In f (map fst fs)) -> NoDup (map fst l) ->
  shape_of ep = shape_of v0 -> same_rows t ep -> (forall i e, at_arr ep i = Some e -> exists g, e = EFieldsOf g) ->
  exists ep', set_fields (EFields fs) t l ep = Ok ep' /\ shape_of ep' = shape_of v0 /\ same_rows t ep' /\
    forall i e, at_arr ep i = Some e -> exists e', at_arr ep' i = Some e' /\ (exists g, e' = EFieldsOf g) /\
      (forall f c k, In (f, c) l -> In (f, k) fs -> exists x, cell t i c = Some x /\ field f e' = cast k x) /\
      (forall f, ~ In f (map fst l) -> field f e' = field f e).
Proof.
  intros Hr NDf Hc0 H0. induction l as [|[f c] l IH]; intros ep Hl ND Hsh Hrow Hg.
  - exists ep. split; [reflexivity|]. split; [assumption|]. split; [assumption|]. intros i e He. exists e. split; [assumption|]. split; [eauto|]. split; [contradiction|reflexivity].
  - cbn [set_fields]. destruct (Hl f c (or_introl eq_refl)) as [Hc Hf]. destruct (take_spec t c Hr Hc) as (v & Hv & Hcell). apply in_map_iff in Hf. destruct Hf as ([f' k] & Ef & Hk). cbn in Ef. subst f'.
    unfold set_field. rewrite Hv. cbn [bind]. rewrite (kind_In fs f k NDf Hk).
    assert (Hdom : forall i, at_arr ep i <> None <-> at_arr v i <> None) by (intros i; rewrite Hcell, (Hrow i); symmetry; now apply cell_row).
    pose proof (take_shape t c v c0 v0 Hv H0) as Hsv.
    destruct (at_azip (fun e x => put f (cast k x) e) ep v Hdom) as (ep1 & E1 & Hs1 & Hat1).
    { destruct ep, v, v0; cbn in *; try exact I; discriminate. }
    rewrite E1. cbn [bind]. inversion ND as [|? ? Hnf ND']; subst.
    destruct (IH ep1) as (ep' & E' & Hs' & Hr' & Hat').
    + intros g d Hi. apply Hl. now right.
    + assumption.
    + destruct ep, ep1, v0; cbn in *; auto; contradiction.
    + intros i. rewrite Hat1. specialize (Hdom i). rewrite <- (Hrow i). destruct (at_arr ep i); [|tauto]. destruct (at_arr v i); [split; discriminate|]. split; [tauto|]. intros _. exfalso. apply (proj1 Hdom); [discriminate|reflexivity].
    + intros i e He. rewrite Hat1 in He. destruct (at_arr ep i) as [e0|] eqn:E0; [|discriminate]. destruct (at_arr v i) as [x|]; [|discriminate]. injection He as <-. destruct (Hg i e0 E0) as (g & ->). cbn. eauto.
    + exists ep'. split; [assumption|]. split; [assumption|]. split; [assumption|]. intros i e He. specialize (Hat1 i). rewrite He in Hat1.
      destruct (at_arr v i) as [x|] eqn:Ex; [|exfalso; apply (proj1 (Hdom i)); [now rewrite He|assumption]].
      destruct (Hat' i _ Hat1) as (e' & He' & Hg' & Hin & Hout). destruct (Hg i e He) as (g & ->). exists e'. split; [assumption|]. split; [assumption|]. split.
      * intros f1 c1 k1 [E|Hi] Hk1.
        -- injection E as <- <-. exists x. split; [now rewrite <- Hcell|]. rewrite Hout by assumption. rewrite field_put, String.eqb_refl. f_equal.
           pose proof (kind_In fs f k NDf Hk). pose proof (kind_In fs f k1 NDf Hk1). congruence.
        -- apply (Hin f1 c1 k1 Hi Hk1).
      * intros f1 Hn1. cbn in Hn1. rewrite Hout by tauto. rewrite field_put. destruct (String.eqb_spec f1 f) as [->|]; [tauto|reflexivity].
Qed.

Theorem c97_routing t fs c0 l junk : rectangular t -> NoDup (map fst fs) -> NoDup (map fst l) ->
  has_column t c0 -> (forall f c, In (f, c) l -> has_column t c /\ In f (map fst fs)) ->
  exists os es, data_to_params t (EFields fs) c0 (CDict l) (EFieldsOf junk) = Ok (os, es) /\ same_rows t os /\ same_rows t es /\
    forall i, has_row t i -> exists x e, cell t i c0 = Some x /\ at_arr os i = Some (trunc x) /\ at_arr es i = Some e /\
      (forall f c k, In (f, c) l -> In (f, k) fs -> exists y, cell t i c = Some y /\ field f e = cast k y) /\
      (forall f, ~ In f (map fst l) -> field f e = junk f).
Proof.
  intros Hr NDf NDl Hc0 Hl. destruct (take_spec t c0 Hr Hc0) as (v & Hv & Hcell). unfold data_to_params. rewrite Hv. cbn [bind issctype].
  assert (R1 : same_rows t v) by (intros i; rewrite Hcell; now apply cell_row).
  destruct (set_fields_spec t fs c0 v Hr NDf Hc0 Hv l (amap (fun _ => EFieldsOf junk) v) Hl NDl) as (es & E & _ & Hse & Hat).
  - now destruct v.
  - intros i. rewrite at_amap, <- (R1 i). destruct (at_arr v i); cbn; split; congruence.
  - intros i e He. rewrite at_amap in He. destruct (at_arr v i); [|discriminate]. injection He as <-. eauto.
  - rewrite E. cbn [bind]. eexists _, _. split; [reflexivity|]. split; [intros i; rewrite at_amap, <- (R1 i); destruct (at_arr v i); cbn; split; congruence|]. split; [assumption|].
    intros i Hi. apply R1 in Hi. destruct (at_arr v i) as [x|] eqn:Ex; [|tauto]. destruct (Hat i (EFieldsOf junk)) as (e & He & _ & Hin & Hout); [now rewrite at_amap, Ex|].
    exists x, e. split; [now rewrite <- Hcell|]. split; [now rewrite at_amap, Ex|]. split; [assumption|]. split; [assumption|]. intros f Hf. now rewrite Hout.
Qed.
(** A column that is not there, or a field the model does not have, is reported. *)
Theorem c97_missing_is_an_error t d c0 l junk : (~ has_column t c0 \/ exists f c, In (f, c) l /\ ~ has_column t c) ->
  exists e, data_to_params t d c0 (CDict l) junk = Err e.
Proof.
  intros H. unfold data_to_params. destruct (take t c0) as [v|e] eqn:Ev; [|cbn; eauto]. destruct H as [H|(f & c & Hi & H)]; [destruct (take_missing t c0 H); congruence|]. cbn [bind].
  destruct (issctype d); [cbn; eauto|]. assert (G : forall l ep, In (f, c) l -> exists e, set_fields d t l ep = Err e).
  { clear l Hi. induction l as [|[g c'] l IH]; intros ep Hi; [contradiction|]. cbn [set_fields]. destruct Hi as [E|Hi].
    - injection E as -> ->. unfold set_field. destruct (take_missing t c H) as (e & ->). cbn. eauto.
    - destruct (set_field d t g c' ep); cbn; [now apply IH|eauto]. }
  destruct (G l (amap (fun _ => junk) v) Hi) as (e & ->). cbn. eauto.
Qed.
Theorem c97_unknown_field_is_an_error t fs c0 l junk f : In f (map fst l) -> ~ In f (map fst fs) ->
  exists e, data_to_params t (EFields fs) c0 (CDict l) junk = Err e.
Proof.
  intros Hi Hn. unfold data_to_params. destruct (take t c0) as [v|e] eqn:Ev; [|cbn; eauto]. cbn [bind issctype].
  assert (Hk : kind_of fs f = None). { unfold kind_of. destruct (find _ fs) as [[g k]|] eqn:Ef; [|reflexivity]. apply find_some in Ef. destruct Ef as [Hin E]. cbn in E. apply String.eqb_eq in E. subst g. exfalso. apply Hn. change f with (fst (f, k)). now apply in_map. }
  assert (G : forall l ep, In f (map fst l) -> exists e, set_fields (EFields fs) t l ep = Err e).
  { clear l Hi. induction l as [|[g c'] l IH]; intros ep Hi; [contradiction|]. cbn [set_fields]. cbn in Hi. destruct Hi as [E|Hi].
    - subst g. unfold set_field. rewrite Hk. destruct (take t c'); cbn; eauto.
    - destruct (set_field (EFields fs) t g c' ep); cbn; [now apply IH|eauto]. }
  destruct (G l (amap (fun _ => junk) v) Hi) as (e & ->). cbn. eauto.
Qed.

(** A plain array and a record array with the same contents give the same experiments. *)
Lemma by_name_nth names cells i f : NoDup names -> nth_error names i = Some f -> length cells = length names -> by_name names cells f = nth i cells 0.
Proof.
  revert cells i. induction names as [|n names IH]; intros [|x cells] [|i] ND Hi Hl; try discriminate; cbn in *.
  - injection Hi as <-. now rewrite String.eqb_refl.
  - inversion ND as [|? ? Hn ND']; subst. destruct (String.eqb_spec f n) as [->|_]; [exfalso; apply Hn; eapply nth_error_In; eassumption|]. apply IH; auto.
Qed.
Theorem c97_positions_and_names_agree names rows c0 l fs junk : NoDup names -> Forall (fun r => length r = length names) rows ->
  nth_error names (fst c0) = Some (snd c0) -> (forall f c, In (f, c) l -> nth_error names (fst c) = Some (snd c)) ->
  data_to_params (Plain2 (length names) rows) (EFields fs) c0 (CDict l) junk = data_to_params (Recs names (Arr1 (map (by_name names) rows))) (EFields fs) c0 (CDict l) junk.
Proof.
  intros ND Hr H0 Hl.
  assert (T : forall c, nth_error names (fst c) = Some (snd c) -> take (Plain2 (length names) rows) c = take (Recs names (Arr1 (map (by_name names) rows))) c).
  { intros c Hc. cbn [take]. replace (Nat.ltb (fst c) (length names)) with true by (symmetry; apply Nat.ltb_lt; apply nth_error_Some; congruence).
    replace (existsb (String.eqb (snd c)) names) with true by (symmetry; apply existsb_names; eapply nth_error_In; eassumption). cbn [amap]. rewrite map_map. do 2 f_equal. apply map_ext_in. intros r Hi.
    rewrite Forall_forall in Hr. symmetry. apply by_name_nth; auto. }
  unfold data_to_params. rewrite (T c0 H0). destruct (take _ c0) as [v|e]; [|reflexivity]. cbn [bind issctype].
  assert (G : forall l ep, (forall f c, In (f, c) l -> nth_error names (fst c) = Some (snd c)) -> set_fields (EFields fs) (Plain2 (length names) rows) l ep = set_fields (EFields fs) (Recs names (Arr1 (map (by_name names) rows))) l ep).
  { clear l Hl. induction l as [|[f c] l IH]; intros ep Hl; [reflexivity|]. cbn [set_fields]. unfold set_field. rewrite (T c) by (apply (Hl f); now left). destruct (bind (take _ c) _); [|reflexivity]. cbn [bind]. apply IH. intros g d Hi. apply (Hl g). now right. }
  now rewrite G.
Qed.

(** Casting: integers are kept; other numbers lose their fraction, towards zero. *)
Lemma Int_part_IZR z : Int_part (IZR z) = z.
Proof. destruct (base_Int_part (IZR z)) as [H1 H2]. apply le_IZR in H1. assert (z - 1 < Int_part (IZR z))%Z by (apply lt_IZR; rewrite minus_IZR; lra). lia. Qed.
Theorem c97_counts_are_kept z : trunc (IZR z) = z.
Proof. unfold trunc. rb; [apply Int_part_IZR|]. rewrite <- opp_IZR, Int_part_IZR. lia. Qed.
Theorem c97_numbers_are_kept n b x : cast KUInt (INR n) = VUInt n /\ cast KBool (if b : bool then 1 else 0) = VBool b /\ cast KFloat x = VFloat x.
Proof.
  split; [|split].
  - cbn. rewrite INR_IZR_INZ, c97_counts_are_kept. f_equal. apply Nat2Z.id.
  - cbn. f_equal. destruct b; unfold Reqb; destruct (Req_EM_T _ _); cbn; try reflexivity; lra.
  - reflexivity.
Qed.
Theorem c97_fractions_are_dropped x : Rabs (IZR (trunc x)) <= Rabs x < Rabs (IZR (trunc x)) + 1 /\ 0 <= IZR (trunc x) * x.
Proof.
  unfold trunc. rb.
  - destruct (base_Int_part x) as [H1 H2]. assert (0 <= IZR (Int_part x)). { apply IZR_le. apply (Zlt_succ_le 0). unfold Z.succ. apply lt_IZR. rewrite plus_IZR. lra. }
    rewrite !Rabs_pos_eq by lra. split; [lra|]. now apply Rmult_le_pos.
  - destruct (base_Int_part (- x)) as [H1 H2]. assert (0 <= IZR (Int_part (- x))). { apply IZR_le. apply (Zlt_succ_le 0). unfold Z.succ. apply lt_IZR. rewrite plus_IZR. lra. }
    rewrite opp_IZR, Rabs_Ropp, (Rabs_left x) by lra. rewrite Rabs_pos_eq by assumption. split; [lra|]. nra.
Qed.
(** A type object is handled: one column becomes the whole experiment. *)
Theorem c97_scalar_types k cols rows c0 c junk : (fst c0 < cols)%nat -> (fst c < cols)%nat ->
  data_to_params (Plain2 cols rows) (EType k) c0 (CCol c) junk = Ok (Arr1 (map (fun row => trunc (nth (fst c0) row 0)) rows), Arr1 (map (fun row => EScalar (cast k (nth (fst c) row 0))) rows)).
Proof.
  intros H0 H. unfold data_to_params. cbn [take]. replace (Nat.ltb (fst c0) cols) with true by (symmetry; now apply Nat.ltb_lt). replace (Nat.ltb (fst c) cols) with true by (symmetry; now apply Nat.ltb_lt). cbn. now rewrite !map_map.
Qed.
(** But not in the form the models of this package use for it, a string such as 'float': every single-column call fails. *)
Theorem c97_string_dtype_refuted k t c0 c junk os es : data_to_params t (EName k) c0 (CCol c) junk <> Ok (os, es).
Proof. unfold data_to_params. destruct (take t c0); cbn; discriminate. Qed.
(** Nor are fields accepted once they are an np.dtype rather than a list. *)
Theorem c97_record_dtype_refuted fs t c0 l junk os es : data_to_params t (ERecord fs) c0 (CDict l) junk <> Ok (os, es).
Proof. unfold data_to_params. destruct (take t c0); cbn; discriminate. Qed.
Example c97_example : let t := Plain2 3 [[2; 1/2; 5]; [3; 1; 6]] in
  rectangular t /\ has_column t counts_col /\ (forall f c, In (f, c) [("x", (1%nat, "t")); ("n_meas", (2%nat, "n_shots"))]%string -> has_column t c /\ In f ["x"; "n_meas"]%string) /\
  exists os es e, data_to_params t prec_dtype counts_col prec_cols (EScalar (VUInt 0)) = Ok (os, es) /\ os = Arr1 [trunc 2; trunc 3] /\ at_arr es 1 = Some e.
Proof.
  cbv zeta. split; [repeat constructor|]. split; [cbn; lia|]. split.
  - intros f c [E|[E|[]]]; injection E as <- <-; cbn; split; (lia || tauto).
  - eexists _, _, _. split; [reflexivity|]. split; reflexivity.
Qed.
Print Assumptions c97_routing.
Print Assumptions c97_missing_is_an_error.
Print Assumptions c97_unknown_field_is_an_error.
Print Assumptions c97_positions_and_names_agree.
Print Assumptions c97_counts_are_kept.
Print Assumptions c97_numbers_are_kept.
Print Assumptions c97_fractions_are_dropped.
Print Assumptions c97_scalar_types.
Print Assumptions c97_string_dtype_refuted.
Print Assumptions c97_record_dtype_refuted.
