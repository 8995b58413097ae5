(** C79, continued: the marginal values are difference quotients of the interpolated distribution function. *)
From Verif Require Import Base RList Ext Sums SmcModel PartModel PartSpec RoModel RoSpec RoProofs3.

(** Every returned value is pinned down: central differences inside, one-sided at the ends, of the piecewise linear
    interpolant [F] of the distribution function of the particles. *)
Theorem c79_pointwise s w (l : list loc) idx n rmin rmax a b :
  prob_vector w -> length l = length w -> argsorts s (col idx l) -> (2 <= n)%nat ->
  endpoint rmin (is_min (length w) (coord l idx)) a -> endpoint rmax (is_max (length w) (coord l idx)) b -> a < b ->
  (forall i, (i < length w)%nat -> coord l idx i <= b + (b - a)) ->
  let h := (b - a) / INR (n - 1) in
  exists ps pr F, posterior_marginal s w l idx n rmin rmax = Ok (ps, map Fin pr) /\ length ps = n /\ length pr = n /\
    (forall i, (i < n)%nat -> nth i ps 0 = a + INR i * h) /\
    nth 0 pr 0 = (F (nth 1 ps 0) - F (nth 0 ps 0)) / h /\
    nth (n - 1) pr 0 = (F (nth (n - 1) ps 0) - F (nth (n - 2) ps 0)) / h /\
    (forall i, (0 < i < n - 1)%nat -> nth i pr 0 = (F (nth (i + 1) ps 0) - F (nth (i - 1) ps 0)) / (2 * h)) /\
    (forall x, (forall i, (i < length w)%nat -> x < coord l idx i) -> F x = 0) /\
    (forall x, (forall i, (i < length w)%nat -> coord l idx i <= x) -> x <= b -> F x = 1) /\
    (forall i, (i < length w)%nat -> coord l idx i <= b -> F (coord l idx i) = cdf w l idx (coord l idx i)) /\
    ((forall i j, (i < length w)%nat -> (j < length w)%nat -> coord l idx i = coord l idx j -> i = j) ->
     forall i j x, (i < length w)%nat -> (j < length w)%nat -> coord l idx i <= x <= coord l idx j -> coord l idx i < coord l idx j ->
       (forall k, (k < length w)%nat -> coord l idx k <= coord l idx i \/ coord l idx j <= coord l idx k) ->
       F x = cdf w l idx (coord l idx i) + (x - coord l idx i) / (coord l idx j - coord l idx i) * (cdf w l idx (coord l idx j) - cdf w l idx (coord l idx i))).
Proof. exact (marginal_pointwise s w l idx n rmin rmax a b). Qed.
(** Neighbouring particles at 1 and 2 as the theorem asks for them *)
Example c79_pointwise_example : let l := [[2]; [1]; [4]] in
  prob_vector [1/4; 1/2; 1/4] /\ argsorts [1%nat; 0%nat; 2%nat] (col 0 l) /\
  (forall i, (i < 3)%nat -> coord l 0 i <= 3 + (3 - 0)) /\
  (forall i j, (i < 3)%nat -> (j < 3)%nat -> coord l 0 i = coord l 0 j -> i = j) /\
  coord l 0 1 < coord l 0 0 /\ (forall k, (k < 3)%nat -> coord l 0 k <= coord l 0 1 \/ coord l 0 0 <= coord l 0 k).
Proof.
  cbv zeta. refine (conj _ (conj _ (conj _ (conj _ (conj _ _))))).
  - split; [repeat constructor; lra|unfold rsum; cbn; lra].
  - split; [cbn; apply perm_swap|]. intros [|[|[|x]]] [|[|[|y]]] H; cbn in *; lra || lia.
  - intros [|[|[|i]]] Hi; cbn; lra || lia.
  - intros [|[|[|i]]] [|[|[|j]]] Hi Hj H; cbn in H; try reflexivity; try lia; lra.
  - cbn. lra.
  - intros [|[|[|i]]] Hi; cbn; lra || lia.
Qed.
Print Assumptions c79_pointwise.
