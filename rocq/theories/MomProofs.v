From Verif Require Import Base RList Sums LinProofs MomSpec.

Lemma mean_of_expectation {W} (ws : list W) : ws <> [] -> expectation (mean_of ws).
Proof.
  intro H. assert (Hn : INR (length ws) <> 0). { apply not_0_INR. destruct ws; [easy|discriminate]. }
  constructor; unfold mean_of.
  - assert (rsum (map (fun _ : W => 1) ws) = INR (length ws)) as ->; [|now field].
    clear. induction ws as [|a ws IH]; [reflexivity|]. cbn [map length]. rewrite rsum_cons, IH, S_INR. ring.
  - intros f g. assert (rsum (map (fun w => f w + g w) ws) = rsum (map f ws) + rsum (map g ws)) as ->; [|now field].
    clear. induction ws as [|a ws IH]; [rewrite ?rsum_nil; cbn; unfold rsum; cbn; ring|]. cbn [map]. rewrite !rsum_cons, IH. ring.
  - intros c f. rewrite rsum_map_scal. now field.
  - intros f g E. f_equal. f_equal. now apply map_ext.
Qed.

Section Ex.
Context {W : Type} (Ex : (W -> R) -> R) (HE : expectation Ex).
Lemma ex_const c : Ex (fun _ => c) = c.
Proof. rewrite (ex_ext _ HE _ (fun _ => c * 1)) by (intros; ring). rewrite (ex_scal _ HE c (fun _ => 1)), (ex_one _ HE). ring. Qed.
Lemma ex_zero : Ex (fun _ => 0) = 0. Proof. apply ex_const. Qed.
Lemma ex_affine a b f : Ex (fun w => a + b * f w) = a + b * Ex f.
Proof. rewrite (ex_add _ HE (fun _ => a) (fun w => b * f w)), ex_const, (ex_scal _ HE). reflexivity. Qed.
Lemma ex_sub f g : Ex (fun w => f w - g w) = Ex f - Ex g.
Proof. rewrite (ex_ext _ HE _ (fun w => f w + -1 * g w)) by (intros; ring). rewrite (ex_add _ HE f (fun w => -1 * g w)), (ex_scal _ HE). ring. Qed.
Lemma ex_Sum n f : Ex (fun w => Sum n (fun k => f k w)) = Sum n (fun k => Ex (f k)).
Proof.
  revert f. induction n as [|n IH]; intro f; [apply ex_zero|]. rewrite Sum_S, <- (IH (fun k => f (S k))), <- (ex_add _ HE).
  apply (ex_ext _ HE). intro w. now rewrite Sum_S.
Qed.
Lemma cov_moments f g : Cov Ex f g = Ex (fun w => f w * g w) - Ex f * Ex g.
Proof.
  unfold Cov. set (a := Ex f) in *. set (b := Ex g) in *. rewrite (ex_ext _ HE _ (fun w => (f w * g w - b * f w) + (a * b + - a * g w))) by (intros; ring).
  rewrite (ex_add _ HE), ex_affine, ex_sub, (ex_scal _ HE). unfold a, b. ring.
Qed.

(** A linear image of standardised variates *)
Lemma linear_mean n z a : standardised Ex n z -> Ex (fun w => Sum n (fun k => a k * z k w)) = 0.
Proof. intros [H1 _]. rewrite (ex_Sum n (fun k w => a k * z k w)). apply Sum_zero. intros i Hi. now rewrite (ex_scal _ HE), H1, Rmult_0_r. Qed.
Lemma linear_product n z a b : standardised Ex n z -> Ex (fun w => Sum n (fun k => a k * z k w) * Sum n (fun k => b k * z k w)) = Sum n (fun k => a k * b k).
Proof.
  intros [_ H2]. rewrite (ex_ext _ HE _ (fun w => Sum n (fun i => Sum n (fun j => a i * b j * (z i w * z j w))))).
  2:{ intro w. rewrite Sum_prod. apply Sum_ext. intros i _. apply Sum_ext. intros j _. ring. }
  rewrite (ex_Sum n (fun i w => Sum n (fun j => a i * b j * (z i w * z j w)))). apply Sum_ext. intros i Hi.
  rewrite (ex_Sum n (fun j w => a i * b j * (z i w * z j w))). rewrite (Sum_single n i); [|assumption|].
  2:{ intros j Hj Hne. rewrite (ex_scal _ HE), H2 by assumption. destruct (Nat.eqb_spec i j); [congruence|ring]. }
  rewrite (ex_scal _ HE), H2, Nat.eqb_refl by assumption. ring.
Qed.
End Ex.
