(** The Riemann integral over [0, 1] is a uniform law. *)
From Coquelicot Require Import Coquelicot.
From Verif Require Import Base RList Sums PartSpec PartProofs ReSpec.
From Coq Require Import Reals Lra Lia List.

Definition riemann (f : R -> R) : R := RInt f 0 1.
Lemma riemann_uniform : uniform_law riemann.
Proof.
  unfold riemann.
  constructor.
  - intros f g H. apply RInt_ext. intros x. rewrite Rmin_left, Rmax_right by lra. intros Hx. apply H. lra.
  - intros w v f Hp Hf. apply is_RInt_unique.
    assert (G : forall k, (k <= length w)%nat -> is_RInt f 0 (Sum k (fun i => nth i w 0)) (Sum k (fun j => nth j w 0 * v j))).
    { induction k as [|k IH]; intros Hk; [rewrite !Sum_0; exact (is_RInt_point f 0)|]. rewrite !Sum_last.
      apply (is_RInt_Chasles f 0 (Sum k (fun i => nth i w 0)) _ (Sum k (fun j => nth j w 0 * v j)) (nth k w 0 * v k)); [apply IH; lia|].
      apply (is_RInt_ext (fun _ => v k)).
      - intros x. rewrite Rmin_left, Rmax_right by (pose proof (prob_nth_nonneg w k Hp); lra). intros Hx. symmetry. apply Hf; [lia|]. unfold in_slot. lra.
      - assert (X : nth k w 0 * v k = scal (Sum k (fun i => nth i w 0) + nth k w 0 - Sum k (fun i => nth i w 0)) (v k)) by (unfold scal; cbn; unfold mult; cbn; ring).
        rewrite X. exact (is_RInt_const _ _ (v k)). }
    specialize (G (length w) (le_n _)). now rewrite prob_Sum in G.
Qed.
