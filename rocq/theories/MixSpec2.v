(** Specification vocabulary for mixtures of any components: distributions that draw their rows one by one, and laws of independent rows. *)
From Verif Require Import Base Ext Sums DerSpec SmcModel LwModel DistModel.
From Coq Require Import List.

(** What one row of a sample is made from, by branch of the source *)
Record row_draws := { r_unif : nat -> R; r_gauss : nat -> R; r_raw : R; r_row : nat -> list R }.
Definition row_source := list nat -> row_draws.
Definition no_draws : row_source := fun _ => {| r_unif := fun _ => 0; r_gauss := fun _ => 0; r_raw := 0; r_row := fun _ => [] |}.
(** The source that makes row i from the i-th of the given draws *)
Definition feed (xs : list row_source) : source := fun p =>
  {| unif := fun i => r_unif (nth i xs no_draws p); gauss := fun i => r_gauss (nth i xs no_draws p); raw := fun i => r_raw (nth i xs no_draws p);
     rawrow := fun d i => r_row (nth i xs no_draws p) d; bits := fun _ => 0%nat; DistModel.counts := fun _ _ => []; shuffled := fun n => seq 0 n |}.
(** A distribution draws its rows one by one if every row of a sample is the same function of the draws for that row. *)
Definition one_by_one (f : dist) (d : nat) (row : row_source -> list ext) : Prop :=
  forall xs, xs <> [] -> sample f (length xs) (feed xs) = Ok (A2 d (map row xs)).

(** The source of a mixture: multinomial counts of the record [s], shuffle in the order [o], and the draws [xs] for the rows of the components, one component
    after the other *)
Fixpoint cut {X} (ns : list nat) (xs : list X) : list (list X) := match ns with [] => [] | m :: r => firstn m xs :: cut r (skipn m xs) end.
Definition mixture_source (K : nat) (s o : list nat) (xs : list row_source) : source := fun p =>
  match p with
  | [] => {| unif := unif (feed xs []); gauss := gauss (feed xs []); raw := raw (feed xs []); rawrow := rawrow (feed xs []); bits := fun _ => 0%nat;
             DistModel.counts := fun _ _ => DerSpec.counts K s; shuffled := fun _ => o |}
  | k :: p => feed (nth k (cut (DerSpec.counts K s) xs) []) p
  end.

(** A law with finitely many values; the expectation of a function of independent draws, the i-th from the law [mu] of the i-th label *)
Definition law (X : Type) := list (R * X).
Definition mean_under {X} (mu : law X) (f : X -> R) : R := SumL mu (fun a => fst a * f (snd a)).
Fixpoint independent {X} (mu : nat -> law X) (labels : list nat) (F : list X -> R) : R :=
  match labels with
  | [] => F []
  | k :: r => mean_under (mu k) (fun x => independent mu r (fun xs => F (x :: xs)))
  end.
(** Labels in the order of the components: [m] times 0, ... *)
Fixpoint in_order (k : nat) (ns : list nat) : list nat := match ns with [] => [] | m :: r => repeat k m ++ in_order (S k) r end.
