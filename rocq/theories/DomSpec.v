(** Specification vocabulary for domains and structured arrays. *)
From Verif Require Import Base Ext DomModel.

(** Every element occupies exactly the itemsize. *)
Definition wf_arr {B} (a : arr B) : Prop := Forall (fun e => length e = a_item a) (a_data a).
Definition arr_len {B} (a : arr B) : nat := length (a_data a).

(** [p] is a point of the Cartesian product of the listed sets: a concatenation of one member of each. *)
Inductive in_product {B} : list (list (list B)) -> list B -> Prop :=
| ip_nil : in_product [] []
| ip_cons x p l ls : In x l -> in_product ls p -> in_product (l :: ls) (x ++ p).

(** A finite factor domain: itemsize positive, all values have that size, and n_members counts them. *)
Definition good_factor {B} (d : domain B) : Prop :=
  (0 < d_item d)%nat /\ d_finite d = true /\ NoDup (d_values d) /\ d_n_members d = Z.of_nat (length (d_values d)) /\
  (forall v, In v (d_values d) -> length v = d_item d) /\ length (d_example d) = d_item d.
