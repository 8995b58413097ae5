(** Model of src/qinfer/domains.py and of join_struct_arrays / separate_struct_array
    (src/qinfer/utils.py:551-591). *)
From Verif Require Import Base Ext.

(** ** Integer and real domains *)

(** A bound of an integer domain: [_min], [_max] are ints, or +-inf. *)
Inductive zbound := ZNeg | ZFin (z : Z) | ZPos.
(** Points handed to in_domain: real floats (or ints), or numbers with an imaginary part. *)
Inductive pt := PRe (x : ext) | PIm.

(** Python's [int(x)]: rounds towards zero. *)
Definition trunc (x : R) : Z := if Rltb x 0 then Z.opp (Int_part (- x)) else Int_part x.
Definition is_inf (b : zbound) : bool := match b with ZFin _ => false | _ => true end.
Definition b2x (b : zbound) : ext := match b with ZNeg => NInf | ZFin z => Fin (IZR z) | ZPos => PInf end.

(** domains.py:442-444: [int(min) if not np.isinf(min) else min]; [int(nan)] raises ValueError. *)
Definition int_bound (b : ext) : res zbound :=
  match b with
  | PInf => Ok ZPos
  | NInf => Ok ZNeg
  | Fin x => Ok (ZFin (trunc x))
  | NaN => Err ValueError
  end.
Record int_domain := { i_min : zbound; i_max : zbound }.
(** 442-444, [IntegerDomain.__init__] *)
Definition int_domain_new (mn mx : ext) : res int_domain :=
  bind (int_bound mn) (fun a => bind (int_bound mx) (fun b => Ok {| i_min := a; i_max := b |})).
(** 477-483, [is_finite] *)
Definition id_is_finite (d : int_domain) : bool := negb (is_inf (i_min d)) && negb (is_inf (i_max d)).
(** 494-505, [n_members]; [None] stands for np.inf *)
Definition id_n_members (d : int_domain) : option Z :=
  match i_min d, i_max d with
  | ZFin a, ZFin b => Some (b - a + 1)%Z
  | _, _ => None
  end.
(** 507-521, [example_point] *)
Definition id_example (d : int_domain) : Z :=
  match i_min d, i_max d with
  | ZFin a, _ => a
  | _, ZFin b => b
  | _, _ => 0%Z
  end.
(** [np.arange(a, b)] on integers *)
Definition arange (a b : Z) : list Z := map (fun i => (a + Z.of_nat i)%Z) (seq 0 (Z.to_nat (b - a))).
(** 523-536, [values] *)
Definition id_values (d : int_domain) : list Z :=
  match i_min d, i_max d with
  | ZFin a, ZFin b => arange a (b + 1)
  | _, _ => [id_example d]
  end.
(** [np.isreal] *)
Definition isreal (p : pt) : bool := match p with PRe _ => true | PIm => false end.
(** [np.mod(p, 1) == 0]; the remainder of an infinity or NaN is NaN *)
Definition integral (p : pt) : bool := match p with PRe (Fin x) => Reqb (IZR (Int_part x)) x | _ => false end.
Definition ge (p : pt) (b : ext) : bool := match p with PRe x => xleb b x | PIm => false end.
Definition le (p : pt) (b : ext) : bool := match p with PRe x => xleb x b | PIm => false end.
(** 540-556, [in_domain] *)
Definition id_in_domain (d : int_domain) (ps : list pt) : bool :=
  if forallb isreal ps then
    forallb integral ps && forallb (fun p => ge p (b2x (i_min d))) ps && forallb (fun p => le p (b2x (i_max d))) ps
  else false.

(** 307-422, RealDomain; [_min] and [_max] are kept as given *)
Record real_domain := { r_min : ext; r_max : ext }.
Definition xinf (b : ext) : bool := match b with PInf | NInf => true | _ => false end.
(** 377-392, [example_point] *)
Definition rd_example (d : real_domain) : ext :=
  if negb (xinf (r_min d)) then r_min d else if negb (xinf (r_max d)) then r_max d else Fin 0.
(** 407-422, [in_domain] *)
Definition rd_in_domain (d : real_domain) (ps : list pt) : bool :=
  if forallb isreal ps then
    forallb (fun p => ge p (r_min d)) ps && forallb (fun p => le p (r_max d)) ps
  else false.

(** ** Multinomial domains *)

(** [itertools.combinations_with_replacement(l, n)], in its order *)
Fixpoint cwr {A} (l : list A) : nat -> list (list A) :=
  match l with
  | [] => fun n => match n with 0%nat => [[]] | S _ => [] end
  | x :: r => fix go n := match n with
                          | 0%nat => [[]]
                          | S n' => map (cons x) (go n') ++ cwr r (S n')
                          end
  end.
(** [scipy.special.binom] on natural numbers, taken to be exact (Pascal's rule) *)
Fixpoint binom (n k : nat) : nat :=
  match n, k with
  | _, 0%nat => 1%nat
  | 0%nat, S _ => 0%nat
  | S n', S k' => (binom n' k' + binom n' (S k'))%nat
  end.
(** row [i] of [np.identity(k, dtype=int)] *)
Definition unit_row (k i : nat) : list Z := map (fun j => if Nat.eqb i j then 1%Z else 0%Z) (seq 0 k).
Definition masks (k : nat) : list (list Z) := map (unit_row k) (seq 0 k).
(** Python's [sum(c)] over a tuple of rows, assigned to a row of length k (0 broadcasts) *)
Definition sum_rows (k : nat) (c : list (list Z)) : list Z := fold_left (map2 Z.add) c (repeat 0%Z k).

Record mult_domain := { m_n : nat; m_k : nat }.
(** 612-621, [n_members] *)
Definition md_n_members (d : mult_domain) : nat := binom (m_n d + m_k d - 1) (m_k d - 1).
(** 623-632, [example_point] *)
Definition md_example (d : mult_domain) : list Z := Z.of_nat (m_n d) :: repeat 0%Z (m_k d - 1).
(** 634-653, [values]: rows are stored into an array of n_members rows (writing past the end is
    an IndexError, rows never written keep arbitrary contents [junk]) *)
Definition md_values (junk : list Z) (d : mult_domain) : res (list (list Z)) :=
  let rows := map (sum_rows (m_k d)) (cwr (masks (m_k d)) (m_n d)) in
  if Nat.leb (length rows) (md_n_members d)
  then Ok (rows ++ repeat junk (md_n_members d - length rows))
  else Err IndexError.
Definition zsum (l : list Z) : Z := fold_right Z.add 0%Z l.
(** 685-700, [in_domain]; each point is a row of k integers *)
Definition md_in_domain (d : mult_domain) (ps : list (list Z)) : bool :=
  forallb (fun p => forallb (fun x => Z.leb 0 x) p) ps && forallb (fun p => Z.eqb (zsum p) (Z.of_nat (m_n d))) ps.

(** ** Structured arrays as arrays of byte strings *)
Section Bytes.
Context {B : Type}.

(** A (flattened) array: itemsize, and the bytes of every element. *)
Record arr := { a_item : nat; a_data : list (list B) }.
Definition nsum (l : list nat) : nat := fold_right Nat.add 0%nat l.

(** utils.py:551-567, join_struct_arrays.  [arrays[0]] fails on an empty list; reshaping to the
    first array's shape fails when sizes differ.  The result is one-dimensional. *)
Definition join_struct_arrays (arrays : list arr) : res arr :=
  match arrays with
  | [] => Err IndexError
  | a0 :: _ =>
      let n := length (a_data a0) in
      if forallb (fun a => Nat.eqb (length (a_data a)) n) arrays
      then Ok {| a_item := nsum (map a_item arrays);
                 a_data := map (fun i => concat (map (fun a => nth i (a_data a) []) arrays)) (seq 0 n) |}
      else Err ValueError
  end.

(** [x.view(dtype)] on a flat byte array, dtype of itemsize [size] *)
Fixpoint chunks (size k : nat) (l : list B) : list (list B) :=
  match k with 0%nat => [] | S k' => firstn size l :: chunks size k' (skipn size l) end.
Definition view (size : nat) (l : list B) : res arr :=
  if Nat.eqb size 0 then Err ValueError
  else if Nat.eqb (length l mod size) 0 then Ok {| a_item := size; a_data := chunks size (length l / size) l |}
  else Err ValueError.
Definition slice (lo hi : nat) (l : list B) : list B := firstn (hi - lo) (skipn lo l).

(** [[f(x) for x in l]] where f may raise *)
Fixpoint mapM {X Y} (f : X -> res Y) (l : list X) : res (list Y) :=
  match l with
  | [] => Ok []
  | x :: r => bind (f x) (fun y => bind (mapM f r) (fun ys => Ok (y :: ys)))
  end.

Fixpoint offsets_from (o : nat) (sizes : list nat) : list (nat * nat * nat) :=
  match sizes with
  | [] => []
  | s :: r => (o, (o + s)%nat, s) :: offsets_from (o + s) r
  end.
(** utils.py:585-591: cut every element at the cumulative sizes.  The reshape to
    [array.shape + (-1,)] raises ValueError for an array without elements. *)
Definition separate_struct_array (a : arr) (sizes : list nat) : res (list arr) :=
  match a_data a with
  | [] => Err ValueError
  | _ => mapM (fun p => let '(lo, hi, s) := p in view s (concat (map (slice lo hi) (a_data a)))) (offsets_from 0 sizes)
  end.
(** utils.py:580-584: a single dtype of itemsize [s]; the number of fields is counted *)
Definition separate_single (a : arr) (s : nat) : res (list arr) :=
  if Nat.eqb (length (a_data a) * s) 0 then Err ZeroDivisionError
  else separate_struct_array a (repeat s (a_item a / s)).

(** ** Product domains.  A factor domain as the product sees it. *)
Record domain := { d_item : nat; d_finite : bool; d_continuous : bool; d_n_members : Z;
                   d_values : list (list B); d_example : list B; d_in : arr -> bool }.
(** A constructor argument: a domain or a list of domains. *)
Inductive pd_arg := ADom (d : domain) | AList (ds : list domain).

(** domains.py:169-184: whatever is computed in the branches is overwritten by
    [self._domains = domains], so a list argument is asked for [example_point] *)
Fixpoint as_domains (l : list pd_arg) : res (list domain) :=
  match l with
  | [] => Ok []
  | ADom d :: r => bind (as_domains r) (fun ds => Ok (d :: ds))
  | AList _ :: _ => Err AttributeError
  end.
Definition example_array (d : domain) : arr := {| a_item := d_item d; a_data := [d_example d] |}.
(** 169-184; the state is the list of factors and the joint example point *)
Definition product_new (args : list pd_arg) : res (list domain * arr) :=
  bind (as_domains args) (fun ds => bind (join_struct_arrays (map example_array ds)) (fun ex => Ok (ds, ex))).
(** 186-202 *)
Definition prod_continuous (ds : list domain) : bool := existsb d_continuous ds.
Definition prod_finite (ds : list domain) : bool := forallb d_finite ds.
(** 214-223; [None] stands for np.inf *)
Definition prod_n_members (ds : list domain) : option Z :=
  if prod_finite ds then Some (fold_left Z.mul (map d_n_members ds) 1%Z) else None.
(** [itertools.product] *)
Fixpoint cart {A} (ls : list (list A)) : list (list A) :=
  match ls with
  | [] => [[]]
  | l :: r => flat_map (fun x => map (cons x) (cart r)) l
  end.
(** 237-251: np.concatenate raises ValueError when there is nothing to concatenate *)
Definition prod_values (ds : list domain) : res (list (list B)) :=
  let tuples := cart (map d_values ds) in
  bind (mapM (fun t => join_struct_arrays (map2 (fun d v => {| a_item := d_item d; a_data := [v] |}) ds t)) tuples)
    (fun arrays => match arrays with [] => Err ValueError | _ => Ok (concat (map a_data arrays)) end).
(** 255-260, [_mytype] *)
Definition mytype (ds : list domain) (a : arr) : res arr :=
  bind (separate_single a (nsum (map d_item ds))) (fun l => match l with x :: _ => Ok x | [] => Err IndexError end).
(** 262-271 *)
Definition to_regular_arrays (ds : list domain) (a : arr) : res (list arr) :=
  bind (mytype ds a) (fun x => separate_struct_array x (map d_item ds)).
(** 273-286; the arrays are taken to have the factor dtypes already (astype is the identity) *)
Definition from_regular_arrays (ds : list domain) (l : list arr) : res arr :=
  bind (join_struct_arrays (map2 (fun _ a => a) ds l)) (mytype ds).
(** 289-302 *)
Definition prod_in_domain (ds : list domain) (points : arr) : res bool :=
  bind (separate_struct_array points (map d_item ds)) (fun l => Ok (forallb (fun p => p) (map2 (fun d a => d_in d a) ds l))).
End Bytes.
Arguments arr : clear implicits.
Arguments domain : clear implicits.
Arguments pd_arg : clear implicits.
