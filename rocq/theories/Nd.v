(** NumPy arrays with any number of axes: a shape and a function from index lists to entries (only indices within the shape
    mean anything).  The operations are the NumPy ones the modelled code uses, with their shape errors; NumPy itself is trusted
    to do this.  Nothing here refers to the modelled code. *)
From Verif Require Import Base Ext.
Local Open Scope nat_scope.

Record nd (A : Type) := Nd { shp : list nat; get : list nat -> A }.
Arguments Nd {A} shp get. Arguments shp {A} n. Arguments get {A} n ix.

(** [len(a.shape)], [a.shape[0]], [a.shape[k]], [a.size] *)
Definition ndim {A} (a : nd A) : nat := length (shp a).
Definition dim {A} (k : nat) (a : nd A) : nat := nth k (shp a) 1.
Definition prodn (l : list nat) : nat := fold_right Nat.mul 1 l.
Definition size {A} (a : nd A) : nat := prodn (shp a).

(** Arrays from a scalar, a list, a list of rows with [d] columns *)
Definition scal {A} (x : A) : nd A := Nd [] (fun _ => x).
Definition vec {A} (d : A) (l : list A) : nd A := Nd [length l] (fun ix => nth (hd 0 ix) l d).
Definition mat2 {A} (z : A) (d : nat) (rows : list (list A)) : nd A :=
  Nd [length rows; d] (fun ix => nth (nth 1 ix 0) (nth (hd 0 ix) rows []) z).

(** Functions applied entry by entry *)
Definition amap {A B} (f : A -> B) (a : nd A) : nd B := Nd (shp a) (fun ix => f (get a ix)).

(** Broadcasting: shapes are aligned at the last axis, axes of length one are stretched *)
Definition bdim (a b : nat) : res nat :=
  if a =? b then Ok a else if a =? 1 then Ok b else if b =? 1 then Ok a else Err ValueError.
Fixpoint bshape_rev (a b : list nat) : res (list nat) :=
  match a, b with
  | [], _ => Ok b
  | _, [] => Ok a
  | x :: a', y :: b' => bind (bdim x y) (fun z => bind (bshape_rev a' b') (fun r => Ok (z :: r)))
  end.
Definition bshape (a b : list nat) : res (list nat) := bind (bshape_rev (rev a) (rev b)) (fun r => Ok (rev r)).
(** the entry of an operand of shape [sh] used at index [ix] of the result *)
Definition bidx (sh ix : list nat) : list nat := rev (map2 (fun d i => if d =? 1 then 0 else i) (rev sh) (rev ix)).
Definition bcast {A B C} (f : A -> B -> C) (a : nd A) (b : nd B) : res (nd C) :=
  bind (bshape (shp a) (shp b)) (fun s => Ok (Nd s (fun ix => f (get a (bidx (shp a) ix)) (get b (bidx (shp b) ix))))).
(** the same on results of earlier operations *)
Definition op2 {A B C} (f : A -> B -> C) (a : res (nd A)) (b : res (nd B)) : res (nd C) :=
  bind a (fun x => bind b (fun y => bcast f x y)).
Definition op1 {A B} (f : A -> B) (a : res (nd A)) : res (nd B) := bind a (fun x => Ok (amap f x)).
(** [np.where(c, a, b)] *)
Definition where_ {A} (c : nd bool) (a b : res (nd A)) : res (nd A) :=
  op2 (fun (t : bool) (p : A * A) => if t then fst p else snd p) (Ok c) (op2 pair a b).
(** [out = np.empty(sh); out[:, ..., :] = a]: [a] must broadcast to exactly [sh] *)
Definition list_eqb (a b : list nat) : bool := if list_eq_dec Nat.eq_dec a b then true else false.
Definition assign {A} (sh : list nat) (a : nd A) : res (nd A) :=
  bind (bshape sh (shp a)) (fun s => if list_eqb s sh then Ok (Nd sh (fun ix => get a (bidx (shp a) ix))) else Err ValueError).
(** [np.broadcast_arrays] *)
Definition broadcast_arrays {A} (l : list (nd A)) : res (list (nd A)) :=
  bind (fold_left (fun acc a => bind acc (fun s => bshape s (shp a))) l (Ok [])) (fun s =>
    Ok (map (fun a => Nd s (fun ix => get a (bidx (shp a) ix))) l)).

(** A new axis before axis [k] *)
Definition newaxis {A} (k : nat) (a : nd A) : nd A :=
  Nd (firstn k (shp a) ++ 1 :: skipn k (shp a)) (fun ix => get a (firstn k ix ++ skipn (S k) ix)).
(** [a[i]] along axis [k] *)
Definition take {A} (k i : nat) (a : nd A) : res (nd A) :=
  if (k <? ndim a) && (i <? dim k a)
  then Ok (Nd (firstn k (shp a) ++ skipn (S k) (shp a)) (fun ix => get a (firstn k ix ++ i :: skipn k ix))) else Err IndexError.
(** [a[lo:hi]] along axis [k], for [lo <= hi <= dim k a] *)
Definition slice {A} (k lo hi : nat) (a : nd A) : nd A :=
  Nd (firstn k (shp a) ++ (hi - lo) :: skipn (S k) (shp a)) (fun ix => get a (firstn k ix ++ (lo + nth k ix 0) :: skipn (S k) ix)).
(** [a.transpose(p)]: axis [i] of the result is axis [p[i]] of [a]; [a.T] *)
Fixpoint position (k : nat) (l : list nat) : nat := match l with [] => 0 | x :: l' => if x =? k then 0 else S (position k l') end.
Definition is_perm (n : nat) (p : list nat) : bool :=
  (length p =? n) && forallb (fun k => existsb (Nat.eqb k) p) (seq 0 n).
Definition transpose {A} (p : list nat) (a : nd A) : res (nd A) :=
  if is_perm (ndim a) p
  then Ok (Nd (map (fun k => nth k (shp a) 0) p) (fun ix => get a (map (fun k => nth (position k p) ix 0) (seq 0 (length p)))))
  else Err ValueError.
Definition T {A} (a : nd A) : nd A := Nd (rev (shp a)) (fun ix => get a (rev ix)).
(** [np.tile(a, reps)]: the shorter of shape and [reps] is padded with ones on the left *)
Definition pad {A} (d : A) (n : nat) (l : list A) : list A := repeat d (n - length l) ++ l.
Definition tile {A} (reps : list nat) (a : nd A) : nd A :=
  let n := Nat.max (length reps) (ndim a) in
  let sh := pad 1 n (shp a) in
  Nd (map2 Nat.mul sh (pad 1 n reps)) (fun ix => get a (skipn (n - ndim a) (map2 (fun i d => i mod d) ix sh))).
(** [a.reshape(sh)], row-major *)
Fixpoint ravel (sh ix : list nat) : nat :=
  match sh, ix with d :: sh', i :: ix' => i * prodn sh' + ravel sh' ix' | _, _ => 0 end.
Fixpoint unravel (sh : list nat) (k : nat) : list nat :=
  match sh with [] => [] | d :: sh' => k / prodn sh' :: unravel sh' (k mod prodn sh') end.
Definition reshape {A} (sh : list nat) (a : nd A) : res (nd A) :=
  if prodn sh =? size a then Ok (Nd sh (fun ix => get a (unravel (shp a) (ravel sh ix)))) else Err ValueError.
Definition flatten {A} (a : nd A) : nd A := Nd [size a] (fun ix => get a (unravel (shp a) (hd 0 ix))).
(** [np.concatenate(l)] along axis 0 *)
Fixpoint locate {A} (a : nd A) (l : list (nd A)) (i : nat) (ix : list nat) : A :=
  match l with
  | [] => get a (i :: ix)
  | b :: l' => if i <? dim 0 a then get a (i :: ix) else locate b l' (i - dim 0 a) ix
  end.
Definition concat0 {A} (l : list (nd A)) : res (nd A) :=
  match l with
  | [] => Err ValueError
  | a :: l' =>
      if forallb (fun b => negb (ndim b =? 0) && list_eqb (tl (shp b)) (tl (shp a))) l
      then Ok (Nd (fold_right Nat.add 0 (map (dim 0) l) :: tl (shp a)) (fun ix => locate a l' (hd 0 ix) (tl ix)))
      else Err ValueError
  end.
(** Unpacking [x0, ..., x(k-1) = a] *)
Definition unpack {A} (k : nat) (a : nd A) : res (list (nd A)) :=
  match shp a with
  | [] => Err TypeError
  | n :: sh => if n =? k then Ok (map (fun i => Nd sh (fun ix => get a (i :: ix))) (seq 0 k)) else Err ValueError
  end.
(** [np.sum(a, axis=k)] with the given sum of one-index arrays *)
Definition sum_axis {A} (sum : list A -> A) (k : nat) (a : nd A) : nd A :=
  Nd (firstn k (shp a) ++ skipn (S k) (shp a))
     (fun ix => sum (map (fun i => get a (firstn k ix ++ i :: skipn k ix)) (seq 0 (dim k a)))).
(** all entries, in row-major order *)
Definition entries {A} (a : nd A) : list A := map (fun k => get a (unravel (shp a) k)) (seq 0 (size a)).
(** [np.dot(a, b)] for a two-index [b]: last axis of [a] against first axis of [b] *)
Definition dot {A} (sum : list A -> A) (mul : A -> A -> A) (a b : nd A) : res (nd A) :=
  match rev (shp a), shp b with
  | p :: r, [q; d] =>
      if p =? q then
        Ok (Nd (rev r ++ [d]) (fun ix => sum (map (fun i => mul (get a (removelast ix ++ [i])) (get b [i; last ix 0])) (seq 0 p))))
      else Err ValueError
  | _, _ => Err ValueError
  end.
(** Truth value of an array: only arrays with one entry have one *)
Definition truth (a : nd bool) : res bool := if size a =? 1 then Ok (get a (map (fun _ => 0) (shp a))) else Err ValueError.

(** One-, two-, three- and four-index arrays, entry by entry: how results are described *)
Definition is1 {A} (r : res (nd A)) (n : nat) (f : nat -> A) : Prop :=
  exists a, r = Ok a /\ shp a = [n] /\ forall i, i < n -> get a [i] = f i.
Definition is2 {A} (r : res (nd A)) (n m : nat) (f : nat -> nat -> A) : Prop :=
  exists a, r = Ok a /\ shp a = [n; m] /\ forall i j, i < n -> j < m -> get a [i; j] = f i j.
Definition is3 {A} (r : res (nd A)) (n m l : nat) (f : nat -> nat -> nat -> A) : Prop :=
  exists a, r = Ok a /\ shp a = [n; m; l] /\ forall i j k, i < n -> j < m -> k < l -> get a [i; j; k] = f i j k.
Definition is4 {A} (r : res (nd A)) (n m l p : nat) (f : nat -> nat -> nat -> nat -> A) : Prop :=
  exists a, r = Ok a /\ shp a = [n; m; l; p] /\
    forall i j k q, i < n -> j < m -> k < l -> q < p -> get a [i; j; k; q] = f i j k q.
