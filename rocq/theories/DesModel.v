(** Model of src/qinfer/expdesign.py: the heuristics (93-225) and ExperimentDesigner (227-438).
    Python 3 semantics. *)
From Coq Require Import String.
From Verif Require Import Base Ext SmcModel PartModel TwoModel.
From Coq Require Import List.

(** ** Record arrays of shape (1,) *)
(** A field is a number or a vector of fixed length; np.empty leaves fields uninitialised. *)
Inductive value := VNum (x : ext) | VVec (l : list ext).
Inductive kind := KNum | KVec (d : nat).
Definition rdtype := list (string * kind).
Definition exp_record := string -> value.
Definition kind_of (dt : rdtype) (f : string) : option kind := option_map snd (find (fun p => String.eqb (fst p) f) dt).
(** [eps[field] = value]: unknown names raise; a value is broadcast to the field. *)
Definition cast (k : kind) (v : value) : res value :=
  match k, v with
  | KNum, VNum x => Ok (VNum x)
  | KNum, VVec [x] => Ok (VNum x)
  | KNum, VVec _ => Err ValueError
  | KVec d, VNum x => Ok (VVec (repeat x d))
  | KVec d, VVec l => if Nat.eqb (length l) d then Ok (VVec l)
                      else match l with [x] => Ok (VVec (repeat x d)) | _ => Err ValueError end
  end.
Definition put (f : string) (v : value) (e : exp_record) : exp_record := fun g => if String.eqb g f then v else e g.
Definition assign (dt : rdtype) (f : string) (v : value) (e : exp_record) : res exp_record :=
  match kind_of dt f with
  | None => Err ValueError
  | Some k => bind (cast k v) (fun v' => Ok (put f v' e))
  end.
(** [for field, value in other_fields.items(): eps[field] = value] *)
Fixpoint assign_all (dt : rdtype) (fs : list (string * value)) (e : exp_record) : res exp_record :=
  match fs with [] => Ok e | (f, v) :: fs' => bind (assign dt f v e) (assign_all dt fs') end.

(** ** EnsembleHeuristic, 93-109 *)
(** np.random.choice(n, p=...): [u] is the uniform draw, [tol] NumPy's tolerance on the sum *)
Definition np_choice (tol : R) (n : nat) (p : list R) (u : R) : res nat :=
  if Nat.eqb n 0 || negb (Nat.eqb (length p) n) || existsb (fun x => Rltb x 0) p || Rltb tol (Rabs (rsum p - 1)) then Err ValueError
  else Ok (searchsorted_right (map (fun x => x / rsum p) (cumsum p)) u).
Definition ensemble {A} (tol : R) (members : list (res A * R)) (u : R) : res A :=
  bind (np_choice tol (length members) (map snd members) u) (fun i => nth i (map fst members) (Err IndexError)).

(** ** ExpSparseHeuristic.__call__, 140-152 *)
(** [n_exps]: length of the updater's data record.  The dtype is a plain number type or a record; converting a number to a
    record sets every field. *)
Inductive dtype := DNum | DRecord (dt : rdtype).
Inductive expparams := EPNum (x : R) | EPRec (e : exp_record).
Definition exp_sparse (scale base : R) (t_field : option string) (other_fields : option (list (string * value))) (dt : dtype) (junk : exp_record) (n_exps : nat) : res expparams :=
  let t := scale * base ^ n_exps in
  match t_field with
  | None => match dt with
            | DNum => Ok (EPNum t)
            | DRecord fs => bind (assign_all fs (map (fun p => (fst p, VNum (Fin t))) fs) junk) (fun e => Ok (EPRec e))
            end
  | Some tf =>
      match other_fields with
      | None => Err AttributeError
      | Some fs =>
          match dt with
          | DNum => Err IndexError
          | DRecord d => bind (assign_all d fs junk) (fun e => bind (assign d tf (VNum (Fin t)) e) (fun e' => Ok (EPRec e')))
          end
      end
  end.

(** ** PGH.__call__, 203-225 *)
Section PGH.
  (** [draw r]: the two particles returned by the [r]-th [self._updater.sample(n=2)] *)
  Context (draw : nat -> res (loc * loc)) (dist : loc -> loc -> ext).
  (** 204-212.  [None]: the loop body never ran, so x and xp are unbound. *)
  Fixpoint pgh_pairs (left round : nat) (last : option (loc * loc)) : res (option (loc * loc)) :=
    match left with
    | O => Ok last
    | S k => bind (draw round) (fun p => if xltb (Fin 0) (dist (fst p) (snd p)) then Ok (Some p) else pgh_pairs k (S round) (Some p))
    end.
  Definition xzero (a : ext) : bool := match a with Fin x => Reqb x 0 | _ => false end.
  (** [inv_func] receives the particle as an array of shape (1, n). *)
  Definition pgh (dt : rdtype) (x_field t_field : string) (inv_func : loc -> value) (t_func : ext -> value) (maxiters : nat) (other_fields : list (string * value)) (junk : exp_record) : res exp_record :=
    bind (pgh_pairs maxiters 0 None) (fun o =>
      match o with
      | None => Err UnboundLocalError
      | Some (x, xp) =>
          if xzero (dist x xp) then Err RuntimeError
          else bind (assign dt x_field (inv_func x) junk) (fun e =>
               bind (assign dt t_field (t_func (xdiv (Fin 1) (dist x xp))) e) (assign_all dt other_fields))
      end).
End PGH.
(** The updater's cloud: two uniform draws pick two particles (distributions.py:320-333). *)
Definition cloud_draw (w : list R) (l : list loc) (us : nat -> R * R) (r : nat) : res (loc * loc) :=
  bind (pd_sample w l [fst (us r); snd (us r)]) (fun xs => match xs with [x; xp] => Ok (x, xp) | _ => Err ValueError end).
(** Default arguments: identity functions, the model's default distance. *)
Definition pgh_default (w : list R) (l : list loc) (us : nat -> R * R) (Q : list R) (dt : rdtype) (maxiters : nat) (other_fields : list (string * value)) (junk : exp_record) : res exp_record :=
  pgh (cloud_draw w l us) (fun a b => Fin (distance Q a b)) dt "x_" "t" (fun x => VVec (map Fin x)) VNum maxiters other_fields junk.

(** ** ExperimentDesigner *)
Section Designer.
  (** Experiments with named fields: [set]/[get] are [ep[field] = x] and [guess[0][field]]. *)
  Context {E F X : Type} (set : F -> X -> E -> E) (get : F -> E -> X).
  (** OptimizationAlgorithms, numbered 0 to 3 by enum *)
  Inductive algo := NULL | CG | NCG | NELDER_MEAD.
  Definition algo_of (code : Z) : res algo :=
    if Z.eqb code 0 then Ok NULL else if Z.eqb code 1 then Ok CG else if Z.eqb code 2 then Ok NCG else if Z.eqb code 3 then Ok NELDER_MEAD else Err ValueError.
  (** Attributes __best_cost and __best_ep *)
  Record memory := { best_cost : option ext; best_ep : option E }.
  (** 253-259 [new_exp] *)
  Definition new_exp : memory := {| best_cost := None; best_ep := None |}.
  (** 239-249: the constructor *)
  Definition new_designer (code : Z) : res (algo * memory) := bind (algo_of code) (fun a => Ok (a, new_exp)).
  Inductive guess := GHeuristic | GCallable (e : E) | GArray (e : E).
  (** What a SciPy optimizer does: it evaluates the objective, which writes into the field ([r_left]: the value left there),
      then returns a point and the value it reports there, or raises. *)
  Inductive answer := Found (x : X) (f : ext) | Raises (e : exn).
  Record reply := { r_answer : answer; r_left : option X }.
  Definition touched (field : F) (r : reply) (ep : E) : E := match r_left r with None => ep | Some x => set field x ep end.
  (** 261-436.  A callable guess is called, but then [guess[0]] fails in every branch. *)
  Definition design (a : algo) (m : memory) (g : guess) (field : F) (r : reply) (store : bool) : memory * res (option E) :=
    match g with
    | GHeuristic => (m, Err NotImplementedError)
    | GCallable _ => (m, Err TypeError)
    | GArray guess_ep =>
        let x0 := get field guess_ep in
        let opt : res (X * option ext * E) :=
          match a with
          | NULL => Ok (x0, None, guess_ep)
          | CG | NELDER_MEAD => match r_answer r with Found x f => Ok (x, Some f, touched field r guess_ep) | Raises e => Err e end
          | NCG => match r_answer r with
                   | Found x f => Ok (x, Some f, touched field r guess_ep)
                   | Raises TypeError => Ok (x0, None, touched field r guess_ep)
                   | Raises e => Err e
                   end
          end in
        match opt with
        | Err e => (m, Err e)
        | Ok (x, f, ep) =>
            if store then
              let ep' := match f with None => set field x ep | Some _ => ep end in
              let record := ({| best_cost := f; best_ep := Some (set field x ep') |}, Ok (Some (set field x ep'))) in
              match best_cost m, f with
              | None, _ => record
              | Some b, Some f' => if xltb f' b then record else (m, Ok (best_ep m))
              | Some _, None => (m, Err TypeError)
              end
            else (m, Ok (Some (set field x ep)))
        end
    end.
  (** 325-343: the objective as a function of the field's value *)
  Definition objective (pow : R -> R -> ext) (risk : E -> ext) (cost : E -> R) (k : R) (cost_mult : bool) (ep : E) : ext :=
    if cost_mult then xmul (risk ep) (pow (cost ep) k) else xadd (risk ep) (xmul (Fin k) (Fin (cost ep))).
  (** A history of calls on one designer *)
  Inductive dop := NewExp | Design (g : guess) (field : F) (r : reply) (store : bool).
  Definition dstep (a : algo) (m : memory) (o : dop) : memory :=
    match o with NewExp => new_exp | Design g field r store => fst (design a m g field r store) end.
  Definition drun (a : algo) (m : memory) (l : list dop) : memory := fold_left (dstep a) l m.
End Designer.
