(** Vocabulary for C128: the updater with resampling against the exact posterior.  Independent of the helpers of SmcModel and LwModel. *)
From Verif Require Import Base Ext SmcModel SmcSpec LearnSpec RateSpec ReSpec ConvSpec.
From Coq Require Import List.

Section Pf.
Context {O E RND : Type}.
Implicit Types (c : @config O E RND) (s : @state O).

(** Likelihood of a data record at location [x] and the place where [x] ends up, when [mv e] moves a particle after experiment [e]. *)
Fixpoint given c (mv : E -> loc -> loc) (data : list (O * E)) (x : loc) : R :=
  match data with
  | [] => 1
  | (o, e) :: data' => lik (md c) o x e * given c mv data' (mv e x)
  end.
Fixpoint moved (mv : E -> loc -> loc) (data : list (O * E)) (x : loc) : loc :=
  match data with
  | [] => x
  | (o, e) :: data' => moved mv data' (mv e x)
  end.

(** Exact probability of a data record under the prior [Ep], exact posterior average of [f] given the record, and exact probability of
    datum number [k] given the earlier ones. *)
Definition probability c mv (Ep : (loc -> R) -> R) (data : list (O * E)) : R := Ep (given c mv data).
Definition posterior c mv (Ep : (loc -> R) -> R) (data : list (O * E)) (f : loc -> R) : R :=
  Ep (fun x => given c mv data x * f (moved mv data x)) / Ep (given c mv data).
Definition next_probability c mv Ep (data : list (O * E)) (k : nat) : R :=
  probability c mv Ep (firstn (S k) data) / probability c mv Ep (firstn k data).

(** The updater processes a record, drawing fresh random numbers from [Er] in every update and resampling whenever it finds that
    necessary (smc.py 388-457, [update] with [check_for_resample=True]).  The run ends early, in [None], when the cloud predicts a datum with
    probability below machine epsilon.  [rounds] is the average of [F] over the outcomes of the run. *)
Fixpoint rounds c (Er : (RND -> R) -> R) (data : list (O * E)) (F : option (@state O) -> R) (t : option (@state O)) : R :=
  match data, t with
  | (o, e) :: data', Some s => if Rltb (evidence c s o e) eps then F None else Er (fun r => rounds c Er data' F (Some (fst (update c r s o e true))))
  | _, t => F t
  end.
(** The chance that the run of the updater constructed with [n] particles drawn from the prior ends early or with a state satisfying [b]: over
    the draws from the prior [E0] and the draws of every resampling step [Er]. *)
Definition overall c (n : nat) (E0 Er : (RND -> R) -> R) (data : list (O * E)) (b : @state O -> bool) : R :=
  E0 (fun r0 => rounds c Er data (fun t => match t with Some s => indicator (b s) | None => 1 end) (Some (fresh c n r0))).

(** The resampler keeps the locations in [V] and the number of particles, and averages of a function bounded by [b] change by a squared
    amount of at most [b^2 / n] on average. *)
Definition within (V : loc -> Prop) (n : nat) (l : list loc) : Prop := length l = n /\ Forall V l.
Record faithful c (V : loc -> Prop) (n : nat) (Good : RND -> Prop) (Er : (RND -> R) -> R) : Prop := {
  ff_law : resampling_law c (within V n) Good Er;
  ff_positive : positive_law c (within V n) Good Er;
  ff_error : forall w l f b, prob_vector w -> length w = length l -> within V n l -> (forall x, V x -> Rabs (f x) <= b) ->
    Er (fun r => match rsmp c r w l with Ok (w', l') => (cloud_average w' l' f - cloud_average w l f) ^ 2 | Err _ => 0 end) <= b ^ 2 / INR n
}.

(** The setting: particles move one by one within [V], likelihoods are between 0 and [M] on [V], and the exact probability of each datum given
    the earlier ones is at least twice machine epsilon. *)
Record filtering c mv (V : loc -> Prop) (Ep : (loc -> R) -> R) (M : R) (data : list (O * E)) : Prop := {
  fl_threshold : zthresh c < 1;
  fl_prior : forall r n, length (prior c r n) = n;
  fl_canon : canonize c = true -> forall l, canon (md c) l = l;
  fl_moves : forall r l e, timestep (md c) r l e = map (mv e) l;
  fl_stays : forall e x, V x -> V (mv e x);
  fl_lik : forall o x e, 0 <= lik (md c) o x e;
  fl_bound : forall o x e, V x -> lik (md c) o x e <= M;
  fl_likely : forall k, (k < length data)%nat -> 2 * eps * probability c mv Ep (firstn k data) <= probability c mv Ep (firstn (S k) data)
}.

(** Constants of the error bounds: squared error of a posterior average, chance of an update that is not regular, squared relative error of
    the total likelihood, all after [k] data and times the number of particles. *)
Definition gain c mv Ep (M : R) data k : R := (M / next_probability c mv Ep data k) ^ 2.
Fixpoint error_rate c mv Ep M (data : list (O * E)) (k : nat) : R :=
  match k with 0%nat => 1 | S k' => 8 * gain c mv Ep M data k' * error_rate c mv Ep M data k' + 2 end.
Fixpoint failure_rate c mv Ep M (data : list (O * E)) (k : nat) : R :=
  match k with 0%nat => 0 | S k' => failure_rate c mv Ep M data k' + 4 * gain c mv Ep M data k' * error_rate c mv Ep M data k' end.
Fixpoint total_rate c mv Ep M (data : list (O * E)) (k : nat) : R :=
  match k with 0%nat => 0 | S k' => 2 * gain c mv Ep M data k' * (total_rate c mv Ep M data k' + error_rate c mv Ep M data k') end.
End Pf.
