(** Vocabulary for C110: adaptive learning with resampling, averaged over the data the particle cloud itself predicts and over
    the random draws of the resampler.  Independent of the helpers of SmcModel and LwModel. *)
From Verif Require Import Base Ext SmcModel SmcSpec PartSpec.
From Coq Require Import List.

Section Learn.
Context {O E RND : Type}.
Implicit Types (c : @config O E RND) (s : @state O).

(** Average of [g] over a weighted cloud. *)
Definition cloud_average (w : list R) (l : list loc) (g : loc -> R) : R := Sum (length l) (fun i => nth i w 0 * g (nth i l [])).
Definition average s (g : loc -> R) : R := cloud_average (ws s) (ls s) g.

(** [n] rounds of learning: the next experiment [pol s] is chosen from everything the updater knows, an outcome of it is drawn with
    the probability the cloud predicts, the updater performs the update and resamples if it finds that necessary, drawing its
    random numbers from the law [Er].  [lookahead] is the average of [f] over the updater's final states. *)
Fixpoint lookahead c (dom : E -> list O) (pol : @state O -> E) (Er : (RND -> R) -> R) (n : nat) (f : @state O -> R) s : R :=
  match n with
  | 0%nat => f s
  | S n' => SumL (dom (pol s)) (fun o => evidence c s o (pol s) *
              Er (fun r => lookahead c dom pol Er n' f (fst (update c r s o (pol s) true))))
  end.

(** In none of the rounds does an outcome occur that is possible but has predicted probability below machine epsilon. *)
Fixpoint regular_rounds c (dom : E -> list O) (pol : @state O -> E) (Good : RND -> Prop) (n : nat) s : Prop :=
  match n with
  | 0%nat => True
  | S n' => forall o, In o (dom (pol s)) -> evidence c s o (pol s) = 0 \/
              (eps <= evidence c s o (pol s) /\ forall r, Good r -> regular_rounds c dom pol Good n' (fst (update c r s o (pol s) true)))
  end.

(** [Er] is an average over the random numbers in [Good] that is linear and positive on functions of what the resampler returns,
    and on them the resampler succeeds on every cloud with locations [Cl] and stays within [Cl]. *)
Record resampling_law c (Cl : list loc -> Prop) (Good : RND -> Prop) (Er : (RND -> R) -> R) : Prop := {
  rl_ext : forall f g, (forall r, Good r -> f r = g r) -> Er f = Er g;
  rl_const : forall k, Er (fun _ => k) = k;
  rl_plus : forall w l (F G : res (list R * list loc) -> R), prob_vector w -> length w = length l -> Cl l ->
    Er (fun r => F (rsmp c r w l) + G (rsmp c r w l)) = Er (fun r => F (rsmp c r w l)) + Er (fun r => G (rsmp c r w l));
  rl_scal : forall w l k (F : res (list R * list loc) -> R), prob_vector w -> length w = length l -> Cl l ->
    Er (fun r => k * F (rsmp c r w l)) = k * Er (fun r => F (rsmp c r w l));
  rl_ok : forall r w l, Good r -> prob_vector w -> length w = length l -> Cl l ->
    exists w' l', rsmp c r w l = Ok (w', l') /\ prob_vector w' /\ length w' = length l' /\ Cl l'
}.
Definition positive_law c (Cl : list loc -> Prop) (Good : RND -> Prop) (Er : (RND -> R) -> R) : Prop :=
  forall w l (F : res (list R * list loc) -> R), prob_vector w -> length w = length l -> Cl l ->
    (forall r, Good r -> 0 <= F (rsmp c r w l)) -> 0 <= Er (fun r => F (rsmp c r w l)).
(** The resampled cloud has, on average, the same average of [g]. *)
Definition unbiased c (Cl : list loc -> Prop) (Er : (RND -> R) -> R) (g : loc -> R) : Prop :=
  forall w l, prob_vector w -> length w = length l -> Cl l ->
    Er (fun r => match rsmp c r w l with Ok (w', l') => cloud_average w' l' g | Err _ => 0 end) = cloud_average w l g.

(** What learning relies on: non-negative likelihoods that add up to one, particles that neither move nor are rewritten. *)
Record learns c (dom : E -> list O) (Cl : list loc -> Prop) : Prop := {
  ln_lik : forall o x e, 0 <= lik (md c) o x e;
  ln_dom : forall l x e, Cl l -> In x l -> SumL (dom e) (fun o => lik (md c) o x e) = 1;
  ln_static : forall r l e, timestep (md c) r l e = l;
  ln_canon : canonize c = true -> forall l, canon (md c) l = l;
  ln_thresh : zthresh c < 1
}.
End Learn.

(** The draws of one Liu-West resampling step: for each new particle a uniform number and a kernel vector, all independent.
    [Eu] averages over a uniform number in [0, 1): it is only used on functions that are constant on the consecutive intervals
    cut out by the weights, where its value is forced. *)
Record uniform_law (Eu : (R -> R) -> R) : Prop := {
  eu_ext : forall f g, (forall u, 0 <= u < 1 -> f u = g u) -> Eu f = Eu g;
  eu_step : forall w (v : nat -> R) f, prob_vector w ->
    (forall j u, (j < length w)%nat -> in_slot w j u -> f u = v j) -> Eu f = Sum (length w) (fun j => nth j w 0 * v j)
}.
Fixpoint draws (Eu : (R -> R) -> R) (Ez : (list R -> R) -> R) (n : nat) (f : list (R * list R) -> R) : R :=
  match n with
  | 0%nat => f []
  | S n' => Eu (fun u => Ez (fun z => draws Eu Ez n' (fun r => f ((u, z) :: r))))
  end.
Definition good_draws (n d : nat) (r : list (R * list R)) : Prop :=
  length r = n /\ Forall (fun p => 0 <= fst p < 1 /\ length (snd p) = d) r.
