(** C154: the same learning problem in other units *)
From Coq Require Import String.
From Verif Require Import Base Ext SmcModel LwModel TwoModel DesModel ReModel.
From Coq Require Import List.

Section Units.
Context {O E O' E' RND : Type}.
(** Outcomes are renamed by [rho], particle locations converted by [g], experiments by [gam]. *)
Variables (rho : O -> O') (g : loc -> loc) (gam : E -> E').
Definition converted (s : @state O) : @state O' :=
  {| ws := ws s; ls := map g (ls s); drec := map rho (drec s); nrec := nrec s; mness := mness s; rcnt := rcnt s; jr := jr s; calls := calls s |}.
Definition result (p : @state O * option exn) : @state O' * option exn := (converted (fst p), snd p).
Definition converted_op (x : @op O E RND) : @op O' E' RND :=
  match x with
  | OUpdate r o e check => OUpdate r (rho o) (gam e) check
  | OBatch rs os es interval => OBatch rs (map rho os) (map gam es) interval
  | OResample r => OResample r | OCheck r => OCheck r
  | OReset r np only rw => OReset r np only rw
  | OHyp os es => OHyp (map rho os) (map gam es)
  end.
(** A resampler that treats converted clouds alike *)
Definition alike (c : @config O E RND) (c' : @config O' E' RND) (r : RND) (w : list R) (l : list loc) : Prop :=
  rsmp c' r w (map g l) = match rsmp c r w l with Ok (w1, l1) => Ok (w1, map g l1) | Err e => Err e end.
Record same_problem (c : @config O E RND) (c' : @config O' E' RND) : Prop := {
  s_lik : forall o x e, lik (md c') (rho o) (g x) (gam e) = lik (md c) o x e;
  s_step : forall r l e, timestep (md c') r (map g l) (gam e) = map g (timestep (md c) r l e);
  s_canon : forall l, canon (md c') (map g l) = map g (canon (md c) l);
  s_prior : forall r n, prior c' r n = map g (prior c r n);
  s_rsmp : forall r w l, alike c c' r w l;
  s_rest : rthresh c' = rthresh c /\ zpolicy c' = zpolicy c /\ zthresh c' = zthresh c /\ canonize c' = canonize c }.
(** Operations on whole locations (reset of single columns is left out) *)
Definition whole (x : @op O E RND) : Prop := match x with OReset _ _ (Some _) _ => False | _ => True end.
End Units.

(** An adaptive session: the next experiment is designed from the current cloud, performed, and the updater updated with checks. *)
Fixpoint session {O E RND D} (c : @config O E RND) (design : D -> list R -> list loc -> res E) (outcome : D -> E -> O) (ks : list (RND * D)) (s : @state O) : @state O * option exn :=
  match ks with
  | [] => (s, None)
  | (r, k) :: ks =>
      match design k (ws s) (ls s) with
      | Err x => (s, Some x)
      | Ok e => match update c r s (outcome k e) e true with (s1, Some x) => (s1, Some x) | (s1, None) => session c design outcome ks s1 end
      end
  end.
(** New units for one parameter *)
Definition rescale (k a : R) (x : loc) : loc := map (fun w => k * w + a) x.
(** Pure change of units: every number multiplied by [k].  The covariance put in place of a vanishing one (zero_cov_comp, resamplers.py:215-216) is a squared parameter. *)

Definition lw_units (k : R) (cfg : lw_config) : lw_config := {| c_a := c_a cfg; c_h := c_h cfg; c_maxiter := c_maxiter cfg; c_comp := k ^ 2 * c_comp cfg; c_default_n := c_default_n cfg |}.
(** Square roots follow the units. *)
Definition root_scales (k : R) (sqrtm : list (list R) -> list (list R) * ext) : Prop :=
  forall m, fst (sqrtm (map (vscale (k ^ 2)) m)) = map (vscale k) (fst (sqrtm m)) /\ isfinite (snd (sqrtm (map (vscale (k ^ 2)) m))) = isfinite (snd (sqrtm m)).
(** The heuristic as used with SimpleInversionModel (fields t and w_): the experiment as a pair (t, w_) *)
Definition inv_dtype : rdtype := [("t", KNum); ("w_", KNum)]%string.
Definition number (v : value) : R := match v with VNum (Fin x) => x | _ => 0 end.
Definition pgh_inv (maxiters : nat) (junk : exp_record) (us : nat -> R * R) (w : list R) (l : list loc) : res (R * R) :=
  bind (pgh (cloud_draw w l us) (fun a b => Fin (distance [1] a b)) inv_dtype "w_" "t" (fun x => VVec (map Fin x)) VNum maxiters [] junk)
    (fun e => Ok (number (e "t"%string), number (e "w_"%string))).
(** The updater for that model with Liu and West's resampler.  Random numbers: those of the resampler, and a prior sample *)
Definition inv_updater (min_freq : R) (postselect : bool) sqrtm cfg junk (pr : list (R * list R) -> nat -> list loc) th pol z cz : @config Z (R * R) (list (R * list R)) :=
  {| md := {| lik := fun o x e => inv_like (fst e) (snd e) (nth 0 x 0) o; timestep := fun _ x _ => x; canon := fun x => x |};
     prior := pr; rsmp := lw_rsmp (fun x => inv_valid min_freq (nth 0 x 0)) postselect sqrtm cfg 1 junk; rthresh := th; zpolicy := pol; zthresh := z; canonize := cz |}.
(** The experiment performed on a device with frequency [w]: outcome 1 when the draw is not below the probability of 0 *)
Definition device (w : R) (v : R) (e : R * R) : Z := if Rltb v (inv_pr0 (fst e) (snd e) w) then 0%Z else 1%Z.
