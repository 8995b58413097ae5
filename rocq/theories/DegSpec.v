(** What it means that one experiment is a noisy version of another. *)
From Verif Require Import Base Sums SmcModel SmcSpec.

(** [K o o'] is the probability of reading [o'] where the better experiment would have given [o]. *)
Definition noisy_version {O O' E E' RND RND'} (c : @config O E RND) (c' : @config O' E' RND') (s : @state O) (os : list O) (os' : list O') (e : E) (e' : E') (K : O -> O' -> R) : Prop :=
  (forall o o', In o os -> In o' os' -> 0 <= K o o') /\ (forall o, In o os -> SumL os' (K o) = 1) /\
  (forall o' x, In o' os' -> In x (ls s) -> lik (md c') o' x e' = SumL os (fun o => K o o' * lik (md c) o x e)).
