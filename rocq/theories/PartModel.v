(** Model of ParticleDistribution (src/qinfer/distributions.py:261-614) and of
    particle_clusters (src/qinfer/clustering.py:84-153).  [n_ess], [particle_mean] and
    [particle_cov] are in SmcModel.v. *)
From Verif Require Import Base Ext SmcModel.

(** distributions.py:276-287 [__init__].  The weights are extended numbers because the
    division by their sum is unguarded.  [np.zeros((1, None))] raises TypeError. *)
Definition pd_init (n_mps : option nat) (locs : option (list loc)) (weights : option (list R))
  : res (list loc * list ext) :=
  match locs, weights with
  | Some l, Some w =>
      match n_mps with
      | None => let a := map Rabs w in
                Ok (l, map (fun x => xdiv (Fin x) (Fin (rsum a))) a)
      | Some _ => Err ValueError
      end
  | _, _ =>
      match n_mps with
      | None => Err TypeError
      | Some d => Ok ([repeat 0 d], [Fin 1])
      end
  end.

(** distributions.py:329-333: index picked for the uniform draw [u] *)
Definition sample_index (w : list R) (u : R) : nat :=
  Nat.min (searchsorted_right (cumsum w) u) (length (cumsum w) - 1).

(** Integer-array indexing [a[idxs]] *)
Fixpoint take {A} (a : list A) (idxs : list nat) : res (list A) :=
  match idxs with
  | [] => Ok []
  | i :: r => match nth_error a i with
              | None => Err IndexError
              | Some x => bind (take a r) (fun t => Ok (x :: t))
              end
  end.

(** distributions.py:320-333 [sample]; [us] are the n uniform draws *)
Definition pd_sample (w : list R) (l : list loc) (us : list R) : res (list loc) :=
  take l (map (sample_index w) us).

(** distributions.py:401-409 [est_mean], for [d] parameters *)
Definition est_mean (d : nat) (w : list R) (l : list loc) : list R := particle_mean d w l.

(** distributions.py:411-430 [est_meanfn]: einsum('i...,i...', weights, fn(locations)), [k] columns *)
Definition est_meanfn (k : nat) (fn : list loc -> list loc) (w : list R) (l : list loc) : list R :=
  map (fun j => rdot w (col j (fn l))) (seq 0 k).

(** distributions.py:432-453 [est_covariance_mtx] *)
Definition est_cov (d : nat) (w : list R) (l : list loc) : list (list R) :=
  map (fun m => map (fun n => particle_cov w l m n) (seq 0 d)) (seq 0 d).
Definition est_corr (d : nat) (w : list R) (l : list loc) : list (list ext) :=
  let sd := fun m => xsqrt (Fin (particle_cov w l m m)) in
  map (fun m => map (fun n => xdiv (Fin (particle_cov w l m n)) (xmul (sd m) (sd n))) (seq 0 d)) (seq 0 d).

(** distributions.py:457-464 [est_entropy] *)
Definition est_entropy (w : list R) : R :=
  let nz := filter (fun x => Rltb 0 x) w in - rsum (map2 Rmult (map ln nz) nz).

(** distributions.py:558-614 [est_credible_region].  [asc] is the result of
    [np.argsort(particle_weights)]; [slice] is the row-wise parameter slice. *)
Definition set_true (i : nat) (l : list bool) : res (list bool) :=
  if Nat.ltb i (length l) then Ok (firstn i l ++ true :: skipn (S i) l) else Err IndexError.
Definition count_true (l : list bool) : nat := length (filter (fun b => b) l).
Definition est_credible_region (asc : list nat) (slice : loc -> loc) (w : list R) (l : list loc) (level : R)
  : res (list loc * list loc) :=
  let mps := map slice l in
  let id_sort := rev asc in
  bind (take w id_sort) (fun w_sorted =>
  let id_cred := map (fun x => Rleb x level) (cumsum w_sorted) in
  bind (set_true (count_true id_cred) id_cred) (fun id_cred =>
  bind (take mps id_sort) (fun mps_sorted =>
  Ok (select id_cred mps_sorted, select (map negb id_cred) mps_sorted)))).

(** clustering.py:84-153 [particle_clusters]; [dbscan] is the labelling returned by the
    (scikit-learn) clusterer.  Only the arguments that influence control flow are kept. *)
Definition particle_clusters (dbscan : list Z) (weights : option (list R)) (weighted : bool)
  : res (list (Z * list bool)) :=
  match weights with
  | None => if weighted then Err ValueError else Err AttributeError
  | Some _ =>
      let is_noise := existsb (Z.eqb (-1)) dbscan in
      let n_clusters := (Z.of_nat (length (nodup Z.eq_dec dbscan)) - (if is_noise then 1 else 0))%Z in
      let start := if is_noise then (-1)%Z else 0%Z in
      Ok (map (fun k => let idx := (start + Z.of_nat k)%Z in (idx, map (fun z => Z.eqb z idx) dbscan))
              (seq 0 (Z.to_nat (n_clusters - start))))
  end.

(** distributions.py:505-523 [est_cluster_moments]: label, weight, mean, covariance of each
    cluster, the mean and covariance computed with un-normalised weights *)
Record moment := { m_label : Z; m_weight : R; m_mean : nat -> R; m_cov : nat -> nat -> R }.
Definition est_cluster_moments (dbscan : list Z) (w : list R) (l : list loc) : res (list moment) :=
  bind (particle_clusters dbscan (Some w) false) (fun cs =>
  Ok (map (fun p => let wc := select (snd p) w in let lc := select (snd p) l in
       {| m_label := fst p; m_weight := rsum wc; m_mean := fun j => rdot wc (col j lc);
          m_cov := particle_cov wc lc |}) cs)).

(** distributions.py:525-546 [est_cluster_covs], entry (m, n): within, between and total *)
Definition est_cluster_covs (dbscan : list Z) (w : list R) (l : list loc) (m n : nat) : res (R * R * R) :=
  bind (est_cluster_moments dbscan w l) (fun ms =>
  let within := rsum (map (fun c => m_weight c * m_cov c m n) ms) in
  let bw := map m_weight ms in
  let mean := fun j => rdot bw (map (fun c => m_mean c j) ms) in
  let between := rsum (map2 (fun a c => a * m_mean c m * m_mean c n) bw ms) - mean m * mean n in
  Ok (within, between, within + between)).
