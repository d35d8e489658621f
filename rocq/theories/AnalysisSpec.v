(** AnalysisSpec.v -- what an analysis does to the mean and the spread of an ensemble. *)
From Coq Require Import Reals ZArith Bool List.
From Verif Require Import Base AssimilationModel AssimilationSpec.
Import ListNotations.
Local Open Scope R_scope.

(** The value of a linear combination of the entries of a state (an entry, a mean temperature, a difference, ...). *)
Definition along (n : nat) (v x : nat -> R) : R := Rsum_to n (fun i => v i * x i).
(** Mean and sample variance of numbers. *)
Definition average (l : list R) : R := Rsum l / INR (List.length l).
Definition sample_variance (l : list R) : R := Rsum (map (fun y => Rsqr (y - average l)) l) / (INR (List.length l) - 1).

(** At least two members; the distances are found by the query; the observations are at degrees of freedom of the simulation. *)
Definition observed (cutoff : R) (pos : nat -> pt RNum) (owned : list (list nat)) hits (sim : nat) (data : list R) (s : nat -> nat) (ens : list (nat -> R)) : Prop :=
  (2 <= List.length ens)%nat /\ 0 < cutoff /\ query_ok (N := RNum) cutoff (map (map pos) owned) hits /\ (forall k, In k (List.concat owned) <-> (k < sim)%nat) /\
  (forall e, (e < List.length data)%nat -> (s e < sim)%nat).
(** [ens'] is the analysis of the forecast [ens] with the observations [data] of uncertainty [u]. *)
Definition analysed (fn : cutoff_function) (cutoff : R) (pos : nat -> pt RNum) (owned : list (list nat)) hits (sim par : nat) (u : R) (data : list R) (s : nat -> nat)
  (draws : nat -> R) (k : nat) (solve : (nat -> R) -> nat -> R) (ens ens' : list (nat -> R)) : Prop :=
  exists m m' pat, sparsity_pattern (N := RNum) (mkpd (N := RNum) owned (map (map pos) owned) (map csr_offsets hits) (map (@List.concat _) hits)) (List.length owned) sim par m = Ok (m', pat) /\
    assimilate (N := RNum) fn cutoff sim par pat m' (obs (List.length data) s) (observation_covariance (N := RNum) u) data draws k solve ens = Ok ens'.
(** The solver solves the systems of the Kalman gain. *)
Definition exact_solver (E : nat) (P : nat -> nat -> R) (s : nat -> nat) (u : R) (solve : (nat -> R) -> nat -> R) : Prop :=
  forall b, solves_kalman E P s (observation_covariance (N := RNum) u) (solve b) b.
(** The perturbation of observation [e] for member [mb]; its mean over [M] members; the same for all the members. *)
Definition perturbation (u : R) (draws : nat -> R) (E k mb e : nat) : R := draws (k + mb * E + e)%nat * sqrt (u * u).
Definition mean_perturbation (u : R) (draws : nat -> R) (E k M e : nat) : R := Rsum_to M (fun mb => perturbation u draws E k mb e) / INR M.
Definition same_perturbations (u : R) (draws : nat -> R) (E k M : nat) : Prop :=
  forall mb mb' e, (mb < M)%nat -> (mb' < M)%nat -> (e < E)%nat -> perturbation u draws E k mb e = perturbation u draws E k mb' e.
(** No localisation: the cutoff exceeds all the distances. *)
Definition wide (cutoff : R) (pos : nat -> pt RNum) (sim : nat) : Prop := forall i j, (i < sim)%nat -> (j < sim)%nat -> distance (pos i) (pos j) <= cutoff.
(** The perturbations of the members are, over the ensemble, those of a sample: covariance that of the observations, no correlation with the states. *)
Definition ideal_perturbations (n : nat) (u : R) (draws : nat -> R) (E k : nat) (ens : list (nat -> R)) : Prop :=
  let dev m e := perturbation u draws E k m e - mean_perturbation u draws E k (List.length ens) e in
  (forall e f, (e < E)%nat -> (f < E)%nat -> Rsum_to (List.length ens) (fun m => dev m e * dev m f) / (INR (List.length ens) - 1) = observation_covariance (N := RNum) u e f) /\
  (forall e i, (e < E)%nat -> (i < n)%nat -> Rsum_to (List.length ens) (fun m => dev m e * (nth m ens (fun _ => 0) i - sample_mean ens i)) = 0).
