(** AnalysisProperties.v -- C80.  Only statements, witnesses and assumptions. *)
From Coq Require Import Reals ZArith Bool List.
From Verif Require Import Base BaseFacts AssimilationModel AssimilationSpec AssimilationProofs3 AssimilationExamples AnalysisSpec AnalysisProofs2 AnalysisExamples.
Import ListNotations.
Local Open Scope R_scope.

(** ** C80.  The program always completes an analysis of an observed ensemble (any localisation, any solver). *)
Theorem C80_complete : forall fn cutoff pos owned hits sim par u data s draws k solve ens, observed cutoff pos owned hits sim data s ens ->
  exists ens', analysed fn cutoff pos owned hits sim par u data s draws k solve ens ens' /\ List.length ens' = List.length ens.
Proof. exact (fun fn cutoff pos owned hits sim par u data s draws k solve ens ob => match analysis_exists fn cutoff pos owned hits sim par u data s draws k solve ens ob with
  ex_intro _ ens' an => ex_intro _ ens' (conj an (len' fn cutoff pos owned hits sim par u data s draws k solve ens ens' ob an)) end). Qed.
Print Assumptions C80_complete.
Example C80_observed : observed 10 line_pos [[0; 1]%nat] pair_hits 2 [500] at0 four. Proof. exact four_observed. Qed.
(** The mean of the members moves by the Kalman gain applied to the observations, shifted by the mean perturbation, minus the mean state. *)
Theorem C80_mean : forall fn cutoff pos owned hits sim par u data s draws k solve ens ens', observed cutoff pos owned hits sim data s ens ->
  analysed fn cutoff pos owned hits sim par u data s draws k solve ens ens' ->
  exact_solver (List.length data) (localized_covariance fn cutoff pos sim ens) s u solve ->
  exists w, solves_kalman (List.length data) (localized_covariance fn cutoff pos sim ens) s (observation_covariance (N := RNum) u) w
              (fun e => mean_perturbation u draws (List.length data) k (List.length ens) e + (nth e data 0 - sample_mean ens (s e))) /\
    forall i, (i < sim + par)%nat -> sample_mean ens' i = sample_mean ens i + Rsum_to (List.length data) (fun e => localized_covariance fn cutoff pos sim ens i (s e) * w e).
Proof. exact mean_ok. Qed.
Print Assumptions C80_mean.
Example C80_exact : exact_solver 1 (localized_covariance no_cutoff 10 line_pos 2 four) at0 10 four_solver. Proof. exact four_exact. Qed.
(** Without localisation, at the observed degrees of freedom the mean is not farther from the observations (shifted by the mean perturbation) than it was. *)
Theorem C80_mean_closer : forall cutoff pos owned hits sim par u data s draws k solve ens ens', observed cutoff pos owned hits sim data s ens ->
  analysed no_cutoff cutoff pos owned hits sim par u data s draws k solve ens ens' -> wide cutoff pos sim ->
  exact_solver (List.length data) (localized_covariance no_cutoff cutoff pos sim ens) s u solve ->
  Rsum_to (List.length data) (fun e => Rsqr (nth e data 0 + mean_perturbation u draws (List.length data) k (List.length ens) e - sample_mean ens' (s e))) <=
  Rsum_to (List.length data) (fun e => Rsqr (nth e data 0 + mean_perturbation u draws (List.length data) k (List.length ens) e - sample_mean ens (s e))).
Proof. exact closer. Qed.
Print Assumptions C80_mean_closer.
Example C80_wide : wide 10 line_pos 2. Proof. exact pair_wide. Qed.
(** What all the members agree on stays: an entry, whatever the localisation and whatever the solver returns ... *)
Theorem C80_agreed : forall fn cutoff pos owned hits sim par u data s draws k solve ens ens', observed cutoff pos owned hits sim data s ens ->
  analysed fn cutoff pos owned hits sim par u data s draws k solve ens ens' ->
  forall i (a : R), (i < sim + par)%nat -> (forall x, In x ens -> x i = a) -> forall x', In x' ens' -> x' i = a.
Proof. exact agreed. Qed.
Print Assumptions C80_agreed.
Example C80_agree : forall x, In x four -> x 1%nat = 300. Proof. exact four_agree. Qed.
(** ... and, without localisation, any linear relation between the entries. *)
Theorem C80_relations : forall cutoff pos owned hits sim par u data s draws k solve ens ens', observed cutoff pos owned hits sim data s ens ->
  analysed no_cutoff cutoff pos owned hits sim par u data s draws k solve ens ens' -> wide cutoff pos sim ->
  forall v (a : R), (forall x, In x ens -> along (sim + par) v x = a) -> forall x', In x' ens' -> along (sim + par) v x' = a.
Proof. exact span. Qed.
Print Assumptions C80_relations.
Example C80_relation : forall x, In x four -> along 3 relation x = 1875 / 2. Proof. exact four_relation. Qed.
(** The deviation of a member from the mean, in any direction [v]: the gain of that direction applied to its perturbation and its own deviation, both relative to the means. *)
Theorem C80_deviation : forall fn cutoff pos owned hits sim par u data s draws k solve ens ens', observed cutoff pos owned hits sim data s ens ->
  analysed fn cutoff pos owned hits sim par u data s draws k solve ens ens' ->
  exact_solver (List.length data) (localized_covariance fn cutoff pos sim ens) s u solve ->
  forall v c, solves_kalman (List.length data) (localized_covariance fn cutoff pos sim ens) s (observation_covariance (N := RNum) u) c
                (fun e => Rsum_to (sim + par) (fun i => v i * localized_covariance fn cutoff pos sim ens i (s e))) ->
  forall m x x', nth_error ens m = Some x -> nth_error ens' m = Some x' ->
    along (sim + par) v x' - average (map (along (sim + par) v) ens') = along (sim + par) v x - average (map (along (sim + par) v) ens) +
      Rsum_to (List.length data) (fun e => c e * ((perturbation u draws (List.length data) k m e - mean_perturbation u draws (List.length data) k (List.length ens) e) - (x (s e) - sample_mean ens (s e)))).
Proof. exact deviation_ok. Qed.
Print Assumptions C80_deviation.
Example C80_gain : solves_kalman 1 (localized_covariance no_cutoff 10 line_pos 2 four) at0 (observation_covariance (N := RNum) 10) (fun _ => 8 / 1030)
  (fun e => Rsum_to 3 (fun i => ind (Nat.eqb 2 i) * localized_covariance no_cutoff 10 line_pos 2 four i (at0 e))). Proof. exact four_gain. Qed.
(** Without localisation and with perturbations that have, over the members, the covariance of the observations and no correlation with the states: the
    spread in any direction is that of the Kalman filter, v.Pv - v.PH^T (H P H^T + R)^-1 H P v. *)
Theorem C80_kalman : forall cutoff pos owned hits sim par u data s draws k solve ens ens', observed cutoff pos owned hits sim data s ens ->
  analysed no_cutoff cutoff pos owned hits sim par u data s draws k solve ens ens' -> wide cutoff pos sim ->
  exact_solver (List.length data) (localized_covariance no_cutoff cutoff pos sim ens) s u solve ->
  forall v c, ideal_perturbations (sim + par) u draws (List.length data) k ens ->
  solves_kalman (List.length data) (localized_covariance no_cutoff cutoff pos sim ens) s (observation_covariance (N := RNum) u) c
    (fun e => Rsum_to (sim + par) (fun i => v i * localized_covariance no_cutoff cutoff pos sim ens i (s e))) ->
  sample_variance (map (along (sim + par) v) ens') = sample_variance (map (along (sim + par) v) ens) -
    Rsum_to (List.length data) (fun e => c e * Rsum_to (sim + par) (fun i => v i * localized_covariance no_cutoff cutoff pos sim ens i (s e))).
Proof. exact kalman_ok. Qed.
Print Assumptions C80_kalman.
Example C80_ideal : ideal_perturbations 3 10 four_draws 1 0 four. Proof. exact four_ideal. Qed.
(** With the same perturbations for all the members (none, for instance) the spread does not grow in any direction ... *)
Theorem C80_spread : forall cutoff pos owned hits sim par u data s draws k solve ens ens', observed cutoff pos owned hits sim data s ens ->
  analysed no_cutoff cutoff pos owned hits sim par u data s draws k solve ens ens' -> wide cutoff pos sim ->
  exact_solver (List.length data) (localized_covariance no_cutoff cutoff pos sim ens) s u solve -> same_perturbations u draws (List.length data) k (List.length ens) ->
  forall v, u <> 0 -> sample_variance (map (along (sim + par) v) ens') <= sample_variance (map (along (sim + par) v) ens).
Proof. exact spread. Qed.
Print Assumptions C80_spread.
Example C80_same : forall u E k M, same_perturbations u (fun _ => 0) E k M. Proof. exact zero_same. Qed.
Example C80_some_spread : sample_variance (map (along 3 (fun i => ind (Nat.eqb 2 i))) four) = 16 / 75. Proof. exact four_spread. Qed.
(** ... and is, where there is an observation, at most a quarter of its variance, whatever it was. *)
Theorem C80_observed_spread : forall cutoff pos owned hits sim par u data s draws k solve ens ens', observed cutoff pos owned hits sim data s ens ->
  analysed no_cutoff cutoff pos owned hits sim par u data s draws k solve ens ens' -> wide cutoff pos sim ->
  exact_solver (List.length data) (localized_covariance no_cutoff cutoff pos sim ens) s u solve -> same_perturbations u draws (List.length data) k (List.length ens) ->
  forall e, u <> 0 -> (e < List.length data)%nat -> sample_variance (map (fun x => x (s e)) ens') <= u * u / 4.
Proof. exact observed_spread. Qed.
Print Assumptions C80_observed_spread.
(** The systems of the gain have solutions when the covariance is positive semidefinite (it is without localisation: C34) and the uncertainty is not zero. *)
Theorem C80_solvable : forall E s n (P : nat -> nat -> R) (u : R) b, positive_semidefinite n P -> u <> 0 -> (forall e, (e < E)%nat -> (s e < n)%nat) ->
  exists w, solves_kalman E P s (observation_covariance (N := RNum) u) w b.
Proof. exact kalman_solvable. Qed.
Print Assumptions C80_solvable.
(** With the step function an exact analysis without perturbations can increase the spread in a direction: 11/2 becomes 88/9. *)
Theorem C80_step_spread_refuted : observed (3 / 2) line_pos line_owned line_hits 3 [0; 0; 0] (fun e => e) five /\
  exact_solver 3 (localized_covariance step_cutoff (3 / 2) line_pos 3 five) (fun e => e) 1 five_solver /\
  exists ens', analysed step_cutoff (3 / 2) line_pos line_owned line_hits 3 0 1 [0; 0; 0] (fun e => e) (fun _ => 0) 0 five_solver five ens' /\
    sample_variance (map (along 3 kernel) five) = 11 / 2 /\ sample_variance (map (along 3 kernel) ens') = 88 / 9.
Proof. exact (conj five_observed (conj five_exact step_grows)). Qed.
Print Assumptions C80_step_spread_refuted.
(** Nothing keeps an updated absorption efficiency in [0,1]: with members at 0.1 and 0.9 and an observation 450 below, a member gets less than -3. *)
Theorem C80_range_refuted : exists ens', analysed no_cutoff 10 line_pos [[0; 1]%nat] pair_hits 2 1 10 [500] at0 (fun _ => 0) 0 four_solver four ens' /\
  (forall x, In x four -> 0 <= x 2%nat <= 1) /\ exists x', In x' ens' /\ x' 2%nat < -3.
Proof. exact efficiency_leaves. Qed.
Print Assumptions C80_range_refuted.
