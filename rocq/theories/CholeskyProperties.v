(** CholeskyProperties.v -- C81.  Only statements, witnesses and assumptions. *)
From Coq Require Import Reals ZArith Bool List.
From Verif Require Import Base BaseFacts AssimilationModel AssimilationSpec AssimilationProofs3 AssimilationExamples CholeskyModel AnalysisSpec CholeskySpec AnalysisProofs2 AnalysisExamples CholeskyProofs CholeskyProofs2 CholeskyProofs3 CholeskyExamples.
Import ListNotations.
Local Open Scope R_scope.

(** ** C81.  A symmetric positive definite covariance of the observations is factored, with L lower triangular, of positive diagonal, L L^T = R ... *)
Theorem C81_factor : forall n A, symmetric n A -> positive_definite n A -> exists L, cholesky (N := RNum) n A = Ok L /\ lower_factor n A (factor_entry (N := RNum) L).
Proof. exact cholesky_ok. Qed.
Print Assumptions C81_factor.
Example C81_correlated : symmetric 2 correlated /\ positive_definite 2 correlated. Proof. exact (conj correlated_symmetric correlated_definite). Qed.
(** ... there is no other such factor ... *)
Theorem C81_unique : forall n A L L', lower_factor n A L -> lower_factor n A L' -> forall i j, (i < n)%nat -> (j < n)%nat -> L i j = L' i j.
Proof. exact factor_unique. Qed.
Print Assumptions C81_unique.
Example C81_factored : lower_factor 2 correlated correlated_factor. Proof. exact correlated_factored. Qed.
(** ... and what is factored is a covariance: matrices that are none end in an exception. *)
Theorem C81_accepted : forall n A (L : list (list R)), symmetric n A -> cholesky (N := RNum) n A = Ok L ->
  (forall i j, (i < n)%nat -> (j < n)%nat -> Rsum_to n (fun k => factor_entry (N := RNum) L i k * factor_entry (N := RNum) L j k) = A i j) /\ positive_semidefinite n A.
Proof. exact cholesky_psd. Qed.
Print Assumptions C81_accepted.
Theorem C81_rejected : forall n A, symmetric n A -> ~ positive_semidefinite n A -> cholesky (N := RNum) n A = Throw.
Proof. exact cholesky_rejects. Qed.
Print Assumptions C81_rejected.
Example C81_no_covariance : symmetric 2 no_covariance /\ ~ positive_semidefinite 2 no_covariance. Proof. exact (conj no_covariance_symmetric no_covariance_indefinite). Qed.
(** Observations known exactly (a zero matrix, not stored as diagonal) are rejected too, although the diagonal branch accepts them. *)
Theorem C81_exact_refuted : cholesky (N := RNum) 2 (fun _ _ => 0) = Throw /\ positive_semidefinite 2 (fun _ _ => 0).
Proof. exact zero_rejected. Qed.
Print Assumptions C81_exact_refuted.
(** Entries above the diagonal are never read. *)
Theorem C81_lower_triangle : forall (N : Num) (A B : nat -> nat -> N) n, (forall i j, (j <= i < n)%nat -> A i j = B i j) -> cholesky n A = cholesky n B.
Proof. exact (fun N A B n H => chol_rows_ext A B n [] H). Qed.
Print Assumptions C81_lower_triangle.
(** For a diagonal matrix both branches draw the same perturbations. *)
Theorem C81_branches : forall n A draws k, diagonal_matrix n A -> (forall i, (i < n)%nat -> 0 < A i i) ->
  exists v : nat -> R, fill_noise (N := RNum) false n A draws k = Ok v /\ forall i, (i < n)%nat -> v i = draws (k + i)%nat * sqrt (A i i).
Proof. exact branches. Qed.
Print Assumptions C81_branches.
Example C81_variances : forall n, diagonal_matrix n variances /\ forall i, (i < n)%nat -> 0 < variances i i. Proof. exact variances_diagonal. Qed.
(** With the diagonal branch the analysis is the one of C56 and C80. *)
Theorem C81_application : forall (N : Num) fn cutoff sim par pat m mapping Ro (data : list N) draws k solve ens ens',
  assimilate_general true fn cutoff sim par pat m mapping Ro data draws k solve ens = Ok ens' <-> assimilate fn cutoff sim par pat m mapping Ro data draws k solve ens = Ok ens'.
Proof. exact @application_same. Qed.
Print Assumptions C81_application.
(** The analysis completes for every symmetric positive definite matrix (any localisation, any solver). *)
Theorem C81_complete : forall fn cutoff pos owned hits sim par Ro data s draws k solve ens, observed cutoff pos owned hits sim data s ens ->
  symmetric (List.length data) Ro -> positive_definite (List.length data) Ro -> exists ens', analysed_general false fn cutoff pos owned hits sim par Ro data s draws k solve ens ens'.
Proof. exact general_exists. Qed.
Print Assumptions C81_complete.
Example C81_observed : observed 10 line_pos [[0; 1]%nat] pair_hits 2 two_data at0 four. Proof. exact two_observed. Qed.
(** Perturbations made from standard draws have, over the members, the covariance R and no correlation with the states. *)
Theorem C81_sample : forall d n A draws k (ens : list (nat -> R)) (eta : nat -> nat -> R), (2 <= List.length ens)%nat -> symmetric n A ->
  (forall m, (m < List.length ens)%nat -> fill_noise (N := RNum) false n A draws (k + m * n) = Ok (eta m)) -> standard_draws d draws n k ens ->
  let M := List.length ens in let dev m e := eta m e - Rsum_to M (fun m => eta m e) / INR M in
  (forall e f, (e < n)%nat -> (f < n)%nat -> Rsum_to M (fun m => dev m e * dev m f) / (INR M - 1) = A e f) /\
  (forall e i, (e < n)%nat -> (i < d)%nat -> Rsum_to M (fun m => dev m e * (nth m ens (fun _ => 0) i - sample_mean ens i)) = 0).
Proof. exact sample_ok. Qed.
Print Assumptions C81_sample.
Example C81_standard : standard_draws 3 two_draws 2 0 four. Proof. exact two_standard. Qed.
(** Without localisation, with such perturbations and a solver that solves, the spread in any direction [v] is that of the Kalman filter for the matrix R. *)
Theorem C81_kalman : forall cutoff pos owned hits sim par Ro data s draws k solve ens ens', observed cutoff pos owned hits sim data s ens ->
  analysed_general false no_cutoff cutoff pos owned hits sim par Ro data s draws k solve ens ens' -> wide cutoff pos sim ->
  exact_general (List.length data) (localized_covariance no_cutoff cutoff pos sim ens) s Ro solve -> symmetric (List.length data) Ro -> standard_draws (sim + par) draws (List.length data) k ens ->
  forall v c, solves_kalman (List.length data) (localized_covariance no_cutoff cutoff pos sim ens) s Ro c
                (fun e => Rsum_to (sim + par) (fun i => v i * localized_covariance no_cutoff cutoff pos sim ens i (s e))) ->
  sample_variance (map (along (sim + par) v) ens') = sample_variance (map (along (sim + par) v) ens) -
    Rsum_to (List.length data) (fun e => c e * Rsum_to (sim + par) (fun i => v i * localized_covariance no_cutoff cutoff pos sim ens i (s e))).
Proof. exact correlated_kalman. Qed.
Print Assumptions C81_kalman.
Example C81_solver : exact_general 2 (localized_covariance no_cutoff 10 line_pos 2 four) at0 correlated two_solver. Proof. exact two_exact. Qed.
Example C81_spread : forall ens', analysed_general false no_cutoff 10 line_pos [[0; 1]%nat] pair_hits 2 1 correlated two_data at0 two_draws 0 two_solver four ens' ->
  sample_variance (map (along 3 (fun i => ind (Nat.eqb 0 i))) ens') = 160000 / 50048. Proof. exact two_spread. Qed.
(** The systems have solutions. *)
Theorem C81_solvable : forall E s n (P Ro : nat -> nat -> R) b, positive_semidefinite n P -> positive_definite E Ro -> (forall e, (e < E)%nat -> (s e < n)%nat) -> exists w, solves_kalman E P s Ro w b.
Proof. exact general_solvable. Qed.
Print Assumptions C81_solvable.
