(** CholeskySpec.v -- correlated errors of the observations. *)
From Coq Require Import Reals ZArith Bool List.
From Verif Require Import Base AssimilationModel AssimilationSpec CholeskyModel AnalysisSpec.
Import ListNotations.
Local Open Scope R_scope.

Definition symmetric (n : nat) (A : nat -> nat -> R) : Prop := forall i j, (i < n)%nat -> (j < n)%nat -> A i j = A j i.
Definition positive_definite (n : nat) (A : nat -> nat -> R) : Prop := forall v, (exists i, (i < n)%nat /\ v i <> 0) -> 0 < quadratic n A v.
Definition diagonal_matrix (n : nat) (A : nat -> nat -> R) : Prop := forall i j, (i < n)%nat -> (j < n)%nat -> i <> j -> A i j = 0.
(** [L] is a lower triangular factor of [A] with a positive diagonal: A = L L^T. *)
Definition lower_factor (n : nat) (A L : nat -> nat -> R) : Prop :=
  (forall i j, (i < j)%nat -> L i j = 0) /\ (forall i, (i < n)%nat -> 0 < L i i) /\ (forall i j, (i < n)%nat -> (j < n)%nat -> Rsum_to n (fun k => L i k * L j k) = A i j).
(** Draws of [M] members, [n] each from the [k]-th on, that are a standard sample: means subtracted, unit variances, no correlation with each other and
    with the entries [< d] of the states. *)
Definition drawn (draws : nat -> R) (n k m e : nat) : R := draws (k + m * n + e)%nat.
Definition drawn_mean (draws : nat -> R) (n k M e : nat) : R := Rsum_to M (fun m => drawn draws n k m e) / INR M.
Definition standard_draws (d : nat) (draws : nat -> R) (n k : nat) (ens : list (nat -> R)) : Prop :=
  let M := List.length ens in let dev m e := drawn draws n k m e - drawn_mean draws n k M e in
  (forall e f, (e < n)%nat -> (f < n)%nat -> Rsum_to M (fun m => dev m e * dev m f) / (INR M - 1) = if Nat.eqb e f then 1 else 0) /\
  (forall e i, (e < n)%nat -> (i < d)%nat -> Rsum_to M (fun m => dev m e * (nth m ens (fun _ => 0) i - sample_mean ens i)) = 0).
(** [ens'] is the analysis of [ens] for observations whose errors have the covariance [Ro]. *)
Definition analysed_general (diagonal : bool) (fn : cutoff_function) (cutoff : R) (pos : nat -> pt RNum) (owned : list (list nat)) hits (sim par : nat) (Ro : nat -> nat -> R) (data : list R) (s : nat -> nat)
  (draws : nat -> R) (k : nat) (solve : (nat -> R) -> nat -> R) (ens ens' : list (nat -> R)) : Prop :=
  exists m m' pat, sparsity_pattern (N := RNum) (mkpd (N := RNum) owned (map (map pos) owned) (map csr_offsets hits) (map (@List.concat _) hits)) (List.length owned) sim par m = Ok (m', pat) /\
    assimilate_general (N := RNum) diagonal fn cutoff sim par pat m' (obs (List.length data) s) Ro data draws k solve ens = Ok ens'.
Definition exact_general (E : nat) (P : nat -> nat -> R) (s : nat -> nat) (Ro : nat -> nat -> R) (solve : (nat -> R) -> nat -> R) : Prop := forall b, solves_kalman E P s Ro (solve b) b.
