(** ConvergenceProperties.v -- C91.  Only statements, witnesses and assumptions. *)
From Coq Require Import Reals List Bool.
From Coquelicot Require Import Coquelicot.
From Verif Require Import Base ScanPathModel HeatSourceModel MaterialModel InputModel HeatModel HeatSpec HeatExamples SuperpositionSpec ConvergenceSpec ConvergenceProofs ConvergenceProofs2 ConvergenceProofs3 ConvergenceProofs4 ConvergenceExamples.
Import ListNotations.
Local Open Scope R_scope.

(** The equations for the temperatures at the nodes have a solution from every start, and only one. *)
Theorem C91_solution : forall dim3 on ad (m : heat_mesh RNum) K F, mesh_ok m -> (ad = false -> no_radiation m) -> independent K F ->
  forall y0, List.length y0 = m_n m -> exists Y, Y 0 = y0 /\ solves (m_n m) (fun v => evaluate (N := RNum) dim3 on ad m K F v) Y.
Proof. exact heat_solution. Qed.
Print Assumptions C91_solution.

Theorem C91_one_solution : forall dim3 on ad (m : heat_mesh RNum) K F, mesh_ok m -> (ad = false -> no_radiation m) -> independent K F ->
  forall Y Z, solves (m_n m) (fun v => evaluate (N := RNum) dim3 on ad m K F v) Y -> solves (m_n m) (fun v => evaluate (N := RNum) dim3 on ad m K F v) Z -> Y 0 = Z 0 ->
  forall t, 0 <= t -> Y t = Z t.
Proof. exact heat_unique. Qed.
Print Assumptions C91_one_solution.

(** What the time stepping computes with steps of at most [h], equal or not, is within [C h^order] of that solution at every node, with the order
    of the scheme; [C] is for all steps and all numbers of them up to the time [T]. *)
Theorem C91_order : forall dim3 on ad (m : heat_mesh RNum) K F, mesh_ok m -> (ad = false -> no_radiation m) -> independent K F ->
  forall Y, solves (m_n m) (fun v => evaluate (N := RNum) dim3 on ad m K F v) Y -> forall s T, 0 <= T -> exists C, 0 <= C /\
    forall h dts, 0 <= h -> steps_of h dts -> sumR dts <= T -> forall j, (j < m_n m)%nat ->
      Rabs (entry (final dim3 ad s m (constant_run on K F (Y 0)) dts) j - entry (Y (sumR dts)) j) <= C * h ^ order s.
Proof. exact heat_converges. Qed.
Print Assumptions C91_order.

(** [T] divided into more and more equal steps: the temperatures computed for the time [T] tend to those of the solution. *)
Theorem C91_equal_steps : forall dim3 on ad (m : heat_mesh RNum) K F, mesh_ok m -> (ad = false -> no_radiation m) -> independent K F ->
  forall Y, solves (m_n m) (fun v => evaluate (N := RNum) dim3 on ad m K F v) Y -> forall s T, 0 <= T -> forall j, (j < m_n m)%nat ->
    is_lim_seq (fun N => entry (final dim3 ad s m (constant_run on K F (Y 0)) (repeat (T / INR (S N)) (S N))) j) (entry (Y T) j).
Proof. exact heat_limit. Qed.
Print Assumptions C91_equal_steps.

(** A body that meets the hypotheses: heated by a beam and cooled by convection. *)
Theorem C91_case : mesh_ok (mesh3 (N := RNum) convective) /\ no_radiation (mesh3 (N := RNum) convective) /\ independent still_beam surroundings /\
  exists Y, Y 0 = repeat 20 8 /\ solves 8 (fun v => evaluate (N := RNum) true true false (mesh3 (N := RNum) convective) still_beam surroundings v) Y.
Proof. exact convergence_case. Qed.
Print Assumptions C91_case.
