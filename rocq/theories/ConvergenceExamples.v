(** ConvergenceExamples.v -- a body cooled by convection and heated by a beam that stands still. *)
From Coq Require Import Reals List Bool Lra Lia.
From Coquelicot Require Import Coquelicot.
From Verif Require Import Base BaseFacts ScanPathModel HeatSourceModel MaterialModel InputModel HeatModel HeatSpec HeatProofs HeatExamples SuperpositionSpec SuperpositionExamples ConvergenceSpec ConvergenceProofs ConvergenceProofs2 ConvergenceProofs3 ConvergenceProofs4.
Import ListNotations.
Local Open Scope R_scope.

Definition still_beam : laws RNum := fun _ _ _ => mkpl (N := RNum) 1 2 1 1 1 0 [3].
Definition surroundings : face_laws RNum := fun _ _ _ => mkfl (N := RNum) 1 5 10 0 10.
Lemma has_solution dim3 on ad (m : heat_mesh RNum) K F n (y0 : list R) : m_n m = n -> mesh_ok m -> (ad = false -> no_radiation m) -> independent K F -> List.length y0 = n ->
  exists Y, Y 0 = y0 /\ solves n (fun v => evaluate (N := RNum) dim3 on ad m K F v) Y.
Proof. intros <- Mok NR I L. exact (heat_solution dim3 on ad m K F Mok NR I y0 L). Qed.
Lemma convergence_case : mesh_ok (mesh3 (N := RNum) convective) /\ no_radiation (mesh3 (N := RNum) convective) /\ independent still_beam surroundings /\
  exists Y, Y 0 = repeat 20 8 /\ solves 8 (fun v => evaluate (N := RNum) true true false (mesh3 (N := RNum) convective) still_beam surroundings v) Y.
Proof.
  split; [apply mesh3_ok|]. split; [exact convective_quiet|]. assert (I : independent still_beam surroundings) by (split; reflexivity). split; [exact I|].
  exact (has_solution true true false (mesh3 (N := RNum) convective) still_beam surroundings 8 (repeat 20 8) eq_refl (mesh3_ok convective) (fun _ => convective_quiet) I eq_refl).
Qed.
