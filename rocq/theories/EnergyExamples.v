(** EnergyExamples.v -- a concrete run for C77. *)
From Coq Require Import Reals List Bool String ZArith Lra Lia Sorted.
From Verif Require Import Base BaseFacts QuaternionModel ScanPathModel ScanPathSpec HeatSourceModel HeatSourceSpec HeatSourceProofs2 MaterialModel InputModel HeatModel HeatSpec HeatProofs PowerSpec EnergyModel EnergySpec EnergyProofs EnergyProofs2 EnergyProofs3 HeatExamples.
Import ListNotations.
Local Open Scope R_scope.
Definition ex_ebeam : source := ElectronBeam (mkE false unit_beam (pulse_path [(1/2, 1/2); (1, 0)]) false None P00 0 0 0 0 0).
Lemma ex_new : Forall new_source [pulse_source [(1/4, 0); (3/8, 1)]; ex_ebeam].
Proof.
  apply Forall_cons; [|apply Forall_cons; [|apply Forall_nil]].
  - apply pulse_new; [discriminate| |].
    + unfold nondecreasing. cbn [map fst]. repeat (first [apply SSorted_nil|apply SSorted_cons|apply Forall_nil|apply Forall_cons]); lra.
    + repeat (apply Forall_cons; [cbn; lra|]). apply Forall_nil.
  - unfold new_source, ex_ebeam. cbn [source_beam source_five source_path e_beam e_five e_path pulse_path sp_five_axis sp_old sp_segs]. split; [apply unit_good|]. split; [reflexivity|]. split; [reflexivity|]. split; [reflexivity|]. split; [discriminate|]. split.
    + unfold nondecreasing. cbn [map fst end_time]. repeat (first [apply SSorted_nil|apply SSorted_cons|apply Forall_nil|apply Forall_cons]); cbn; lra.
    + repeat (apply Forall_cons; [cbn; lra|]). apply Forall_nil.
Qed.
Lemma energy_case : forall s, exists dts srcs log heat eps (t' : R) (y' : list R) (K : nat -> nat -> laws RNum), Forall (fun d => 0 <= d <= 1/4) dts /\ sumR dts = 3/4 /\ List.length srcs = 2%nat /\ Forall new_source srcs /\ Forall (covers 3 1) srcs /\
  drive_run s 0 dts srcs = Ok log /\ heats 3 1 log heat /\ (forall n i c q T, pl_inv (K n i c q T) = / 1) /\
  thermal_run true s (mesh3 (N := RNum) adiabatic) (fun _ _ => mkpt (N := RNum) 0 0 0) K (fun _ _ _ _ _ => mkfl (N := RNum) 0 0 0 0 0) 0 0 dts srcs (repeat 300 8) = Ok (t', y') /\
  accurate 3 1 eps (mesh3 (N := RNum) adiabatic) (fun _ _ => mkpt (N := RNum) 0 0 0) log /\
  Sum srcs (fun src => watts src * asked (sumR dts) 0 (sp_segs (source_path src))) = 3/8.
Proof.
  intros s. set (dts := [1/4; 1/4; 1/4]). set (srcs := [pulse_source [(1/4, 0); (3/8, 1)]; ex_ebeam]).
  assert (Fd : Forall (fun d => 0 <= d <= 1/4) dts) by (unfold dts; repeat (apply Forall_cons; [lra|]); apply Forall_nil).
  assert (F0 : Forall (fun d => 0 <= d) dts) by (unfold dts; repeat (apply Forall_cons; [lra|]); apply Forall_nil).
  assert (C : Forall (covers 3 1) srcs) by (unfold srcs; apply Forall_cons; [apply pulse_covers|apply Forall_cons; [unfold covers, ex_ebeam; cbn; lra|apply Forall_nil]]).
  assert (S0 : sumR dts = 3/4) by (unfold dts, sumR; cbn [fold_right]; lra).
  destruct (runs s dts srcs 3 1 F0 ex_new C) as (log & heat & H & Q). set (K := fun (_ _ : nat) => K3 (N := RNum)).
  destruct (some_accuracy 3 1 (mesh3 (N := RNum) adiabatic) (fun _ _ => mkpt (N := RNum) 0 0 0) log heat Q) as (eps & Ac).
  destruct (thermal_runs s (mesh3 (N := RNum) adiabatic) (fun _ _ => mkpt (N := RNum) 0 0 0) K (fun _ _ _ _ _ => mkfl (N := RNum) 0 0 0 0 0) dts srcs (repeat 300 8) F0 ex_new) as (t' & y' & T).
  exists dts, srcs, log, heat, eps, t', y', K. split; [exact Fd|]. split; [exact S0|]. split; [reflexivity|]. split; [exact ex_new|]. split; [exact C|]. split; [exact H|]. split; [exact Q|].
  split; [intros; unfold K, K3; cbn; lra|]. split; [exact T|]. split; [exact Ac|].
  rewrite S0. unfold srcs. rewrite !Sum_cons, Sum_nil, pulse_watts. unfold watts, ex_ebeam. cbn [pulse_source source_path source_beam g_path e_path e_beam pulse_path sp_segs map asked end_time power_modifier fst snd].
  rewrite (Rmin_right (3/4) (1/4)), (Rmin_right (3/4) (3/8)), (Rmin_right (3/4) 0), (Rmin_right (3/4) (1/2)), (Rmin_left (3/4) 1) by lra. cbn. lra.
Qed.
