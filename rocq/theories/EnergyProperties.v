(** EnergyProperties.v -- C77. *)
From Coq Require Import Reals List Bool.
From Verif Require Import Base ScanPathModel ScanPathSpec HeatSourceModel HeatSourceSpec MaterialModel InputModel HeatModel HeatSpec PowerSpec EnergyModel EnergySpec EnergyProofs3 EnergyProofs2 EnergyExamples HeatExamples.
Import ListNotations.
Local Open Scope R_scope.

(** * C77: the energy delivered in a run *)
(** For every scheme, every list of time steps of at most [h] and every list of beams: the energy that the evaluations of the run deliver differs from
    (absorbed) power times modifier times duration, summed over the segments up to the end of the run, by at most one time step per jump of the modifier. *)
Theorem C77_energy : forall (s : scheme) (dts : list R) (srcs : list source) (log : list (R * list source)) (R0 D : R) (heat : source -> R) (h : R),
  0 <= h -> Forall (fun d => 0 <= d <= h) dts -> Forall new_source srcs -> Forall (covers R0 D) srcs -> drive_run s 0 dts srcs = Ok log -> heats R0 D log heat ->
  Rabs (delivered log heat - Sum srcs (fun src => watts src * share src * asked (sumR dts) 0 (sp_segs (source_path src)))) <=
  h * Sum srcs (fun src => watts src * share src * jumps (sp_segs (source_path src))).
Proof. exact energy. Qed.
Print Assumptions C77_energy.
(** A run that lasts as long as the paths delivers the energy of the whole paths. *)
Theorem C77_whole_path : forall (s : scheme) (dts : list R) (srcs : list source) (log : list (R * list source)) (R0 D : R) (heat : source -> R) (h : R),
  0 <= h -> Forall (fun d => 0 <= d <= h) dts -> Forall new_source srcs -> Forall (covers R0 D) srcs -> drive_run s 0 dts srcs = Ok log -> heats R0 D log heat ->
  (forall src (g : seg RNum), In src srcs -> In g (sp_segs (source_path src)) -> end_time g <= sumR dts) ->
  Rabs (delivered log heat - Sum srcs (fun src => watts src * share src * path_energy 0 (sp_segs (source_path src)))) <=
  h * Sum srcs (fun src => watts src * share src * jumps (sp_segs (source_path src))).
Proof. exact whole_path. Qed.
Print Assumptions C77_whole_path.
(** The share of the power is between 98.5 and 100 percent. *)
Theorem C77_share : forall src, 985 / 1000 < share src < 1.
Proof. exact share_range. Qed.
Print Assumptions C77_share.
(** The sources of such runs can always be updated, and the heat of every state is an integral. *)
Theorem C77_runs : forall (s : scheme) (dts : list R) (srcs : list source) (R0 D : R), Forall (fun d => 0 <= d) dts -> Forall new_source srcs -> Forall (covers R0 D) srcs ->
  exists log heat, drive_run s 0 dts srcs = Ok log /\ heats R0 D log heat.
Proof. exact runs. Qed.
Print Assumptions C77_runs.
(** Temperatures: the heat content of the mesh grows by the energy delivered, computed with the quadrature of the mesh, exactly... *)
Theorem C77_heat_content : forall (s : scheme) (m : heat_mesh RNum) (x : nat -> nat -> pt RNum) (K : nat -> nat -> laws RNum) (F : nat -> nat -> face_laws RNum) (rc : R) (dts : list R) (srcs : list source)
    (y : list R) (t' : R) (y' : list R), mesh_ok m -> massive m -> 0 < rc -> List.length y = m_n m -> (forall n i c q T, pl_inv (K n i c q T) = / rc) ->
  Forall (fun d => 0 <= d) dts -> Forall new_source srcs -> thermal_run true s m x K F 0 0 dts srcs y = Ok (t', y') ->
  t' = sumR dts /\ exists log, drive_run s 0 dts srcs = Ok log /\
    rc * integral (m_C m) (m_mass m) (entry y') = rc * integral (m_C m) (m_mass m) (entry y) + delivered log (mesh_heat m x).
Proof. exact heat_content_run. Qed.
Print Assumptions C77_heat_content.
(** ... and hence by the energy of the paths, up to one time step per jump of the power and the error of the quadrature. *)
Theorem C77_part_heat : forall (s : scheme) (m : heat_mesh RNum) (x : nat -> nat -> pt RNum) (K : nat -> nat -> laws RNum) (F : nat -> nat -> face_laws RNum) (rc : R) (dts : list R) (srcs : list source)
    (log : list (R * list source)) (y : list R) (t' : R) (y' : list R) (R0 D h eps : R), mesh_ok m -> massive m -> 0 < rc -> List.length y = m_n m ->
  (forall n i c q T, pl_inv (K n i c q T) = / rc) -> 0 <= h -> Forall (fun d => 0 <= d <= h) dts -> Forall new_source srcs -> Forall (covers R0 D) srcs ->
  thermal_run true s m x K F 0 0 dts srcs y = Ok (t', y') -> drive_run s 0 dts srcs = Ok log -> accurate R0 D eps m x log ->
  t' = sumR dts /\
  Rabs (rc * integral (m_C m) (m_mass m) (entry y') - rc * integral (m_C m) (m_mass m) (entry y) - Sum srcs (fun src => watts src * share src * asked (sumR dts) 0 (sp_segs (source_path src)))) <=
  h * Sum srcs (fun src => watts src * share src * jumps (sp_segs (source_path src))) + eps * (INR (List.length srcs) * sumR dts).
Proof. exact part_heat. Qed.
Print Assumptions C77_part_heat.
Example C77_witness : forall s, exists dts srcs log heat eps (t' : R) (y' : list R) (K : nat -> nat -> laws RNum), Forall (fun d => 0 <= d <= 1/4) dts /\ sumR dts = 3/4 /\ List.length srcs = 2%nat /\ Forall new_source srcs /\ Forall (covers 3 1) srcs /\
  drive_run s 0 dts srcs = Ok log /\ heats 3 1 log heat /\ (forall n i c q T, pl_inv (K n i c q T) = / 1) /\
  thermal_run true s (mesh3 (N := RNum) adiabatic) (fun _ _ => mkpt (N := RNum) 0 0 0) K (fun _ _ _ _ _ => mkfl (N := RNum) 0 0 0 0 0) 0 0 dts srcs (repeat 300 8) = Ok (t', y') /\
  accurate 3 1 eps (mesh3 (N := RNum) adiabatic) (fun _ _ => mkpt (N := RNum) 0 0 0) log /\
  Sum srcs (fun src => watts src * asked (sumR dts) 0 (sp_segs (source_path src))) = 3/8.
Proof. exact energy_case. Qed.

(** The claim that a run delivers the energy of the file up to a fraction of it is false: every scheme misses a flash between two of its evaluations... *)
Theorem C77_flash_refuted : forall s, exists src, new_source src /\ covers 3 1 src /\ 0 < watts src * share src * asked 1 0 (sp_segs (source_path src)) /\
  (exists log heat, drive_run s 0 [1] [src] = Ok log /\ heats 3 1 log heat) /\ forall log heat, drive_run s 0 [1] [src] = Ok log -> heats 3 1 log heat -> delivered log heat = 0.
Proof. exact missed_pulse. Qed.
Print Assumptions C77_flash_refuted.
(** ... and counts a flash at the start, however short, as a sixth of a time step at least. *)
Theorem C77_first_flash_refuted : forall s e, 0 < e < 1/2 -> exists src, new_source src /\ covers 3 1 src /\ watts src * share src * asked 1 0 (sp_segs (source_path src)) = share src * e /\
  (exists log heat, drive_run s 0 [1] [src] = Ok log /\ heats 3 1 log heat) /\ forall log heat, drive_run s 0 [1] [src] = Ok log -> heats 3 1 log heat -> share src / 6 <= delivered log heat.
Proof. exact first_pulse. Qed.
Print Assumptions C77_first_flash_refuted.
