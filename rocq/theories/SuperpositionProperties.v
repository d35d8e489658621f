(** SuperpositionProperties.v -- C90.  Only statements, witnesses and assumptions. *)
From Coq Require Import Reals List Bool String ZArith.
From Verif Require Import Base QuaternionModel ScanPathModel HeatSourceModel MaterialModel InputModel HeatModel HeatSpec HeatExamples PowerSpec EnergyModel EnergySpec EnergyProofs3 EnergyExamples SuperpositionSpec SuperpositionProofs SuperpositionProofs2 SuperpositionProofs3 SuperpositionExamples.
Import ListNotations.
Local Open Scope R_scope.

(** Runs add up: the run whose beams, surroundings and initial temperatures are a weighted sum gives the weighted sum of the temperatures, at every node,
    for every scheme and all time steps. *)
Theorem C90_superposition : forall dim3 ad s m (W : list (R * scenario)) (A : scenario) (dts : list R) j, mesh_ok m -> (ad = false -> no_radiation m) -> combines m W A ->
  entry (final dim3 ad s m A dts) j = Sum W (fun w => fst w * entry (final dim3 ad s m (snd w) dts) j).
Proof. exact superposition. Qed.
Print Assumptions C90_superposition.

(** The beams that the code moves along their paths: two groups of beams together raise the temperature by the sum of what each group does. *)
Theorem C90_two_groups : forall dim3 s m x (K : nat -> nat -> laws RNum) F dts l1 l2 (y : list R) t' y', mesh_ok m -> settled K -> Forall never_cools (l1 ++ l2) -> List.length y = m_n m ->
  thermal_run dim3 s m x K F 0 0 dts (l1 ++ l2) y = Ok (t', y') ->
  exists y1 y2 y0, thermal_run dim3 s m x K F 0 0 dts l1 y = Ok (t', y1) /\ thermal_run dim3 s m x K F 0 0 dts l2 y = Ok (t', y2) /\ thermal_run dim3 s m x K F 0 0 dts [] y = Ok (t', y0) /\
    forall j, entry y' j - entry y0 j = (entry y1 j - entry y0 j) + (entry y2 j - entry y0 j).
Proof. exact two_groups. Qed.
Print Assumptions C90_two_groups.

Theorem C90_every_beam : forall dim3 s m x (K : nat -> nat -> laws RNum) F dts (y : list R) t' y0 (T : source -> list R), mesh_ok m -> settled K -> List.length y = m_n m ->
  thermal_run dim3 s m x K F 0 0 dts [] y = Ok (t', y0) -> forall srcs y', Forall never_cools srcs -> (forall src, In src srcs -> thermal_run dim3 s m x K F 0 0 dts [src] y = Ok (t', T src)) ->
  thermal_run dim3 s m x K F 0 0 dts srcs y = Ok (t', y') -> forall j, entry y' j - entry y0 j = Sum srcs (fun src => entry (T src) j - entry y0 j).
Proof. exact every_beam. Qed.
Print Assumptions C90_every_beam.

(** Beams with [a] times the power raise the temperatures by [a] times as much. *)
Theorem C90_power : forall a dim3 s m x (K : nat -> nat -> laws RNum) F dts l (y : list R) t' y1, mesh_ok m -> settled K -> List.length y = m_n m ->
  thermal_run dim3 s m x K F 0 0 dts l y = Ok (t', y1) ->
  exists ya y0, thermal_run dim3 s m x K F 0 0 dts (map (scaled_source a) l) y = Ok (t', ya) /\ thermal_run dim3 s m x K F 0 0 dts [] y = Ok (t', y0) /\
    forall j, entry ya j - entry y0 j = a * (entry y1 j - entry y0 j).
Proof. exact power_rise. Qed.
Print Assumptions C90_power.

(** Where temperatures are counted from does not matter: initial temperatures and surroundings with [c] degrees more give [c] degrees more everywhere. *)
Theorem C90_degrees : forall dim3 ad s m (A B : scenario) c dts j, mesh_ok m -> (ad = false -> no_radiation m) -> same_material A A -> same_material A B ->
  List.length (sc_start A) = m_n m -> List.length (sc_start B) = m_n m -> (forall k, (k < m_n m)%nat -> entry (sc_start B) k = entry (sc_start A) k + c) ->
  (forall n i a q T T', heat_density (sc_on B n i) (sc_laws B n i a q T) = heat_density (sc_on A n i) (sc_laws A n i a q T')) ->
  (forall n i f q T T', (fl_conv (sc_faces B n i f q T) : R) = fl_conv (sc_faces A n i f q T') + c) -> free m j ->
  entry (final dim3 ad s m B dts) j = entry (final dim3 ad s m A dts) j + c.
Proof. exact other_degrees. Qed.
Print Assumptions C90_degrees.

(** A Goldak and an electron beam over a mesh with hanging nodes: the run ends. *)
Theorem C90_two_groups_case : forall s dts, Forall (fun d => 0 <= d) dts -> exists l1 l2 (K : nat -> nat -> laws RNum) (t' : R) (y' : list R),
  List.length l1 = 1%nat /\ List.length l2 = 1%nat /\ mesh_ok (mesh3 (N := RNum) adiabatic) /\ settled K /\ Forall never_cools (l1 ++ l2) /\
  thermal_run true s (mesh3 (N := RNum) adiabatic) (fun _ _ => P00) K (fun _ _ _ _ _ => mkfl (N := RNum) 0 0 0 0 0) 0 0 dts (l1 ++ l2) (repeat 300 8) = Ok (t', y').
Proof. exact groups_case. Qed.
Print Assumptions C90_two_groups_case.

(** Twice one run with convection minus another; degrees Celsius and Kelvin. *)
Theorem C90_superposition_case : combines (mesh3 (N := RNum) convective) [(2, simple 3 10 0 20); (-1, simple 1 30 0 15)] (simple 5 (-10) 0 25) /\ no_radiation (mesh3 (N := RNum) convective) /\ mesh_ok (mesh3 (N := RNum) convective).
Proof. exact combined_case. Qed.
Print Assumptions C90_superposition_case.

Theorem C90_degrees_case : let A := simple 3 10 0 20 in let B := simple 3 283.15 0 293.15 in let c := 273.15 in same_material A A /\ same_material A B /\
  (forall k, (k < 8)%nat -> entry (sc_start B) k = entry (sc_start A) k + c) /\
  (forall n i a q T T', heat_density (sc_on B n i) (sc_laws B n i a q T) = heat_density (sc_on A n i) (sc_laws A n i a q T')) /\
  (forall n i f q T T', (fl_conv (sc_faces B n i f q T) : R) = fl_conv (sc_faces A n i f q T') + c).
Proof. exact degrees_case. Qed.
Print Assumptions C90_degrees_case.

(** With radiation it is false. *)
Theorem C90_superposition_refuted : exists (m : heat_mesh RNum) A B dts j, mesh_ok m /\ free m j /\ combines m [(2, B)] A /\
  entry (final true false ForwardEuler m A dts) j <> Sum [(2, B)] (fun w => fst w * entry (final true false ForwardEuler m (snd w) dts) j).
Proof. exact radiation_differs. Qed.
Print Assumptions C90_superposition_refuted.
