(** PlacementProperties.v -- C89.  Only statements, witnesses and assumptions. *)
From Coq Require Import Reals List Bool String ZArith.
From Verif Require Import Base QuaternionModel ScanPathModel ScanPathSpec HeatSourceModel MaterialModel InputModel HeatModel HeatSpec HeatExamples EnergyModel EnergySpec EnergyProofs3 PlacementSpec PlacementProofs PlacementExamples.
Import ListNotations.
Local Open Scope R_scope.

(** Same temperatures, and the same exceptions, when the mesh with its quadrature points, the beams and the directions of deposition are moved together. *)
Theorem C89_run : forall dim3 s m M x (K : nat -> nat -> laws RNum) F n t dts srcs (y : list R), rigid dim3 M -> Forall (fun s => source_five s = false) srcs ->
  thermal_run dim3 s (turned_mesh M m) (fun c q => move M (x c q)) (fun n i c q T => turned_law M (K n i c q T)) F n t dts (map (moved_source M) srcs) y = thermal_run dim3 s m x K F n t dts srcs y.
Proof. exact run_moved. Qed.
Print Assumptions C89_run.

(** The rate of change of the temperature, with any boundary conditions and laws. *)
Theorem C89_rate : forall dim3 on ad m M (K K' : laws RNum) F (y : list R), rigid dim3 M -> (forall c q T, K' c q T = turned_law M (K c q T)) ->
  evaluate (N := RNum) dim3 on ad (turned_mesh M m) K' F y = evaluate (N := RNum) dim3 on ad m K F y.
Proof. exact evaluate_turned. Qed.
Print Assumptions C89_rate.

(** A time step with any boundary conditions, laws and sources. *)
Theorem C89_step : forall dim3 ad s m M on (K : nat -> laws RNum) F t dt (y : list R), rigid dim3 M ->
  evolve (N := RNum) s (fun i _ v => evaluate (N := RNum) dim3 (on i) ad (turned_mesh M m) (fun c q T => turned_law M (K i c q T)) (F i) v) t dt y =
  evolve (N := RNum) s (fun i _ v => evaluate (N := RNum) dim3 (on i) ad m (K i) (F i) v) t dt y.
Proof. exact any_step_turned. Qed.
Print Assumptions C89_step.

(** The beams, and the position on the path. *)
Theorem C89_beam : forall dim3 M s t s1 p, rigid dim3 M -> source_five s = false -> update_time s t = Ok s1 ->
  exists s1', update_time (moved_source M s) t = Ok s1' /\ is_source_on s1' = is_source_on s1 /\ source_value dim3 s1' (move M p) = source_value dim3 s1 p.
Proof. exact beam_moved. Qed.
Print Assumptions C89_beam.

Theorem C89_position : forall M (sp : scan_path RNum) t save p sp', (forall last, back (sp_segs sp) = Ok last -> t <= end_time last) ->
  value (N := RNum) sp t save = Ok (p, sp') -> exists sp'', value (N := RNum) (moved_path M sp) t save = Ok (move M p, sp'') /\ sp'' = moved_path M sp'.
Proof. exact position_moved. Qed.
Print Assumptions C89_position.

(** Two beams over a part whose conductivity depends on the direction, turned by the angle of the triangle 3, 4, 5 and shifted; the run ends. *)
Theorem C89_run_case : rigid true quarter /\ rigid false mirror /\ forall s dts, Forall (fun d => 0 <= d) dts -> exists srcs (K : nat -> nat -> laws RNum) (t' : R) (y' : list R),
  List.length srcs = 2%nat /\ Forall (fun s => source_five s = false) srcs /\ (forall n i c q T, pl_kx (K n i c q T) <> pl_ky (K n i c q T)) /\
  thermal_run true s (mesh3 (N := RNum) adiabatic) (fun _ _ => P00) K (fun _ _ _ _ _ => mkfl (N := RNum) 0 0 0 0 0) 0 0 dts srcs (repeat 300 8) = Ok (t', y') /\
  thermal_run true s (turned_mesh quarter (mesh3 (N := RNum) adiabatic)) (fun _ _ => mkpt (N := RNum) 10 20 30) (fun n i c q T => turned_law quarter (K n i c q T)) (fun _ _ _ _ _ => mkfl (N := RNum) 0 0 0 0 0) 0 0 dts
    (map (moved_source quarter) srcs) (repeat 300 8) = Ok (t', y').
Proof. exact (conj (proj1 quarter_rigid) (conj (proj2 quarter_rigid) placed_case)). Qed.
Print Assumptions C89_run_case.

(** Paths with rotations turn points about the origin: shifted together, a point that was heated is not heated any more. *)
Theorem C89_five_axis_refuted : exists M s t s1 s1' p, rigid true M /\ update_time s t = Ok s1 /\ update_time (moved_source M s) t = Ok s1' /\
  source_value true s1 p <> Some 0 /\ source_value true s1' (move M p) = Some 0.
Proof. exact five_axis_place. Qed.
Print Assumptions C89_five_axis_refuted.
