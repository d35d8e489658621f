(** EnergyModel.v -- model of how the heat sources are driven during a run: ThermalOperator::set_time (source/ThermalOperator.hh:297-309) before every
    evaluation of the right-hand side (source/ThermalPhysics.templates.hh:44-66, 139-177), at the times of the stages of the explicit schemes
    (855-889, tableaus in HeatModel.v), for every time step of the loop in application/adamantine.hh.

    Simplifications: the beams of a run are Goldak and electron beams (cubes have no scan path); mesh, constraints and boundary conditions do not change
    during the run (no activation, no refinement); all boundaries are adiabatic.  Evaluation number [i] of step [n] has its own material laws [K n i], whose
    sources are replaced by the values of the beams. *)
From Coq Require Import Reals List Bool String ZArith.
From Verif Require Import Base ScanPathModel HeatSourceModel MaterialModel InputModel HeatModel CellModel.
Import ListNotations.
Local Open Scope R_scope.

(** std::vector<std::shared_ptr<HeatSource<dim>>>: the virtual functions (HeatSource.hh:74-104). *)
Inductive source := Goldak (g : goldak) | ElectronBeam (e : ebeam).
Definition update_time (s : source) (t : R) : res source :=
  match s with
  | Goldak g => do g' <- goldak_update_time g t; Ok (Goldak g')
  | ElectronBeam e => do e' <- ebeam_update_time e t; Ok (ElectronBeam e')
  end.
(** A NaN (five-axis paths only) is read as zero here; the theorems are about paths without rotations. *)
Definition source_value (dim3 : bool) (s : source) (p : pt RNum) : option R :=
  match s with Goldak g => goldak_value dim3 g p | ElectronBeam e => ebeam_value dim3 e p end.
Definition is_source_on (s : source) : bool := match s with Goldak g => g_on g | ElectronBeam e => e_on e end.
(** ThermalOperator.hh:297-309 *)
Definition set_time (srcs : list source) (t : R) : res (list source) := mapR (fun s => update_time s t) srcs.

(** ** The evaluations of a time step *)
Definition stage_times (s : scheme) (t dt : R) : list R := map (fun c => t + c * dt) (tableau_c (N := RNum) s).
Fixpoint drive (srcs : list source) (times : list R) : res (list (list source)) :=
  match times with
  | [] => Ok []
  | t :: times' => do srcs' <- set_time srcs t; do rest <- drive srcs' times'; Ok (srcs' :: rest)
  end.
(** The sources at every evaluation of a run, with the weight of the evaluation in the temperatures. *)
Fixpoint drive_run (s : scheme) (t : R) (dts : list R) (srcs : list source) : res (list (R * list source)) :=
  match dts with
  | [] => Ok []
  | dt :: dts' =>
      do states <- drive srcs (stage_times s t dt);
      do rest <- drive_run s (t + dt) dts' (last states srcs);
      Ok (combine (map (fun b => dt * b) (tableau_b (N := RNum) s)) states ++ rest)
  end.

(** ** Temperatures *)
Definition with_beams (dim3 : bool) (K : laws RNum) (x : nat -> nat -> pt RNum) (srcs : list source) : laws RNum := fun c q T =>
  let k := K c q T in
  mkpl (N := RNum) (pl_inv k) (pl_kx k) (pl_ky k) (pl_kz k) (pl_cos k) (pl_sin k)
    (map (fun s => match source_value dim3 s (x c q) with Some v => v | None => 0 end) srcs).
(** One time step, given the sources at its evaluations; [x c q] is quadrature point [q] of cell [c]. *)
Definition beam_step (dim3 : bool) (s : scheme) (m : heat_mesh RNum) (x : nat -> nat -> pt RNum) (K : nat -> laws RNum) (F : nat -> face_laws RNum)
    (states : list (list source)) (t dt : R) (y : list R) : R * list R :=
  evolve (N := RNum) s (fun i _ v =>
    let srcs := nth i states [] in
    evaluate (N := RNum) dim3 (heat_sources_on (map is_source_on srcs)) true m (with_beams dim3 (K i) x srcs) (F i) v) t dt y.
Fixpoint thermal_run (dim3 : bool) (s : scheme) (m : heat_mesh RNum) (x : nat -> nat -> pt RNum) (K : nat -> nat -> laws RNum) (F : nat -> nat -> face_laws RNum)
    (n : nat) (t : R) (dts : list R) (srcs : list source) (y : list R) : res (R * list R) :=
  match dts with
  | [] => Ok (t, y)
  | dt :: dts' =>
      do states <- drive srcs (stage_times s t dt);
      let '(t1, y1) := beam_step dim3 s m x (K n) (F n) states t dt y in
      thermal_run dim3 s m x K F (S n) t1 dts' (last states srcs) y1
  end.
