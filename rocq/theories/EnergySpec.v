(** EnergySpec.v -- what C77 means: the energy a scan path asks for, and the energy the beams deliver. *)
From Coq Require Import Reals List.
From Verif Require Import Base ScanPathModel ScanPathSpec HeatSourceModel HeatSourceSpec MaterialModel HeatModel HeatSpec PowerSpec EnergyModel.
Import ListNotations.
Local Open Scope R_scope.

(** The beam, path and centre of a source. *)
Definition source_beam (s : source) : beam := match s with Goldak g => g_beam g | ElectronBeam e => e_beam e end.
Definition source_path (s : source) : scan_path RNum := match s with Goldak g => g_path g | ElectronBeam e => e_path e end.
Definition source_five (s : source) : bool := match s with Goldak g => g_five g | ElectronBeam e => e_five e end.
Definition source_center (s : source) : pt RNum := match s with Goldak g => g_center g | ElectronBeam e => e_center e end.
Definition watts (s : source) : R := b_eff (source_beam s) * b_power (source_beam s).
(** The part of its power that a beam deposits below its plane (C75: 98.5 percent and more for Goldak, all but 1/100000 for electron beams). *)
Definition share (s : source) : R := match s with Goldak _ => (1 - exp (-15)) * goldak_share 0 | ElectronBeam _ => 1 - / 100000 end.

(** The time integral of the power modifier from [start] up to [T] that the file asks for: each segment lasts from the end of its predecessor to its own end. *)
Fixpoint asked (T start : R) (segs : list (seg RNum)) : R :=
  match segs with [] => 0 | s :: r => power_modifier s * (Rmin T (end_time s) - Rmin T start) + asked T (end_time s) r end.
(** The same for the whole path. *)
Fixpoint path_energy (start : R) (segs : list (seg RNum)) : R :=
  match segs with [] => 0 | s :: r => power_modifier s * (end_time s - start) + path_energy (end_time s) r end.
(** The sum of the jumps of the power modifier, the last one being to zero. *)
Fixpoint jumps (segs : list (seg RNum)) : R :=
  match segs with [] => 0 | s :: r => Rabs (power_modifier s - match r with [] => 0 | s' :: _ => power_modifier s' end) + jumps r end.

(** A source that was just made from its input: not moved yet, a path without rotations whose times increase and are positive (a first segment that ends
    at time 0 gives a position 0/0 in the code, see C02) and whose powers are not negative. *)
Definition new_source (s : source) : Prop :=
  good_beam (source_beam s) /\ source_five s = false /\ sp_five_axis (source_path s) = false /\ sp_old (source_path s) = O /\ sp_segs (source_path s) <> [] /\
  nondecreasing (map (fun s : seg RNum => end_time s : R) (sp_segs (source_path s))) /\
  Forall (fun s : seg RNum => 0 < (end_time s : R) /\ 0 <= (power_modifier s : R)) (sp_segs (source_path s)).

(** The material below the plane of the beam is wide and deep enough. *)
Definition covers (R0 D : R) (s : source) : Prop := 0 <= R0 /\ 5 * b_radius2 (source_beam s) <= R0 * R0 /\ b_depth (source_beam s) <= D.
(** [heat] gives, for every state of every beam that occurs in the log of a run, the volume integral of the beam over that material. *)
Definition heats (R0 D : R) (log : list (R * list source)) (heat : source -> R) : Prop :=
  forall ws src, In ws log -> In src (snd ws) -> heat_in (source_value true src) (source_center src) R0 (- D) 0 (heat src).
(** Energy delivered in a run: every evaluation counts with its weight. *)
Definition delivered (log : list (R * list source)) (heat : source -> R) : R := Sum log (fun ws => fst ws * Sum (snd ws) heat).
(** The same integral with the quadrature of the mesh; [x c q] is quadrature point [q] of cell [c]. *)
Definition mesh_heat (m : heat_mesh RNum) (x : nat -> nat -> pt RNum) (src : source) : R :=
  power_in (m_cells m) (fun c q => heat_of (source_value true src (x c q))).
(** The quadrature of the mesh gives the heat of every beam state up to [eps]. *)
Definition accurate (R0 D eps : R) (m : heat_mesh RNum) (x : nat -> nat -> pt RNum) (log : list (R * list source)) : Prop :=
  forall ws src q, In ws log -> In src (snd ws) -> heat_in (source_value true src) (source_center src) R0 (- D) 0 q -> Rabs (mesh_heat m x src - q) <= eps.
