(** SuperpositionSpec.v -- what C90 means: runs whose beams, surroundings and initial temperatures are added up. *)
From Coq Require Import Reals List Bool.
From Verif Require Import Base ScanPathModel HeatSourceModel MaterialModel InputModel HeatModel HeatSpec EnergyModel EnergySpec.
Import ListNotations.
Local Open Scope R_scope.

(** What heats a point. *)
Definition heat_density (on : bool) (k : point_law RNum) : R := if on then Sum (pl_beams k) (fun b => b : R) else 0.
(** What happens at evaluation [i] of time step [n], and the temperatures at the start. *)
Record scenario : Type := mksc { sc_on : nat -> nat -> bool; sc_laws : nat -> nat -> laws RNum; sc_faces : nat -> nat -> face_laws RNum; sc_start : list R }.
(** The temperatures after the given time steps. *)
Fixpoint temperatures (dim3 ad : bool) (s : scheme) (m : heat_mesh RNum) (A : scenario) (n : nat) (t : R) (dts : list R) (y : list R) : list R :=
  match dts with
  | [] => y
  | dt :: dts' => let '(t1, y1) := evolve (N := RNum) s (fun i _ v => evaluate (N := RNum) dim3 (sc_on A n i) ad m (sc_laws A n i) (sc_faces A n i) v) t dt y in
                  temperatures dim3 ad s m A (S n) t1 dts' y1
  end.
Definition final dim3 ad s m (A : scenario) (dts : list R) : list R := temperatures dim3 ad s m A 0 0 dts (sc_start A).

(** Same conductivities, heat capacities and coefficients, at all temperatures. *)
Definition same_conduction (k k' : point_law RNum) : Prop :=
  pl_inv k = pl_inv k' /\ pl_kx k = pl_kx k' /\ pl_ky k = pl_ky k' /\ pl_kz k = pl_kz k' /\ pl_cos k = pl_cos k' /\ pl_sin k = pl_sin k'.
Definition same_material (A B : scenario) : Prop :=
  (forall n i c q T T', same_conduction (sc_laws A n i c q T) (sc_laws B n i c q T')) /\
  (forall n i f q T T', fl_inv (sc_faces A n i f q T) = fl_inv (sc_faces B n i f q T') /\ fl_h (sc_faces A n i f q T) = fl_h (sc_faces B n i f q T')).
(** [A] is the combination of the scenarios of the list with their weights: what heats it, the temperature of the surroundings and the temperature at the
    start are the weighted sums; no heat depends on the temperature. *)
Definition combines (m : heat_mesh RNum) (W : list (R * scenario)) (A : scenario) : Prop :=
  (forall w, In w W -> same_material (snd w) A /\ List.length (sc_start (snd w)) = m_n m) /\ List.length (sc_start A) = m_n m /\
  (forall n i c q T (Ts : scenario -> R), heat_density (sc_on A n i) (sc_laws A n i c q T) =
     Sum W (fun w => fst w * heat_density (sc_on (snd w) n i) (sc_laws (snd w) n i c q (Ts (snd w))))) /\
  (forall n i f q T (Ts : scenario -> R), (fl_conv (sc_faces A n i f q T) : R) = Sum W (fun w => fst w * fl_conv (sc_faces (snd w) n i f q (Ts (snd w))))) /\
  (forall j, entry (sc_start A) j = Sum W (fun w => fst w * entry (sc_start (snd w)) j)).
Definition no_radiation (m : heat_mesh RNum) : Prop := Forall (fun f : hface RNum => on_boundary f = true -> has_flag (hf_type f) radiative = false) (m_faces m).

(** The same beam with another power. *)
Definition scaled_beam (a : R) (b : beam) : beam := mkbeam (b_depth b) (b_eff b) (b_radius b) (b_radius2 b) (a * b_power b).
Definition scaled_source (a : R) (s : source) : source :=
  match s with
  | Goldak g => Goldak (mkG (g_on g) (scaled_beam a (g_beam g)) (g_path g) (g_five g) (g_quat g) (g_center g) (a * g_alpha g) (g_depth g) (g_id2 g) (g_r2 g) (g_ir2 g))
  | ElectronBeam e => ElectronBeam (mkE (e_on e) (scaled_beam a (e_beam e)) (e_path e) (e_five e) (e_quat e) (e_center e) (a * e_alpha e) (e_depth e) (e_id e) (e_r2 e) (e_ir2 e))
  end.
(** No segment of the path has a negative power. *)
Definition never_cools (s : source) : Prop := Forall (fun g : seg RNum => 0 <= (power_modifier g : R)) (sp_segs (source_path s)).
(** Material laws that do not depend on the temperature; a part without beams. *)
Definition settled (K : nat -> nat -> laws RNum) : Prop := forall n i c q T T', same_conduction (K n i c q T) (K n i c q T').
