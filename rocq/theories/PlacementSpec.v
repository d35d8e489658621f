(** PlacementSpec.v -- what C89 means: a part, its beams and its directions of deposition, turned (or mirrored) about the vertical and moved elsewhere. *)
From Coq Require Import Reals List Bool.
From Verif Require Import Base ScanPathModel HeatSourceModel MaterialModel HeatModel EnergyModel EnergySpec.
Import ListNotations.
Local Open Scope R_scope.

(** x becomes a x + b y, y becomes c x + d y; the vertical stays; then everything is shifted. *)
Record motion : Type := mkmotion { m_a : R; m_b : R; m_c : R; m_d : R; m_shift : pt RNum }.
(** No lengths change.  In two dimensions (where y is the vertical of points) there is only the shift and the mirror. *)
Definition rigid (dim3 : bool) (M : motion) : Prop :=
  m_a M * m_a M + m_c M * m_c M = 1 /\ m_b M * m_b M + m_d M * m_d M = 1 /\ m_a M * m_b M + m_c M * m_d M = 0 /\
  (dim3 = false -> m_b M = 0 /\ m_c M = 0 /\ m_d M = 1).
Definition turn (M : motion) (p : pt RNum) : pt RNum :=
  mkpt (N := RNum) (m_a M * px p + m_b M * py p) (m_c M * px p + m_d M * py p) (pz p).
Definition move (M : motion) (p : pt RNum) : pt RNum :=
  mkpt (N := RNum) (m_a M * px p + m_b M * py p + px (m_shift M)) (m_c M * px p + m_d M * py p + py (m_shift M)) (pz p + pz (m_shift M)).

(** The scan path and its beam. *)
Definition moved_seg (M : motion) (s : seg RNum) : seg RNum := mkseg (N := RNum) (end_time s) (power_modifier s) (move M (end_point s)) (end_rotation s).
Definition moved_path (M : motion) (sp : scan_path RNum) : scan_path RNum :=
  mkSP (N := RNum) (sp_end sp) (sp_five_axis sp) (sp_dscale sp) (sp_vscale sp) (sp_format sp) (map (moved_seg M) (sp_segs sp)) (sp_old sp).
Definition moved_source (M : motion) (s : source) : source :=
  match s with
  | Goldak g => Goldak (mkG (g_on g) (g_beam g) (moved_path M (g_path g)) (g_five g) (g_quat g) (move M (g_center g)) (g_alpha g) (g_depth g) (g_id2 g) (g_r2 g) (g_ir2 g))
  | ElectronBeam e => ElectronBeam (mkE (e_on e) (e_beam e) (moved_path M (e_path e)) (e_five e) (e_quat e) (move M (e_center e)) (e_alpha e) (e_depth e) (e_id e) (e_r2 e) (e_ir2 e))
  end.

(** The mesh of the moved part: same degrees of freedom, shape values and volumes, turned gradients. *)
Definition turned_quad (M : motion) (q : hquad RNum) : hquad RNum := mkhq (N := RNum) (h_jxw q) (h_values q) (map (turn M) (h_grads q)).
Definition turned_cell (M : motion) (c : hcell RNum) : hcell RNum := mkhc (N := RNum) (c_dofs c) (map (turned_quad M) (c_quads c)).
Definition turned_face (M : motion) (f : hface RNum) : hface RNum :=
  mkhf (N := RNum) (hf_first f) (hf_second f) (turned_cell M (hf_inner f)) (turned_cell M (hf_outer f)) (hf_type f).
Definition turned_mesh (M : motion) (m : heat_mesh RNum) : heat_mesh RNum :=
  mkhm (N := RNum) (m_n m) (m_C m) (map (turned_cell M) (m_cells m)) (map (turned_cell M) (m_mass m)) (map (turned_face M) (m_faces m)).
(** The material is the same; the direction in which it was deposited is turned. *)
Definition turned_law (M : motion) (k : point_law RNum) : point_law RNum :=
  mkpl (N := RNum) (pl_inv k) (pl_kx k) (pl_ky k) (pl_kz k) (m_a M * pl_cos k + m_b M * pl_sin k) (m_c M * pl_cos k + m_d M * pl_sin k) (pl_beams k).
