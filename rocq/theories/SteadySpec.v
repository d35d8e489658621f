(** SteadySpec.v -- exact solutions of the heat equation: profiles that are linear in space. *)
From Coq Require Import Reals List Bool Permutation.
From Verif Require Import Base MaterialModel MaterialSpec InputModel HeatModel HeatSpec StabilitySpec RadiationSpec.
Import ListNotations.
Open Scope R_scope.

(** The field [a + b . x]; [pos] gives the places of the nodes.  In two dimensions nothing depends on y. *)
Definition profile (pos : nat -> pt RNum) (a : R) (b : pt RNum) (j : nat) : R := a + dot b (pos j).
Definition in_plane (dim3 : bool) (b : pt RNum) : Prop := dim3 = false -> (py b : R) = 0.
(** Meshes of linear elements: the cells see the gradient of every profile. *)
Definition exact_gradients (dim3 : bool) (m : heat_mesh RNum) (pos : nat -> pt RNum) : Prop :=
  forall c q a b, In c (m_cells m) -> In q (c_quads c) -> in_plane dim3 b -> gradient (m_C m) c q (profile pos a b) = b.
(** The divergence theorem: what a constant flux [v] carries into a node, it carries out through the boundary; [normal] is the outward normal of each face. *)
Definition divergence (dim3 : bool) (m : heat_mesh RNum) (normal : nat -> pt RNum) : Prop := forall j v, free m j -> in_plane dim3 v ->
  Sum (m_cells m) (fun c => Sum (c_quads c) (fun q => h_jxw q * dot v (gradient (m_C m) c q (hat j)))) =
  Sum (indexed (m_faces m)) (fun jf => if on_boundary (snd jf) then Sum (c_quads (active_side (snd jf))) (fun q => h_jxw q * (dot v (normal (fst jf)) * field (m_C m) (active_side (snd jf)) q (hat j))) else 0).
(** Mass and operator give a node the same volume. *)
Definition same_volumes (m : heat_mesh RNum) : Prop := forall j, free m j -> integral (m_C m) (m_cells m) (hat j) = nodal_mass m j.
(** One homogeneous material: the same conductivities and directions [k] everywhere; the beams heat all points at the rate [s]. *)
Definition homogeneous (on : bool) (K : laws RNum) (k : point_law RNum) (s : R) : Prop := forall i q T, let l := K i q T in
  pl_inv l = pl_inv k /\ pl_kx l = pl_kx k /\ pl_ky l = pl_ky k /\ pl_kz l = pl_kz k /\ pl_cos l = pl_cos k /\ pl_sin l = pl_sin k /\ (if on then pl_inv l * Sum (pl_beams l) (fun b => b : R) else 0) = s.
(** Fourier's law, divided by density and heat capacity: conductivity kx along the direction of deposition, ky across it, kz vertically. *)
Definition heat_flux (dim3 : bool) (k : point_law RNum) (b : pt RNum) : pt RNum :=
  let c : R := pl_cos k in let s : R := pl_sin k in
  let along : R := c * px b + s * py b in let across : R := s * px b - c * py b in
  if dim3 then mkpt (N := RNum) (- pl_inv k * (pl_kx k * along * c + pl_ky k * across * s)) (- pl_inv k * (pl_kx k * along * s - pl_ky k * across * c)) (- pl_inv k * (pl_kz k * pz b))
  else mkpt (N := RNum) (- pl_inv k * (pl_kx k * px b)) 0 (- pl_inv k * (pl_kz k * pz b)).
(** Each point of the boundary loses what the flux brings there (nothing in the adiabatic case). *)
Definition balanced (dim3 ad : bool) (m : heat_mesh RNum) (pos normal : nat -> pt RNum) (F : face_laws RNum) (k : point_law RNum) (a : R) (b : pt RNum) : Prop :=
  forall j f q x, In (j, f) (indexed (m_faces m)) -> on_boundary f = true -> In (q, x) (indexed (c_quads (active_side f))) ->
    let T := field (m_C m) (active_side f) x (profile pos a b) in let l := F j q T in
    dot (heat_flux dim3 k b) (normal j) = if ad then 0 else fl_inv l * outflux (has_flag (hf_type f) convective) (has_flag (hf_type f) radiative) (fl_h l) (fl_conv l) (fl_emissivity l) (fl_rad l) T.
(** The temperatures of a profile. *)
Definition has_profile (m : heat_mesh RNum) (pos : nat -> pt RNum) (a : R) (b : pt RNum) (y : list R) : Prop :=
  List.length y = m_n m /\ forall j, free m j -> entry y j = profile pos a b j.

(** ** Boxes *)
(** The corners of a box are at their places. *)
Definition placed (dim3 : bool) (pos : nat -> pt RNum) (c : hcell RNum) : Prop :=
  if dim3 then exists (points : list R) (dx dy dz : R) (dofs : list nat) (o : pt RNum), dx <> 0 /\ dy <> 0 /\ dz <> 0 /\ c = brick points dx dy dz dofs /\
    map pos dofs = map (fun e : bool * bool * bool => mkpt (N := RNum) ((px o : R) + (if fst (fst e) then dx else 0)) ((py o : R) + (if snd (fst e) then dy else 0)) ((pz o : R) + (if snd e then dz else 0))) corners3
  else exists (points : list R) (dx dz : R) (dofs : list nat) (o : pt RNum), dx <> 0 /\ dz <> 0 /\ c = rectangle points dx dz dofs /\
    map pos dofs = map (fun e : bool * bool => mkpt (N := RNum) ((px o : R) + (if fst e then dx else 0)) 0 ((pz o : R) + (if snd e then dz else 0))) corners2.
(** Hanging nodes are where their constraint puts them. *)
Definition hanging_placed (n : nat) (C : constraints RNum) (pos : nat -> pt RNum) : Prop :=
  forall e, In e C -> (px (pos (fst e)) : R) = Sum (snd e) (fun w => snd w * px (pos (fst w))) /\ (py (pos (fst e)) : R) = Sum (snd e) (fun w => snd w * py (pos (fst w))) /\
    (pz (pos (fst e)) : R) = Sum (snd e) (fun w => snd w * pz (pos (fst w))).
(** The sides of a box in the order of [sides3] and [sides2] with their outward normals. *)
Definition normals (dim3 : bool) : list (pt RNum) :=
  let u (x y z : R) := mkpt (N := RNum) x y z in
  if dim3 then [u (-1) 0 0; u 1 0 0; u 0 (-1) 0; u 0 1 0; u 0 0 (-1); u 0 0 1] else [u (-1) 0 0; u 1 0 0; u 0 0 (-1); u 0 0 1].
(** Two sides that face each other: opposite normals, and all fields have the same integral on them (so also when one is made of smaller ones). *)
Definition side_integral (C : constraints RNum) (sides : list (hcell RNum * pt RNum)) (z : nat -> R) : R := Sum sides (fun s => Sum (c_quads (fst s)) (fun q => h_jxw q * field C (fst s) q z)).
Definition facing (C : constraints RNum) (A B : list (hcell RNum * pt RNum)) : Prop :=
  (exists u : pt RNum, Forall (fun s => snd s = u) A /\ Forall (fun s => snd s = mkpt (N := RNum) (- px u) (- py u) (- pz u)) B) /\ forall z, side_integral C A z = side_integral C B z.
(** A mesh of boxes at their places; their sides are the faces on the boundary with the normals [normal] and pairs that face each other. *)
Definition box_grid (dim3 : bool) (h : R) (m : heat_mesh RNum) (pos normal : nat -> pt RNum) : Prop :=
  m_mass m = m_cells m /\ Forall (placed dim3 pos) (m_cells m) /\ hanging_placed (m_n m) (m_C m) pos /\
  exists (sides : list (list (hcell RNum))) (pairs : list (list (hcell RNum * pt RNum) * list (hcell RNum * pt RNum))),
    Forall2 (box_with_sides dim3 h) (m_cells m) sides /\ Forall (fun AB => facing (m_C m) (fst AB) (snd AB)) pairs /\
    Permutation (flat_map (fun ss => combine ss (normals dim3)) sides)
      (map (fun jf => (active_side (snd jf), normal (fst jf))) (filter (fun jf => on_boundary (snd jf)) (indexed (m_faces m))) ++ flat_map (fun AB => fst AB ++ snd AB) pairs).
