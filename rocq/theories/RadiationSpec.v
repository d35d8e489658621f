(** RadiationSpec.v -- steps with convection and radiation that do not overshoot. *)
From Coq Require Import Reals List Bool String ZArith Lra Permutation.
From Verif Require Import Base MaterialModel MaterialSpec InputModel HeatModel HeatSpec StabilitySpec MaximumSpec.
Import ListNotations.
Open Scope R_scope.

(** All the heat lost at a point of the surface per degree above the surroundings, at the temperature [T]; its largest value up to the temperature [hi]. *)
Definition loss_coef (ty : BinNums.N) (k : face_law RNum) (T : R) : R :=
  (if has_flag ty convective then fl_h k else 0) + (if has_flag ty radiative then (fl_emissivity k : R) * sigma * ((T + fl_rad k) * (T * T + fl_rad k * fl_rad k)) else 0).
Definition largest_coef (ty : BinNums.N) (k : face_law RNum) (hi : R) : R :=
  (if has_flag ty convective then fl_h k else 0) + (if has_flag ty radiative then (fl_emissivity k : R) * sigma * (4 * hi ^ 3) else 0).
(** Heat exchanged between two fields: conduction in the cells and a coefficient [c] on the boundary of the active domain. *)
Definition coefficient := nat * hface RNum -> nat * hquad RNum -> R.
Definition surface (m : heat_mesh RNum) (c : coefficient) (u z : nat -> R) : R :=
  Sum (indexed (m_faces m)) (fun jf => if on_boundary (snd jf) then Sum (indexed (c_quads (active_side (snd jf)))) (fun iq =>
    h_jxw (snd iq) * c jf iq * (field (m_C m) (active_side (snd jf)) (snd iq) u * field (m_C m) (active_side (snd jf)) (snd iq) z)) else 0).
Definition exchange_with (dim3 ad : bool) (m : heat_mesh RNum) (P : frozen) (c : coefficient) (u z : nat -> R) : R :=
  conducted dim3 m P u z + (if ad then 0 else surface m c u z).
(** The coefficients (divided by density and heat capacity) at the temperatures [y], and their largest values up to [hi]. *)
Definition losses (m : heat_mesh RNum) (Q : frozen_faces) (y : list R) : coefficient := fun jf iq =>
  let k := Q (fst jf) (fst iq) in fl_inv k * loss_coef (hf_type (snd jf)) k (field (m_C m) (active_side (snd jf)) (snd iq) (entry y)).
Definition largest_losses (Q : frozen_faces) (hi : R) : coefficient := fun jf iq => let k := Q (fst jf) (fst iq) in fl_inv k * largest_coef (hf_type (snd jf)) k hi.
(** A node takes heat only in favour of colder ones, and a time step takes from no node more than it has. *)
Definition moderate (dim3 ad : bool) (m : heat_mesh RNum) (P : frozen) (c : coefficient) (dt : R) : Prop :=
  (forall i j, free m i -> free m j -> i <> j -> exchange_with dim3 ad m P c (hat i) (hat j) <= 0) /\
  (forall i, free m i -> dt * exchange_with dim3 ad m P c (hat i) (hat i) <= nodal_mass m i).
(** Physical coefficients, and surroundings with temperatures between [lo] and [hi] (not all the same); shape functions that are not negative on the surface. *)
Definition surroundings (ad : bool) (m : heat_mesh RNum) (Q : frozen_faces) (lo hi : R) : Prop :=
  ad = false -> forall j f, In (j, f) (indexed (m_faces m)) -> on_boundary f = true ->
    Forall (fun q : hquad RNum => 0 <= h_jxw q /\ Forall (fun v : R => 0 <= v) (h_values q)) (c_quads (active_side f)) /\
    forall q, 0 <= fl_inv (Q j q) /\ 0 <= fl_h (Q j q) /\ 0 <= fl_emissivity (Q j q) /\
      (has_flag (hf_type f) convective = true -> lo <= fl_conv (Q j q) <= hi) /\ (has_flag (hf_type f) radiative = true -> lo <= fl_rad (Q j q) <= hi).
(** Any number of forward Euler steps; the laws may change with time and temperature. *)
Inductive radiating_run (dim3 ad : bool) (m : heat_mesh RNum) (lo hi : R) : R -> list R -> R -> list R -> Prop :=
| rr_stop : forall t y, radiating_run dim3 ad m lo hi t y t y
| rr_hanging : forall t y y' t2 y2, List.length y' = List.length y -> (forall k, free m k -> entry y' k = entry y k) ->
    radiating_run dim3 ad m lo hi t y' t2 y2 -> radiating_run dim3 ad m lo hi t y t2 y2
| rr_step : forall t dt y t1 y1 t2 y2 (K : laws RNum) (F : face_laws RNum) (P : frozen) (Q : frozen_faces),
    at_temperatures m K P F Q y -> surroundings ad m Q lo hi -> 0 <= dt -> moderate dim3 ad m P (largest_losses Q hi) dt ->
    evolve (N := RNum) ForwardEuler (fun _ _ v => evaluate (N := RNum) dim3 false ad m K F v) t dt y = (t1, y1) ->
    radiating_run dim3 ad m lo hi t1 y1 t2 y2 -> radiating_run dim3 ad m lo hi t y t2 y2.
(** ** Boxes with Gauss-Lobatto points *)
(** A side of a box: quadrature points at the corners [corners] (numbered as in the box), the same weight at each. *)
Definition side (n : nat) (dofs : list nat) (wc : R * list nat) (c : hcell RNum) : Prop :=
  c_dofs c = dofs /\ map (fun q : hquad RNum => ((h_jxw q : R), (h_values q : list R))) (c_quads c) = map (fun a => (fst wc, map (fun k => if Nat.eqb k a then 1 else 0) (seq 0 n))) (snd wc).
Definition sides3 (dx dy dz : R) : list (R * list nat) :=
  [(dy * dz / 4, [0; 2; 4; 6]%nat); (dy * dz / 4, [1; 3; 5; 7]%nat); (dx * dz / 4, [0; 1; 4; 5]%nat); (dx * dz / 4, [2; 3; 6; 7]%nat); (dx * dy / 4, [0; 1; 2; 3]%nat); (dx * dy / 4, [4; 5; 6; 7]%nat)].
Definition sides2 (dx dz : R) : list (R * list nat) := [(dz / 2, [0; 2]%nat); (dz / 2, [1; 3]%nat); (dx / 2, [0; 1]%nat); (dx / 2, [2; 3]%nat)].
Definition box_with_sides (dim3 : bool) (h : R) (c : hcell RNum) (sides : list (hcell RNum)) : Prop :=
  NoDup (c_dofs c) /\
  if dim3 then exists dx dy dz dofs, h <= dx /\ h <= dy /\ h <= dz /\ List.length dofs = 8%nat /\ c = brick ends dx dy dz dofs /\ Forall2 (side 8 dofs) (sides3 dx dy dz) sides
  else exists dx dz dofs, h <= dx /\ h <= dz /\ List.length dofs = 4%nat /\ c = rectangle ends dx dz dofs /\ Forall2 (side 4 dofs) (sides2 dx dz) sides.
(** The operator and the mass use the same points; the boundary of the active domain is made of different sides of the boxes. *)
Definition exposed_boxes (dim3 : bool) (h : R) (m : heat_mesh RNum) : Prop :=
  m_mass m = m_cells m /\ exists sides rest, Forall2 (box_with_sides dim3 h) (m_cells m) sides /\ Permutation (map active_side (filter on_boundary (m_faces m)) ++ rest) (List.concat sides).
(** The diffusivities are between 0 and [alpha] at every point; in three dimensions the directions of the material are those of the axes, unless the two horizontal diffusivities are the same. *)
Definition aligned_law (k : point_law RNum) (alpha : R) : Prop :=
  (pl_cos k : R) * pl_cos k + pl_sin k * pl_sin k = 1 /\ (pl_cos k : R) * pl_sin k * ((pl_inv k : R) * pl_kx k - (pl_inv k : R) * pl_ky k) = 0 /\
  0 <= (pl_inv k : R) * pl_kx k <= alpha /\ 0 <= (pl_inv k : R) * pl_ky k <= alpha /\ 0 <= (pl_inv k : R) * pl_kz k <= alpha.
Definition aligned (P : frozen) (alpha : R) : Prop := forall i q, aligned_law (P i q) alpha.
(** No more than [g] is lost at a point of the boundary (divided by density and heat capacity). *)
Definition losses_at_most (m : heat_mesh RNum) (Q : frozen_faces) (hi g : R) : Prop :=
  0 <= g /\ forall j f q, In (j, f) (indexed (m_faces m)) -> on_boundary f = true -> fl_inv (Q j q) * largest_coef (hf_type f) (Q j q) hi <= g.

(** Laws that depend on the temperature: what holds between [lo] and [hi]. *)
Definition laws_within (m : heat_mesh RNum) (K : laws RNum) (F : face_laws RNum) (lo hi alpha g : R) : Prop :=
  0 <= g /\ (forall i q T, lo <= T <= hi -> aligned_law (K i q T) alpha) /\
  forall j f q T, In (j, f) (indexed (m_faces m)) -> on_boundary f = true -> lo <= T <= hi -> let k := F j q T in
    0 <= fl_inv k /\ 0 <= fl_h k /\ 0 <= fl_emissivity k /\ (has_flag (hf_type f) convective = true -> lo <= fl_conv k <= hi) /\ (has_flag (hf_type f) radiative = true -> lo <= fl_rad k <= hi) /\
    fl_inv k * largest_coef (hf_type f) k hi <= g.
