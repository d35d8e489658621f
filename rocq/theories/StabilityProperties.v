(** StabilityProperties.v -- property C78. *)
From Coq Require Import Reals List Bool String ZArith Lra.
From Verif Require Import Base MaterialModel MaterialSpec InputModel HeatModel HeatSpec StabilitySpec HeatProofs5 StabilityProofs StabilityProofs2 StabilityProofs3 StabilityProofs4 StabilityProofs5 StabilityExamples.
Import ListNotations.
Open Scope R_scope.

(** * C78: time steps below the limit are stable *)
(** One step: the deviation from the temperature of the air shrinks by at least a hundredth of the heat exchanged. *)
Theorem C78_step : forall (dim3 ad : bool) (m : heat_mesh RNum) (P : frozen) (Q : frozen_faces) (K : laws RNum) (F : face_laws RNum) (Tinf : R) (s : scheme) (t dt lam : R) (y : list R),
  mesh_ok m -> massive m -> steady K P F Q -> cooled dim3 ad m P Q Tinf -> rate_at_most dim3 ad m P Q lam -> 0 <= dt -> dt * lam <= limit s -> List.length y = m_n m ->
  size2 m (deviation Tinf (snd (evolve (N := RNum) s (fun _ _ v => evaluate (N := RNum) dim3 false ad m K F v) t dt y))) <=
  size2 m (deviation Tinf y) - 1/100 * (dt * exchange dim3 ad m P Q (deviation Tinf y) (deviation Tinf y)) /\
  0 <= exchange dim3 ad m P Q (deviation Tinf y) (deviation Tinf y).
Proof. exact step_statement. Qed.
Print Assumptions C78_step.
(** Any number of steps, whatever their lengths below the limit. *)
Theorem C78_run : forall (dim3 ad : bool) (s : scheme) (m : heat_mesh RNum) (Tinf mu t : R) (y : list R) (t2 : R) (y2 : list R), mesh_ok m -> massive m -> List.length y = m_n m ->
  cooling_run dim3 ad s m Tinf mu t y t2 y2 -> List.length y2 = m_n m /\ t <= t2 /\ size2 m (deviation Tinf y2) <= size2 m (deviation Tinf y).
Proof. exact run_cools. Qed.
Print Assumptions C78_run.
Theorem C78_nodes : forall (dim3 ad : bool) (s : scheme) (m : heat_mesh RNum) (Tinf mu t : R) (y : list R) (t2 : R) (y2 : list R) (j : nat), mesh_ok m -> massive m -> List.length y = m_n m ->
  cooling_run dim3 ad s m Tinf mu t y t2 y2 -> free m j -> Rabs (entry y2 j - Tinf) <= sqrt (size2 m (deviation Tinf y) / nodal_mass m j).
Proof. exact run_bounded. Qed.
Print Assumptions C78_nodes.
(** The temperature goes to the temperature of the air, or to the mean temperature if no heat can leave. *)
Theorem C78_decay : forall (dim3 ad : bool) (s : scheme) (m : heat_mesh RNum) (Tinf mu t : R) (y : list R) (t2 : R) (y2 : list R), mesh_ok m -> massive m -> List.length y = m_n m ->
  cooling_run dim3 ad s m Tinf mu t y t2 y2 -> 0 <= mu -> (ad = true -> integral (m_C m) (m_mass m) (deviation Tinf y) = 0) ->
  size2 m (deviation Tinf y2) <= exp (- (mu * (t2 - t) / 100)) * size2 m (deviation Tinf y).
Proof. exact run_decays. Qed.
Print Assumptions C78_decay.
Example C78_witness : forall s : scheme, mesh_ok unit_square /\ massive unit_square /\
  exists y2, cooling_run false true s unit_square 300 (8/3) 0 hot (0 + 1/4) y2 /\ integral (m_C unit_square) (m_mass unit_square) (deviation 300 hot) = 0.
Proof. exact (fun s => conj unit_mesh_ok (conj unit_massive (unit_run s))). Qed.
(** A hanging node and air on one side. *)
Example C78_witness_air : forall (s : scheme) (y : list R), List.length y = 8%nat -> mesh_ok (plate convective) /\ massive (plate convective) /\
  exists dt y1, 0 < dt /\ cooling_run false false s (plate convective) 20 0 0 y (0 + dt) y1.
Proof. exact (fun s y L => conj (plate_ok convective) (conj (plate_massive convective) (plate_run s y L))). Qed.
(** Where the rates come from: the rows of the operator, the cells, the sizes of the boxes. *)
Theorem C78_rows : forall (dim3 ad : bool) (m : heat_mesh RNum) (P : frozen) (Q : frozen_faces), mesh_ok m -> forall lam : R,
  (forall i, free m i -> row_sum dim3 ad m P Q i <= lam * nodal_mass m i) -> rate_at_most dim3 ad m P Q lam.
Proof. exact rows_bound. Qed.
Print Assumptions C78_rows.
Theorem C78_some_step : forall (dim3 ad : bool) (m : heat_mesh RNum) (P : frozen) (Q : frozen_faces), mesh_ok m -> massive m -> exists lam, 0 < lam /\ rate_at_most dim3 ad m P Q lam.
Proof. exact some_bound. Qed.
Print Assumptions C78_some_step.
Theorem C78_cells : forall (dim3 : bool) (m : heat_mesh RNum) (P : frozen) (lam : R), mesh_ok m -> positive_weights (m_C m) -> 0 <= lam -> cells_at_most dim3 m P lam ->
  rate_at_most dim3 true m P (fun _ _ => mkfl (N := RNum) 0 0 0 0 0) lam.
Proof. exact cells_bound. Qed.
Print Assumptions C78_cells.
(** Linear elements on boxes with edges of at least h: a step of limit * h * h / (factor * diffusivity) is stable. *)
Theorem C78_boxes : forall (dim3 lobatto : bool) (m : heat_mesh RNum) (K : laws RNum) (P : frozen) (F : face_laws RNum) (Q : frozen_faces) (alpha h Tinf : R) (s : scheme) (t dt : R) (y : list R),
  mesh_ok m -> massive m -> positive_weights (m_C m) -> steady K P F Q -> diffusivity_at_most P alpha -> 0 < h -> boxes dim3 lobatto h m ->
  List.length y = m_n m -> 0 <= dt -> dt * (box_factor dim3 lobatto * alpha / (h * h)) <= limit s ->
  size2 m (deviation Tinf (snd (evolve (N := RNum) s (fun _ _ v => evaluate (N := RNum) dim3 false true m K F v) t dt y))) <= size2 m (deviation Tinf y).
Proof. exact boxes_step. Qed.
Print Assumptions C78_boxes.
Example C78_boxes_witness : mesh_ok (plate adiabatic) /\ massive (plate adiabatic) /\ positive_weights (m_C (plate adiabatic)) /\ diffusivity_at_most unit_law 1 /\ boxes false false (1/2) (plate adiabatic) /\
  limit RungeKutta4 = 11/4 /\ 11/64 * (box_factor false false * 1 / (1/2 * (1/2))) = 11/4.
Proof.
  exact (conj (plate_ok _) (conj (plate_massive _) (conj (plate_weights _) (conj unit_diffusivity (conj (plate_boxes _) (conj eq_refl eleven)))))).
Qed.
(** A mode: every step multiplies it by the Taylor polynomial of the exponential. *)
Theorem C78_mode : forall (dim3 ad : bool) (m : heat_mesh RNum) (P : frozen) (Q : frozen_faces) (K : laws RNum) (F : face_laws RNum) (Tinf lam dt : R), mesh_ok m -> massive m -> steady K P F Q ->
  (ad = false -> aired m Q Tinf) -> forall (s : scheme) (n : nat) (t : R) (y : list R), List.length y = m_n m ->
  (forall u, exchange dim3 ad m P Q (deviation Tinf y) u = lam * mass_product m (deviation Tinf y) u) ->
  forall j, free m j -> deviation Tinf (snd (many s (fun _ _ v => evaluate (N := RNum) dim3 false ad m K F v) dt n (t, y))) j = taylor (order s) (- (lam * dt)) ^ n * deviation Tinf y j.
Proof. exact mode_steps. Qed.
Print Assumptions C78_mode.
Example C78_mode_witness : forall u, exchange false true unit_square unit_law no_air (deviation 300 hot) u = 4 * mass_product unit_square (deviation 300 hot) u.
Proof. exact unit_mode. Qed.
(** The bound of the boxes is reached on a square, and three times the inverse of the rate is too long for every scheme: the temperatures grow without bound. *)
Theorem C78_long_step_refuted : rate_at_most false true unit_square unit_law no_air 4 /\ forall (s : scheme) (n : nat),
  (11/8) ^ n <= Rabs (entry (snd (many s (fun _ _ v => evaluate (N := RNum) false false true unit_square unit_K unit_F v) (3/4) n (0, hot))) 0 - 300).
Proof. exact unit_unstable. Qed.
Print Assumptions C78_long_step_refuted.
