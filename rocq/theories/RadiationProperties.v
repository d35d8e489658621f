(** RadiationProperties.v -- C82: no overshoot with convection and radiation. *)
From Coq Require Import Reals List Bool String ZArith Lra.
From Verif Require Import Base MaterialModel MaterialSpec InputModel HeatModel HeatSpec StabilitySpec StabilityExamples MaximumSpec RadiationSpec RadiationProofs RadiationProofs2 RadiationProofs3 RadiationExamples.
Import ListNotations.
Open Scope R_scope.

(** * C82 *)
(** One forward Euler step, with the coefficients at the temperatures before the step: no temperature leaves the range of those before the step and of the surroundings. *)
Theorem C82_current : forall (dim3 ad : bool) (m : heat_mesh RNum) (K : laws RNum) (P : frozen) (F : face_laws RNum) (Q : frozen_faces) (lo hi : R) (y : list R),
  mesh_ok m -> massive m -> positive_weights (m_C m) -> List.length y = m_n m -> at_temperatures m K P F Q y -> surroundings ad m Q lo hi -> 0 <= lo -> between m lo hi y ->
  forall t dt, 0 <= dt -> moderate dim3 ad m P (losses m Q y) dt -> between m lo hi (snd (evolve (N := RNum) ForwardEuler (fun _ _ v => evaluate (N := RNum) dim3 false ad m K F v) t dt y)).
Proof. exact euler_between. Qed.
Print Assumptions C82_current.
(** The same with the largest coefficients: a limit on the time step that does not depend on the temperatures. *)
Theorem C82_step : forall (dim3 ad : bool) (m : heat_mesh RNum) (K : laws RNum) (P : frozen) (F : face_laws RNum) (Q : frozen_faces) (lo hi t dt : R) (y : list R),
  mesh_ok m -> massive m -> positive_weights (m_C m) -> List.length y = m_n m -> at_temperatures m K P F Q y -> surroundings ad m Q lo hi -> 0 <= lo -> 0 <= dt ->
  moderate dim3 ad m P (largest_losses Q hi) dt -> between m lo hi y -> between m lo hi (snd (evolve (N := RNum) ForwardEuler (fun _ _ v => evaluate (N := RNum) dim3 false ad m K F v) t dt y)).
Proof. exact radiating_step. Qed.
Print Assumptions C82_step.
(** Any number of steps, with laws that change. *)
Theorem C82_run : forall (dim3 ad : bool) (m : heat_mesh RNum) (lo hi t : R) (y : list R) (t2 : R) (y2 : list R), mesh_ok m -> massive m -> positive_weights (m_C m) -> List.length y = m_n m ->
  0 <= lo -> between m lo hi y -> radiating_run dim3 ad m lo hi t y t2 y2 -> between m lo hi y2.
Proof. exact radiating_between. Qed.
Print Assumptions C82_run.
Example C82_run_witness : mesh_ok hot_squares /\ massive hot_squares /\ surroundings false hot_squares hot_faces 300 1000 /\ moderate false false hot_squares unit_law (largest_losses hot_faces 1000) (2/9) /\
  between hot_squares 300 1000 hot_spot /\ exists y2, radiating_run false false hot_squares 300 1000 0 hot_spot (0 + 2/9) y2.
Proof. exact (conj hot_ok (conj hot_massive (conj hot_surroundings (conj hot_moderate (conj hot_between hot_run))))). Qed.
(** Boxes of any shape with the Gauss-Lobatto points that lose heat through their sides: conductivities, heat capacities and coefficients may depend on the point and on the
    temperature; the limit on the time step from the smallest edge, the diffusivity and the largest loss. *)
Theorem C82_boxes : forall (dim3 : bool) (m : heat_mesh RNum) (K : laws RNum) (F : face_laws RNum) (alpha g lo hi h t dt : R) (y : list R) (n : nat),
  mesh_ok m -> massive m -> m_C m = [] -> exposed_boxes dim3 h m -> laws_within m K F lo hi alpha g -> 0 < h -> 0 <= lo -> 0 <= dt ->
  dt * ((if dim3 then 6 else 4) * (alpha / (h * h) + g / h)) <= 1 -> List.length y = m_n m -> between m lo hi y ->
  between m lo hi (snd (many ForwardEuler (fun _ _ v => evaluate (N := RNum) dim3 false false m K F v) dt n (t, y))).
Proof. exact boxes_many. Qed.
Print Assumptions C82_boxes.
Theorem C82_limit : forall (dim3 : bool) (m : heat_mesh RNum) (P : frozen) (Q : frozen_faces) (alpha g lo hi h dt : R),
  mesh_ok m -> massive m -> m_C m = [] -> exposed_boxes dim3 h m -> aligned P alpha -> losses_at_most m Q hi g -> surroundings false m Q lo hi -> 0 < h -> 0 <= dt ->
  dt * ((if dim3 then 6 else 4) * (alpha / (h * h) + g / h)) <= 1 -> moderate dim3 false m P (largest_losses Q hi) dt.
Proof. exact boxes_moderate. Qed.
Print Assumptions C82_limit.
Example C82_boxes_witness : mesh_ok hot_squares /\ massive hot_squares /\ m_C hot_squares = [] /\ exposed_boxes false 1 hot_squares /\ laws_within hot_squares warming hot_air 300 1000 1 (1/8) /\
  2/9 * (4 * (1 / (1 * 1) + 1/8 / 1)) <= 1 /\ between hot_squares 300 1000 hot_spot /\ (exists f, In f (m_faces hot_squares) /\ on_boundary f = true /\ hf_type f = radiative).
Proof. refine (conj hot_ok (conj hot_massive (conj eq_refl (conj hot_exposed (conj hot_within (conj two_ninths (conj hot_between _))))))). eexists. split; [right; right; right; left; reflexivity|]. split; reflexivity. Qed.
(** The limit of conduction alone is not enough: a square at 1000 K that radiates to surroundings at 300 K falls below them in one step. *)
Theorem C82_conduction_limit_refuted : mesh_ok radiator /\ massive radiator /\ exposed_boxes false 1 radiator /\ (exists g, laws_within radiator unit_K strong 300 1000 1 g) /\
  1/4 * (4 * (1 / (1 * 1))) <= 1 /\ between radiator 300 1000 glowing /\
  forall t, entry (snd (evolve (N := RNum) ForwardEuler (fun _ _ v => evaluate (N := RNum) false false false radiator unit_K strong v) t (1/4) glowing)) 1 < 300.
Proof. exact (conj radiator_ok (conj radiator_massive (conj radiator_exposed (conj radiator_within (conj quarter (conj glowing_between radiator_after)))))). Qed.
Print Assumptions C82_conduction_limit_refuted.
