(** MaximumProperties.v -- C79: no overshoot. *)
From Coq Require Import Reals List Bool String ZArith Lra.
From Verif Require Import Base MaterialModel MaterialSpec InputModel HeatModel HeatSpec StabilitySpec MaximumSpec StabilityExamples MaximumProofs MaximumProofs2 MaximumExamples.
Import ListNotations.
Open Scope R_scope.

(** * C79 *)
(** One step of any scheme: no temperature leaves the range of the temperatures before the step and of the air. *)
Theorem C79_step : forall (dim3 ad : bool) (s : scheme) (m : heat_mesh RNum) (K : laws RNum) (P : frozen) (F : face_laws RNum) (Q : frozen_faces) (lo hi t dt : R) (y : list R),
  mesh_ok m -> massive m -> List.length y = m_n m -> laws_of_step s m K P F Q y -> air_between ad m Q lo hi -> 0 <= dt -> downhill dim3 ad m P Q dt ->
  between m lo hi y -> between m lo hi (snd (evolve (N := RNum) s (fun _ _ v => evaluate (N := RNum) dim3 false ad m K F v) t dt y)).
Proof. exact evolve_between. Qed.
Print Assumptions C79_step.
(** Any number of steps. *)
Theorem C79_run : forall (dim3 ad : bool) (s : scheme) (m : heat_mesh RNum) (lo hi t : R) (y : list R) (t2 : R) (y2 : list R), mesh_ok m -> massive m -> List.length y = m_n m ->
  between m lo hi y -> downhill_run dim3 ad s m lo hi t y t2 y2 -> between m lo hi y2.
Proof. exact run_between. Qed.
Print Assumptions C79_run.
(** Hanging nodes included. *)
Theorem C79_hanging : forall (m : heat_mesh RNum) (lo hi : R) (y : list R) (j : nat), mesh_ok m -> positive_weights (m_C m) -> between m lo hi y -> (j < m_n m)%nat ->
  lo <= nodal (m_C m) (entry y) j <= hi.
Proof. exact hanging_between. Qed.
Print Assumptions C79_hanging.
Example C79_hanging_witness : mesh_ok (plate adiabatic) /\ positive_weights (m_C (plate adiabatic)) /\ between (plate adiabatic) 300 400 [300; 400; 300; 300; 400; 0; 350; 300] /\
  nodal (m_C (plate adiabatic)) (entry [300; 400; 300; 300; 400; 0; 350; 300]) 5 = 350.
Proof. exact hanging_witness. Qed.
Example C79_witness : forall s : scheme, mesh_ok two_squares /\ massive two_squares /\ between two_squares 300 1000 spot /\ exists y2, downhill_run false true s two_squares 300 1000 0 spot (0 + 3/8) y2.
Proof. exact (fun s => conj two_ok (conj two_massive (conj two_between (two_run s)))). Qed.
Example C79_witness_air : forall (s : scheme) (y : list R), mesh_ok cooled_square /\ massive cooled_square /\ exists y2, downhill_run false false s cooled_square 20 1000 0 y (0 + 1/6) y2.
Proof. exact (fun s y => conj cooled_ok (conj cooled_massive (cooled_run s y))). Qed.
(** Linear elements: cubes with the Gauss points, boxes of any shape with the Gauss-Lobatto points, no hanging nodes, insulated, isotropic. *)
Theorem C79_boxes : forall (dim3 lobatto : bool) (s : scheme) (m : heat_mesh RNum) (K : laws RNum) (P : frozen) (F : face_laws RNum) (Q : frozen_faces) (alpha h lo hi t dt : R) (y : list R),
  mesh_ok m -> massive m -> m_C m = [] -> even_boxes dim3 lobatto h m -> isotropic P alpha -> 0 < h -> 0 <= dt -> dt * (even_factor dim3 lobatto * alpha / (h * h)) <= 1 ->
  List.length y = m_n m -> laws_of_step s m K P F Q y ->
  between m lo hi y -> between m lo hi (snd (evolve (N := RNum) s (fun _ _ v => evaluate (N := RNum) dim3 false true m K F v) t dt y)).
Proof. exact boxes_between. Qed.
Print Assumptions C79_boxes.
Example C79_boxes_witness : mesh_ok two_squares /\ massive two_squares /\ m_C two_squares = [] /\ even_boxes false false 1 two_squares /\ isotropic unit_law 1 /\ 3/8 * (even_factor false false * 1 / (1 * 1)) <= 1.
Proof. exact (conj two_ok (conj two_massive (conj eq_refl (conj two_boxes (conj unit_isotropic three_eighths))))). Qed.
(** On a rectangle twice as long as wide with the Gauss points, however short the step: a node becomes colder than everything was. *)
Theorem C79_flat_refuted : mesh_ok flat /\ massive flat /\ boxes false false 1 flat /\ isotropic unit_law 1 /\ between flat 300 400 corner /\
  forall t dt, 0 < dt -> entry (snd (evolve (N := RNum) ForwardEuler (fun _ _ v => evaluate (N := RNum) false false true flat unit_K unit_F v) t dt corner)) 2 < 300.
Proof. exact flat_refuted. Qed.
Print Assumptions C79_flat_refuted.
