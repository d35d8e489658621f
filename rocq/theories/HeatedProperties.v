(** HeatedProperties.v -- C83: the temperatures of a part that is heated. *)
From Coq Require Import Reals List Bool String ZArith Lra.
From Verif Require Import Base MaterialModel MaterialSpec InputModel HeatModel HeatSpec StabilitySpec StabilityExamples MaximumSpec RadiationSpec RadiationExamples HeatedSpec HeatedProofs HeatedExamples.
Import ListNotations.
Open Scope R_scope.

(** * C83 *)
(** The beams never make a temperature fall below the lowest temperature before the step and of the surroundings. *)
Theorem C83_never_colder : forall (dim3 on ad : bool) (m : heat_mesh RNum) (K : laws RNum) (P : frozen) (F : face_laws RNum) (Q : frozen_faces) (lo hi t dt : R) (y : list R),
  mesh_ok m -> massive m -> positive_weights (m_C m) -> positive_points m -> List.length y = m_n m -> at_temperatures m K P F Q y -> surroundings ad m Q lo hi -> heated P -> 0 <= lo -> 0 <= dt ->
  moderate dim3 ad m P (losses m Q y) dt -> between m lo hi y ->
  forall j, free m j -> lo <= entry (snd (evolve (N := RNum) ForwardEuler (fun _ _ v => evaluate (N := RNum) dim3 on ad m K F v) t dt y)) j.
Proof. exact heated_above. Qed.
Print Assumptions C83_never_colder.
(** ... and a step raises the highest temperature by at most the time step times the largest rate of heating. *)
Theorem C83_step : forall (dim3 on ad : bool) (m : heat_mesh RNum) (K : laws RNum) (P : frozen) (F : face_laws RNum) (Q : frozen_faces) (lo hi s t dt : R) (y : list R),
  mesh_ok m -> massive m -> positive_weights (m_C m) -> positive_points m -> same_masses m -> List.length y = m_n m -> at_temperatures m K P F Q y -> surroundings ad m Q lo hi ->
  heated_at_most P s -> 0 <= lo -> 0 <= dt -> moderate dim3 ad m P (losses m Q y) dt -> between m lo hi y ->
  between m lo (hi + dt * s) (snd (evolve (N := RNum) ForwardEuler (fun _ _ v => evaluate (N := RNum) dim3 on ad m K F v) t dt y)).
Proof. exact heated_between. Qed.
Print Assumptions C83_step.
Example C83_step_witness : mesh_ok hot_squares /\ massive hot_squares /\ positive_points hot_squares /\ same_masses hot_squares /\
  at_temperatures hot_squares (fun i q _ => beam_law i q) beam_law (fun i q _ => hot_faces i q) hot_faces hot_spot /\ surroundings false hot_squares hot_faces 300 1000 /\
  heated beam_law /\ heated_at_most beam_law 10 /\ moderate false false hot_squares beam_law (losses hot_squares hot_faces hot_spot) (2/9) /\ between hot_squares 300 1000 hot_spot.
Proof. exact (conj hot_ok (conj hot_massive (conj hot_points (conj hot_masses (conj beam_at (conj hot_surroundings (conj beam_heated0 (conj beam_heated (conj beam_moderate hot_between))))))))). Qed.
(** Any number of steps of different lengths, with laws that change: after the time [t2 - t] the highest temperature has risen by at most this time times the largest rate of heating. *)
Theorem C83_run : forall (dim3 ad : bool) (m : heat_mesh RNum) (lo env top s t : R) (y : list R) (t2 : R) (y2 : list R),
  mesh_ok m -> massive m -> positive_weights (m_C m) -> positive_points m -> same_masses m -> 0 <= lo -> 0 <= s -> heated_run dim3 ad m lo env top s t y t2 y2 ->
  forall hi, List.length y = m_n m -> env <= hi -> between m lo hi y -> hi + (t2 - t) * s <= top -> between m lo (hi + (t2 - t) * s) y2.
Proof. exact heated_run_between. Qed.
Print Assumptions C83_run.
Example C83_run_witness : mesh_ok hot_squares /\ massive hot_squares /\ positive_points hot_squares /\ same_masses hot_squares /\ between hot_squares 300 1000 hot_spot /\
  exists y2, heated_run false false hot_squares 300 400 1100 10 0 hot_spot (0 + 1/5 + 1/10) y2.
Proof. exact (conj hot_ok (conj hot_massive (conj hot_points (conj hot_masses (conj hot_between beam_run))))). Qed.
(** Boxes with the Gauss-Lobatto points, any number of steps, beams that go on and off and laws that change with time, place and temperature: the temperatures stay between the
    extremes before the run and of the surroundings, raised by the time times the largest rate of heating. *)
Theorem C83_boxes : forall (dim3 : bool) (m : heat_mesh RNum) (on : R -> bool) (K : R -> laws RNum) (F : R -> face_laws RNum) (lo hi top alpha g s h dt t : R) (y : list R) (N : nat),
  mesh_ok m -> massive m -> m_C m = [] -> exposed_boxes dim3 h m ->
  (forall u, heated_laws m (K u) (F u) lo hi top alpha g s) -> 0 <= g -> 0 <= s -> 0 < h -> 0 <= lo -> 0 <= dt -> hi + INR N * (dt * s) <= top ->
  dt * ((if dim3 then 6 else 4) * (alpha / (h * h) + g / h)) <= 1 -> List.length y = m_n m -> between m lo hi y ->
  forall n, (n <= N)%nat -> between m lo (hi + INR n * (dt * s)) (snd (many ForwardEuler (fun _ u v => evaluate (N := RNum) dim3 (on u) false m (K u) (F u) v) dt n (t, y))).
Proof. exact heated_boxes_many. Qed.
Print Assumptions C83_boxes.
Example C83_boxes_witness : mesh_ok hot_squares /\ massive hot_squares /\ m_C hot_squares = [] /\ exposed_boxes false 1 hot_squares /\ heated_laws hot_squares beamed hot_air 300 1000 1100 1 (1/4) 10 /\
  1000 + INR 10 * (1/5 * 10) <= 1100 /\ 1/5 * (4 * (1 / (1 * 1) + 1/4 / 1)) <= 1 /\ between hot_squares 300 1000 hot_spot.
Proof. exact (conj hot_ok (conj hot_massive (conj eq_refl (conj hot_exposed (conj beamed_laws (conj ten_steps (conj one_fifth hot_between))))))). Qed.
(** The bound is reached: a square without losses under an even beam. *)
Theorem C83_reached : mesh_ok heater /\ massive heater /\ exposed_boxes false 1 heater /\ (forall top, heated_laws heater even_beam hot_air 300 1000 top 1 0 5) /\
  forall (t dt : R) (n : nat), exists t1, many ForwardEuler (fun _ _ v => evaluate (N := RNum) false true false heater even_beam hot_air v) dt n (t, [1000; 1000; 1000; 1000]) =
    (t1, let T := 1000 + INR n * (dt * 5) in [T; T; T; T]).
Proof. exact (conj heater_ok (conj heater_massive (conj heater_exposed (conj heater_laws heater_many)))). Qed.
Print Assumptions C83_reached.
