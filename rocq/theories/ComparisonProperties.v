(** ComparisonProperties.v -- C93: more heat never makes a part colder.  Only statements, witnesses and assumptions. *)
From Coq Require Import Reals List Bool String ZArith.
From Verif Require Import Base ScanPathModel HeatSourceModel HeatSourceSpec MaterialModel MaterialSpec InputModel HeatModel HeatSpec StabilitySpec StabilityExamples MaximumSpec RadiationSpec RadiationExamples
  EnergyModel EnergySpec SuperpositionSpec ComparisonSpec MaximumExamples ComparisonProofs ComparisonProofs2 ComparisonProofs3 ComparisonExamples.
Import ListNotations.
Open Scope R_scope.

(** One forward Euler step: more heat at every point, warmer surroundings and no lower temperatures before the step give no lower temperatures after it. *)
Theorem C93_step : forall (dim3 ad : bool) (m : heat_mesh RNum) (P : frozen) (Q : frozen_faces) (onA onB : bool) (KA KB : laws RNum) (FA FB : face_laws RNum) (hi : R) (y y' : list R),
  mesh_ok m -> massive m -> positive_weights (m_C m) -> positive_mesh ad m -> physical ad P Q -> List.length y = m_n m -> List.length y' = m_n m ->
  heated_more P onA onB KA KB -> (ad = false -> warmer_air Q FA FB) -> no_colder m y y' -> ((ad = false -> no_radiation m) \/ (between m 0 hi y /\ between m 0 hi y')) ->
  forall dt, 0 <= dt -> moderate dim3 ad m P (largest_losses Q hi) dt ->
  no_colder m (sadd (N := RNum) y dt (evaluate (N := RNum) dim3 onA ad m KA FA y)) (sadd (N := RNum) y' dt (evaluate (N := RNum) dim3 onB ad m KB FB y')).
Proof. exact more_step. Qed.
Print Assumptions C93_step.

(** Runs: any number of time steps. *)
Theorem C93_run : forall (dim3 ad : bool) (m : heat_mesh RNum) (P : nat -> frozen) (Q : nat -> frozen_faces) (hi : R) (A B : scenario) (dts : list R),
  mesh_ok m -> massive m -> positive_weights (m_C m) -> positive_mesh ad m -> (forall n, physical ad (P n) (Q n)) ->
  hotter ad m P Q A B -> short_steps dim3 ad m P Q hi dts -> radiation_bounded dim3 ad m hi A B dts ->
  no_colder m (final dim3 ad ForwardEuler m A dts) (final dim3 ad ForwardEuler m B dts).
Proof. exact more_run. Qed.
Print Assumptions C93_run.

(** Boxes of any shape with the Gauss-Lobatto points: the limit on the time steps from the smallest edge, the diffusivity and the largest loss. *)
Theorem C93_boxes : forall (dim3 : bool) (m : heat_mesh RNum) (P : nat -> frozen) (Q : nat -> frozen_faces) (hi : R) (A B : scenario) (dts : list R) (alpha g h : R),
  mesh_ok m -> massive m -> m_C m = [] -> exposed_boxes dim3 h m -> positive_mesh false m -> (forall n, physical false (P n) (Q n)) ->
  (forall n, aligned (P n) alpha /\ losses_at_most m (Q n) hi g) -> 0 < h -> 0 <= hi -> Forall (fun dt => 0 <= dt /\ dt * ((if dim3 then 6 else 4) * (alpha / (h * h) + g / h)) <= 1) dts ->
  hotter false m P Q A B -> radiation_bounded dim3 false m hi A B dts ->
  no_colder m (final dim3 false ForwardEuler m A dts) (final dim3 false ForwardEuler m B dts).
Proof. exact more_boxes. Qed.
Print Assumptions C93_boxes.

(** One more Goldak beam never makes a node colder, wherever it goes and whatever the other beams do. *)
Theorem C93_another_beam : forall (dim3 : bool) (m : heat_mesh RNum) x (K : nat -> nat -> laws RNum) F (dts : list R) (l1 l2 : list source) (y : list R) t' y',
  mesh_ok m -> massive m -> positive_weights (m_C m) -> positive_mesh true m -> settled K -> (forall n c q T, 0 <= pl_inv (K n 0%nat c q T)) ->
  Forall never_cools (l1 ++ l2) -> Forall heating_beam l2 -> short_steps dim3 true m (fun n c q => K n 0%nat c q 0) no_losses 0 dts -> List.length y = m_n m ->
  thermal_run dim3 ForwardEuler m x K F 0 0 dts (l1 ++ l2) y = Ok (t', y') -> exists y1, thermal_run dim3 ForwardEuler m x K F 0 0 dts l1 y = Ok (t', y1) /\ no_colder m y1 y'.
Proof. exact another_beam. Qed.
Print Assumptions C93_another_beam.

(** Goldak beams with more power never make a node colder. *)
Theorem C93_more_power : forall a (dim3 : bool) (m : heat_mesh RNum) x (K : nat -> nat -> laws RNum) F (dts : list R) (l : list source) (y : list R) t' y1,
  1 <= a -> mesh_ok m -> massive m -> positive_weights (m_C m) -> positive_mesh true m -> settled K -> (forall n c q T, 0 <= pl_inv (K n 0%nat c q T)) ->
  Forall heating_beam l -> short_steps dim3 true m (fun n c q => K n 0%nat c q 0) no_losses 0 dts -> List.length y = m_n m -> thermal_run dim3 ForwardEuler m x K F 0 0 dts l y = Ok (t', y1) ->
  exists ya, thermal_run dim3 ForwardEuler m x K F 0 0 dts (map (scaled_source a) l) y = Ok (t', ya) /\ no_colder m y1 ya.
Proof. exact more_power. Qed.
Print Assumptions C93_more_power.

(** Nothing becomes colder than the start and the surroundings, however the part is heated. *)
Theorem C93_never_below : forall (dim3 ad : bool) (m : heat_mesh RNum) (P : nat -> frozen) (Q : nat -> frozen_faces) (lo hi : R) (B : scenario) (dts : list R),
  mesh_ok m -> massive m -> positive_weights (m_C m) -> positive_mesh ad m -> (forall n, physical ad (P n) (Q n)) -> 0 <= lo <= hi ->
  (forall n i c q T, same_conduction (sc_laws B n i c q T) (P n c q) /\ 0 <= heat_density (sc_on B n i) (sc_laws B n i c q T)) ->
  (ad = false -> forall n i j q T, let b := sc_faces B n i j q T in let k := Q n j q in fl_inv b = fl_inv k /\ fl_h b = fl_h k /\ fl_emissivity b = fl_emissivity k /\ lo <= fl_conv b /\ lo <= fl_rad b) ->
  List.length (sc_start B) = m_n m -> (forall k, free m k -> lo <= entry (sc_start B) k) -> short_steps dim3 ad m P Q hi dts ->
  ((ad = false -> no_radiation m) \/ forall k, between m 0 hi (final dim3 ad ForwardEuler m B (firstn k dts))) ->
  forall k, free m k -> lo <= entry (final dim3 ad ForwardEuler m B dts) k.
Proof. exact never_below. Qed.
Print Assumptions C93_never_below.

(** Two squares that lose heat by convection and radiation, in air of 320 K and of 400 K, for any number of steps of 2/9. *)
Theorem C93_run_case : forall dts, Forall (fun dt => dt = 2/9) dts -> mesh_ok hot_squares /\ massive hot_squares /\ m_C hot_squares = [] /\ exposed_boxes false 1 hot_squares /\ positive_mesh false hot_squares /\
  physical false unit_law hot_faces /\ aligned unit_law 1 /\ losses_at_most hot_squares hot_faces 1000 (1/8) /\ Forall (fun dt => 0 <= dt /\ dt * (4 * (1 / (1 * 1) + 1/8 / 1)) <= 1) dts /\
  hotter false hot_squares (fun _ => unit_law) (fun _ => hot_faces) cool_run warm_run /\ short_steps false false hot_squares (fun _ => unit_law) (fun _ => hot_faces) 1000 dts /\
  radiation_bounded false false hot_squares 1000 cool_run warm_run dts.
Proof.
  exact (fun dts D => conj hot_ok (conj hot_massive (conj eq_refl (conj hot_exposed (conj hot_positive (conj hot_physical (conj unit_aligned (conj hot_losses (conj (warm_limits dts D)
    (conj warmer_run (conj (warm_steps dts D) (both_bounded dts D)))))))))))).
Qed.
Print Assumptions C93_run_case.

(** A cube heated by one and by two pulsed beams, for any number of steps of 1/6. *)
Theorem C93_another_beam_case : forall dts, Forall (fun dt => dt = 1/6) dts -> exists (t' : R) (y' : list R),
  mesh_ok one_cube /\ massive one_cube /\ positive_mesh true one_cube /\ settled (fun _ _ => unit_K) /\ Forall never_cools ([first_pulse] ++ [second_pulse]) /\ Forall heating_beam [second_pulse] /\
  short_steps true true one_cube (fun n c q => unit_K c q 0) no_losses 0 dts /\
  thermal_run true ForwardEuler one_cube (fun _ _ => mkpt (N := RNum) 0 0 0) (fun _ _ => unit_K) (fun _ _ => unit_F) 0 0 dts ([first_pulse] ++ [second_pulse]) (repeat 300 8) = Ok (t', y').
Proof. exact beams_case. Qed.
Print Assumptions C93_another_beam_case.

(** With time steps that are short enough for the conduction only, it is false: a square that starts at 1000 K ends colder than the one that starts at 300 K. *)
Theorem C93_conduction_limit_refuted : mesh_ok radiator /\ massive radiator /\ exposed_boxes false 1 radiator /\ aligned unit_law 1 /\ 1/4 * (4 * (1 / (1 * 1))) <= 1 /\
  hotter false radiator (fun _ => unit_law) (fun _ _ _ => mkfl (N := RNum) 1 0 0 1 300) dark bright /\ free radiator 1 /\
  entry (final false false ForwardEuler radiator bright [1/4]) 1 < entry (final false false ForwardEuler radiator dark [1/4]) 1.
Proof. exact too_long. Qed.
Print Assumptions C93_conduction_limit_refuted.

(** The second beam alone (the other hypotheses of C93_more_power are those of C93_another_beam). *)
Theorem C93_more_power_case : forall dts, Forall (fun dt => dt = 1/6) dts -> exists (t' : R) (y1 : list R), Forall heating_beam [second_pulse] /\
  thermal_run true ForwardEuler one_cube (fun _ _ => mkpt (N := RNum) 0 0 0) (fun _ _ => unit_K) (fun _ _ => unit_F) 0 0 dts [second_pulse] (repeat 300 8) = Ok (t', y1).
Proof. exact power_case. Qed.
Print Assumptions C93_more_power_case.

(** Any of the three schemes, without radiation: of two runs with the same heat and surroundings the one that starts no colder ends no colder, for any number of steps within the limit of C79. *)
Theorem C93_any_scheme : forall (dim3 ad : bool) (s : scheme) (m : heat_mesh RNum) (P : nat -> frozen) (Q : nat -> frozen_faces) (A B : scenario) (dts : list R),
  mesh_ok m -> massive m -> (ad = false -> no_radiation m) -> same_heat P Q A B -> List.length (sc_start A) = m_n m -> List.length (sc_start B) = m_n m -> no_colder m (sc_start A) (sc_start B) ->
  (forall n dt, nth_error dts n = Some dt -> 0 <= dt /\ downhill dim3 ad m (P n) (Q n) dt /\ (ad = false -> sound_faces m (Q n))) ->
  no_colder m (final dim3 ad s m A dts) (final dim3 ad s m B dts).
Proof. exact warmer_start. Qed.
Print Assumptions C93_any_scheme.

(** A square with convection at one side, twice. *)
Theorem C93_any_scheme_case : forall dts, Forall (fun dt => dt = 1/6) dts -> mesh_ok cooled_square /\ massive cooled_square /\ no_radiation cooled_square /\
  same_heat (fun _ => unit_law) (fun _ => cool_air) (in_air cool_air low_start) (in_air cool_air high_start) /\ List.length low_start = m_n cooled_square /\ List.length high_start = m_n cooled_square /\
  no_colder cooled_square low_start high_start /\
  (forall n dt, nth_error dts n = Some dt -> 0 <= dt /\ downhill false false cooled_square unit_law cool_air dt /\ sound_faces cooled_square cool_air).
Proof. exact scheme_case. Qed.
Print Assumptions C93_any_scheme_case.
