(** ComparisonSpec.v -- what C93 means: two runs of the same part, one of which is heated more. *)
From Coq Require Import Reals List Bool String ZArith.
From Verif Require Import Base ScanPathModel HeatSourceModel HeatSourceSpec MaterialModel MaterialSpec InputModel HeatModel HeatSpec StabilitySpec MaximumSpec RadiationSpec EnergyModel EnergySpec SuperpositionSpec.
Import ListNotations.
Open Scope R_scope.

(** At every free node the second temperatures are at least the first. *)
Definition no_colder (m : heat_mesh RNum) (y y' : list R) : Prop := forall j, free m j -> entry y j <= entry y' j.
(** The conductivities and heat capacities of [P] at all temperatures; what heats every point in the second case is at least what heats it in the first. *)
Definition heated_more (P : frozen) (onA onB : bool) (KA KB : laws RNum) : Prop := forall c q T T',
  same_conduction (KA c q T) (P c q) /\ same_conduction (KB c q T') (P c q) /\ heat_density onA (KA c q T) <= heat_density onB (KB c q T').
(** The coefficients of [Q] at all temperatures; the surroundings are not colder in the second case. *)
Definition warmer_air (Q : frozen_faces) (FA FB : face_laws RNum) : Prop := forall j q T T', let a := FA j q T in let b := FB j q T' in let k := Q j q in
  (fl_inv a = fl_inv k /\ fl_h a = fl_h k /\ fl_emissivity a = fl_emissivity k) /\ (fl_inv b = fl_inv k /\ fl_h b = fl_h k /\ fl_emissivity b = fl_emissivity k) /\
  fl_conv a <= fl_conv b /\ 0 <= fl_rad a <= fl_rad b.
(** Weights and shape functions that are not negative, physical coefficients. *)
Definition positive_points (c : hcell RNum) : Prop := Forall (fun q : hquad RNum => 0 <= h_jxw q /\ Forall (fun v : R => 0 <= v) (h_values q)) (c_quads c).
Definition positive_mesh (ad : bool) (m : heat_mesh RNum) : Prop :=
  Forall positive_points (m_cells m) /\ (ad = false -> Forall (fun f : hface RNum => on_boundary f = true -> positive_points (active_side f)) (m_faces m)).
Definition physical (ad : bool) (P : frozen) (Q : frozen_faces) : Prop :=
  (forall c q, 0 <= pl_inv (P c q)) /\ (ad = false -> forall j q, 0 <= fl_inv (Q j q) /\ 0 <= fl_h (Q j q) /\ 0 <= fl_emissivity (Q j q)).
(** Two scenarios with the same material [P], [Q] in every step, the second heated more. *)
Definition hotter (ad : bool) (m : heat_mesh RNum) (P : nat -> frozen) (Q : nat -> frozen_faces) (A B : scenario) : Prop :=
  (forall n i, heated_more (P n) (sc_on A n i) (sc_on B n i) (sc_laws A n i) (sc_laws B n i)) /\ (ad = false -> forall n i, warmer_air (Q n) (sc_faces A n i) (sc_faces B n i)) /\
  List.length (sc_start A) = m_n m /\ List.length (sc_start B) = m_n m /\ no_colder m (sc_start A) (sc_start B).
(** The time steps are short enough for the conduction and the losses. *)
Definition short_steps (dim3 ad : bool) (m : heat_mesh RNum) (P : nat -> frozen) (Q : nat -> frozen_faces) (hi : R) (dts : list R) : Prop :=
  forall n dt, nth_error dts n = Some dt -> 0 <= dt /\ moderate dim3 ad m (P n) (largest_losses (Q n) hi) dt.
(** There is no radiation, or both runs stay between 0 and [hi] kelvin. *)
Definition radiation_bounded (dim3 ad : bool) (m : heat_mesh RNum) (hi : R) (A B : scenario) (dts : list R) : Prop :=
  (ad = false -> no_radiation m) \/ forall k, between m 0 hi (final dim3 ad ForwardEuler m A (firstn k dts)) /\ between m 0 hi (final dim3 ad ForwardEuler m B (firstn k dts)).
(** A Goldak beam that never takes heat. *)
Definition heating_beam (s : source) : Prop := match s with Goldak g => good_beam (g_beam g) /\ nonneg_modifiers (g_path g) | ElectronBeam _ => False end.
Definition no_losses : nat -> frozen_faces := fun _ _ _ => mkfl (N := RNum) 0 0 0 0 0.

(** Two scenarios that differ in their start only: same material, same heat at all points, same surroundings. *)
Definition same_heat (P : nat -> frozen) (Q : nat -> frozen_faces) (A B : scenario) : Prop :=
  (forall n i c q T T', same_conduction (sc_laws A n i c q T) (P n c q) /\ same_conduction (sc_laws B n i c q T') (P n c q) /\
     heat_density (sc_on A n i) (sc_laws A n i c q T) = heat_density (sc_on B n i) (sc_laws B n i c q T')) /\
  (forall n i j q T T', let a := sc_faces A n i j q T in let b := sc_faces B n i j q T' in let k := Q n j q in
     fl_inv a = fl_inv k /\ fl_h a = fl_h k /\ fl_inv b = fl_inv k /\ fl_h b = fl_h k /\ (fl_conv a : R) = fl_conv b).
(** Faces with weights and coefficients that are not negative. *)
Definition sound_faces (m : heat_mesh RNum) (Q : frozen_faces) : Prop := forall j f, In (j, f) (indexed (m_faces m)) -> on_boundary f = true ->
  Forall (fun q : hquad RNum => 0 <= h_jxw q) (c_quads (active_side f)) /\ forall q, 0 <= fl_inv (Q j q) /\ 0 <= fl_h (Q j q).
