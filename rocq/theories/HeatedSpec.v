(** HeatedSpec.v -- parts that are heated: the heat that the beams deliver, bounds on the temperatures. *)
From Coq Require Import Reals List Bool String ZArith Lra.
From Verif Require Import Base MaterialModel MaterialSpec InputModel HeatModel HeatSpec StabilitySpec MaximumSpec RadiationSpec.
Import ListNotations.
Open Scope R_scope.

(** Rate at which the beams alone would heat a point. *)
Definition heating (k : point_law RNum) : R := pl_inv k * Sum (pl_beams k) (fun b => b : R).
Definition heated_at_most (P : frozen) (s : R) : Prop := forall i q, 0 <= heating (P i q) <= s.
Definition heated (P : frozen) : Prop := forall i q, 0 <= heating (P i q).
(** Shape functions that are not negative at the points of the cells, and points that give the masses of the nodes. *)
Definition positive_points (m : heat_mesh RNum) : Prop := Forall (fun c : hcell RNum => Forall (fun q : hquad RNum => 0 <= h_jxw q /\ Forall (fun v : R => 0 <= v) (h_values q)) (c_quads c)) (m_cells m).
Definition same_masses (m : heat_mesh RNum) : Prop := forall i, free m i -> integral (m_C m) (m_cells m) (hat i) = nodal_mass m i.
(** Laws between the temperatures [lo] and [top], surroundings between [lo] and [hi]: diffusivity at most [alpha], losses at most [g], heating between 0 and [s]. *)
Definition heated_laws (m : heat_mesh RNum) (K : laws RNum) (F : face_laws RNum) (lo hi top alpha g s : R) : Prop :=
  (forall i q T, lo <= T <= top -> aligned_law (K i q T) alpha /\ 0 <= heating (K i q T) <= s) /\
  forall j f q T, In (j, f) (indexed (m_faces m)) -> on_boundary f = true -> lo <= T <= top -> let k := F j q T in
    0 <= fl_inv k /\ 0 <= fl_h k /\ 0 <= fl_emissivity k /\ (has_flag (hf_type f) convective = true -> lo <= fl_conv k <= hi) /\ (has_flag (hf_type f) radiative = true -> lo <= fl_rad k <= hi) /\
    fl_inv k * largest_coef (hf_type f) k top <= g.

(** Any number of forward Euler steps of any lengths; the beams go on and off, the laws change; the surroundings are between [lo] and [env], and the steps do not overshoot
    up to the temperature [top].  Between steps only values at hanging nodes change. *)
Inductive heated_run (dim3 ad : bool) (m : heat_mesh RNum) (lo env top s : R) : R -> list R -> R -> list R -> Prop :=
| hr_stop : forall t y, heated_run dim3 ad m lo env top s t y t y
| hr_hanging : forall t y y' t2 y2, List.length y' = List.length y -> (forall k, free m k -> entry y' k = entry y k) ->
    heated_run dim3 ad m lo env top s t y' t2 y2 -> heated_run dim3 ad m lo env top s t y t2 y2
| hr_step : forall t dt y t1 y1 t2 y2 (on : bool) (K : laws RNum) (F : face_laws RNum) (P : frozen) (Q : frozen_faces),
    at_temperatures m K P F Q y -> surroundings ad m Q lo env -> heated_at_most P s -> 0 <= dt -> moderate dim3 ad m P (largest_losses Q top) dt ->
    evolve (N := RNum) ForwardEuler (fun _ _ v => evaluate (N := RNum) dim3 on ad m K F v) t dt y = (t1, y1) ->
    heated_run dim3 ad m lo env top s t1 y1 t2 y2 -> heated_run dim3 ad m lo env top s t y t2 y2.
