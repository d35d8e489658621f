(** HeatSourceSpec.v -- the textbook power densities and regions used by C09-C11, written without the helpers of the model. *)
From Coq Require Import Reals Bool List.
From Verif Require Import Base QuaternionModel ScanPathModel HeatSourceModel.
Import ListNotations.
Local Open Scope R_scope.

(** A physically meaningful beam: positive depth and radius, nonnegative efficiency and power. *)
Definition good_beam (b : beam) : Prop := 0 < b_depth b /\ 0 < b_radius2 b /\ 0 <= b_eff b /\ 0 <= b_power b.

Definition nonneg_modifiers (sp : scan_path RNum) : Prop := forall s, In s (sp_segs sp) -> 0 <= (power_modifier s : R).

(** Radial distance squared and height of [p] above [c]; in 2D the second coordinate is the height. *)
Definition radial2 (dim3 : bool) (c p : pt RNum) : R :=
  if dim3 then Rsqr (px p - px c) + Rsqr (py p - py c) else Rsqr (px p - px c).
Definition height (dim3 : bool) (c p : pt RNum) : R := if dim3 then pz p - pz c else py p - py c.

(** Goldak: 2 eta P / (r^2 d (pi/3)^1.5) * exp(-3 rho^2/r^2 - 3 z^2/d^2). *)
Definition goldak_density (dim3 : bool) (eta power r2 d : R) (c p : pt RNum) : R :=
  2 * eta * power / (r2 * d * Rpower (PI / 3) (3 / 2)) *
  exp (-3 * radial2 dim3 c p / r2 - 3 * Rsqr (height dim3 c p) / Rsqr d).

(** Electron beam: eta P ln 10 / (pi r^2 d) * 10^(-rho^2/r^2) * (1 - 2 z/d - 3 (z/d)^2). *)
Definition ebeam_density (dim3 : bool) (eta power r2 d : R) (c p : pt RNum) : R :=
  eta * power * ln 10 / (PI * r2 * d) * Rpower 10 (- (radial2 dim3 c p / r2)) *
  (1 - 2 * (height dim3 c p / d) - 3 * Rsqr (height dim3 c p / d)).

(** The point seen by the beam: the stored orientation is applied in three dimensions when five-axis motion is on. *)
Definition beam_frame (dim3 five : bool) (q : option (quat RNum)) (p rp : pt RNum) : Prop :=
  if andb dim3 five then exists q', q = Some q' /\ rp = rotate q' p else rp = p.

(** Where a beam of depth [d] and squared radius [r2] is evaluated at all. *)
Definition in_support (dim3 : bool) (r2 d : R) (c p : pt RNum) : Prop :=
  - d <= height dim3 c p /\ radial2 dim3 c p <= 5 * r2.

(** The scaled beam: half width [s*r] in the horizontal directions, depth [s*d] below the beam position. *)
Definition in_scaled_beam (dim3 : bool) (r d s : R) (c p : pt RNum) : Prop :=
  Rabs (px p - px c) <= s * r /\ (dim3 = true -> Rabs (py p - py c) <= s * r) /\ - (s * d) <= height dim3 c p <= 0.

Definition in_box (dim3 : bool) (box : pt RNum * pt RNum) (p : pt RNum) : Prop :=
  (px (fst box) : R) <= px p <= px (snd box) /\ (py (fst box) : R) <= py p <= py (snd box) /\
  (dim3 = true -> (pz (fst box) : R) <= pz p <= pz (snd box)).
Definition well_formed (dim3 : bool) (box : pt RNum * pt RNum) : Prop :=
  (px (fst box) : R) <= px (snd box) /\ (py (fst box) : R) <= py (snd box) /\ (dim3 = true -> (pz (fst box) : R) <= pz (snd box)).
