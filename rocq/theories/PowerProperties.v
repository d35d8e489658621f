(** PowerProperties.v -- C75.  Only statements, witnesses and assumptions.
    [update_time g t = Ok g'] : the state after update_time(t); [heat_in q c R0 a b total] : the volume integral of the density [q] over the
    cylinder of radius R0 around the axis through [c], from height [a] to height [b] relative to [c], is [total] (PowerSpec). *)
From Coq Require Import Reals Lra Psatz Bool List.
From Coquelicot Require Import Coquelicot.
From Verif Require Import Base BaseFacts QuaternionModel ScanPathModel HeatSourceModel HeatSourceSpec HeatSourceProofs HeatSourceProofs2 PowerSpec PowerProofs PowerProofs2 PowerExamples.
Local Open Scope R_scope.

(** The heat deposited is determined by the density. *)
Theorem C75_determined : forall q c R0 a b x y, heat_in q c R0 a b x -> heat_in q c R0 a b y -> x = y.
Proof. exact heat_in_unique. Qed.
Print Assumptions C75_determined.

(** Whatever its diameter and depth, a Goldak beam on material that lies below its plane, and that is wide and deep enough, deposits between 98.5 and
    98.6 percent of efficiency * power * modifier. *)
Theorem C75_goldak_power : forall g t g' pm sp1 R0 D, goldak_update_time g t = Ok g' -> good_beam (g_beam g) -> g_five g = false -> get_power_modifier (g_path g) t = Ok (pm, sp1) -> 0 <= pm ->
  0 <= R0 -> 5 * b_radius2 (g_beam g) <= R0 * R0 -> b_depth (g_beam g) <= D ->
  exists total, heat_in (goldak_value true g') (g_center g') R0 (- D) 0 total /\
    985 / 1000 * (b_eff (g_beam g) * b_power (g_beam g) * pm) <= total <= 986 / 1000 * (b_eff (g_beam g) * b_power (g_beam g) * pm).
Proof. exact goldak_power. Qed.
Print Assumptions C75_goldak_power.
Example C75_goldak_witness : exists g', goldak_update_time (goldak0 false None) (1 / 2) = Ok g' /\ good_beam (g_beam (goldak0 false None)) /\ g_five (goldak0 false None) = false /\
  get_power_modifier (g_path (goldak0 false None)) (1 / 2) = Ok (1, still false None) /\ b_eff (g_beam (goldak0 false None)) * b_power (g_beam (goldak0 false None)) * 1 = 1 /\
  b_radius2 (g_beam (goldak0 false None)) = 1 /\ b_depth (g_beam (goldak0 false None)) = 1.
Proof. exact pw_goldak. Qed.

(** The exact amount up to the height [x * depth] above (or below) the plane of the beam. *)
Theorem C75_goldak_profile : forall g t g' pm sp1 R0 D x, goldak_update_time g t = Ok g' -> good_beam (g_beam g) -> g_five g = false -> get_power_modifier (g_path g) t = Ok (pm, sp1) ->
  0 <= R0 -> 5 * b_radius2 (g_beam g) <= R0 * R0 -> b_depth (g_beam g) <= D -> -1 <= x ->
  heat_in (goldak_value true g') (g_center g') R0 (- D) (x * b_depth (g_beam g)) (b_eff (g_beam g) * b_power (g_beam g) * pm * (1 - exp (-15)) * goldak_share x).
Proof. exact goldak_total. Qed.
Print Assumptions C75_goldak_profile.

(** An electron beam deposits all but one part in 100000. *)
Theorem C75_ebeam_power : forall g t g' pm sp1 R0 D, ebeam_update_time g t = Ok g' -> good_beam (e_beam g) -> e_five g = false -> get_power_modifier (e_path g) t = Ok (pm, sp1) ->
  0 <= R0 -> 5 * b_radius2 (e_beam g) <= R0 * R0 -> b_depth (e_beam g) <= D ->
  heat_in (ebeam_value true g') (e_center g') R0 (- D) 0 (b_eff (e_beam g) * b_power (e_beam g) * pm * (1 - / 100000)).
Proof. exact ebeam_power. Qed.
Print Assumptions C75_ebeam_power.
Example C75_ebeam_witness : exists g', ebeam_update_time (ebeam0 false None) (1 / 2) = Ok g' /\ good_beam (e_beam (ebeam0 false None)) /\ e_five (ebeam0 false None) = false /\
  get_power_modifier (e_path (ebeam0 false None)) (1 / 2) = Ok (1, still false None) /\ b_eff (e_beam (ebeam0 false None)) * b_power (e_beam (ebeam0 false None)) * 1 = 1 /\
  b_radius2 (e_beam (ebeam0 false None)) = 1 /\ b_depth (e_beam (ebeam0 false None)) = 1.
Proof. exact pw_ebeam. Qed.
Theorem C75_ebeam_profile : forall g t g' pm sp1 R0 D x, ebeam_update_time g t = Ok g' -> good_beam (e_beam g) -> e_five g = false -> get_power_modifier (e_path g) t = Ok (pm, sp1) ->
  0 <= R0 -> 5 * b_radius2 (e_beam g) <= R0 * R0 -> b_depth (e_beam g) <= D -> -1 <= x ->
  heat_in (ebeam_value true g') (e_center g') R0 (- D) (x * b_depth (e_beam g)) (b_eff (e_beam g) * b_power (e_beam g) * pm * (1 - / 100000) * (1 + x - x * x - x * x * x)).
Proof. exact ebeam_total. Qed.
Print Assumptions C75_ebeam_profile.

(** The claim that a beam never deposits more than efficiency * power * modifier is false of material above its plane: a Goldak beam deposits almost
    twice as much in material that reaches one depth above it. *)
Theorem C75_goldak_above_refuted : forall g t g' pm sp1 R0 D, goldak_update_time g t = Ok g' -> good_beam (g_beam g) -> g_five g = false -> get_power_modifier (g_path g) t = Ok (pm, sp1) ->
  0 < b_eff (g_beam g) * b_power (g_beam g) * pm -> 0 <= R0 -> 5 * b_radius2 (g_beam g) <= R0 * R0 -> b_depth (g_beam g) <= D ->
  exists total, heat_in (goldak_value true g') (g_center g') R0 (- D) (b_depth (g_beam g)) total /\ 197 / 100 * (b_eff (g_beam g) * b_power (g_beam g) * pm) < total.
Proof. exact goldak_above. Qed.
Print Assumptions C75_goldak_above_refuted.

(** And an electron beam cools a piece that reaches more than one depth above its plane. *)
Theorem C75_ebeam_above_refuted : forall g t g' pm sp1 R0 D h, ebeam_update_time g t = Ok g' -> good_beam (e_beam g) -> e_five g = false -> get_power_modifier (e_path g) t = Ok (pm, sp1) ->
  0 < b_eff (e_beam g) * b_power (e_beam g) * pm -> 0 <= R0 -> 5 * b_radius2 (e_beam g) <= R0 * R0 -> b_depth (e_beam g) <= D -> b_depth (e_beam g) < h ->
  exists total, heat_in (ebeam_value true g') (e_center g') R0 (- D) h total /\ total < 0.
Proof. exact ebeam_above. Qed.
Print Assumptions C75_ebeam_above_refuted.

(** In two dimensions the heat per unit of thickness is inversely proportional to the radius [r] of the beam... *)
Theorem C75_goldak_2d : forall g t g' pm sp1 r R0 D, goldak_update_time g t = Ok g' -> good_beam (g_beam g) -> get_power_modifier (g_path g) t = Ok (pm, sp1) ->
  0 < r -> b_radius2 (g_beam g) = r * r -> 0 <= R0 -> 5 * b_radius2 (g_beam g) <= R0 * R0 -> b_depth (g_beam g) <= D ->
  heat_in_2d (goldak_value false g') (g_center g') R0 (- D) 0 (b_eff (g_beam g) * b_power (g_beam g) * pm * goldak_share_2d / r).
Proof. exact goldak_total_2d. Qed.
Print Assumptions C75_goldak_2d.
(** ... so the claim that the heat does not depend on the diameter is false there: half the radius, twice the heat. *)
Theorem C75_2d_radius_refuted : 0 < goldak_share_2d /\
  forall g h t g1 h1 pm sp1 r R0 D x y, goldak_update_time g t = Ok g1 -> goldak_update_time h t = Ok h1 -> g_path h = g_path g -> get_power_modifier (g_path g) t = Ok (pm, sp1) ->
    good_beam (g_beam g) -> good_beam (g_beam h) -> b_eff (g_beam h) = b_eff (g_beam g) -> b_power (g_beam h) = b_power (g_beam g) ->
    0 < r -> b_radius2 (g_beam g) = r * r -> b_radius2 (g_beam h) = r / 2 * (r / 2) -> 0 <= R0 -> 5 * (r * r) <= R0 * R0 -> b_depth (g_beam g) <= D -> b_depth (g_beam h) <= D ->
    heat_in_2d (goldak_value false g1) (g_center g1) R0 (- D) 0 x -> heat_in_2d (goldak_value false h1) (g_center h1) R0 (- D) 0 y -> y = 2 * x.
Proof. split; [exact share_2d_pos|exact radius_2d]. Qed.
Print Assumptions C75_2d_radius_refuted.
Example C75_radius_example : exists g1 h1 x y, goldak_update_time (goldak0 false None) (1 / 2) = Ok g1 /\ goldak_update_time pw_narrow (1 / 2) = Ok h1 /\ good_beam (g_beam pw_narrow) /\ b_radius2 (g_beam pw_narrow) = 1 / 2 * (1 / 2) /\
  heat_in_2d (goldak_value false g1) (g_center g1) 3 (- 1) 0 x /\ heat_in_2d (goldak_value false h1) (g_center h1) 3 (- 1) 0 y /\ 0 < x /\ y = 2 * x.
Proof. exact pw_radius. Qed.
