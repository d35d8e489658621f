(** HeatSourceProperties.v -- C09, C10, C11.  Only statements, witnesses and assumptions.
    [update_time g t = Ok g'] : the state after update_time(t); [d] : three dimensions (true) or two (false). *)
From Coq Require Import Reals Bool List Lra.
From Verif Require Import Base BaseFacts QuaternionModel ScanPathModel ScanPathSpec ScanPathProofs HeatSourceModel HeatSourceSpec
  HeatSourceProofs HeatSourceProofs2.
Import ListNotations.
Local Open Scope R_scope.

(** * C09 *)
(** The exact law: the textbook density with the current power modifier in the support, 0 outside it. *)
Theorem C09_goldak_law : forall d g t g' p rp v,
  goldak_update_time g t = Ok g' -> good_beam (g_beam g) ->
  beam_frame d (g_five g') (g_quat g') p rp -> goldak_value d g' p = Some v ->
  exists pm sp1, get_power_modifier (g_path g) t = Ok (pm, sp1) /\
    (in_support d (b_radius2 (g_beam g)) (b_depth (g_beam g)) (g_center g') rp ->
       v = goldak_density d (b_eff (g_beam g)) (b_power (g_beam g) * pm) (b_radius2 (g_beam g)) (b_depth (g_beam g)) (g_center g') rp) /\
    (~ in_support d (b_radius2 (g_beam g)) (b_depth (g_beam g)) (g_center g') rp -> v = 0).
Proof. exact goldak_law. Qed.
Print Assumptions C09_goldak_law.

(** What update_time uses: the modifier, position and orientation of the scan path at [t]. *)
Theorem C09_goldak_inputs : forall g t g', goldak_update_time g t = Ok g' ->
  exists pm c q sp1 sp2, get_power_modifier (g_path g) t = Ok (pm, sp1) /\ value sp1 t true = Ok (c, sp2) /\
    get_quaternion qpow sp2 t = Ok q /\ g_path g' = sp2 /\ g_center g' = c /\ g_quat g' = q /\ g_five g' = g_five g /\
    g_alpha g' = 2 * b_eff (g_beam g) * b_power (g_beam g) * pm / (b_radius2 (g_beam g) * b_depth (g_beam g) * Rpower (PI / 3) (3 / 2)).
Proof. exact goldak_inputs. Qed.
Print Assumptions C09_goldak_inputs.

Theorem C09_goldak_bounds : forall d g t g' p v,
  goldak_update_time g t = Ok g' -> good_beam (g_beam g) -> nonneg_modifiers (g_path g) ->
  goldak_value d g' p = Some v -> 0 <= v <= g_alpha g'.
Proof. exact goldak_bounds. Qed.
Print Assumptions C09_goldak_bounds.

Theorem C09_goldak_defined : forall d g p, goldak_value d g p = None <-> (d = true /\ g_five g = true /\ g_quat g = None).
Proof. exact goldak_defined. Qed.
Print Assumptions C09_goldak_defined.

Theorem C09_goldak_on : forall g t g', goldak_update_time g t = Ok g' ->
  exists pm sp1, get_power_modifier (g_path g) t = Ok (pm, sp1) /\ (g_on g' = true <-> 0 < (pm : R)).
Proof. exact on_iff_power. Qed.
Print Assumptions C09_goldak_on.

Theorem C09_goldak_off : forall d g t g' p v, goldak_update_time g t = Ok g' -> nonneg_modifiers (g_path g) ->
  g_on g' = false -> goldak_value d g' p = Some v -> v = 0.
Proof. exact goldak_off. Qed.
Print Assumptions C09_goldak_off.

Theorem C09_goldak_after_end : forall g t g' last, goldak_update_time g t = Ok g' ->
  last_segment (sp_segs (g_path g)) last -> (end_time last : R) < t -> g_on g' = false /\ g_alpha g' = 0.
Proof. exact goldak_after_end. Qed.
Print Assumptions C09_goldak_after_end.

Example C09_goldak_witness : exists g t g' p v, goldak_update_time g t = Ok g' /\ good_beam (g_beam g) /\ nonneg_modifiers (g_path g) /\
  goldak_value true g' p = Some v /\ 0 < v /\ g_on g' = true /\
  rotated true (g_five g') (g_quat g') p = Some p /\ in_support true (b_radius2 (g_beam g)) (b_depth (g_beam g)) (g_center g') p.
Proof. exact goldak_witness. Qed.

Theorem C09_ebeam_law : forall d g t g' p rp v,
  ebeam_update_time g t = Ok g' -> good_beam (e_beam g) ->
  beam_frame d (e_five g') (e_quat g') p rp -> ebeam_value d g' p = Some v ->
  exists pm sp1, get_power_modifier (e_path g) t = Ok (pm, sp1) /\
    (in_support d (b_radius2 (e_beam g)) (b_depth (e_beam g)) (e_center g') rp ->
       v = ebeam_density d (b_eff (e_beam g)) (b_power (e_beam g) * pm) (b_radius2 (e_beam g)) (b_depth (e_beam g)) (e_center g') rp) /\
    (~ in_support d (b_radius2 (e_beam g)) (b_depth (e_beam g)) (e_center g') rp -> v = 0).
Proof. exact ebeam_law. Qed.
Print Assumptions C09_ebeam_law.

Theorem C09_ebeam_inputs : forall g t g', ebeam_update_time g t = Ok g' ->
  exists pm c q sp1 sp2, get_power_modifier (e_path g) t = Ok (pm, sp1) /\ value sp1 t true = Ok (c, sp2) /\
    get_quaternion qpow sp2 t = Ok q /\ e_path g' = sp2 /\ e_center g' = c /\ e_quat g' = q /\ e_five g' = e_five g /\
    e_alpha g' = - b_eff (e_beam g) * b_power (e_beam g) * pm * log_01 / (PI * b_radius2 (e_beam g) * b_depth (e_beam g)).
Proof. exact ebeam_inputs. Qed.
Print Assumptions C09_ebeam_inputs.

Theorem C09_ebeam_defined : forall d g p, ebeam_value d g p = None <-> (d = true /\ e_five g = true /\ e_quat g = None).
Proof. exact ebeam_defined. Qed.
Print Assumptions C09_ebeam_defined.

Theorem C09_ebeam_on : forall g t g', ebeam_update_time g t = Ok g' ->
  exists pm sp1, get_power_modifier (e_path g) t = Ok (pm, sp1) /\ (e_on g' = true <-> 0 < (pm : R)).
Proof. exact e_on_iff_power. Qed.
Print Assumptions C09_ebeam_on.

Theorem C09_ebeam_off : forall d g t g' p v, ebeam_update_time g t = Ok g' -> nonneg_modifiers (e_path g) ->
  e_on g' = false -> ebeam_value d g' p = Some v -> v = 0.
Proof. exact ebeam_off. Qed.
Print Assumptions C09_ebeam_off.

Theorem C09_ebeam_after_end : forall g t g' last, ebeam_update_time g t = Ok g' ->
  last_segment (sp_segs (e_path g)) last -> (end_time last : R) < t -> e_on g' = false /\ e_alpha g' = 0.
Proof. exact ebeam_after_end. Qed.
Print Assumptions C09_ebeam_after_end.

(** Nonnegative up to a third of the depth above the beam ... *)
Theorem C09_ebeam_nonneg : forall d e t e' p v rp,
  ebeam_update_time e t = Ok e' -> good_beam (e_beam e) -> nonneg_modifiers (e_path e) ->
  ebeam_value d e' p = Some v -> rotated d (e_five e') (e_quat e') p = Some rp ->
  ax_z d rp - ax_z d (e_center e') <= b_depth (e_beam e) / 3 -> 0 <= v.
Proof. exact ebeam_nonneg. Qed.
Print Assumptions C09_ebeam_nonneg.

Example C09_ebeam_witness : exists g t g' p v, ebeam_update_time g t = Ok g' /\ good_beam (e_beam g) /\ nonneg_modifiers (e_path g) /\
  ebeam_value true g' p = Some v /\ 0 < v /\ e_on g' = true /\
  rotated true (e_five g') (e_quat g') p = Some p /\ in_support true (b_radius2 (e_beam g)) (b_depth (e_beam g)) (e_center g') p /\
  height true (e_center g') p <= b_depth (e_beam g) / 3.
Proof. exact ebeam_witness. Qed.

(** ... but the electron beam removes heat higher up: "every source value is nonnegative" fails for it. *)
Theorem C09_ebeam_nonneg_refuted : exists e t e' p v,
  ebeam_update_time e t = Ok e' /\ good_beam (e_beam e) /\ nonneg_modifiers (e_path e) /\ ebeam_value true e' p = Some v /\ v < 0.
Proof. exact ebeam_above_negative. Qed.
Print Assumptions C09_ebeam_nonneg_refuted.

Theorem C09_cube : forall d c t p,
  (in_box d (c_min c, c_max c) p -> c_start c < t < c_end c -> cube_value d (cube_update_time c t) p = c_value c) /\
  (~ (in_box d (c_min c, c_max c) p /\ c_start c < t < c_end c) -> cube_value d (cube_update_time c t) p = 0).
Proof. exact (fun d c t p => conj (cube_value_in d c t p) (cube_value_out d c t p)). Qed.
Print Assumptions C09_cube.
Example C09_cube_witness : in_box true (P0 0 0 0, P0 1 1 1) (P0 1 (1/2) 0).
Proof. unfold in_box; simpl; lra. Qed.

Theorem C09_database : forall ds ps depth eff diameter pw,
  0 < ds -> 0 <= ps -> 0 < depth -> 0 <= eff -> 0 < diameter -> 0 <= pw ->
  let b := set_from_database ds ps depth eff diameter pw in
  good_beam b /\ b_radius2 b = b_radius b ^ 2 /\ b_radius b = diameter * ds / 2 /\ b_depth b = depth * ds /\ b_power b = pw * ps /\ b_eff b = eff.
Proof. exact database_good. Qed.
Print Assumptions C09_database.

(** * C10 *)
Theorem C10_cube : forall d c ps, cube_value_vec d c ps = map (cube_value d c) ps.
Proof. exact cube_vec_agrees. Qed.
Print Assumptions C10_cube.

(** [near d c r2 p] : within the radial cutoff 5 r2. *)
Theorem C10_goldak : forall d g t g' ps rps,
  goldak_update_time g t = Ok g' -> rotated_lanes d (g_five g') (g_quat g') ps = Some rps ->
  (Forall (near d (g_center g') (b_radius2 (g_beam g))) rps \/ Forall (fun p => ~ near d (g_center g') (b_radius2 (g_beam g)) p) rps) ->
  exists vs, goldak_value_vec d g' ps = Some vs /\ map (goldak_value d g') ps = map Some vs.
Proof. exact goldak_vec_agrees. Qed.
Print Assumptions C10_goldak.

(** For every batch the lanes exceed the scalar values by at most alpha e^-15. *)
Theorem C10_goldak_error : forall d g t g' ps rps,
  goldak_update_time g t = Ok g' -> good_beam (g_beam g) -> nonneg_modifiers (g_path g) ->
  rotated_lanes d (g_five g') (g_quat g') ps = Some rps ->
  exists vs, goldak_value_vec d g' ps = Some vs /\ List.length vs = List.length ps /\
    forall i v w, nth_error vs i = Some v -> nth_error (map (goldak_value d g') ps) i = Some (Some w) ->
      w <= v <= w + g_alpha g' * exp (-15).
Proof. exact goldak_vec_error. Qed.
Print Assumptions C10_goldak_error.

Theorem C10_ebeam : forall d g t g' ps rps,
  ebeam_update_time g t = Ok g' -> rotated_lanes d (e_five g') (e_quat g') ps = Some rps ->
  (Forall (near d (e_center g') (b_radius2 (e_beam g))) rps \/ Forall (fun p => ~ near d (e_center g') (b_radius2 (e_beam g)) p) rps) ->
  exists vs, ebeam_value_vec d g' ps = Some vs /\ map (ebeam_value d g') ps = map Some vs.
Proof. exact ebeam_vec_agrees. Qed.
Print Assumptions C10_ebeam.

(** Every batch that mixes a lane inside and a lane outside the cutoff disagrees. *)
Theorem C10_goldak_mixed : forall d g t g' p1 p2,
  goldak_update_time g t = Ok g' -> 0 < g_alpha g' -> (d = true -> g_five g' = false) ->
  0 <= ax_z d p1 - ax_z d (g_center g') + b_depth (g_beam g) -> 0 <= ax_z d p2 - ax_z d (g_center g') + b_depth (g_beam g) ->
  near d (g_center g') (b_radius2 (g_beam g)) p1 -> ~ near d (g_center g') (b_radius2 (g_beam g)) p2 ->
  goldak_value d g' p2 = Some 0 /\ exists v1 v2, goldak_value_vec d g' [p1; p2] = Some [v1; v2] /\ 0 < v2.
Proof. exact goldak_vec_mixed. Qed.
Print Assumptions C10_goldak_mixed.

Theorem C10_goldak_every_batch_refuted : exists g t g' p1 p2 v1 v2, goldak_update_time g t = Ok g' /\ good_beam (g_beam g) /\
  goldak_value true g' p2 = Some 0 /\ goldak_value_vec true g' [p1; p2] = Some [v1; v2] /\ 0 < v2.
Proof. exact vec_mixed_goldak. Qed.
Print Assumptions C10_goldak_every_batch_refuted.
Theorem C10_ebeam_every_batch_refuted : exists g t g' p1 p2 v1 v2, ebeam_update_time g t = Ok g' /\ good_beam (e_beam g) /\
  ebeam_value true g' p2 = Some 0 /\ ebeam_value_vec true g' [p1; p2] = Some [v1; v2] /\ 0 < v2.
Proof. exact vec_mixed_ebeam. Qed.
Print Assumptions C10_ebeam_every_batch_refuted.

(** * C11 *)
(** Without five-axis motion the box is exactly the scaled beam around the position at [t]. *)
Theorem C11_box_is_scaled_beam : forall d b sp t s box, (d = true -> sp_five_axis sp = false) ->
  beam_bounding_box d b sp t s = Ok (Some box) ->
  exists c sp', value sp t false = Ok (c, sp') /\ forall p, in_box d box p <-> in_scaled_beam d (b_radius b) (b_depth b) s c p.
Proof. exact box_exact. Qed.
Print Assumptions C11_box_is_scaled_beam.

Theorem C11_well_formed : forall d b sp t s box, 0 <= b_radius b -> 0 <= b_depth b -> 0 <= s ->
  beam_bounding_box d b sp t s = Ok (Some box) -> well_formed d box.
Proof. exact box_well_formed. Qed.
Print Assumptions C11_well_formed.

(** The heated region below the beam position lies in the box as soon as the scaling is at least sqrt 5 ... *)
Theorem C11_support_in_box : forall d b sp t s box c sp' p,
  (d = true -> sp_five_axis sp = false) -> 0 <= b_radius b -> 0 <= b_depth b ->
  b_radius2 b = b_radius b ^ 2 -> sqrt 5 <= s -> value sp t false = Ok (c, sp') ->
  beam_bounding_box d b sp t s = Ok (Some box) ->
  in_support d (b_radius2 b) (b_depth b) c p -> height d c p <= 0 -> in_box d box p.
Proof. exact support_in_box. Qed.
Print Assumptions C11_support_in_box.

(** ... and not with the scaling 2.0 used for refinement (application/adamantine.hh:564). *)
Theorem C11_scaling_two_refuted : exists g t g' p v box,
  goldak_update_time g t = Ok g' /\ good_beam (g_beam g) /\ goldak_value true g' p = Some v /\ 0 < v /\
  beam_bounding_box true (g_beam g) (g_path g') t 2 = Ok (Some box) /\ height true (g_center g') p = 0 /\ ~ in_box true box p.
Proof. exact refinement_box_misses. Qed.
Print Assumptions C11_scaling_two_refuted.

(** With five-axis motion the box misses points at one radius from the beam position. *)
Theorem C11_five_axis_refuted : exists g t g' p v box,
  goldak_update_time g t = Ok g' /\ good_beam (g_beam g) /\ goldak_value true g' p = Some v /\ 0 < v /\
  beam_bounding_box true (g_beam g) (g_path g') t 1 = Ok (Some box) /\
  radial2 true (g_center g') p <= b_radius2 (g_beam g) /\ height true (g_center g') p = 0 /\ ~ in_box true box p.
Proof. exact five_axis_box_misses. Qed.
Print Assumptions C11_five_axis_refuted.

Theorem C11_cube : forall d c p, in_box d (cube_bounding_box d c) p <-> in_box d (c_min c, c_max c) p.
Proof. exact cube_box_exact. Qed.
Print Assumptions C11_cube.

Example C11_witness : exists box, beam_bounding_box true unit_beam (still false None) (1/2) 3 = Ok (Some box) /\
  value (still false None) (1/2) false = Ok (P0 0 0 0, still false None) /\ sqrt 5 <= 3.
Proof.
  assert (T : 0 <= 1/2 <= 1) by lra. eexists. split.
  - unfold beam_bounding_box. rewrite (still_value _ _ _ _ T). simpl. reflexivity.
  - split; [apply still_value, T|]. apply Rsqr_incr_0_var; [|lra]. rewrite Rsqr_sqrt by lra. unfold Rsqr; lra.
Qed.
