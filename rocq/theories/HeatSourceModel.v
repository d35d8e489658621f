(** HeatSourceModel.v -- model of source/BeamHeatSourceProperties.hh, HeatSource.hh, GoldakHeatSource.{hh,cc},
    ElectronBeamHeatSource.{hh,cc}, CubeHeatSource.{hh,cc} over the reals.

    [dim3 : bool] is the template parameter (true: dim = 3, false: dim = 2).  Points carry three coordinates; in two
    dimensions the third one is never read, and coordinate index 1 plays the role of "z" (types.hh:167-186).
    A VectorizedArray is the list of its lanes.  An option result [None] stands for a NaN result (only possible when
    the interpolated orientation is NaN). *)
From Coq Require Import Reals ZArith Bool List.
From Verif Require Import Base QuaternionModel ScanPathModel.
Import ListNotations.
Local Open Scope R_scope.

(** BeamHeatSourceProperties: public members (BeamHeatSourceProperties.hh:68-88). *)
Record beam : Type := mkbeam { b_depth : R; b_eff : R; b_radius : R; b_radius2 : R; b_power : R }.

(** set_from_database (BeamHeatSourceProperties.hh:55-66), given the two scaling factors and the four entries. *)
Definition set_from_database (dscale pscale depth eff diameter max_power : R) : beam :=
  let radius := diameter * dscale / 2 in
  mkbeam (depth * dscale) eff radius (radius ^ 2) (max_power * pscale).

(** axis<dim> (types.hh:167-186). *)
Definition ax_z (dim3 : bool) (p : pt RNum) : R := if dim3 then pz p else py p.

(** rotated_point (GoldakHeatSource.cc:49-57, ElectronBeamHeatSource.cc:50-58). *)
Definition rotated (dim3 five : bool) (q : option (quat RNum)) (p : pt RNum) : option (pt RNum) :=
  if dim3 then (if five then match q with Some q' => Some (rotate q' p) | None => None end else Some p)
  else Some p.

(** (x-xc)^2, plus (y-yc)^2 in three dimensions (GoldakHeatSource.cc:66-72, ElectronBeamHeatSource.cc:71-77). *)
Definition xpy_squared (dim3 : bool) (c p : pt RNum) : R :=
  let x2 := (px p - px c) ^ 2 in
  if dim3 then x2 + (py p - py c) ^ 2 else x2.

(** Lanes: VectorizedArray::sum. *)
Definition lane_sum (l : list R) : R := fold_right Rplus 0 l.
Definition mask_lt0 (l : list R) : list R := map (fun v => if Rltb v 0 then 0 else 1) l.

(* ---------------------------------------------------------------------------------------------- *)
(** GoldakHeatSource members (GoldakHeatSource.hh:63-76) and those of its base class HeatSource (HeatSource.hh:113-121). *)
Record goldak : Type := mkG {
  g_on : bool; g_beam : beam; g_path : scan_path RNum; g_five : bool; g_quat : option (quat RNum);
  g_center : pt RNum; g_alpha : R; g_depth : R; g_id2 : R; g_r2 : R; g_ir2 : R }.

Definition pi_over_3_to_1p5 : R := Rpower (PI / 3) (3 / 2).

(** GoldakHeatSource::update_time (GoldakHeatSource.cc:24-44). *)
Definition goldak_update_time (g : goldak) (t : R) : res goldak :=
  do r1 <- get_power_modifier (g_path g) t;
  let '(pm, sp1) := r1 in
  do r2 <- value sp1 t true;
  let '(path, sp2) := r2 in
  do q <- get_quaternion qpow sp2 t;
  let depth := b_depth (g_beam g) in
  let r2 := b_radius2 (g_beam g) in
  Ok (mkG (Rltb 0 pm) (g_beam g) sp2 (g_five g) q path
        (2 * b_eff (g_beam g) * b_power (g_beam g) * pm / (r2 * depth * pi_over_3_to_1p5))
        depth (1 / (depth * depth)) r2 (1 / r2)).

(** GoldakHeatSource::value, scalar (GoldakHeatSource.cc:46-89). *)
Definition goldak_value (dim3 : bool) (g : goldak) (p : pt RNum) : option R :=
  match rotated dim3 (g_five g) (g_quat g) p with
  | None => None
  | Some rp =>
      let z := ax_z dim3 rp - ax_z dim3 (g_center g) in
      if Rltb (z + g_depth g) 0 then Some 0
      else
        let xy2 := xpy_squared dim3 (g_center g) rp in
        if Rltb (5 * b_radius2 (g_beam g)) xy2 then Some 0
        else Some (g_alpha g * exp (-3 * xy2 * g_ir2 g + -3 * (z * z) * g_id2 g))
  end.

(** All lanes of a vectorised point, or [None] (NaN in every lane). *)
Definition rotated_lanes (dim3 five : bool) (q : option (quat RNum)) (ps : list (pt RNum)) : option (list (pt RNum)) :=
  if dim3 then (if five then match q with Some q' => Some (map (rotate q') ps) | None => None end else Some ps)
  else Some ps.

(** GoldakHeatSource::value, vectorised (GoldakHeatSource.cc:91-148).  The radial mask computed at
    lines 130-134 is only used for the early return. *)
Definition goldak_value_vec (dim3 : bool) (g : goldak) (ps : list (pt RNum)) : option (list R) :=
  match rotated_lanes dim3 (g_five g) (g_quat g) ps with
  | None => None
  | Some rps =>
      let z p := ax_z dim3 p - ax_z dim3 (g_center g) in
      let depth_mask := mask_lt0 (map (fun p => z p + g_depth g) rps) in
      if Reqb (lane_sum depth_mask) 0 then Some depth_mask
      else
        let xpy_mask := mask_lt0 (map (fun p => 5 * g_r2 g - xpy_squared dim3 (g_center g) p) rps) in
        if Reqb (lane_sum xpy_mask) 0 then Some xpy_mask
        else
          Some (map (fun mp => let '(m, p) := mp in
                       let exponent := (z p * z p * g_id2 g + xpy_squared dim3 (g_center g) p * g_ir2 g) * -3 in
                       m * g_alpha g * exp exponent)
                  (combine depth_mask rps))
  end.

(** GoldakHeatSource::get_bounding_box (GoldakHeatSource.cc:150-199) and ElectronBeamHeatSource::get_bounding_box
    (ElectronBeamHeatSource.cc:160-210), which are textually the same.  The corners are points; in two
    dimensions the third coordinate is meaningless and set to 0. *)
Definition beam_bounding_box (dim3 : bool) (b : beam) (sp : scan_path RNum) (t s : R)
  : res (option (pt RNum * pt RNum)) :=
  do r <- value sp t false;
  let c := fst r in
  if dim3 then
    let max_corner := mkpt (N := RNum) (px c + s * b_radius b) (py c + s * b_radius b) (pz c) in
    let min_corner := mkpt (N := RNum) (px c - s * b_radius b) (py c - s * b_radius b) (pz c - s * b_depth b) in
    if sp_five_axis sp then
      do rmax <- sp_rotate qpow sp t max_corner;
      do rmin <- sp_rotate qpow sp t min_corner;
      match rmax, rmin with
      | Some a, Some b =>
          Ok (Some (mkpt (N := RNum) (nmin (N := RNum) (px a) (px b)) (nmin (N := RNum) (py a) (py b)) (nmin (N := RNum) (pz a) (pz b)),
                    mkpt (N := RNum) (nmaxi (N := RNum) (px a) (px b)) (nmaxi (N := RNum) (py a) (py b)) (nmaxi (N := RNum) (pz a) (pz b))))
      | _, _ => Ok None
      end
    else Ok (Some (min_corner, max_corner))
  else
    Ok (Some (mkpt (N := RNum) (px c - s * b_radius b) (py c - s * b_depth b) 0,
              mkpt (N := RNum) (px c + s * b_radius b) (py c) 0)).

(* ---------------------------------------------------------------------------------------------- *)
(** ElectronBeamHeatSource members (ElectronBeamHeatSource.hh:63-76). *)
Record ebeam : Type := mkE {
  e_on : bool; e_beam : beam; e_path : scan_path RNum; e_five : bool; e_quat : option (quat RNum);
  e_center : pt RNum; e_alpha : R; e_depth : R; e_id : R; e_r2 : R; e_ir2 : R }.

(** _log_01 (ElectronBeamHeatSource.hh:76). *)
Definition log_01 : R := ln (1 / 10).

(** ElectronBeamHeatSource::update_time (ElectronBeamHeatSource.cc:24-45). *)
Definition ebeam_update_time (e : ebeam) (t : R) : res ebeam :=
  do r1 <- get_power_modifier (e_path e) t;
  let '(pm, sp1) := r1 in
  do r2 <- value sp1 t true;
  let '(path, sp2) := r2 in
  do q <- get_quaternion qpow sp2 t;
  let b := e_beam e in
  Ok (mkE (Rltb 0 pm) b sp2 (e_five e) q path
        (- b_eff b * b_power b * pm * log_01 / (PI * b_radius2 b * b_depth b))
        (b_depth b) (1 / b_depth b) (b_radius2 b) (1 / b_radius2 b)).

(** ElectronBeamHeatSource::value, scalar (ElectronBeamHeatSource.cc:47-93). *)
Definition ebeam_value (dim3 : bool) (e : ebeam) (p : pt RNum) : option R :=
  match rotated dim3 (e_five e) (e_quat e) p with
  | None => None
  | Some rp =>
      let z := ax_z dim3 rp - ax_z dim3 (e_center e) in
      if Rltb (z + e_depth e) 0 then Some 0
      else
        let z_rel := z * e_id e in
        let distribution_z := -3 * (z_rel * z_rel) - 2 * z_rel + 1 in
        let xy2 := xpy_squared dim3 (e_center e) rp in
        if Rltb (5 * e_r2 e) xy2 then Some 0
        else Some (e_alpha e * exp (log_01 * xy2 * e_ir2 e) * distribution_z)
  end.

(** ElectronBeamHeatSource::value, vectorised (ElectronBeamHeatSource.cc:95-158). *)
Definition ebeam_value_vec (dim3 : bool) (e : ebeam) (ps : list (pt RNum)) : option (list R) :=
  match rotated_lanes dim3 (e_five e) (e_quat e) ps with
  | None => None
  | Some rps =>
      let z p := ax_z dim3 p - ax_z dim3 (e_center e) in
      let depth_mask := mask_lt0 (map (fun p => z p + e_depth e) rps) in
      if Reqb (lane_sum depth_mask) 0 then Some depth_mask
      else
        let xpy_mask := mask_lt0 (map (fun p => 5 * e_r2 e - xpy_squared dim3 (e_center e) p) rps) in
        if Reqb (lane_sum xpy_mask) 0 then Some xpy_mask
        else
          Some (map (fun mp => let '(m, p) := mp in
                       let z_rel := z p * e_id e in
                       let distribution_z := z_rel * z_rel * -3 - z_rel - z_rel + 1 in
                       let exponent := log_01 * xpy_squared dim3 (e_center e) p * e_ir2 e in
                       m * e_alpha e * exp exponent * distribution_z)
                  (combine depth_mask rps))
  end.

(* ---------------------------------------------------------------------------------------------- *)
(** CubeHeatSource members (CubeHeatSource.hh:61-65, HeatSource.hh:113). *)
Record cube : Type := mkC { c_on : bool; c_start : R; c_end : R; c_value : R; c_min : pt RNum; c_max : pt RNum }.

(** CubeHeatSource::update_time (CubeHeatSource.cc:45-49). *)
Definition cube_update_time (c : cube) (t : R) : cube :=
  mkC (Rltb (c_start c) t && Rltb t (c_end c)) (c_start c) (c_end c) (c_value c) (c_min c) (c_max c).

(** Coordinates compared in dimension [dim]. *)
Definition coords (dim3 : bool) (p : pt RNum) : list R := if dim3 then [px p; py p; pz p] else [px p; py p].

(** The loop of the scalar value (CubeHeatSource.cc:57-64). *)
Fixpoint in_source (p lo hi : list R) : bool :=
  match p, lo, hi with
  | x :: p', a :: lo', b :: hi' => if Rltb x a || Rltb b x then false else in_source p' lo' hi'
  | _, _, _ => true
  end.

(** CubeHeatSource::value, scalar (CubeHeatSource.cc:51-71). *)
Definition cube_value (dim3 : bool) (c : cube) (p : pt RNum) : R :=
  if c_on c then
    if in_source (coords dim3 p) (coords dim3 (c_min c)) (coords dim3 (c_max c)) then c_value c else 0
  else 0.

(** CubeHeatSource::value, vectorised (CubeHeatSource.cc:73-107). *)
Definition cube_value_vec (dim3 : bool) (c : cube) (ps : list (pt RNum)) : list R :=
  let inside (p : pt RNum) :=
    if dim3 then
      Rleb (px (c_min c)) (px p) && Rleb (px p) (px (c_max c)) && Rleb (py (c_min c)) (py p) && Rleb (py p) (py (c_max c)) &&
      Rleb (pz (c_min c)) (pz p) && Rleb (pz p) (pz (c_max c))
    else
      Rleb (px (c_min c)) (px p) && Rleb (px p) (px (c_max c)) && Rleb (py (c_min c)) (py p) && Rleb (py p) (py (c_max c)) in
  map (fun m => m * c_value c) (map (fun p => if c_on c then (if inside p then 1 else 0) else 0) ps).

(** CubeHeatSource::get_bounding_box (CubeHeatSource.cc:109-124). *)
Definition cube_bounding_box (dim3 : bool) (c : cube) : pt RNum * pt RNum :=
  if dim3 then (c_min c, c_max c)
  else (mkpt (N := RNum) (px (c_min c)) (py (c_min c)) 0, mkpt (N := RNum) (px (c_max c)) (py (c_max c)) 0).
