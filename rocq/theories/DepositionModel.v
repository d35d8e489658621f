(** DepositionModel.v -- model of source/material_deposition.cc (all functions but the property-tree lookups).

    [dim3 : bool] is the template parameter (true: dim = 3).  In two dimensions the third coordinate of a box corner is
    meaningless and set to 0.  dealii::BoundingBox(pair) only stores the pair (its ordering check is debug-only). *)
From Coq Require Import Reals ZArith Bool List String Ascii.
From Verif Require Import Base QuaternionModel ScanPathModel.
Import ListNotations.
Local Open Scope num_scope.

(** The tuple of four vectors (boxes, times, cos, sin) returned by every function (material_deposition.hh:21-57). *)
Record dep (N : Num) : Type := mkdep {
  d_boxes : list (pt N * pt N);
  d_times : list N;
  d_cos : list N;
  d_sin : list N
}.
Arguments mkdep {N} _ _ _ _.
Arguments d_boxes {N} _.
Arguments d_times {N} _.
Arguments d_cos {N} _.
Arguments d_sin {N} _.

Definition dep_nil {N} : dep N := mkdep [] [] [] [].
(** The four push_back's (material_deposition.cc:95-121, 264-269). *)
Definition dep_push {N} (r : dep N) (b : pt N * pt N) (t c s : N) : dep N :=
  mkdep (d_boxes r ++ [b]) (d_times r ++ [t]) (d_cos r ++ [c]) (d_sin r ++ [s]).

Section Read.
  Context {N : Num} (P : parser N) (ncos nsin : N -> N).

  Definition half : N := nZ 1 / nZ 2.

  (** The time must not be smaller than the previous one (material_deposition.cc:97-102). *)
  Definition check_time (r : dep N) (t : N) : res unit :=
    if Nat.ltb 0 (List.length (d_times r)) then
      do prev <- back (d_times r);
      if prev <=? t then Ok tt else Throw
    else Ok tt.

  (** Body of the while loop of read_material_deposition (material_deposition.cc:82-121) for one line. *)
  Definition read_line (dim3 : bool) (r : dep N) (line : string) : res (dep N) :=
    let toks := split is_space line in
    let dim := if dim3 then 3%nat else 2%nat in
    do cx <- num_tok P toks 0;
    do cy <- num_tok P toks 1;
    do cz <- (if dim3 then num_tok P toks 2 else Ok (nZ 0));
    do sx <- num_tok P toks dim;
    do sy <- num_tok P toks (dim + 1);
    do sz <- (if dim3 then num_tok P toks (dim + 2) else Ok (nZ 0));
    do t <- num_tok P toks (2 * dim);
    do _ <- check_time r t;
    do angle <- num_tok P toks (2 * dim + 1);
    let lo := mkpt (cx - half * sx) (cy - half * sy) (if dim3 then cz - half * sz else nZ 0) in
    let hi := mkpt (cx + half * sx) (cy + half * sy) (if dim3 then cz + half * sz else nZ 0) in
    Ok (dep_push r (lo, hi) t (ncos angle) (nsin angle)).

  Fixpoint read_lines (dim3 : bool) (r : dep N) (lines : list string) : res (dep N) :=
    match lines with
    | [] => Ok r
    | l :: rest => do r' <- read_line dim3 r l; read_lines dim3 r' rest
    end.

  (** read_material_deposition (material_deposition.cc:56-126) on the lines of the file. *)
  Definition read_material_deposition (dim3 : bool) (lines : list string) : res (dep N) :=
    match lines with
    | [] => Throw
    | h :: rest =>
        match stoi P h with
        | None => Throw
        | Some d => if Z.eqb d (if dim3 then 3 else 2) then read_lines dim3 dep_nil rest else Throw
        end
    end.
End Read.

(** geometry.deposition_{length,height,width,lead_time} (material_deposition.cc:145-155). *)
Record dep_params (N : Num) : Type := mkdp { dp_length : N; dp_height : N; dp_width : N; dp_lead : N }.
Arguments mkdp {N} _ _ _ _.
Arguments dp_length {N} _.
Arguments dp_height {N} _.
Arguments dp_width {N} _.
Arguments dp_lead {N} _.

Section Along.
  Context {N : Num}.
  (** eps and eps_time (material_deposition.cc:169-170). *)
  Definition eps10 : N := nZ 1 / nZ 10000000000.

  (** The box around [center] (material_deposition.cc:203-262).  [rot] is segment_end_rotation ([None]: not valid). *)
  Definition make_box (dim3 : bool) (dp : dep_params N) (rot : option (quat N)) (cos sin nbl : N) (center : pt N)
    : res (pt N * pt N) :=
    let x_length := nabs cos * nbl + nabs sin * dp_width dp in
    let y_length := nabs cos * dp_width dp + nabs sin * nbl in
    match rot with
    | Some q =>
        if dim3 then
          let max_corner := mkpt (x_length / nZ 2) (y_length / nZ 2) (nZ 0) in
          let min_corner := mkpt (- x_length / nZ 2) (- y_length / nZ 2) (- dp_height dp) in
          let a := rotate q max_corner in
          let b := rotate q min_corner in
          let new_max := mkpt (nmaxi (px a) (px b)) (nmaxi (py a) (py b)) (nmaxi (pz a) (pz b)) in
          let new_min := mkpt (nmin (px a) (px b)) (nmin (py a) (py b)) (nmin (pz a) (pz b)) in
          Ok (padd center new_min, padd center new_max)
        else Throw
    | None =>
        if dim3 then
          Ok (mkpt (px center - nZ 1 / nZ 2 * x_length) (py center - nZ 1 / nZ 2 * y_length) (pz center - dp_height dp),
              mkpt (px center + nZ 1 / nZ 2 * x_length) (py center + nZ 1 / nZ 2 * y_length) (pz center))
        else
          Ok (mkpt (px center - nZ 1 / nZ 2 * nbl) (py center - dp_height dp) (nZ 0),
              mkpt (px center + nZ 1 / nZ 2 * nbl) (py center) (nZ 0))
    end.

  (** What stays fixed inside the while loop of one segment (material_deposition.cc:173-199). *)
  Record seg_ctx : Type := mkctx {
    c_rot : option (quat N);       (* segment_end_rotation *)
    c_start : pt N;                (* build_ref_segment_start_point *)
    c_stop : pt N;                 (* build_ref_segment_end_point *)
    c_len : N;                     (* segment_length *)
    c_vel : N;                     (* segment_velocity *)
    c_t0 : N;                      (* segment_start_time *)
    c_cos : N;
    c_sin : N
  }.

  (** The next center (material_deposition.cc:284-303).  In five-axis mode the direction is that from the current
      center to the end point; with a zero distance the code divides 0 by 0 (NaN): over the reals the model
      then uses Coq's 0/0. *)
  Definition next_center (cx : seg_ctx) (center : pt N) (incr : N) : pt N :=
    match c_rot cx with
    | Some _ =>
        let dir := psub (c_stop cx) center in
        padd center (pscale incr (pdivs dir (pnorm dir)))
    | None => mkpt (px center + c_cos cx * incr) (py center + c_sin cx * incr) (pz center)
    end.

  (** while (in_segment) (material_deposition.cc:201-305).  [fuel] bounds the number of iterations: [Ok None] means
      that it was not enough. *)
  Fixpoint segment_loop (fuel : nat) (dim3 : bool) (dp : dep_params N) (cx : seg_ctx) (center : pt N) (nbl : N) (r : dep N)
    : res (option (dep N)) :=
    match fuel with
    | O => Ok None
    | S fuel' =>
        let dist := pdist center (c_start cx) in
        let time_to := if neqb N (c_vel cx) (nZ 0) then nZ 0 else dist / c_vel cx in
        do box <- make_box dim3 dp (c_rot cx) (c_cos cx) (c_sin cx) nbl center;
        let r' := dep_push r box (nmaxi (c_t0 cx + time_to - dp_lead dp) eps10) (c_cos cx) (c_sin cx) in
        if c_len cx <? dist + eps10 then Ok (Some r')
        else
          if c_len cx <? dist + dp_length dp then
            segment_loop fuel' dim3 dp cx (next_center cx center (c_len cx - dist)) (c_len cx - dist) r'
          else
            segment_loop fuel' dim3 dp cx (next_center cx center (dp_length dp)) nbl r'
    end.

  (** The quantities computed before the while loop (material_deposition.cc:173-199).  With [five] the end point is
      taken in the build frame (an invalid rotation then gives NaN: not modelled, the machine point is used). *)
  Definition make_ctx (five : bool) (start_point : pt N) (build_start : pt N) (start_time : N) (s : seg N) : seg_ctx :=
    let len := pdist (end_point s) start_point in
    let zero := neqb N len (nZ 0) in
    mkctx (end_rotation s) build_start
      (match five, end_rotation s with true, Some q => inv_rotate q (end_point s) | _, _ => end_point s end)
      len (len / (end_time s - start_time)) start_time
      (if zero then nZ 1 else (px (end_point s) - px start_point) / len)
      (if zero then nZ 0 else (py (end_point s) - py start_point) / len).

  (** Build-frame start point of the next segment (material_deposition.cc:308-314). *)
  Definition build_point (s : seg N) : pt N :=
    match end_rotation s with Some q => inv_rotate q (end_point s) | None => end_point s end.

  (** for (segment : segment_list) (material_deposition.cc:166-315). *)
  Fixpoint segments_loop (fuel : nat) (dim3 five : bool) (dp : dep_params N) (sp0 bs0 : pt N) (t0 : N)
      (segs : list (seg N)) (r : dep N) : res (option (dep N)) :=
    match segs with
    | [] => Ok (Some r)
    | s :: rest =>
        do r' <-
          (if eps10 <? power_modifier s then
             segment_loop fuel dim3 dp (make_ctx five sp0 bs0 t0 s) bs0 (dp_length dp) r
           else Ok (Some r));
        match r' with
        | None => Ok None
        | Some r1 => segments_loop fuel dim3 five dp (end_point s) (build_point s) (end_time s) rest r1
        end
    end.

  (** deposition_along_scan_path (material_deposition.cc:128-317).  An empty segment list makes at(0) throw. *)
  Definition deposition_along (fuel : nat) (dim3 : bool) (dp : dep_params N) (five : bool) (segs : list (seg N))
    : res (option (dep N)) :=
    match segs with
    | [] => Throw
    | s :: _ =>
        let bs0 := match five, end_rotation s with true, Some q => inv_rotate q (end_point s) | _, _ => end_point s end in
        segments_loop fuel dim3 five dp (end_point s) bs0 (nZ 0) segs dep_nil
    end.
End Along.
Arguments seg_ctx N : clear implicits.

Section Merge.
  Context {N : Num}.
  (** std::sort(permutation, time[i] < time[j]): the standard only promises some sorted permutation. *)
  Variable sort : (nat -> nat -> bool) -> list nat -> list nat.

  Definition concat_dep (paths : list (dep N)) : dep N :=
    mkdep (flat_map d_boxes paths) (flat_map d_times paths) (flat_map d_cos paths) (flat_map d_sin paths).

  Fixpoint permuted {A} (l : list A) (p : list nat) : res (list A) :=
    match p with
    | [] => Ok []
    | i :: p' => do a <- at_ l i; do r <- permuted l p'; Ok (a :: r)
    end.

  (** merge_deposition_paths (material_deposition.cc:319-366). *)
  Definition merge_deposition_paths (paths : list (dep N)) : res (dep N) :=
    let all := concat_dep paths in
    let n := List.length (d_boxes all) in
    let time i := nth i (d_times all) (nZ 0) in
    let perm := sort (fun i j => nltb N (time i) (time j)) (seq 0 n) in
    do b <- permuted (d_boxes all) perm;
    do t <- permuted (d_times all) perm;
    do c <- permuted (d_cos all) perm;
    do s <- permuted (d_sin all) perm;
    Ok (mkdep b t c s).
End Merge.

(** get_elements_to_activate (material_deposition.cc:368-437).  A cell is (identifier, locally owned, active FE index,
    bounding box, is inside the STL); [stl] is geometry.use_stl().  The BVH query returns, for every box, the indices of
    the candidate boxes that intersect it (ArborX; the order of the indices is not specified by ArborX, the model
    lists them in mesh order). *)
Section Activate.
  Context {N : Num} {C : Type}.
  Record mesh_cell : Type := mkmc { mc_id : C; mc_owned : bool; mc_fe : nat; mc_lo : pt N; mc_hi : pt N; mc_stl : bool }.
  Definition boxes_intersect (dim3 : bool) (a b : pt N * pt N) : bool :=
    (px (fst a) <=? px (snd b)) && (px (fst b) <=? px (snd a)) && (py (fst a) <=? py (snd b)) && (py (fst b) <=? py (snd a)) &&
    (negb dim3 || ((pz (fst a) <=? pz (snd b)) && (pz (fst b) <=? pz (snd a)))).
  Definition candidate (stl : bool) (c : mesh_cell) : bool :=
    mc_owned c && Nat.eqb (mc_fe c) 1 && (negb stl || mc_stl c).
  Definition get_elements_to_activate (dim3 stl : bool) (cells : list mesh_cell) (boxes : list (pt N * pt N)) : list (list C) :=
    let cand := filter (candidate stl) cells in
    map (fun b => map mc_id (filter (fun c => boxes_intersect dim3 (mc_lo c, mc_hi c) b) cand)) boxes.
End Activate.
Arguments mesh_cell N C : clear implicits.
