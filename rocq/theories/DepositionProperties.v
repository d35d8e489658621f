(** DepositionProperties.v -- C12, C13, C14, C53.  Only statements, witnesses and assumptions. *)
From Coq Require Import Reals ZArith QArith Bool List String Sorted Permutation Lra.
From Verif Require Import Base BaseFacts Decimal QuaternionModel ScanPathModel ScanPathSpec DepositionModel DepositionSpec
  DepositionProofs DepositionProofs2 DepositionProofs3.
Import ListNotations.
Local Open Scope R_scope.

(** * C12 -- [lines]: the lines of the file; any decimal parser [P], any cos and sin. *)
Theorem C12_read_iff : forall (N : Num) (P : parser N) ncos nsin dim3 lines d,
  read_material_deposition P ncos nsin dim3 lines = Ok d <->
  exists h body rows, lines = h :: body /\ stoi P h = Some (if dim3 then 3%Z else 2%Z) /\
    Forall2 (row_of_line P ncos nsin dim3) body rows /\ columns d rows /\ never_decreases (d_times d).
Proof. exact @read_ok. Qed.
Print Assumptions C12_read_iff.

Theorem C12_times_sorted : forall (P : parser RNum) dim3 lines d,
  read_material_deposition P cos sin dim3 lines = Ok d -> StronglySorted Rle (d_times d).
Proof. exact read_sorted. Qed.
Print Assumptions C12_times_sorted.

(** The box of a line has the stated centre and size, (cos, sin) are those of the stated angle. *)
Theorem C12_box : forall (P : parser RNum) dim3 line (r : row RNum), row_of_line P cos sin dim3 line r ->
  exists a : R, (r_cos r : R) = cos a /\ (r_sin r : R) = sin a /\
  exists vals : list R, Forall2 (fun tok v => stod P tok = Some v) (firstn (if dim3 then 6 else 4) (split is_space line)) vals /\
  match dim3, vals with
  | true, [cx; cy; cz; sx; sy; sz] =>
      (px (fst (r_box r)) + px (snd (r_box r))) / 2 = cx /\ (py (fst (r_box r)) + py (snd (r_box r))) / 2 = cy /\
      (pz (fst (r_box r)) + pz (snd (r_box r))) / 2 = cz /\ px (snd (r_box r)) - px (fst (r_box r)) = sx /\
      py (snd (r_box r)) - py (fst (r_box r)) = sy /\ pz (snd (r_box r)) - pz (fst (r_box r)) = sz
  | false, [cx; cy; sx; sy] =>
      (px (fst (r_box r)) + px (snd (r_box r))) / 2 = cx /\ (py (fst (r_box r)) + py (snd (r_box r))) / 2 = cy /\
      px (snd (r_box r)) - px (fst (r_box r)) = sx /\ py (snd (r_box r)) - py (fst (r_box r)) = sy
  | _, _ => False
  end.
Proof. exact read_box_R. Qed.
Print Assumptions C12_box.
Example C12_witness : exists d, read_material_deposition QParser (fun _ => 1%Q) (fun a => a) true
    ["3"; "0.0 0.0 1.0 2.0 2.0 1.0 0.5 0.0"; "1 0 1 2 2 1 0.5 0.25"; "1 0 1 2 2 1 7 0"]%string = Ok d /\ d_times d = [1 # 2; 1 # 2; 7 # 1]%Q.
Proof. exact read_witness. Qed.
Example C12_decreasing_time_throws : read_material_deposition QParser (fun _ => 1%Q) (fun a => a) true
    ["3"; "0.0 0.0 1.0 2.0 2.0 1.0 0.5 0.0"; "1 0 1 2 2 1 0.4 0.25"]%string = Throw.
Proof. exact read_decreasing. Qed.

(** * C13 *)
Theorem C13_covers_powered_path : forall dim3 dp segs, dp_ok dp -> segs <> [] -> path_ok dim3 (legs segs) ->
  exists n d rows, (forall fuel, (n <= fuel)%nat -> deposition_along fuel dim3 dp false segs = Ok (Some d)) /\ columns d rows /\
    (forall r, In r rows -> exists leg, In leg (legs segs) /\ powered (snd leg) /\ row_on_leg dim3 dp leg r) /\
    (forall leg, In leg (legs segs) -> powered (snd leg) -> forall u, 0 <= u <= 1 ->
       exists r, In r rows /\ row_on_leg dim3 dp leg r /\ in_dep_box dim3 (r_box r) (between u (fst (fst leg)) (end_point (snd leg)))) /\
    StronglySorted Rle (d_times d) /\ (forall t, In t (d_times d) -> / 10000000000 <= (t : R)).
Proof. exact deposition_ok. Qed.
Print Assumptions C13_covers_powered_path.

Example C13_witness : dp_ok (mkdp (N := RNum) 3 1 1 0) /\ path_ok true (legs dep_segs) /\
  exists leg, In leg (legs dep_segs) /\ powered (snd leg).
Proof. exact dep_segs_witness. Qed.
Example C13_run : exists d, deposition_along (N := QNum) 10 true (mkdp (N := QNum) (3#1) (1#1) (1#1) (0#1))%Q false dep_segs_Q = Ok (Some d) /\
  d_times d = [1 # 10000000000; 3 # 2; 3 # 1; 9 # 2; 5 # 1; 6 # 1; 39 # 5; 9 # 1]%Q /\
  nth_error (d_boxes d) 4 = Some (mkpt (N := QNum) (19 # 2) (-1 # 2) (0 # 1), mkpt (N := QNum) (21 # 2) (1 # 2) (1 # 1))%Q.
Proof. exact dep_segs_Q_run. Qed.

(** "The construction terminates" is false of a powered vertical leg, ... *)
Theorem C13_vertical_never_ends_refuted : forall (dp : dep_params RNum) fuel (p q : pt RNum) (t0 t1 pw : R),
  (px p : R) = px q -> (py p : R) = py q -> / 10000000000 <= Rabs (pz q - pz p) -> / 10000000000 < pw ->
  deposition_along fuel true dp false [mkseg (N := RNum) t0 0 p None; mkseg (N := RNum) t1 pw q None] = Ok None.
Proof. exact vertical_never_ends. Qed.
Print Assumptions C13_vertical_never_ends_refuted.

(** ... of a deposition length of 0, ... *)
Theorem C13_zero_length_never_ends_refuted : forall dim3 (dp : dep_params RNum) fuel (p q : pt RNum) (t0 t1 pw : R),
  (dp_length dp : R) = 0 -> / 10000000000 <= (pdist q p : R) -> / 10000000000 < pw ->
  deposition_along fuel dim3 dp false [mkseg (N := RNum) t0 0 p None; mkseg (N := RNum) t1 pw q None] = Ok None.
Proof. exact zero_length_never_ends. Qed.
Print Assumptions C13_zero_length_never_ends_refuted.

(** ... and of five-axis paths on which the distance differs between the machine and the build frame. *)
Theorem C13_five_axis_never_ends_refuted : exists dp segs, dp_ok dp /\
  Forall (fun s : seg RNum => match end_rotation s with Some q => qnorm2 q = 1 | None => False end) segs /\
  forall fuel, deposition_along fuel true dp true segs = Ok None.
Proof. exact five_axis_witness. Qed.
Print Assumptions C13_five_axis_never_ends_refuted.

(** A path without segments is refused. *)
Theorem C13_no_segments : forall (N : Num) fuel dim3 (dp : dep_params N) five, deposition_along fuel dim3 dp five [] = Throw.
Proof. exact no_segments. Qed.
Print Assumptions C13_no_segments.

(** * C14 -- for every function meeting the contract of std::sort. *)
Theorem C14_merge : forall sort (paths : list (dep RNum)) (rows : list (list (row RNum))), std_sort sort -> Forall2 columns paths rows ->
  exists d merged, merge_deposition_paths sort paths = Ok d /\ columns d merged /\ Permutation (List.concat rows) merged /\
    StronglySorted Rle (d_times d).
Proof. exact merge_ok. Qed.
Print Assumptions C14_merge.
Example C14_contract_satisfiable : std_sort isort.
Proof. exact isort_meets_contract. Qed.
Example C14_witness : exists (paths : list (dep RNum)) rows, Forall2 columns paths rows /\
  map (fun d : dep RNum => (d_times d : list R)) paths = [[1; 3]; [2]].
Proof. exact merge_witness. Qed.

(** * C53 *)
Theorem C53_candidates : forall (C : Type) dim3 stl (cells : list (mesh_cell RNum C)) boxes,
  List.length (get_elements_to_activate dim3 stl cells boxes) = List.length boxes /\
  forall i b ids, nth_error boxes i = Some b -> nth_error (get_elements_to_activate dim3 stl cells boxes) i = Some ids ->
  forall c, In c ids <-> exists cell, In cell cells /\ mc_id cell = c /\ mc_owned cell = true /\ mc_fe cell = 1%nat /\
    (stl = true -> mc_stl cell = true) /\ boxes_intersect dim3 (mc_lo cell, mc_hi cell) b = true.
Proof. exact @candidates. Qed.
Print Assumptions C53_candidates.
Theorem C53_intersect_means_common_point : forall dim3 (a b : pt RNum * pt RNum),
  (px (fst a) <= px (snd a))%R -> (py (fst a) <= py (snd a))%R -> (pz (fst a) <= pz (snd a))%R ->
  (px (fst b) <= px (snd b))%R -> (py (fst b) <= py (snd b))%R -> (pz (fst b) <= pz (snd b))%R ->
  (boxes_intersect dim3 a b = true <-> exists p, in_dep_box dim3 a p /\ in_dep_box dim3 b p).
Proof. exact intersect_iff. Qed.
Print Assumptions C53_intersect_means_common_point.
Example C53_witness : exists (cells : list (mesh_cell RNum nat)) boxes, get_elements_to_activate true false cells boxes = [[7%nat]; []].
Proof. exact candidates_witness. Qed.
