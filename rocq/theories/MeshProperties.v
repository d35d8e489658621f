(** MeshProperties.v -- C76.  Only statements, witnesses and assumptions.
    [do m <- make_mesh ... ; axes_of m] : the axes of the mesh generated for the entries [g] of geometry, in the order length, (width,) height;
    [indices] : its cells; [cell_box] : their extents. *)
From Coq Require Import Reals Lra Lia List ZArith String Bool.
From Verif Require Import Base BaseFacts MaterialModel ScanPathModel InputModel GeometryModel CellModel MeshModel MeshSpec MeshProofs MeshProofs2 MeshExamples.
Import ListNotations.
Local Open Scope R_scope.
Local Open Scope string_scope.

(** Without a mesh or a part from a file, the mesh is the box from the origins (0 unless given) with the sizes given, cut in the divisions given (10). *)
Theorem C76_box : forall (tbool : string -> option bool) (tint : string -> option Z) (tdouble : string -> option R) stl units g (L W H ol ow oh : R) nl nw nh,
  get tbool g ["import_mesh"] = Ok false -> get_str_opt g ["stl_filename"] = None ->
  get tdouble g ["length"] = Ok L -> get tdouble g ["width"] = Ok W -> get tdouble g ["height"] = Ok H ->
  entry tdouble g "length_origin" 0%R ol -> entry tdouble g "width_origin" 0%R ow -> entry tdouble g "height_origin" 0%R oh ->
  entry tint g "length_divisions" 10%Z nl -> entry tint g "width_divisions" 10%Z nw -> entry tint g "height_divisions" 10%Z nh ->
  (0 < L)%R -> (0 < W)%R -> (0 < H)%R -> (0 < nl < 2 ^ 31)%Z -> (0 < nw < 2 ^ 31)%Z -> (0 < nh < 2 ^ 31)%Z ->
  (do m <- make_mesh (N := RNum) tbool tint tdouble 3 stl units g; axes_of m) =
  Ok [mkaxis (N := RNum) ol (L + ol)%R (Z.to_nat nl); mkaxis (N := RNum) ow (W + ow)%R (Z.to_nat nw); mkaxis (N := RNum) oh (H + oh)%R (Z.to_nat nh)].
Proof. exact box_3d. Qed.
Print Assumptions C76_box.
Example C76_box_witness : (do m <- make_mesh (N := RNum) ms_bool ms_int ms_double 3 ms_stl None ms_g; axes_of m) = Ok ms_axes.
Proof. exact ms_box. Qed.
(** In two dimensions the axes are length and height; the width has no effect. *)
Theorem C76_box_2d : forall (tbool : string -> option bool) (tint : string -> option Z) (tdouble : string -> option R) stl units g (L H ol oh : R) nl nh,
  get tbool g ["import_mesh"] = Ok false -> get_str_opt g ["stl_filename"] = None ->
  get tdouble g ["length"] = Ok L -> get tdouble g ["height"] = Ok H -> entry tdouble g "length_origin" 0%R ol -> entry tdouble g "height_origin" 0%R oh ->
  entry tint g "length_divisions" 10%Z nl -> entry tint g "height_divisions" 10%Z nh -> (0 < L)%R -> (0 < H)%R -> (0 < nl < 2 ^ 31)%Z -> (0 < nh < 2 ^ 31)%Z ->
  (do m <- make_mesh (N := RNum) tbool tint tdouble 2 stl units g; axes_of m) = Ok [mkaxis (N := RNum) ol (L + ol)%R (Z.to_nat nl); mkaxis (N := RNum) oh (H + oh)%R (Z.to_nat nh)].
Proof. exact box_2d. Qed.
Print Assumptions C76_box_2d.

(** The cells of a generated mesh fill the box without overlap: every point of the box is in exactly one cell, and no cell leaves the box... *)
Theorem C76_tiling : forall m (axes : list (axis (N := RNum))), axes_of m = Ok axes ->
  (forall p, inside p (whole axes) -> exists k, In k (indices axes) /\ inside p (cell_box axes k) /\ forall k', In k' (indices axes) -> inside p (cell_box axes k') -> k' = k) /\
  (forall p k, In k (indices axes) -> inside p (cell_box axes k) -> inside p (whole axes)).
Proof.
  intros m axes H. apply axes_good in H. split.
  - intros p Hp. destruct (tiling axes p H Hp) as (k & K1 & K2). exists k. split; [exact K1|]. split; [exact K2|]. intros k' A B. exact (tiling_unique axes p k' k H A K1 B K2).
  - intros p k. exact (cells_within axes p k H).
Qed.
Print Assumptions C76_tiling.
(** ... there are as many as the product of the divisions, all different and of the same volume. *)
Theorem C76_cells : forall m (axes : list (axis (N := RNum))), axes_of m = Ok axes ->
  NoDup (indices axes) /\ List.length (indices axes) = fold_right (fun a n => (ax_n a * n)%nat) 1%nat axes /\
  forall k, In k (indices axes) -> (INR (List.length (indices axes)) * volume (cell_box axes k) = volume (whole axes))%R.
Proof. intros m axes H. apply axes_good in H. split; [exact (indices_nodup axes)|]. split; [exact (indices_length axes)|]. intros k. exact (cell_volume axes k H). Qed.
Print Assumptions C76_cells.
Example C76_cells_example : List.length (indices ms_axes) = 800%nat.
Proof. exact ms_cells. Qed.

(** The face of a cell has a boundary id exactly on the sides of the box: 0 and 1 at the ends of the length, then 2 and 3, then 4 and 5; any other face
    is shared with the cell next to it. *)
Theorem C76_sides : forall m (axes : list (axis (N := RNum))) k d u, axes_of m = Ok axes -> In k (indices axes) -> (d < List.length axes)%nat ->
  match boundary_id axes k d u with
  | Some b => b = (2 * d + (if u then 1 else 0))%nat /\ side (cell_box axes k) d u = side (whole axes) d u
  | None => exists k', In k' (indices axes) /\ next_to k d u k' /\ side (cell_box axes k) d u = side (cell_box axes k') d (negb u)
  end.
Proof.
  intros m axes k d u H K D. apply axes_good in H. destruct (boundary_id axes k d u) as [b|] eqn:E.
  - destruct (boundary_side axes k d u b H K E) as (A & _ & B). split; assumption.
  - exact (inner_side axes k d u K D E).
Qed.
Print Assumptions C76_sides.
(** Every point of a side is on a face with the id of the side; the ids of the mesh are these 2 * dim. *)
Theorem C76_sides_covered : forall m (axes : list (axis (N := RNum))) p d u s, axes_of m = Ok axes -> touches p (whole axes) -> side (whole axes) d u = Some s -> nth_error p d = Some s ->
  exists k, In k (indices axes) /\ touches p (cell_box axes k) /\ boundary_id axes k d u = Some (2 * d + (if u then 1 else 0))%nat.
Proof. intros m axes p d u s H. apply axes_good in H. exact (sides_covered axes p d u s H). Qed.
Print Assumptions C76_sides_covered.
Theorem C76_boundary_ids : forall m (axes : list (axis (N := RNum))), axes_of m = Ok axes -> boundary_ids axes = seq 0 (2 * List.length axes).
Proof. intros m axes H. apply axes_good in H. exact (boundary_ids_all axes H). Qed.
Print Assumptions C76_boundary_ids.
Theorem C76_material : forall (axes : list (axis (N := RNum))), material_ids axes = repeat 0%nat (List.length (indices axes)).
Proof. intros axes. unfold material_ids. induction (indices axes) as [|k l IH]; [reflexivity|]. cbn [map List.length repeat]. now rewrite IH. Qed.
Print Assumptions C76_material.

(** The material at the start is a slab of whole cells: its height differs from material_height by at most half a cell... *)
Theorem C76_active_height : forall m (axes : list (axis (N := RNum))) a (h : R) l, axes_of m = Ok axes -> In a axes -> (ax_low a <= h <= ax_high a)%R ->
  exists n, (n <= ax_n a)%nat /\ (forall i, (i < ax_n a)%nat -> (layer (N := RNum) h l a i <> None <-> (i < n)%nat)) /\
    (Rabs (vertex (N := RNum) a n - h) <= (ax_high a - ax_low a) / INR (ax_n a) / 2)%R.
Proof. intros m axes a h l H Ha. apply axes_good in H. rewrite Forall_forall in H. exact (active_height a h l (H a Ha)). Qed.
Print Assumptions C76_active_height.
(** ... and its upper part is powder; the thickness of the powder differs from powder_layer by at most one cell. *)
Theorem C76_powder_height : forall m (axes : list (axis (N := RNum))) a (h l : R), axes_of m = Ok axes -> In a axes -> (0 <= l)%R -> (ax_low a <= h - l)%R -> (h <= ax_high a)%R ->
  exists s n, (s <= n <= ax_n a)%nat /\
    (forall i, (i < ax_n a)%nat -> (layer (N := RNum) h (Some l) a i = Some solid <-> (i < s)%nat) /\ (layer (N := RNum) h (Some l) a i = Some powder <-> (s <= i < n)%nat)) /\
    (Rabs (vertex (N := RNum) a n - vertex (N := RNum) a s - l) <= (ax_high a - ax_low a) / INR (ax_n a))%R.
Proof. intros m axes a h l H Ha. apply axes_good in H. rewrite Forall_forall in H. exact (powder_height a h l (H a Ha)). Qed.
Print Assumptions C76_powder_height.

(** A mesh from a file is read in the format given (the name decides if it is unknown), is scaled with the unit given for meshes and keeps the material ids unless they are reset. *)
Theorem C76_imported : forall (tbool : string -> option bool) (tint : string -> option Z) (tdouble : string -> option R) stl dim units g file fmt,
  get tbool g ["import_mesh"] = Ok true -> get_str_opt g ["stl_filename"] = None -> get_str g ["mesh_file"] = Ok file -> get_str g ["mesh_format"] = Ok fmt ->
  exists factor reset f, make_mesh (N := RNum) tbool tint tdouble dim stl units g = Ok (Imported file f factor reset) /\
    (In fmt ["abaqus"; "assimp"; "unv"; "ucd"; "dbmesh"; "tecplot"; "xda"; "vtk"; "vtu"; "exodusii"] -> f = Named fmt) /\ (fmt = "gmsh" -> f = Named "msh") /\
    (~ In fmt ["abaqus"; "assimp"; "unv"; "ucd"; "dbmesh"; "tecplot"; "xda"; "vtk"; "vtu"; "exodusii"; "gmsh"] -> f = Default) /\
    factor = scaling (N := RNum) units ["mesh"] /\ reset = get_def tbool false g ["reset_material_id"] /\
    forall cells i vs m, nth_error cells i = Some (vs, m) -> nth_error (import_cells (N := RNum) factor reset cells) i = Some (map (map (Rmult factor)) vs, if reset then 0%nat else m).
Proof.
  intros tbool tint tdouble stl dim units g file fmt A B C D. exists (scaling (N := RNum) units ["mesh"]), (get_def tbool false g ["reset_material_id"]), (grid_in_format fmt).
  split; [exact (imported (N := RNum) tbool tint tdouble stl dim units g file fmt A B C D)|]. split; [exact (proj1 (format_known fmt))|]. split; [exact (proj1 (proj2 (format_known fmt)))|]. split; [exact (proj2 (proj2 (format_known fmt)))|]. split; [reflexivity|]. split; [reflexivity|].
  intros cells. exact (proj2 (import_scaled _ _ cells)).
Qed.
Print Assumptions C76_imported.
(** A unit that is not one of the names of the table makes a point of it. *)
Theorem C76_unknown_unit_refuted : forall reset cells vs m, In (vs, m) (import_cells (N := RNum) (scaling (N := RNum) (Some (Node "" [("mesh", Node "mm" [])])) ["mesh"]) reset cells) ->
  forall v x, In v vs -> In x v -> (x : R) = 0%R.
Proof. exact import_collapsed. Qed.
Print Assumptions C76_unknown_unit_refuted.

(** The unit of the mesh has no effect on a generated mesh: a brick in millimetres is built in metres. *)
Theorem C76_units_refuted : (forall (N : Num) (tbool : string -> option bool) (tint : string -> option Z) (tdouble : string -> option N) stl dim u1 u2 g,
    get tbool g ["import_mesh"] = Ok false -> get_str_opt g ["stl_filename"] = None -> make_mesh tbool tint tdouble dim stl u1 g = make_mesh tbool tint tdouble dim stl u2 g) /\
  make_mesh (N := RNum) ms_bool ms_int ms_double 3 ms_stl ms_units ms_g = make_mesh (N := RNum) ms_bool ms_int ms_double 3 ms_stl None ms_g /\ scaling (N := RNum) ms_units ["mesh"] = (/ 1000)%R.
Proof. split; [exact (@units_unused)|exact ms_units_unused]. Qed.
Print Assumptions C76_units_refuted.

(** Divisions that cannot be read count as 10, a negative number as 2^32 minus it, and zero is undefined behaviour; the validation accepts them all. *)
Theorem C76_divisions_refuted :
  (forall tint g key s, get_str_opt g [key] = Some s -> tint s = None -> divisions tint g key = 10%Z) /\
  (forall n, check_geometry (N := RNum) ms_bool ms_double (ms_bad n) 2 = Ok tt) /\
  ms_mesh "20.5" = Ok (Generated (N := RNum) [10; 10]%Z [0; 0]%R [2 + 0; 1 + 0]%R) /\
  ms_mesh "-1" = Ok (Generated (N := RNum) [4294967295; 10]%Z [0; 0]%R [2 + 0; 1 + 0]%R) /\
  (do m <- ms_mesh "0"; axes_of m) = UB.
Proof. split; [exact division_malformed|exact ms_divisions]. Qed.
Print Assumptions C76_divisions_refuted.
