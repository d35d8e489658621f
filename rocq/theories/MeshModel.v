(** MeshModel.v -- the mesh a run starts from: constructor of Geometry (Geometry.cc:79-262), dealii::GridGenerator::subdivided_hyper_rectangle
    as documented, and the material of its cells at the start. *)
From Coq Require Import ZArith Bool List String.
From Verif Require Import Base MaterialModel ScanPathModel InputModel GeometryModel CellModel.
Import ListNotations.
Local Open Scope string_scope.

Section Mesh.
  Context {N : Num} (tbool : string -> option bool) (tint : string -> option Z) (tdouble : string -> option N).
  Local Open Scope num_scope.

  (** ** What the constructor asks deal.II for *)
  (** dealii::GridIn::Format, by name; Default: deduced from the name of the file. *)
  Inductive format := Named (name : string) | Default.
  (** Geometry.cc:111-161.  gmsh is deal.II's msh. *)
  Definition grid_in_format (s : string) : format :=
    if existsb (String.eqb s) ["abaqus"; "assimp"; "unv"; "ucd"; "dbmesh"; "tecplot"; "xda"; "vtk"; "vtu"; "exodusii"] then Named s
    else if String.eqb s "gmsh" then Named "msh"
    else Default.
  Inductive mesh :=
  | Imported (file : string) (f : format) (factor : N) (reset : bool)
  | Generated (divisions : list Z) (p1 p2 : list N).
  (** database.get(key, 10), an int stored in an unsigned int (Geometry.cc:188-195). *)
  Definition divisions (g : ptree) (key : string) : Z := (get_def tint 10 g [key] mod 2 ^ 32)%Z.
  (** Geometry.cc:80-262.  [stl f s]: the triangles of the STL file [f] scaled with [s] (read_stl, C51).  The axes are x, (y,) z. *)
  Definition make_mesh (dim : nat) (stl : string -> N -> res (list (triangle N))) (units : option ptree) (g : ptree) : res mesh :=
    do import_mesh <- get tbool g ["import_mesh"];
    do triangles <- match get_str_opt g ["stl_filename"] with
                    | Some f => do ts <- stl f (scaling units ["mesh"]); Ok (Some ts)
                    | None => Ok None
                    end;
    if import_mesh : bool then
      do mesh_file <- get_str g ["mesh_file"];
      do mesh_format <- get_str g ["mesh_format"];
      Ok (Imported mesh_file (grid_in_format mesh_format) (scaling units ["mesh"]) (get_def tbool false g ["reset_material_id"]))
    else
      let repetitions := ([divisions g "length_divisions"] ++ (if Nat.eqb dim 3 then [divisions g "width_divisions"] else []) ++ [divisions g "height_divisions"])%list in
      match triangles with
      | Some ts => let '(p1, p2) := stl_corners dim ts in Ok (Generated repetitions p1 p2)
      | None =>
          do length <- get tdouble g ["length"];
          do height <- get tdouble g ["height"];
          do width <- (if Nat.eqb dim 3 then do w <- get tdouble g ["width"]; Ok [w] else Ok []);
          let origins := ([get_def tdouble (nZ 0) g ["length_origin"]] ++ (if Nat.eqb dim 3 then [get_def tdouble (nZ 0) g ["width_origin"]] else [])
                          ++ [get_def tdouble (nZ 0) g ["height_origin"]])%list in
          let '(p1, p2) := box_corners (([length] ++ width ++ [height])%list) origins in
          Ok (Generated repetitions p1 p2)
      end.

  (** ** subdivided_hyper_rectangle(triangulation, repetitions, p1, p2, colorize = true) as documented by deal.II *)
  Record axis := mkaxis { ax_low : N; ax_high : N; ax_n : nat }.
  (** The corners are ordered axis by axis.  At least one subdivision and different corners are required (assertions of debug builds only). *)
  Definition make_axis (p q : N) (n : Z) : axis := mkaxis (if q <? p then q else p) (if p <? q then q else p) (Z.to_nat n).
  Definition axes_of (m : mesh) : res (list axis) :=
    match m with
    | Imported _ _ _ _ => Throw
    | Generated ns p1 p2 =>
        let axes := map (fun '(pq, n) => make_axis (fst pq) (snd pq) n) (combine (combine p1 p2) ns) in
        if forallb (fun a => (0 <? ax_n a)%nat && (ax_low a <? ax_high a)) axes then Ok axes else UB
    end.
  Definition step (a : axis) : N := (ax_high a - ax_low a) / nofnat (ax_n a).
  Definition vertex (a : axis) (i : nat) : N := ax_low a + nofnat i * step a.
  (** The cells, by their position along each axis. *)
  Fixpoint indices (axes : list axis) : list (list nat) :=
    match axes with
    | [] => [[]]
    | a :: rest => flat_map (fun i => map (cons i) (indices rest)) (seq 0 (ax_n a))
    end.
  Definition cell_box (axes : list axis) (k : list nat) : list (N * N) := map (fun '(a, i) => (vertex a i, vertex a (S i))) (combine axes k).
  (** The boundary id of the face of cell [k] across axis number [d], on the lower or the upper side; [None] inside the mesh. *)
  Definition boundary_id (axes : list axis) (k : list nat) (d : nat) (upper : bool) : option nat :=
    match nth_error axes d, nth_error k d with
    | Some a, Some i =>
        if upper then (if (S i =? ax_n a)%nat then Some (2 * d + 1)%nat else None)
        else (if (i =? 0)%nat then Some (2 * d)%nat else None)
    | _, _ => None
    end.
  (** Triangulation::get_boundary_ids of the generated mesh: the ids of the faces of all cells, without repetition, in increasing order. *)
  Definition boundary_ids (axes : list axis) : list nat :=
    filter (fun b => existsb (fun k => existsb (fun '(d, u) => match boundary_id axes k d u with Some c => (c =? b)%nat | None => false end)
                                         (list_prod (seq 0 (List.length axes)) [false; true])) (indices axes)) (seq 0 (2 * List.length axes)).
  (** Geometry.cc:255-259: the material id of a cell of a generated mesh (deal.II had set it to the number of its octant). *)
  Definition material_ids (axes : list axis) : list nat := map (fun _ => 0%nat) (indices axes).
  (** Geometry.cc:163-184, the cells of an imported mesh, by their vertices and their material id: dealii::GridTools::scale, set_material_id. *)
  Definition import_cells (factor : N) (reset : bool) (cells : list (list (list N) * nat)) : list (list (list N) * nat) :=
    map (fun '(vs, m) => (map (map (fun x => factor * x)) vs, if reset then 0%nat else m)) cells.

  (** ** Material at the start *)
  (** The height of the centre of a cell, the last axis. *)
  Definition layer_centre (a : axis) (i : nat) : N := (vertex a i + vertex a (S i)) / nZ 2.
  (** C62, cell by cell: active and with which state (Geometry.cc:313-350, ThermalPhysics.templates.hh:471-493). *)
  Definition layer (material_height : N) (powder_layer : option N) (a : axis) (i : nat) : option mstate :=
    if initially_active material_height (layer_centre a i) then Some (assign_state material_height powder_layer (layer_centre a i)) else None.
End Mesh.
