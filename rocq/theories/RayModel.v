(** RayModel.v -- source/RayTracing.cc: rows of ray files, intersection of rays with the faces of the active cells, gathering over processes.

    Not modelled: the ArborX tree, which returns for every ray the cells (with their process) whose bounding boxes it meets, sorted by distance, at most
    eight of them (RayTracing.cc:74-85): this list is an input.  Numbers read from text: [strtod] is a parameter. *)
From Coq Require Import ZArith Bool List String Ascii.
From Verif Require Import Base ScanPathModel MaterialModel InputModel ExperimentModel.
Import ListNotations.

Section Rays.
  Context {N : Num}.
  Local Open Scope num_scope.

  (** Ray.hh: origin and direction. *)
  Record ray := mkray { r_origin : pt N; r_direction : pt N }.

  (** RayTracing.cc:90-119: point_in_triangle. *)
  Definition point_in_triangle (a b c p : pt N) : bool :=
    let ab := psub b a in
    let ac := psub c a in
    let ap := psub p a in
    let ab_ab := pdot ab ab in
    let ab_ac := pdot ab ac in
    let ac_ac := pdot ac ac in
    let ap_ab := pdot ap ab in
    let ap_ac := pdot ap ac in
    let denom := ab_ab * ac_ac - ab_ac * ab_ac in
    let v := (ac_ac * ap_ab - ab_ac * ap_ac) / denom in
    let w := (ab_ab * ap_ac - ab_ac * ap_ab) / denom in
    let u := nZ 1 - v - w in
    (nZ 0 <=? u) && (nZ 0 <=? v) && (nZ 0 <=? w).

  (** dealii::cross_product_3d. *)
  Definition pcross (u v : pt N) : pt N := mkpt (py u * pz v - pz u * py v) (pz u * px v - px u * pz v) (px u * py v - py u * px v).
  (** dealii::determinant of the matrix with the given rows (expansion along the first row; the order of the additions is a simplification). *)
  Definition det3 (a b c : pt N) : N := pdot a (pcross b c).

  (** A face: its four vertices in the order of deal.II (0-1 and 2-3 are opposite edges); a cell: its six faces. *)
  Record face := mkface { f0 : pt N; f1 : pt N; f2 : pt N; f3 : pt N }.
  Definition cell := list face.

  (** The loops over e and k at RayTracing.cc:325-328. *)
  Definition face_area (e1 e2 : pt N) : N :=
    fold_left (fun acc ek => acc + nabs (fst ek * snd ek)) (list_prod [px e1; py e1; pz e1] [px e2; py e2; pz e2]) (nZ 0).

  (** RayTracing.cc:302-348: distance along the ray to the plane of the face; [None] is `continue'. *)
  Definition plane_hit (tol : N) (r : ray) (f : face) : option N :=
    let e1 := psub (f1 f) (f0 f) in
    let e2 := psub (f2 f) (f0 f) in
    let dir := r_direction r in
    let det := det3 (mkpt (- px dir) (- py dir) (- pz dir)) e1 e2 in
    if nabs det <? tol * face_area e1 e2 then None
    else let d := pdot (pcross e1 e2) (psub (r_origin r) (f0 f)) / det in
         if d <? nZ 0 then None else Some d.

  (** RayTracing.cc:349-374: one face; the state is the distance and the intersection found so far. *)
  Definition visit_face (tol : N) (r : ray) (st : N * pt N) (f : face) : N * pt N :=
    match plane_hit tol r f with
    | None => st
    | Some d =>
        if d <? fst st then
          let q := padd (r_origin r) (pscale d (r_direction r)) in
          if point_in_triangle (f0 f) (f1 f) (f2 f) q then (d, q)
          else if point_in_triangle (f1 f) (f2 f) (f3 f) q then (d, q)
          else st
        else st
    end.
  Definition visit_cell (tol : N) (r : ray) (st : N * pt N) (c : cell) : N * pt N := fold_left (visit_face tol r) c st.

  (** The candidates of a ray that a process looks at (RayTracing.cc:283-284): those of the process of the first one. *)
  Definition kept (my_rank : nat) (found : list (nat * nat)) : list nat :=
    match found with
    | [] => []
    | first :: _ => map fst (filter (fun ir => Nat.eqb (snd ir) (snd first) && Nat.eqb (snd ir) my_rank) found)
    end.

  Fixpoint cells_at (cells : list cell) (is : list nat) : res (list cell) :=
    match is with
    | [] => Ok []
    | i :: is' => do c <- at_ cells i; do cs <- cells_at cells is'; Ok (c :: cs)
    end.

  (** RayTracing.cc:270-384: one ray on one process. *)
  Definition trace (tol : N) (my_rank : nat) (cells : list cell) (r : ray) (found : list (nat * nat)) : res (option (pt N)) :=
    do cs <- cells_at cells (kept my_rank found);
    let '(distance, q) := fold_left (visit_cell tol r) cs (nmax N, mkpt (nZ 0) (nZ 0) (nZ 0)) in
    Ok (if distance <? nmax N then Some q else None).

  (** RayTracing.cc:244-391: all the rays on one process.  [found] has one list per ray. *)
  Definition n_intersections (my_rank : nat) (found : list (list (nat * nat))) : nat :=
    List.length (filter (fun ir => Nat.eqb (snd ir) my_rank) (List.concat found)).
  Fixpoint trace_rays (tol : N) (my_rank : nat) (cells : list cell) (rays : list ray) (values : list N) (found : list (list (nat * nat)))
    : res (list (pt N * N)) :=
    match rays, found with
    | [], _ => Ok []
    | r :: rays', fd :: found' =>
        do hit <- trace tol my_rank cells r fd;
        match hit with
        | Some q => do v <- at_ values 0; do rest <- trace_rays tol my_rank cells rays' (tl values) found'; Ok ((q, v) :: rest)
        | None => trace_rays tol my_rank cells rays' (tl values) found'
        end
    | _ :: _, [] => UB
    end.
  Definition points_on (tol : N) (my_rank : nat) (cells : list cell) (rays : list ray) (values : list N) (found : list (list (nat * nat)))
    : res (list (pt N * N)) :=
    if Nat.eqb (n_intersections my_rank found) 0 then Ok [] else trace_rays tol my_rank cells rays values found.

  (** RayTracing.cc:393-407: every process receives the results of all processes, in the order of the ranks.  [meshes]: the active cells of each. *)
  Fixpoint gather (tol : N) (rank : nat) (meshes : list (list cell)) (rays : list ray) (values : list N) (found : list (list (nat * nat)))
    : res (list (pt N * N)) :=
    match meshes with
    | [] => Ok []
    | cells :: rest =>
        do here <- points_on tol rank cells rays values found;
        do others <- gather tol (S rank) rest rays values found;
        Ok (here ++ others)
    end.
  Definition get_points_values (tol : N) (meshes : list (list cell)) (rays : list ray) (values : list N) (found : list (list (nat * nat)))
    : res (list (pt N * N)) := gather tol 0 meshes rays values found.

  (** ** Rows of the files (RayTracing.cc:163-205): x, y, z of a first point, of a second point, value. *)
  Context (strtod : string -> N).
  Record ray_row := mkrow { w_point : list N; w_direction : list N; w_value : N }.
  Fixpoint ray_fields (i : nat) (fields : list string) (p : ray_row) : ray_row :=
    match fields with
    | [] => p
    | f :: rest =>
        if Nat.eqb (String.length f) 0 then ray_fields i rest p
        else ray_fields (S i) rest
               (if Nat.ltb i 3 then mkrow (set_coord (w_point p) i (strtod f)) (w_direction p) (w_value p)
                else if Nat.ltb i 6 then mkrow (w_point p) (set_coord (w_direction p) (i - 3) (strtod f - nth (i - 3) (w_point p) (nZ 0))) (w_value p)
                else mkrow (w_point p) (w_direction p) (strtod f))
    end.
  Definition read_ray (line : string) : ray_row :=
    ray_fields 0 (split_off ","%char line) (mkrow (repeat (nZ 0) 3) (repeat (nZ 0) 3) (nZ 0)).
End Rays.
Arguments ray : clear implicits.
Arguments face : clear implicits.
Arguments cell : clear implicits.
Arguments ray_row : clear implicits.
