(** GeometryModel.v -- source/Geometry.cc: binary STL files, bounding box of the part, corners of the mesh, test whether a cell lies inside
    the part, initial material state; source/ThermalPhysics.templates.hh:471-493: initial activation.

    Not modelled: reading of mesh files and creation of the triangulation by deal.II, the ArborX tree (the functions below receive what its
    queries return), failure of the allocation of the triangle array. *)
From Coq Require Import ZArith Bool List Floats.
From Verif Require Import Base.
Import ListNotations.

(** ** Bytes.  A file is the list of its bytes, integers in [0, 256). *)
(** Value of a little-endian 4-byte word (std::memcpy into an unsigned int or a float on the supported platforms, Geometry.cc:37-42, 376). *)
Definition le32 (b : list Z) : Z :=
  match b with [b0; b1; b2; b3] => (b0 + 256 * (b1 + 256 * (b2 + 256 * b3)))%Z | _ => 0%Z end.

(** static_cast<double>(float) of the IEEE single with bit pattern [w] (Geometry.cc:38): exact. *)
Definition single (w : Z) : float :=
  let sign := (w / 2 ^ 31 =? 1)%Z in
  let e := (w / 2 ^ 23 mod 2 ^ 8)%Z in
  let m := (w mod 2 ^ 23)%Z in
  let magnitude :=
    if (e =? 255)%Z then (if (m =? 0)%Z then infinity else nan)
    else if (e =? 0)%Z then Z.ldexp (F_ofZ m) (-149)
    else Z.ldexp (F_ofZ (m + 2 ^ 23)) (e - 150) in
  if sign then PrimFloat.opp magnitude else magnitude.

(** [n] bytes starting at [p + off]. *)
Definition bytes_at (p : list Z) (off n : nat) : list Z := firstn n (skipn off p).

(** Geometry.cc:33-46: read_point, [facet] starts at the vertex. *)
Definition read_point (facet : list Z) (unit_scaling : float) : pt FNum :=
  mkpt (N := FNum) (PrimFloat.mul (single (le32 (bytes_at facet 0 4))) unit_scaling)
       (PrimFloat.mul (single (le32 (bytes_at facet 4 4))) unit_scaling)
       (PrimFloat.mul (single (le32 (bytes_at facet 8 4))) unit_scaling).

(** std::istream::read of [n] bytes: the bytes obtained (gcount of them) and the bytes left; once the end has been met nothing more is read. *)
Definition stream : Type := list Z * bool.
Definition sread (s : stream) (n : nat) : list Z * stream :=
  if snd s then ([], s) else (firstn n (fst s), (skipn n (fst s), (length (fst s) <? n)%nat)).

Definition triangle (N : Num) : Type := (pt N * pt N * pt N)%type.

(** Geometry.cc:382-401: the loop over the announced triangles. *)
Fixpoint read_facets (n : nat) (s : stream) (scaling : float) : res (list (triangle FNum)) :=
  match n with
  | O => Ok []
  | S n' =>
      let '(facet, s') := sread s 50 in
      if negb (length facet =? 50)%nat then Throw
      else let t := (read_point (skipn 12 facet) scaling, read_point (skipn 24 facet) scaling, read_point (skipn 36 facet) scaling) in
           do r <- read_facets n' s' scaling; Ok (t :: r)
  end.

(** Geometry.cc:355-402: read_stl.  [None] is a file that cannot be opened.  The count is copied from a buffer that the read may not have
    filled: using it is undefined behaviour. *)
Definition read_stl (file : option (list Z)) (scaling : float) : res (list (triangle FNum)) :=
  match file with
  | None => Throw
  | Some bytes =>
      let '(_, s1) := sread (bytes, false) 80 in
      let '(n_tri, s2) := sread s1 4 in
      if negb (length n_tri =? 4)%nat then UB
      else read_facets (Z.to_nat (le32 n_tri)) s2 scaling
  end.

(** ** Bounding box and corners *)
Section Box.
  Context {N : Num}.
  Local Open Scope num_scope.
  (** std::min({...}) and std::max({...}): first smallest, first largest element. *)
  Definition min_of (x : N) (l : list N) : N := fold_left (fun r y => if y <? r then y else r) l x.
  Definition max_of (x : N) (l : list N) : N := fold_left (fun r y => if r <? y then y else r) l x.

  (** Geometry.cc:201-217: one axis of the bounding box of the triangles. *)
  Definition axis_bounds (coord : pt N -> N) (ts : list (triangle N)) : N * N :=
    fold_left (fun mm t => let '(a, b, c) := t in
                (min_of (fst mm) [coord a; coord b; coord c], max_of (snd mm) [coord a; coord b; coord c])) ts (nmax N, - nmax N).

  (** Geometry.cc:219-230: corners of the mesh around an STL part; in two dimensions the axes are x and z. *)
  Definition stl_corners (dim : nat) (ts : list (triangle N)) : list N * list N :=
    let x := axis_bounds px ts in let y := axis_bounds py ts in let z := axis_bounds pz ts in
    if (dim =? 3)%nat then ([fst x; fst y; fst z], [snd x; snd y; snd z]) else ([fst x; fst z], [snd x; snd z]).

  (** Geometry.cc:232-252: corners of the mesh from the input file: [sizes] are length, (width,) height and [origins] the origins. *)
  Definition box_corners (sizes origins : list N) : list N * list N :=
    (origins, map (fun so => fst so + snd so) (combine sizes origins)).

  (** ** Inside test, Geometry.cc:49-77 (InsideCallBack): [p] the centre of the cell, [t] the nearest triangle, [a] its closest point. *)
  Definition inside_callback (p : pt N) (t : triangle N) (a : pt N) : bool :=
    let '(va, vb, vc) := t in
    let pa := psub a p in
    let e1 := psub vb va in
    let e2 := psub vc va in
    let x := py e1 * pz e2 - py e2 * pz e1 in
    let y := - (px e1 * pz e2 - px e2 * pz e1) in
    let z := px e1 * py e2 - px e2 * py e1 in
    nZ 0 <? px pa * x + py pa * y + pz pa * z.

  (** Geometry.cc:262-309: is_within_stl.  [hits]: some triangle meets the bounding box of the cell; [nearest]: what the nearest query
      returned. *)
  Definition is_within_stl (dim : nat) (hits : bool) (center : pt N) (nearest : triangle N * pt N) : bool :=
    if (dim =? 2)%nat then false
    else if hits then false
    else inside_callback center (fst nearest) (snd nearest).

  (** ** Initial material *)
  Inductive mstate := solid | powder.
  (** Geometry.cc:313-350: assign_material_state, for the height of the centre of one cell.  [powder_layer] is [Some] when geometry.use_powder
      is true (reading a missing powder_layer throws). *)
  Definition assign_state (material_height : N) (powder_layer : option N) (z : N) : mstate :=
    match powder_layer with
    | Some l => if z <? material_height - l then solid else powder
    | None => solid
    end.
  (** ThermalPhysics.templates.hh:471-493: the cell contains material. *)
  Definition initially_active (material_height z : N) : bool := z <? material_height.
  (** The same loop: direction and melting history of the active cells, in order: cos 1, sin 0, never melted. *)
  Definition initial_cell_data (material_height : N) (zs : list N) : list N * list N * list bool :=
    let act := filter (initially_active material_height) zs in
    (map (fun _ => nZ 1) act, map (fun _ => nZ 0) act, map (fun _ => false) act).
End Box.
