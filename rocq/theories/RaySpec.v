(** RaySpec.v -- what C52 and C63 say: rays, flat faces, intersections. *)
From Coq Require Import Reals ZArith Bool List String.
From Verif Require Import Base GeometrySpec RayModel.
Import ListNotations.
Local Open Scope R_scope.

(** The point at distance [d] (in units of the direction) along a ray. *)
Definition along (r : ray RNum) (d : R) : pt RNum :=
  mkpt (N := RNum) (px (r_origin r) + d * px (r_direction r)) (py (r_origin r) + d * py (r_direction r)) (pz (r_origin r) + d * pz (r_direction r)).
(** The two triangles of a face and its normal. *)
Definition tri_a (f : face RNum) : tri := (f0 f, f1 f, f2 f).
Definition tri_b (f : face RNum) : tri := (f1 f, f2 f, f3 f).
Definition nonzero3 (v : pt RNum) : Prop := dot3 v v <> 0.
(** A flat face with two proper triangles. *)
Definition flat (f : face RNum) : Prop := on_plane (tri_a f) (f3 f) /\ nonzero3 (normal (tri_a f)) /\ nonzero3 (normal (tri_b f)).
Definition on_face (f : face RNum) (q : pt RNum) : Prop := on_triangle (tri_a f) q \/ on_triangle (tri_b f) q.
(** Sum of the absolute values of the products of the components of the two edges at vertex 0. *)
Definition edge_size (f : face RNum) : R :=
  let e := minus3 (f1 f) (f0 f) in let g := minus3 (f2 f) (f0 f) in
  (Rabs (px e) + Rabs (py e) + Rabs (pz e)) * (Rabs (px g) + Rabs (py g) + Rabs (pz g)).
(** The ray is (almost) parallel to the face. *)
Definition grazing (tol : R) (r : ray RNum) (f : face RNum) : Prop := Rabs (dot3 (r_direction r) (normal (tri_a f))) < tol * edge_size f.
(** The ray meets the face at distance [d]. *)
Definition meets (r : ray RNum) (f : face RNum) (d : R) : Prop := 0 <= d /\ on_face f (along r d).
(** The cells of a process a ray is tested against: those of the candidates, when the first candidate is on the process. *)
Definition tested (my_rank : nat) (cells : list (list (face RNum))) (found : list (nat * nat)) (f : face RNum) : Prop :=
  exists first rest i c, found = first :: rest /\ snd first = my_rank /\ In (i, my_rank) found /\ nth_error cells i = Some c /\ In f c.
(** All indices of the candidates on the process are valid. *)
Definition valid_found {A} (my_rank : nat) (cells : list A) (found : list (nat * nat)) : Prop :=
  forall i, In (i, my_rank) found -> (i < List.length cells)%nat.

(** ** Rows of the ray files: a first point, a second point, a value; [fields] are the non-empty fields of the line. *)
Definition field_value {N : Num} (strtod : string -> N) (fields : list string) (k : nat) : N :=
  match nth_error fields k with Some f => strtod f | None => nofZ N 0 end.
Definition ray_row_means {N : Num} (strtod : string -> N) (fields : list string) (p : ray_row N) : Prop :=
  w_point p = [field_value strtod fields 0; field_value strtod fields 1; field_value strtod fields 2] /\
  w_direction p = map (fun k => match nth_error fields (3 + k) with
                                | Some f => nsub N (strtod f) (field_value strtod fields k)
                                | None => nofZ N 0 end) [0; 1; 2]%nat /\
  w_value p = if Nat.ltb 6 (List.length fields) then field_value strtod fields (List.length fields - 1) else nofZ N 0.

(** ** Results *)
(** What a process may answer for a ray: the point of the nearest tested face it meets; nothing if it meets none (nearer than the largest number). *)
Definition hit_spec (tol : R) (my_rank : nat) (cells : list (list (face RNum))) (r : ray RNum) (found : list (nat * nat)) (hit : option (pt RNum)) : Prop :=
  match hit with
  | Some q => exists f d, tested my_rank cells found f /\ ~ grazing tol r f /\ meets r f d /\ q = along r d /\ d < nmax RNum /\
                forall f' d', tested my_rank cells found f' -> ~ grazing tol r f' -> meets r f' d' -> d <= d'
  | None => forall f' d', tested my_rank cells found f' -> ~ grazing tol r f' -> meets r f' d' -> nmax RNum <= d'
  end.
(** The points found, in the order of the rays, with the values of their rays. *)
Definition reported {N : Num} (hits : list (option (pt N))) (values : list N) : list (pt N * N) :=
  flat_map (fun hv => match fst hv with Some q => [(q, snd hv)] | None => [] end) (combine hits values).
(** [f] is a face of an active cell, number [i] of process [rank]. *)
Definition face_in_mesh (meshes : list (list (list (face RNum)))) (rank i : nat) (f : face RNum) : Prop :=
  exists cells c, nth_error meshes rank = Some cells /\ nth_error cells i = Some c /\ In f c.

(** ** Box cells: the faces of a box, vertices in the order of deal.II. *)
Definition point3 (x y z : R) : pt RNum := mkpt (N := RNum) x y z.
Definition box_cell (lo hi : pt RNum) : list (face RNum) :=
  let a := px lo in let b := px hi in let c := py lo in let d := py hi in let e := pz lo in let f := pz hi in
  [mkface (point3 a c e) (point3 a d e) (point3 a c f) (point3 a d f);
   mkface (point3 b c e) (point3 b d e) (point3 b c f) (point3 b d f);
   mkface (point3 a c e) (point3 a c f) (point3 b c e) (point3 b c f);
   mkface (point3 a d e) (point3 a d f) (point3 b d e) (point3 b d f);
   mkface (point3 a c e) (point3 b c e) (point3 a d e) (point3 b d e);
   mkface (point3 a c f) (point3 b c f) (point3 a d f) (point3 b d f)].
(** The ray enters the box at distance [d] or before. *)
Definition enters (r : ray RNum) (box : pt RNum * pt RNum) (d : R) : Prop := 0 <= d /\ in_box (fst box) (snd box) (along r d).
(** No component of the direction is tiny: it is zero or at least [tol]. *)
Definition clear_direction (tol : R) (v : pt RNum) : Prop := forall x, In x [px v; py v; pz v] -> x = 0 \/ tol <= Rabs x.
(** The candidates when the cells after the first [n] ones belong to process 1 instead of process 0. *)
Definition relabel (n : nat) (ir : nat * nat) : nat * nat := if Nat.ltb (fst ir) n then (fst ir, 0%nat) else (fst ir - n, 1)%nat.
