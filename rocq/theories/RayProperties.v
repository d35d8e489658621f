(** RayProperties.v -- C52.  Only statements, witnesses and assumptions. *)
From Coq Require Import Reals ZArith Bool List Lia Lra String Floats.
From Verif Require Import Base BaseFacts MaterialModel InputModel InputSpec ExperimentModel ExperimentSpec RayModel GeometrySpec RaySpec RayProofs RayProofs2 RayProofs3 RayExamples.
Import ListNotations.
Local Open Scope R_scope.

(** ** C52.  One ray on one process: the point reported is the nearest one among all the faces tested that the ray is not parallel to. *)
Theorem C52_nearest : forall (tol : R) my_rank (cells : list (list (face RNum))) (r : ray RNum) found, 0 < tol -> (forall c f, In c cells -> In f c -> flat f) -> valid_found my_rank cells found ->
  exists hit, trace (N := RNum) tol my_rank cells r found = Ok hit /\ hit_spec tol my_rank cells r found hit.
Proof. exact trace_spec. Qed.
Print Assumptions C52_nearest.
Example C52_nearest_case : flat front /\ ~ grazing (1 / 10) up_ray front /\ meets up_ray front 1.
Proof. exact front_met. Qed.
(** All rays, all processes: the results are those of the processes one after the other, every point with the value of its ray. *)
Theorem C52_all_processes : forall (tol : R) (meshes : list (list (list (face RNum)))) (rays : list (ray RNum)) (values : list R) found, 0 < tol ->
  (forall cells c f, In cells meshes -> In c cells -> In f c -> flat f) -> List.length values = List.length rays -> List.length found = List.length rays ->
  (forall k cells fd, nth_error meshes k = Some cells -> In fd found -> valid_found k cells fd) ->
  exists hits, get_points_values (N := RNum) tol meshes rays values found = Ok (List.concat (map (fun hs => reported (N := RNum) hs values) hits)) /\ List.length hits = List.length meshes /\
    forall k cells hs, nth_error meshes k = Some cells -> nth_error hits k = Some hs -> List.length hs = List.length rays /\
      forall i r fd, nth_error rays i = Some r -> nth_error found i = Some fd -> exists h, nth_error hs i = Some h /\ hit_spec tol k cells r fd h.
Proof. exact all_processes. Qed.
Print Assumptions C52_all_processes.
Theorem C52_reported_once : forall tol k k' cells cells' r fd q q', hit_spec tol k cells r fd (Some q) -> hit_spec tol k' cells' r fd (Some q') -> k = k'.
Proof. exact one_process. Qed.
Print Assumptions C52_reported_once.
(** When the candidates of a ray include every cell it meets and are on one process, the point is the nearest one of the whole mesh. *)
Theorem C52_nearest_of_mesh : forall tol meshes k cells r fd hit, nth_error meshes k = Some cells -> hit_spec tol k cells r fd hit ->
  (forall ir, In ir fd -> snd ir = k) -> (forall rank i f d, face_in_mesh meshes rank i f -> ~ grazing tol r f -> meets r f d -> In (i, rank) fd) ->
  match hit with
  | Some q => exists i f d, face_in_mesh meshes k i f /\ meets r f d /\ q = along r d /\ forall rank j f' d', face_in_mesh meshes rank j f' -> ~ grazing tol r f' -> meets r f' d' -> d <= d'
  | None => forall rank j f' d', face_in_mesh meshes rank j f' -> ~ grazing tol r f' -> meets r f' d' -> nmax RNum <= d'
  end.
Proof. exact nearest_of_mesh. Qed.
Print Assumptions C52_nearest_of_mesh.
(** Box cells: discarding the faces parallel to the ray loses nothing.  From outside, the ray is stopped where it enters the first box. *)
Theorem C52_boxes : forall (tol : R) (rank : nat) (boxes : list (pt RNum * pt RNum)) (r : ray RNum) (found : list (nat * nat)),
  0 < tol -> (forall b, In b boxes -> proper (fst b) (snd b)) -> clear_direction tol (r_direction r) -> (forall b, In b boxes -> ~ in_box (fst b) (snd b) (r_origin r)) ->
  (forall ir, In ir found -> snd ir = rank /\ (fst ir < List.length boxes)%nat) ->
  (forall i b d, nth_error boxes i = Some b -> enters r b d -> In (i, rank) found) ->
  exists hit, trace (N := RNum) tol rank (map (fun b => box_cell (fst b) (snd b)) boxes) r found = Ok hit /\
  match hit with
  | Some q => exists b d, In b boxes /\ enters r b d /\ q = along r d /\ forall b' d', In b' boxes -> enters r b' d' -> d <= d'
  | None => forall b d, In b boxes -> enters r b d -> nmax RNum <= d
  end.
Proof. exact boxes_traced. Qed.
Print Assumptions C52_boxes.
Example C52_boxes_case : (forall b, In b two_boxes -> proper (fst b) (snd b)) /\ clear_direction (1 / 10) (r_direction up_ray) /\ (forall b, In b two_boxes -> ~ in_box (fst b) (snd b) (r_origin up_ray)) /\
  (forall ir, In ir up_found -> snd ir = 0%nat /\ (fst ir < List.length two_boxes)%nat) /\ (forall i b d, nth_error two_boxes i = Some b -> enters up_ray b d -> In (i, 0%nat) up_found).
Proof. exact two_boxes_case. Qed.
Example C52_boxes_result : trace (N := RNum) (1 / 10) 0 (map (fun b => box_cell (fst b) (snd b)) two_boxes) up_ray up_found = Ok (Some (point3 (1 / 4) (1 / 2) 0)).
Proof. exact two_boxes_hit. Qed.
(** The point-in-triangle test is exact on the plane of a proper triangle. *)
Theorem C52_point_in_triangle : forall (t : tri) (p : pt RNum), nonzero3 (normal t) -> on_plane t p ->
  (point_in_triangle (N := RNum) (v_a t) (v_b t) (v_c t) p = true <-> on_triangle t p).
Proof. exact in_triangle_iff. Qed.
Print Assumptions C52_point_in_triangle.
(** Never more points than candidates on the process, whatever the numbers (the assertion at the end of the loop). *)
Theorem C52_count : forall (tol : R) my_rank cells (rays : list (ray RNum)) (values : list R) found l,
  points_on (N := RNum) tol my_rank cells rays values found = Ok l -> (List.length l <= n_intersections my_rank found)%nat.
Proof. intros. eapply (points_bound (N := RNum)); [exact max_not_less_R|eassumption]. Qed.
Print Assumptions C52_count.
(** binary64: a face whose determinant is zero or NaN (a ray in the plane of the face, a face without area, coordinates that are not numbers) is never hit. *)
Theorem C52_degenerate_binary64 : forall (tol : FNum) (r : ray FNum) (st : FNum * pt FNum) (f : face FNum),
  let det := det3 (N := FNum) (mkpt (N := FNum) (- px (r_direction r))%float (- py (r_direction r))%float (- pz (r_direction r))%float) (psub (f1 f) (f0 f)) (psub (f2 f) (f0 f)) in
  PrimFloat.eqb det 0 = true \/ PrimFloat.eqb det det = false -> visit_face tol r st f = st.
Proof. exact degenerate_face. Qed.
Print Assumptions C52_degenerate_binary64.
(** Rows of the files: the direction is the second point minus the first one, the value is the last field after them. *)
Theorem C52_rows : forall (N : Num) (strtod : string -> N) line fields, words_of line fields -> ray_row_means strtod (filter nonempty fields) (read_ray (N := N) strtod line).
Proof. exact @ray_row_ok. Qed.
Print Assumptions C52_rows.
(** Without the hypothesis on the processes the nearest point is lost: the first candidate is missed by the ray, the second one is on another process. *)
Theorem C52_other_process_refuted : ~ (forall (a b : list (list (face FNum))) (r : ray FNum) (v : FNum) (found : list (nat * nat)),
  get_points_values tol_code [a; b] [r] [v] [map (relabel (List.length a)) found] = get_points_values tol_code [a ++ b] [r] [v] [found]).
Proof. exact other_process. Qed.
Print Assumptions C52_other_process_refuted.
Theorem C52_found_on_one_process : get_points_values tol_code [[sheared; beyond]] [slanted] [300%float] [[(0, 0); (1, 0)]]%nat = Ok [(PF 3 0.5 1.25, 300%float)] /\
  get_points_values tol_code [[sheared]; [beyond]] [slanted] [300%float] [[(0, 0); (0, 1)]]%nat = Ok [].
Proof. exact (conj same_process_found other_process_lost). Qed.
Print Assumptions C52_found_on_one_process.
(** The direction is not normalised: the same half-line, written with a short direction, meets nothing. *)
Theorem C52_direction_length_refuted : ~ (forall (o v : pt FNum) (s : FNum), PrimFloat.ltb 0 s = true ->
  (forall q x, get_points_values tol_code [[unit_hex]] [mkray o v] [300%float] [[(0, 0)]]%nat = Ok [(q, x)] ->
     exists q' x', get_points_values tol_code [[unit_hex]] [mkray o (pscale (N := FNum) s v)] [300%float] [[(0, 0)]]%nat = Ok [(q', x')])).
Proof. exact direction_length. Qed.
Print Assumptions C52_direction_length_refuted.
