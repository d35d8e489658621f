(** GeometryProperties.v -- C51, C61 and C62.  Only statements, witnesses and assumptions. *)
From Coq Require Import Reals ZArith Bool List Lia Lra.
From Flocq Require Import Core.
From Coq Require Import Floats.
From Verif Require Import Base BaseFacts MaterialFloat GeometryModel GeometrySpec GeometryProofs GeometryFloat GeometryProofs2 GeometryExamples.
Import ListNotations.
Local Open Scope R_scope.

(** ** C51.  A file with all the bytes it announces gives exactly the announced triangles, every coordinate being the word at its place times the
    unit of length. *)
Theorem C51_announced_triangles : forall (f : list Z) (s : PrimFloat.float), (84 + 50 * announced f <= length f)%nat ->
  exists ts, read_stl (Some f) s = Ok ts /\ length ts = announced f /\
  forall i, (i < announced f)%nat -> exists a b c, nth_error ts i = Some (a, b, c) /\
    forall j v, nth_error [a; b; c] j = Some v ->
      forall k x, nth_error [px v; py v; pz v] k = Some x -> x = PrimFloat.mul (single (word_at f (coord_offset i j k))) s.
Proof. exact stl_read. Qed.
Print Assumptions C51_announced_triangles.
Example C51_announced_case : (84 + 50 * announced ex_file <= length ex_file)%nat /\ announced ex_file = 2%nat.
Proof. exact ex_file_long. Qed.
(** A file written in the format is read back: header, normals, attributes and trailing bytes are ignored. *)
Theorem C51_written_files : forall header fs rest s, length header = 80%nat -> (forall x, In x fs -> facet_ok x) -> (Z.of_nat (length fs) < 2 ^ 32)%Z ->
  read_stl (Some (stl_bytes header fs rest)) s = Ok (map (decode single s) fs).
Proof. exact stl_written. Qed.
Print Assumptions C51_written_files.
Example C51_written_case : length ex_header = 80%nat /\ (forall x, In x ex_facets -> facet_ok x) /\ (Z.of_nat (length ex_facets) < 2 ^ 32)%Z /\ length ex_facets = 2%nat.
Proof. split; [reflexivity|]. split; [exact ex_facets_ok|]. split; [reflexivity|reflexivity]. Qed.
Example C51_read_back : read_stl (Some ex_file) 0.5%float = Ok [
  (mkpt (N := FNum) 0%float 0%float 0%float, mkpt (N := FNum) 0.5%float 0%float 0%float, mkpt (N := FNum) 0%float 1%float 0%float);
  (mkpt (N := FNum) (-0.25)%float 0.5%float 1%float, mkpt (N := FNum) 0.5%float 0.5%float 0%float, mkpt (N := FNum) 0%float 0%float 1%float)].
Proof. exact ex_vertices. Qed.
(** A file that stops in the middle of the announced triangles, or cannot be opened, is refused. *)
Theorem C51_truncated_refused : forall f s, (84 <= length f < 84 + 50 * announced f)%nat -> read_stl (Some f) s = Throw.
Proof. exact stl_truncated. Qed.
Print Assumptions C51_truncated_refused.
Example C51_truncated_case : (84 <= length (firstn 150 ex_file) < 84 + 50 * announced (firstn 150 ex_file))%nat.
Proof. exact ex_truncated. Qed.
Theorem C51_missing_refused : forall s, read_stl None s = Throw.
Proof. exact (fun s => eq_refl). Qed.
Print Assumptions C51_missing_refused.
(** A file that stops before the end of the count is not refused: the count is used although it was never read. *)
Theorem C51_short_file_refuted : ~ (forall f s, (length f < 84 + 50 * announced f)%nat \/ (length f < 84)%nat -> read_stl (Some f) s = Throw).
Proof. intros H. specialize (H [] 1%float). rewrite stl_too_short in H by (cbn; lia). assert (C : UB = Throw (A := list (triangle FNum))) by (apply H; right; cbn; lia). discriminate C. Qed.
Print Assumptions C51_short_file_refuted.
Theorem C51_short_file_uninitialised : forall f s, (length f < 84)%nat -> read_stl (Some f) s = UB.
Proof. exact stl_too_short. Qed.
Print Assumptions C51_short_file_uninitialised.
(** The words are IEEE single precision numbers, represented exactly; the product with the unit is rounded once. *)
Theorem C51_words_exact : forall w, (0 <= w < 2 ^ 32)%Z -> sg_exp w <> 255%Z -> Ffinite (single w) /\ Fval (single w) = sg_value w.
Proof. exact single_finite. Qed.
Print Assumptions C51_words_exact.
Theorem C51_words_special : forall w, (0 <= w < 2 ^ 32)%Z -> sg_exp w = 255%Z ->
  single w = if Z.eqb (sg_frac w) 0 then (if Z.testbit w 31 then neg_infinity else infinity) else (if Z.testbit w 31 then PrimFloat.opp nan else nan).
Proof. exact single_special. Qed.
Print Assumptions C51_words_special.
Theorem C51_coordinates_rounded_once : forall w (s : FNum), (0 <= w < 2 ^ 32)%Z -> sg_exp w <> 255%Z -> Ffinite s -> Rabs (Fval s) <= bpow radix2 800 ->
  Ffinite (PrimFloat.mul (single w) s) /\ Fval (PrimFloat.mul (single w) s) = rnd64 (sg_value w * Fval s).
Proof. exact scaled_value. Qed.
Print Assumptions C51_coordinates_rounded_once.
Theorem C51_words_in_range : forall f off, Forall is_byte f -> (0 <= word_at f off < 2 ^ 32)%Z.
Proof. exact word_range. Qed.
Print Assumptions C51_words_in_range.
Example C51_words_case : (0 <= wm < 2 ^ 32)%Z /\ sg_exp wm <> 255%Z /\ sg_value wm = - (1 / 2) /\ Ffinite 0x1p-10%float.
Proof.
  split; [unfold wm; lia|]. split; [vm_compute; intros C; discriminate C|]. split; [|reflexivity].
  unfold sg_value, sg_sign. replace (Z.testbit wm 31) with true by reflexivity. replace (sg_exp wm) with 126%Z by reflexivity. replace (sg_frac wm) with 0%Z by reflexivity. cbn. lra.
Qed.
(** The box meshed around the part is the smallest one containing all vertices ... *)
Theorem C51_box_tight : forall ts : list (triangle FNum), ts <> [] -> (forall v, In v (vertices ts) -> Ffinite (px v) /\ Ffinite (py v) /\ Ffinite (pz v)) ->
  exists p1 p2, stl_corners (N := FNum) 3 ts = (p1, p2) /\ length p1 = 3%nat /\ length p2 = 3%nat /\
    forall k (c : pt FNum -> FNum) lo hi, nth_error [px; py; pz] k = Some c -> nth_error p1 k = Some lo -> nth_error p2 k = Some hi ->
      (forall v, In v (vertices ts) -> Fval lo <= Fval (c v) <= Fval hi) /\ (exists v, In v (vertices ts) /\ Fval (c v) = Fval lo) /\ (exists v, In v (vertices ts) /\ Fval (c v) = Fval hi).
Proof. exact corners_real. Qed.
Print Assumptions C51_box_tight.
(** ... and for any file whatsoever, not-a-number coordinates being left out; without triangles the box is inside out. *)
Theorem C51_box_any : forall ts, exists x1 y1 z1 x2 y2 z2, stl_corners (N := FNum) 3 ts = ([x1; y1; z1], [x2; y2; z2]) /\
  lowest (map px (vertices ts)) x1 /\ lowest (map py (vertices ts)) y1 /\ lowest (map pz (vertices ts)) z1 /\
  highest (map px (vertices ts)) x2 /\ highest (map py (vertices ts)) y2 /\ highest (map pz (vertices ts)) z2.
Proof. exact corners_3. Qed.
Print Assumptions C51_box_any.
Theorem C51_box_2d : forall ts, exists x1 z1 x2 z2, stl_corners (N := FNum) 2 ts = ([x1; z1], [x2; z2]) /\
  lowest (map px (vertices ts)) x1 /\ lowest (map pz (vertices ts)) z1 /\ highest (map px (vertices ts)) x2 /\ highest (map pz (vertices ts)) z2.
Proof. exact corners_2. Qed.
Print Assumptions C51_box_2d.
Theorem C51_box_empty : stl_corners (N := FNum) 3 [] = ([F_max; F_max; F_max], [(- F_max)%float; (- F_max)%float; (- F_max)%float]).
Proof. exact eq_refl. Qed.
Print Assumptions C51_box_empty.

(** Without an STL file the box is given by its origin and its sizes. *)
Theorem C51_box_from_input : forall (sizes origins : list R) i (s o : R), nth_error sizes i = Some s -> nth_error origins i = Some o ->
  nth_error (fst (box_corners (N := RNum) sizes origins)) i = Some o /\ nth_error (snd (box_corners (N := RNum) sizes origins)) i = Some (o + s).
Proof. exact box_from_input. Qed.
Print Assumptions C51_box_from_input.

(** ** C61.  The answer for a cell that no triangle meets is the side of the plane of the nearest triangle the centre is on, whatever point of the
    triangle the query returned. *)
Theorem C61_side_of_nearest : forall ts p t q, nearest_answer ts p t q -> (is_within_stl (N := RNum) 3 false p (t, q) = true <-> behind t p).
Proof. exact within_side. Qed.
Print Assumptions C61_side_of_nearest.
(** Centres inside a convex part are accepted. *)
Theorem C61_convex_inside : forall ts p t q, inside_convex ts p -> nearest_answer ts p t q -> is_within_stl (N := RNum) 3 false p (t, q) = true.
Proof. exact convex_inside. Qed.
Print Assumptions C61_convex_inside.
(** For a box the answer is exact, inside and outside. *)
Theorem C61_box_exact : forall lo hi ts p t q, proper lo hi -> covers_box lo hi ts -> (forall t', In t' ts -> face_of_box lo hi t') -> nearest_answer ts p t q ->
  (is_within_stl (N := RNum) 3 false p (t, q) = true <-> in_open_box lo hi p).
Proof. exact box_exact_. Qed.
Print Assumptions C61_box_exact.
Example C61_box_case : proper c0 c1 /\ covers_box c0 c1 cube /\ (forall t', In t' cube -> face_of_box c0 c1 t') /\
  nearest_answer cube below_cube (P 0 0 0, P 1 1 0, P 1 0 0) (P (1/2) (1/4) 0) /\ inside_convex cube (P (1/2) (1/4) (1/8)).
Proof. split; [exact cube_proper|]. split; [exact cube_covers|]. split; [exact cube_faces|]. split; [exact below_nearest|exact (proj1 cube_interior)]. Qed.
(** Cells that a triangle meets, and all cells in two dimensions, are refused. *)
Theorem C61_cut_cells_refused : forall dim p (a : tri * pt RNum), is_within_stl (N := RNum) dim true p a = false.
Proof. exact within_hits. Qed.
Print Assumptions C61_cut_cells_refused.
Theorem C61_two_dimensions_refused : forall hits p (a : tri * pt RNum), is_within_stl (N := RNum) 2 hits p a = false.
Proof. exact within_2. Qed.
Print Assumptions C61_two_dimensions_refused.
(** For other parts a centre outside may be accepted: the nearest point is a sharp tip, and the answer depends on which of the triangles that share
    it the query returns. *)
Theorem C61_outside_refused_refuted : ~ (forall ts p t q, (exists o, inside_convex ts o) -> nearest_answer ts p t q -> ~ inside_convex ts p -> is_within_stl (N := RNum) 3 false p (t, q) = false).
Proof.
  intros H. specialize (H needle beyond _ _ (ex_intro _ _ needle_interior) beyond_nearest beyond_outside). exact (Bool.eq_true_false_abs _ beyond_accepted H).
Qed.
Print Assumptions C61_outside_refused_refuted.

(** ** C62.  From the bottom to the top: solid, powder, nothing. *)
Theorem C62_layers : forall h l z : R, 0 <= l ->
  (initially_active (N := RNum) h z = true /\ assign_state (N := RNum) h (Some l) z = solid <-> z < h - l) /\
  (initially_active (N := RNum) h z = true /\ assign_state (N := RNum) h (Some l) z = powder <-> h - l <= z < h) /\
  (initially_active (N := RNum) h z = false <-> h <= z).
Proof. exact layers. Qed.
Print Assumptions C62_layers.
Example C62_layers_case : exists z1 z2 z3 : R, z1 < 2 - 1/2 /\ 2 - 1/2 <= z2 < 2 /\ 2 <= z3.
Proof. exists 1, (7/4), 3. lra. Qed.
Theorem C62_no_powder : forall h z : R, assign_state (N := RNum) h None z = solid.
Proof. exact state_none. Qed.
Print Assumptions C62_no_powder.
(** In binary64: a cell below a solid cell is solid, a cell below an active one is active. *)
Theorem C62_layers_binary64 : forall (h z1 z2 : FNum) (l : option FNum), Ffinite h -> Ffinite z1 -> Ffinite z2 -> (forall x, l = Some x -> Ffinite (PrimFloat.sub h x)) -> Fval z1 <= Fval z2 ->
  (initially_active (N := FNum) h z2 = true -> initially_active (N := FNum) h z1 = true) /\
  (assign_state (N := FNum) h l z2 = solid -> assign_state (N := FNum) h l z1 = solid).
Proof. exact lower_is_older. Qed.
Print Assumptions C62_layers_binary64.
(** Every active cell, and no other, gets an orientation along x and is marked as not melted. *)
Theorem C62_initial_data : forall (h : R) (zs : list R) cs ss ms, initial_cell_data (N := RNum) h zs = (cs, ss, ms) ->
  length cs = length (filter (fun z => if Rlt_dec z h then true else false) zs) /\ length ss = length cs /\ length ms = length cs /\
  (forall c, In c cs -> c = 1) /\ (forall s, In s ss -> s = 0) /\ (forall m, In m ms -> m = false).
Proof. exact data_of_active. Qed.
Print Assumptions C62_initial_data.
