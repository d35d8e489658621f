(** RayProofs3.v -- C52: box cells. *)
From Coq Require Import Reals ZArith Bool List Lia Lra Psatz.
From Verif Require Import Base BaseFacts RayModel GeometrySpec GeometryProofs2 RaySpec RayProofs RayProofs2.
Import ListNotations.
Local Open Scope R_scope.

(** ** One face *)
Section Face.
  Variables (g : R -> R -> pt RNum) (lu hu lw hw : R).
  Hypotheses (Hu : lu < hu) (Hw : lw < hw).
  Let f : face RNum := mkface (g lu lw) (g hu lw) (g lu hw) (g hu hw).
  Hypothesis affine : forall l m n a b c d e h, l + m + n = 1 -> combination (g a b, g c d, g e h) l m n = g (l * a + m * c + n * e) (l * b + m * d + n * h).
  Lemma face_points u w : lu <= u <= hu -> lw <= w <= hw -> on_face f (g u w).
  Proof.
    intros U W. set (s := (u - lu) / (hu - lu)). set (t := (w - lw) / (hw - lw)).
    assert (S0 : u = lu + s * (hu - lu)) by (unfold s; field; lra). assert (T0 : w = lw + t * (hw - lw)) by (unfold t; field; lra).
    assert (S1 : 0 <= s <= 1) by (split; [apply Rnot_lt_le|apply Rnot_lt_le]; intros C; nra). assert (T1 : 0 <= t <= 1) by (split; [apply Rnot_lt_le|apply Rnot_lt_le]; intros C; nra).
    destruct (Rle_lt_dec (s + t) 1) as [L|L].
    - left. exists (1 - s - t), s, t. unfold tri_a, f; cbn [f0 f1 f2 f3]. rewrite affine by lra. repeat split; try lra. f_equal; rewrite ?S0, ?T0; ring.
    - right. exists (1 - t), (1 - s), (s + t - 1). unfold tri_b, f; cbn [f0 f1 f2 f3]. rewrite affine by lra. repeat split; try lra. f_equal; rewrite ?S0, ?T0; ring.
  Qed.
  Lemma face_only q : on_face f q -> exists u w, q = g u w /\ lu <= u <= hu /\ lw <= w <= hw.
  Proof.
    intros [(l & m & n & A & B & C & D & E)|(l & m & n & A & B & C & D & E)]; unfold tri_a, tri_b, f in E; cbn [f0 f1 f2 f3] in E; rewrite affine in E by exact D; eexists; eexists; split; [exact E|split; split; nra|exact E|split; split; nra].
  Qed.
End Face.
Definition gx (c u w : R) := point3 c u w.
Definition gy (c u w : R) := point3 w c u.
Definition gz (c u w : R) := point3 u w c.
Lemma gx_affine c l m n a b d e h k : l + m + n = 1 -> combination (gx c a b, gx c d e, gx c h k) l m n = gx c (l * a + m * d + n * h) (l * b + m * e + n * k).
Proof. intros E. unfold gx, point3. open3. f_equal. transitivity ((l + m + n) * c); [ring|rewrite E; ring]. Qed.
Lemma gy_affine c l m n a b d e h k : l + m + n = 1 -> combination (gy c a b, gy c d e, gy c h k) l m n = gy c (l * a + m * d + n * h) (l * b + m * e + n * k).
Proof. intros E. unfold gy, point3. open3. f_equal. transitivity ((l + m + n) * c); [ring|rewrite E; ring]. Qed.
Lemma gz_affine c l m n a b d e h k : l + m + n = 1 -> combination (gz c a b, gz c d e, gz c h k) l m n = gz c (l * a + m * d + n * h) (l * b + m * e + n * k).
Proof. intros E. unfold gz, point3. open3. f_equal. transitivity ((l + m + n) * c); [ring|rewrite E; ring]. Qed.
(** The faces of a box, axis by axis. *)
Lemma box_cell_faces lo hi : box_cell lo hi =
  [mkface (gx (px lo) (py lo) (pz lo)) (gx (px lo) (py hi) (pz lo)) (gx (px lo) (py lo) (pz hi)) (gx (px lo) (py hi) (pz hi));
   mkface (gx (px hi) (py lo) (pz lo)) (gx (px hi) (py hi) (pz lo)) (gx (px hi) (py lo) (pz hi)) (gx (px hi) (py hi) (pz hi));
   mkface (gy (py lo) (pz lo) (px lo)) (gy (py lo) (pz hi) (px lo)) (gy (py lo) (pz lo) (px hi)) (gy (py lo) (pz hi) (px hi));
   mkface (gy (py hi) (pz lo) (px lo)) (gy (py hi) (pz hi) (px lo)) (gy (py hi) (pz lo) (px hi)) (gy (py hi) (pz hi) (px hi));
   mkface (gz (pz lo) (px lo) (py lo)) (gz (pz lo) (px hi) (py lo)) (gz (pz lo) (px lo) (py hi)) (gz (pz lo) (px hi) (py hi));
   mkface (gz (pz hi) (px lo) (py lo)) (gz (pz hi) (px hi) (py lo)) (gz (pz hi) (px lo) (py hi)) (gz (pz hi) (px hi) (py hi))].
Proof. reflexivity. Qed.
Ltac six H := rewrite box_cell_faces in H; destruct H as [H|[H|[H|[H|[H|[H|[]]]]]]].

Lemma box_flat lo hi f : proper lo hi -> In f (box_cell lo hi) -> flat f.
Proof.
  intros (X & Y & Z) H. assert (PX : 0 < px hi - px lo) by lra. assert (PY : 0 < py hi - py lo) by lra. assert (PZ : 0 < pz hi - pz lo) by lra.
  assert (NZ : forall a b, 0 < a -> 0 < b -> 0 < (a * b) * (a * b)) by (intros a b Ha Hb; apply Rmult_lt_0_compat; apply Rmult_lt_0_compat; assumption).
  assert (A := NZ _ _ PX PY). assert (B := NZ _ _ PY PZ). assert (C := NZ _ _ PZ PX).
  six H; subst f; unfold flat, nonzero3, on_plane, tri_a, tri_b; cbn [f0 f1 f2 f3]; unfold gx, gy, gz, point3; open3; (split; [ring|split; intros E; match type of E with ?e = 0 => nra end]).
Qed.
Lemma box_face_in lo hi f q : proper lo hi -> In f (box_cell lo hi) -> on_face f q -> in_box lo hi q.
Proof.
  intros (X & Y & Z) H O. six H; subst f;
  (apply face_only in O; [|assumption|assumption|first [apply gx_affine|apply gy_affine|apply gz_affine]]); destruct O as (u & w & -> & U & W); unfold in_box, gx, gy, gz, point3; cbn [px py pz]; lra.
Qed.
(** Exactly the rays whose component along the axis is smaller than the tolerance are discarded. *)
Lemma abs_pos a : 0 < a -> Rabs a = a.
Proof. intros. apply Rabs_right. lra. Qed.
Ltac graze := unfold grazing, edge_size, tri_a; cbn [f0 f1 f2 f3]; unfold gx, gy, gz, point3; open3.
Lemma not_grazing_of tol k a b e : 0 < a -> 0 < b -> tol <= Rabs k -> Rabs e = Rabs k * (a * b) -> ~ Rabs e < tol * (a * b).
Proof. intros A B K -> C. assert (0 < a * b) by (apply Rmult_lt_0_compat; assumption). nra. Qed.
Lemma box_axis_x tol (r : ray RNum) (lo hi : pt RNum) (c : R) : proper lo hi -> tol <= Rabs (px (r_direction r)) -> ~ grazing tol r (mkface (gx c (py lo) (pz lo)) (gx c (py hi) (pz lo)) (gx c (py lo) (pz hi)) (gx c (py hi) (pz hi))).
Proof.
  intros (X & Y & Z) K. graze. replace (c - c) with 0 by ring. replace (py lo - py lo) with 0 by ring. replace (pz lo - pz lo) with 0 by ring. rewrite !Rabs_R0, !Rplus_0_l, !Rplus_0_r.
  rewrite (abs_pos (py hi - py lo)), (abs_pos (pz hi - pz lo)) by lra. apply (not_grazing_of tol (px (r_direction r))); try lra.
  transitivity (Rabs (px (r_direction r) * ((py hi - py lo) * (pz hi - pz lo)))); [f_equal; ring|]. rewrite Rabs_mult. f_equal. apply abs_pos. apply Rmult_lt_0_compat; lra.
Qed.
Lemma box_axis_y tol (r : ray RNum) (lo hi : pt RNum) (c : R) : proper lo hi -> tol <= Rabs (py (r_direction r)) -> ~ grazing tol r (mkface (gy c (pz lo) (px lo)) (gy c (pz hi) (px lo)) (gy c (pz lo) (px hi)) (gy c (pz hi) (px hi))).
Proof.
  intros (X & Y & Z) K. graze. replace (c - c) with 0 by ring. replace (px lo - px lo) with 0 by ring. replace (pz lo - pz lo) with 0 by ring. rewrite !Rabs_R0, !Rplus_0_l, !Rplus_0_r.
  rewrite (abs_pos (pz hi - pz lo)), (abs_pos (px hi - px lo)) by lra. apply (not_grazing_of tol (py (r_direction r))); try lra.
  transitivity (Rabs (py (r_direction r) * ((pz hi - pz lo) * (px hi - px lo)))); [f_equal; ring|]. rewrite Rabs_mult. f_equal. apply abs_pos. apply Rmult_lt_0_compat; lra.
Qed.
Lemma box_axis_z tol (r : ray RNum) (lo hi : pt RNum) (c : R) : proper lo hi -> tol <= Rabs (pz (r_direction r)) -> ~ grazing tol r (mkface (gz c (px lo) (py lo)) (gz c (px hi) (py lo)) (gz c (px lo) (py hi)) (gz c (px hi) (py hi))).
Proof.
  intros (X & Y & Z) K. graze. replace (c - c) with 0 by ring. replace (px lo - px lo) with 0 by ring. replace (py lo - py lo) with 0 by ring. rewrite !Rabs_R0, !Rplus_0_l, !Rplus_0_r.
  rewrite (abs_pos (px hi - px lo)), (abs_pos (py hi - py lo)) by lra. apply (not_grazing_of tol (pz (r_direction r))); try lra.
  transitivity (Rabs (pz (r_direction r) * ((px hi - px lo) * (py hi - py lo)))); [f_equal; ring|]. rewrite Rabs_mult. f_equal. apply abs_pos. apply Rmult_lt_0_compat; lra.
Qed.

(** ** Entering a slab *)
(** One coordinate: [o + d v] is in [l, h] at [d]; the entry time. *)
Lemma slab o v l h d : 0 <= d -> l <= o + d * v <= h -> exists e, 0 <= e <= d /\
  (forall d', 0 <= d' -> l <= o + d' * v <= h -> e <= d') /\ (forall d', e <= d' <= d -> l <= o + d' * v <= h) /\
  ((l <= o <= h /\ e = 0) \/ (v <> 0 /\ 0 < e /\ (o + e * v = l \/ o + e * v = h))).
Proof.
  intros D I. destruct (Rlt_le_dec o l) as [A|A].
  - assert (V : 0 < v) by (apply Rnot_le_lt; intros C; nra). exists ((l - o) / v). assert (E : (l - o) / v * v = l - o) by (field; lra). assert (P : 0 < (l - o) / v) by (apply Rdiv_lt_0_compat; lra).
    assert (forall d', l <= o + d' * v -> (l - o) / v <= d') as M by (intros d' L; apply (Rmult_le_reg_r v); [exact V|rewrite E; lra]).
    split; [split; [lra|apply M; lra]|]. split; [intros d' _ L; apply M; lra|]. split; [intros d' L; assert ((l - o) / v * v <= d' * v) by (apply Rmult_le_compat_r; lra); assert (d' * v <= d * v) by (apply Rmult_le_compat_r; lra); lra|]. right. split; [lra|]. split; [exact P|]. left. lra.
  - destruct (Rlt_le_dec h o) as [B|B].
    + assert (V : v < 0) by (apply Rnot_le_lt; intros C; nra). exists ((h - o) / v). assert (E : (h - o) / v * v = h - o) by (field; lra).
      assert (P : 0 < (h - o) / v). { replace ((h - o) / v) with ((o - h) / - v) by (field; lra). apply Rdiv_lt_0_compat; lra. }
      assert (forall d', o + d' * v <= h -> (h - o) / v <= d') as M by (intros d' L; apply (Rmult_le_reg_r (- v)); [lra|lra]).
      split; [split; [lra|apply M; lra]|]. split; [intros d' _ L; apply M; lra|]. split; [intros d' L; assert ((h - o) / v * - v <= d' * - v) by (apply Rmult_le_compat_r; lra); assert (d' * - v <= d * - v) by (apply Rmult_le_compat_r; lra); lra|]. right. split; [lra|]. split; [exact P|]. right. lra.
    + exists 0. split; [lra|]. split; [intros; lra|]. split; [intros d' L; destruct (Rle_lt_dec 0 v) as [V|V]; [assert (0 <= d' * v) by (apply Rmult_le_pos; lra); assert (d' * v <= d * v) by (apply Rmult_le_compat_r; lra); lra|assert (0 <= d' * - v) by (apply Rmult_le_pos; lra); assert (d' * - v <= d * - v) by (apply Rmult_le_compat_r; lra); lra]|]. left. lra.
Qed.
(** A ray from outside that reaches a box enters it through a face that is not discarded. *)
Lemma box_entry tol r lo hi d : 0 < tol -> proper lo hi -> clear_direction tol (r_direction r) -> ~ in_box lo hi (r_origin r) -> enters r (lo, hi) d ->
  exists f e, In f (box_cell lo hi) /\ ~ grazing tol r f /\ meets r f e /\ e <= d /\ (forall d', enters r (lo, hi) d' -> e <= d').
Proof.
  intros T PR CD OUT (D & IX & IY & IZ). cbn [fst snd] in *. unfold along in IX, IY, IZ. cbn [px py pz] in *.
  destruct (slab _ _ _ _ _ D IX) as (ex & EX & MX & CX & KX). destruct (slab _ _ _ _ _ D IY) as (ey & EY & MY & CY & KY). destruct (slab _ _ _ _ _ D IZ) as (ez & EZ & MZ & CZ & KZ).
  set (e := Rmax ex (Rmax ey ez)).
  assert (B : ex <= e /\ ey <= e /\ ez <= e /\ e <= d).
  { unfold e. pose proof (Rmax_l ex (Rmax ey ez)). pose proof (Rmax_r ex (Rmax ey ez)). pose proof (Rmax_l ey ez). pose proof (Rmax_r ey ez). repeat split; try lra. apply Rmax_lub; [lra|apply Rmax_lub; lra]. }
  assert (MIN : forall d', enters r (lo, hi) d' -> e <= d').
  { intros d' (D' & JX & JY & JZ). unfold e. apply Rmax_lub; [apply MX; assumption|apply Rmax_lub; [apply MY|apply MZ]; assumption]. }
  assert (AX := CX e ltac:(lra)). assert (AY := CY e ltac:(lra)). assert (AZ := CZ e ltac:(lra)).
  assert (DIR : forall v, In v [px (r_direction r); py (r_direction r); pz (r_direction r)] -> v <> 0 -> tol <= Rabs v) by (intros v I N; destruct (CD v I); [contradiction|assumption]).
  assert (W : (e = ex /\ 0 < ex) \/ (e = ey /\ 0 < ey) \/ (e = ez /\ 0 < ez)).
  { assert (0 < e). { destruct KX as [[KX KX']|(_ & KX & _)]; [|lra]. destruct KY as [[KY KY']|(_ & KY & _)]; [|lra]. destruct KZ as [[KZ KZ']|(_ & KZ & _)]; [|lra]. exfalso. apply OUT. unfold in_box. auto. }
    unfold e in *. unfold Rmax in *. destruct (Rle_dec ey ez), (Rle_dec ex _); auto; destruct (Rle_dec ex ey); auto; destruct (Rle_dec ex ez); auto; lra. }
  rewrite box_cell_faces. destruct PR as (X & Y & Z).
  destruct W as [[We W]|[[We W]|[We W]]].
  - destruct KX as [[_ C]|(V & _ & F)]; [lra|]. rewrite <- We in F.
    assert (Q : exists c, (c = px lo \/ c = px hi) /\ along r e = gx c (py (r_origin r) + e * py (r_direction r)) (pz (r_origin r) + e * pz (r_direction r))).
    { destruct F as [F|F]; [exists (px lo)|exists (px hi)]; (split; [tauto|]); unfold along, gx, point3; rewrite F; reflexivity. }
    destruct Q as (c & Cc & Q). exists (mkface (gx c (py lo) (pz lo)) (gx c (py hi) (pz lo)) (gx c (py lo) (pz hi)) (gx c (py hi) (pz hi))), e.
    split; [destruct Cc as [-> | ->]; cbn; tauto|]. split; [apply box_axis_x; [unfold proper; auto|apply DIR; [cbn; tauto|exact V]]|]. split; [|split; [lra|exact MIN]]. split; [lra|]. rewrite Q.
    apply face_points; try assumption. apply gx_affine.
  - destruct KY as [[_ C]|(V & _ & F)]; [lra|]. rewrite <- We in F.
    assert (Q : exists c, (c = py lo \/ c = py hi) /\ along r e = gy c (pz (r_origin r) + e * pz (r_direction r)) (px (r_origin r) + e * px (r_direction r))).
    { destruct F as [F|F]; [exists (py lo)|exists (py hi)]; (split; [tauto|]); unfold along, gy, point3; rewrite F; reflexivity. }
    destruct Q as (c & Cc & Q). exists (mkface (gy c (pz lo) (px lo)) (gy c (pz hi) (px lo)) (gy c (pz lo) (px hi)) (gy c (pz hi) (px hi))), e.
    split; [destruct Cc as [-> | ->]; cbn; tauto|]. split; [apply box_axis_y; [unfold proper; auto|apply DIR; [cbn; tauto|exact V]]|]. split; [|split; [lra|exact MIN]]. split; [lra|]. rewrite Q.
    apply face_points; try assumption. apply gy_affine.
  - destruct KZ as [[_ C]|(V & _ & F)]; [lra|]. rewrite <- We in F.
    assert (Q : exists c, (c = pz lo \/ c = pz hi) /\ along r e = gz c (px (r_origin r) + e * px (r_direction r)) (py (r_origin r) + e * py (r_direction r))).
    { destruct F as [F|F]; [exists (pz lo)|exists (pz hi)]; (split; [tauto|]); unfold along, gz, point3; rewrite F; reflexivity. }
    destruct Q as (c & Cc & Q). exists (mkface (gz c (px lo) (py lo)) (gz c (px hi) (py lo)) (gz c (px lo) (py hi)) (gz c (px hi) (py hi))), e.
    split; [destruct Cc as [-> | ->]; cbn; tauto|]. split; [apply box_axis_z; [unfold proper; auto|apply DIR; [cbn; tauto|exact V]]|]. split; [|split; [lra|exact MIN]]. split; [lra|]. rewrite Q.
    apply face_points; try assumption. apply gz_affine.
Qed.

(** ** Meshes of boxes *)
Lemma boxes_traced (tol : R) (rank : nat) (boxes : list (pt RNum * pt RNum)) (r : ray RNum) (found : list (nat * nat)) :
  0 < tol -> (forall b, In b boxes -> proper (fst b) (snd b)) -> clear_direction tol (r_direction r) -> (forall b, In b boxes -> ~ in_box (fst b) (snd b) (r_origin r)) ->
  (forall ir, In ir found -> snd ir = rank /\ (fst ir < length boxes)%nat) ->
  (forall i b d, nth_error boxes i = Some b -> enters r b d -> In (i, rank) found) ->
  exists hit, trace (N := RNum) tol rank (map (fun b => box_cell (fst b) (snd b)) boxes) r found = Ok hit /\
  match hit with
  | Some q => exists b d, In b boxes /\ enters r b d /\ q = along r d /\ forall b' d', In b' boxes -> enters r b' d' -> d <= d'
  | None => forall b d, In b boxes -> enters r b d -> nmax RNum <= d
  end.
Proof.
  intros T PR CD OUT FV FA. set (cells := map (fun b => box_cell (fst b) (snd b)) boxes).
  assert (FL : forall c f, In c cells -> In f c -> flat f). { intros c f Hc Hf. apply in_map_iff in Hc as (b & <- & Hb). eapply box_flat; [apply PR; exact Hb|exact Hf]. }
  assert (VF : valid_found rank cells found). { intros i Hi. unfold cells. rewrite map_length. apply (FV (i, rank) Hi). }
  destruct (trace_spec tol rank cells r found T FL VF) as (hit & E & H). exists hit. split; [exact E|].
  assert (K : forall b d, In b boxes -> enters r b d -> exists f e, tested rank cells found f /\ ~ grazing tol r f /\ meets r f e /\ e <= d).
  { intros b d Hb He. destruct b as [lo hi]. destruct (box_entry tol r lo hi d T (PR _ Hb) CD (OUT _ Hb) He) as (f & e & F1 & F2 & F3 & F4 & _).
    exists f, e. split; [|auto]. apply In_nth_error in Hb as [i Hi]. assert (IN := FA i _ d Hi He). destruct found as [|first rest]; [destruct IN|].
    exists first, rest, i, (box_cell lo hi). split; [reflexivity|]. split; [apply (FV first (or_introl eq_refl))|]. split; [exact IN|]. split; [|exact F1]. unfold cells. exact (map_nth_error (fun b => box_cell (fst b) (snd b)) i boxes Hi). }
  destruct hit as [q|].
  - destruct H as (f & d & (first & rest & i & c & _ & _ & _ & Ec & Fc) & _ & M & Q & _ & MIN).
    unfold cells in Ec. rewrite nth_error_map in Ec. destruct (nth_error boxes i) as [b|] eqn:Eb; [|discriminate Ec]. cbn [option_map] in Ec. injection Ec as <-.
    assert (Hb := nth_error_In _ _ Eb). exists b, d. split; [exact Hb|]. split; [split; [apply M|]; eapply box_face_in; [apply PR; exact Hb|exact Fc|apply M]|]. split; [exact Q|].
    intros b' d' Hb' He'. destruct (K b' d' Hb' He') as (f' & e & F1 & F2 & F3 & F4). specialize (MIN f' e F1 F2 F3). lra.
  - intros b d Hb He. destruct (K b d Hb He) as (f' & e & F1 & F2 & F3 & F4). specialize (H f' e F1 F2 F3). lra.
Qed.
