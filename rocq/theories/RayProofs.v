(** RayProofs.v -- proofs for C52. *)
From Coq Require Import Reals ZArith Bool List Lia Lra Psatz String.
From Verif Require Import Base BaseFacts RayModel GeometrySpec RaySpec GeometryProofs2.
Import ListNotations.
Local Open Scope R_scope.

(** ** Points and triangles *)
Lemma decompose ax ay az bx by_ bz cx cy cz :
  let nx := ay * bz - az * by_ in let ny := az * bx - ax * bz in let nz := ax * by_ - ay * bx in
  let aa := ax * ax + ay * ay + az * az in let ab := ax * bx + ay * by_ + az * bz in let bb := bx * bx + by_ * by_ + bz * bz in
  let ca := cx * ax + cy * ay + cz * az in let cb := cx * bx + cy * by_ + cz * bz in let cn := cx * nx + cy * ny + cz * nz in
  aa * bb - ab * ab = nx * nx + ny * ny + nz * nz /\
  (aa * bb - ab * ab) * cx = (bb * ca - ab * cb) * ax + (aa * cb - ab * ca) * bx + cn * nx /\
  (aa * bb - ab * ab) * cy = (bb * ca - ab * cb) * ay + (aa * cb - ab * ca) * by_ + cn * ny /\
  (aa * bb - ab * ab) * cz = (bb * ca - ab * cb) * az + (aa * cb - ab * ca) * bz + cn * nz.
Proof. cbv zeta. repeat split; ring. Qed.

Lemma in_triangle_iff (t : tri) (p : pt RNum) : nonzero3 (normal t) -> on_plane t p ->
  (point_in_triangle (N := RNum) (v_a t) (v_b t) (v_c t) p = true <-> on_triangle t p).
Proof.
  destruct t as [[a b] c]. destruct a as [ax ay az], b as [bx by_ bz], c as [cx cy cz], p as [x y z]. unfold nonzero3, point_in_triangle, on_triangle, psub, pdot. open3. cbn [nadd nsub nmul ndiv nleb nofZ RNum num].
  intros NZ PL. 
  destruct (decompose (bx - ax) (by_ - ay) (bz - az) (cx - ax) (cy - ay) (cz - az) (x - ax) (y - ay) (z - az)) as (D & DX & DY & DZ). cbv zeta in D, DX, DY, DZ.
  set (aa := (bx - ax) * (bx - ax) + (by_ - ay) * (by_ - ay) + (bz - az) * (bz - az)) in *.
  set (ab := (bx - ax) * (cx - ax) + (by_ - ay) * (cy - ay) + (bz - az) * (cz - az)) in *.
  set (bb := (cx - ax) * (cx - ax) + (cy - ay) * (cy - ay) + (cz - az) * (cz - az)) in *.
  set (ca := (x - ax) * (bx - ax) + (y - ay) * (by_ - ay) + (z - az) * (bz - az)) in *.
  set (cb := (x - ax) * (cx - ax) + (y - ay) * (cy - ay) + (z - az) * (cz - az)) in *.
  rewrite PL in DX, DY, DZ. rewrite <- D in NZ. set (den := aa * bb - ab * ab) in *.
  set (v := (bb * ca - ab * cb) / den). set (w := (aa * cb - ab * ca) / den).
  assert (EX : x - ax = v * (bx - ax) + w * (cx - ax)) by (unfold v, w; apply (Rmult_eq_reg_l den); [|exact NZ]; rewrite DX; field; exact NZ).
  assert (EY : y - ay = v * (by_ - ay) + w * (cy - ay)) by (unfold v, w; apply (Rmult_eq_reg_l den); [|exact NZ]; rewrite DY; field; exact NZ).
  assert (EZ : z - az = v * (bz - az) + w * (cz - az)) by (unfold v, w; apply (Rmult_eq_reg_l den); [|exact NZ]; rewrite DZ; field; exact NZ).
  rewrite !andb_true_iff, !Rleb_true. split.
  - intros [[U V] W]. exists (1 - v - w), v, w. split; [exact U|]. split; [exact V|]. split; [exact W|]. split; [ring|].
    f_equal; [apply (Rplus_eq_reg_r (- ax)); transitivity (x - ax); [ring|rewrite EX; ring]|apply (Rplus_eq_reg_r (- ay)); transitivity (y - ay); [ring|rewrite EY; ring]|apply (Rplus_eq_reg_r (- az)); transitivity (z - az); [ring|rewrite EZ; ring]].
  - intros (l & m & n & Hl & Hm & Hn & S & E). injection E as E1 E2 E3.
    assert (L : l = 1 - m - n) by lra.
    assert (X1 : x - ax = m * (bx - ax) + n * (cx - ax)) by (rewrite E1, L; ring). assert (X2 : y - ay = m * (by_ - ay) + n * (cy - ay)) by (rewrite E2, L; ring). assert (X3 : z - az = m * (bz - az) + n * (cz - az)) by (rewrite E3, L; ring).
    assert (CA : ca = m * aa + n * ab) by (unfold ca, aa, ab; rewrite X1, X2, X3; ring). assert (CB : cb = m * ab + n * bb) by (unfold cb, ab, bb; rewrite X1, X2, X3; ring).
    assert (V : v = m) by (unfold v; rewrite CA, CB; unfold den in *; field; exact NZ). assert (W : w = n) by (unfold w; rewrite CA, CB; unfold den in *; field; exact NZ).
    rewrite V, W. split; [split|]; lra.
Qed.

(** Points of the plane of a flat face are on the plane of its second triangle. *)
Lemma coplanar ax ay az bx by_ bz cx cy cz nx ny nz : nx * nx + ny * ny + nz * nz <> 0 ->
  ax * nx + ay * ny + az * nz = 0 -> bx * nx + by_ * ny + bz * nz = 0 -> cx * nx + cy * ny + cz * nz = 0 ->
  cx * (ay * bz - az * by_) + cy * (az * bx - ax * bz) + cz * (ax * by_ - ay * bx) = 0.
Proof.
  intros NZ A B C. set (D := cx * (ay * bz - az * by_) + cy * (az * bx - ax * bz) + cz * (ax * by_ - ay * bx)).
  assert (X : D * nx = 0). { transitivity ((cx * nx + cy * ny + cz * nz) * (ay * bz - az * by_) + (ax * nx + ay * ny + az * nz) * (by_ * cz - bz * cy) + (bx * nx + by_ * ny + bz * nz) * (cy * az - cz * ay)); [unfold D; ring|rewrite A, B, C; ring]. }
  assert (Y : D * ny = 0). { transitivity ((cx * nx + cy * ny + cz * nz) * (az * bx - ax * bz) + (ax * nx + ay * ny + az * nz) * (bz * cx - bx * cz) + (bx * nx + by_ * ny + bz * nz) * (cz * ax - cx * az)); [unfold D; ring|rewrite A, B, C; ring]. }
  assert (Z : D * nz = 0). { transitivity ((cx * nx + cy * ny + cz * nz) * (ax * by_ - ay * bx) + (ax * nx + ay * ny + az * nz) * (bx * cy - by_ * cx) + (bx * nx + by_ * ny + bz * nz) * (cx * ay - cy * ax)); [unfold D; ring|rewrite A, B, C; ring]. }
  destruct (Req_dec D 0) as [|ND]; [assumption|]. exfalso. apply NZ.
  assert (nx = 0) as -> by (apply Rmult_integral in X as [X|X]; [contradiction|exact X]). assert (ny = 0) as -> by (apply Rmult_integral in Y as [Y|Y]; [contradiction|exact Y]). assert (nz = 0) as -> by (apply Rmult_integral in Z as [Z|Z]; [contradiction|exact Z]). ring.
Qed.
Lemma second_plane f q : flat f -> on_plane (tri_a f) q -> on_plane (tri_b f) q.
Proof.
  intros (P3 & NA & _) PQ. destruct f as [[ax ay az] [bx by_ bz] [cx cy cz] [dx dy dz]], q as [x y z]. unfold nonzero3, tri_a, tri_b in *. cbn [f0 f1 f2 f3] in *. open3.
  set (nx := (by_ - ay) * (cz - az) - (bz - az) * (cy - ay)) in *. set (ny := (bz - az) * (cx - ax) - (bx - ax) * (cz - az)) in *. set (nz := (bx - ax) * (cy - ay) - (by_ - ay) * (cx - ax)) in *.
  apply (coplanar _ _ _ _ _ _ _ _ _ nx ny nz NA); unfold nx, ny, nz in *; nra.
Qed.
Lemma face_plane f q : flat f -> on_face f q -> on_plane (tri_a f) q.
Proof.
  intros F [T|T]; [apply triangle_plane; exact T|]. destruct F as (P3 & _ & _). destruct T as (l & m & n & Hl & Hm & Hn & S & ->).
  destruct f as [[ax ay az] [bx by_ bz] [cx cy cz] [dx dy dz]]. unfold tri_a, tri_b in *. cbn [f0 f1 f2 f3] in *. open3.
  replace l with (1 - m - n) by lra. set (nx := (by_ - ay) * (cz - az) - (bz - az) * (cy - ay)) in *. set (ny := (bz - az) * (cx - ax) - (bx - ax) * (cz - az)) in *. set (nz := (bx - ax) * (cy - ay) - (by_ - ay) * (cx - ax)) in *.
  transitivity ((1 - m - n) * ((bx - ax) * nx + (by_ - ay) * ny + (bz - az) * nz) + m * ((cx - ax) * nx + (cy - ay) * ny + (cz - az) * nz) + n * ((dx - ax) * nx + (dy - ay) * ny + (dz - az) * nz)); [ring|].
  rewrite P3. unfold nx, ny, nz. ring.
Qed.
Lemma faces_decided f q : flat f -> on_plane (tri_a f) q ->
  (point_in_triangle (N := RNum) (f0 f) (f1 f) (f2 f) q = true \/ point_in_triangle (N := RNum) (f1 f) (f2 f) (f3 f) q = true <-> on_face f q).
Proof.
  intros F P. assert (A := in_triangle_iff (tri_a f) q (proj1 (proj2 F)) P). assert (B := in_triangle_iff (tri_b f) q (proj2 (proj2 F)) (second_plane f q F P)).
  unfold tri_a, tri_b, v_a, v_b, v_c in A, B. cbn [fst snd] in A, B. unfold on_face, tri_a, tri_b. tauto.
Qed.

(** ** The distance to the plane *)
Lemma nabs_R (x : R) : nabs (N := RNum) x = Rabs x.
Proof. unfold nabs. cbn. destruct (Rltb_spec x 0) as [L|L]; [rewrite Rabs_left; lra|rewrite Rabs_pos_eq; lra]. Qed.
Lemma area_R f : face_area (N := RNum) (psub (f1 f) (f0 f)) (psub (f2 f) (f0 f)) = edge_size f.
Proof.
  unfold face_area, edge_size, psub, minus3. cbn [list_prod map app fold_left fst snd px py pz]. cbn [nadd nofZ RNum]. rewrite !nabs_R. cbn [nmul nsub RNum num]. rewrite !Rabs_mult. ring.
Qed.
Definition denom (r : ray RNum) (f : face RNum) : R := dot3 (r_direction r) (normal (tri_a f)).
Lemma det_R (r : ray RNum) (f : face RNum) : det3 (N := RNum) (mkpt (N := RNum) (nopp RNum (px (r_direction r))) (nopp RNum (py (r_direction r))) (nopp RNum (pz (r_direction r)))) (psub (f1 f) (f0 f)) (psub (f2 f) (f0 f)) = - denom r f.
Proof.
  unfold denom, det3, pcross, pdot, psub, tri_a. destruct r as [o [dx dy dz]]. destruct f as [[ax ay az] [bx by_ bz] [cx cy cz] w]. cbn [r_direction f0 f1 f2]. open3. cbn [nadd nsub nmul nopp RNum num px py pz]. ring.
Qed.
Definition offset (r : ray RNum) (f : face RNum) : R := dot3 (minus3 (r_origin r) (f0 f)) (normal (tri_a f)).
Lemma hit_R (tol : R) (r : ray RNum) (f : face RNum) : plane_hit (N := RNum) tol r f =
  if Rlt_dec (Rabs (denom r f)) (tol * edge_size f) then None else if Rlt_dec (offset r f / - denom r f) 0 then None else Some (offset r f / - denom r f).
Proof.
  unfold plane_hit. cbv zeta.
  rewrite det_R, area_R, nabs_R, Rabs_Ropp.
  assert (pdot (N := RNum) (pcross (psub (f1 f) (f0 f)) (psub (f2 f) (f0 f))) (psub (r_origin r) (f0 f)) = offset r f) as ->.
  { unfold offset, pdot, pcross, psub, tri_a. destruct r as [[ox oy oz] d]. destruct f as [[ax ay az] [bx by_ bz] [cx cy cz] w]. cbn [r_origin f0 f1 f2]. open3. cbn [nadd nsub nmul RNum num px py pz]. ring. }
  cbn [nltb nofZ ndiv nmul RNum]. unfold Rltb. destruct (Rlt_dec (Rabs (denom r f)) (tol * edge_size f)); [reflexivity|]. destruct (Rlt_dec (offset r f / - denom r f) 0); reflexivity.
Qed.
Lemma plane_eq r f d : on_plane (tri_a f) (along r d) <-> offset r f + d * denom r f = 0.
Proof.
  unfold on_plane, along, offset, denom. change (v_a (tri_a f)) with (f0 f). generalize (normal (tri_a f)) (f0 f). intros [nx ny nz] [ax ay az]. destruct r as [[ox oy oz] [dx dy dz]]. unfold dot3, minus3. cbn [r_origin r_direction px py pz].
  split; intros H; rewrite <- H; ring.
Qed.
Lemma edge_size_nonneg f : 0 <= edge_size f.
Proof.
  unfold edge_size. cbv zeta. apply Rmult_le_pos.
  - assert (X1 := Rabs_pos (px (minus3 (f1 f) (f0 f)))). assert (X2 := Rabs_pos (py (minus3 (f1 f) (f0 f)))). assert (X3 := Rabs_pos (pz (minus3 (f1 f) (f0 f)))). lra.
  - assert (X1 := Rabs_pos (px (minus3 (f2 f) (f0 f)))). assert (X2 := Rabs_pos (py (minus3 (f2 f) (f0 f)))). assert (X3 := Rabs_pos (pz (minus3 (f2 f) (f0 f)))). lra.
Qed.
Lemma edge_size_pos f : nonzero3 (normal (tri_a f)) -> 0 < edge_size f.
Proof.
  intros NZ. destruct (Rle_lt_or_eq_dec _ _ (edge_size_nonneg f)) as [L|E]; [exact L|]. exfalso. apply NZ. symmetry in E. unfold edge_size in E. cbv zeta in E.
  assert (forall x y z : R, Rabs x + Rabs y + Rabs z = 0 -> x = 0 /\ y = 0 /\ z = 0) as A.
  { intros x y z H. assert (X1 := Rabs_pos x). assert (X2 := Rabs_pos y). assert (X3 := Rabs_pos z).
    assert (Rabs x = 0) as Ex by lra. assert (Rabs y = 0) as Ey by lra. assert (Rabs z = 0) as Ez by lra. split; [|split]; match goal with |- ?v = 0 => destruct (Req_dec v 0) as [|NQ]; [assumption|apply Rabs_no_R0 in NQ; lra] end. }
  unfold normal. change (v_a (tri_a f)) with (f0 f). change (v_b (tri_a f)) with (f1 f). change (v_c (tri_a f)) with (f2 f).
  revert E. generalize (minus3 (f1 f) (f0 f)) (minus3 (f2 f) (f0 f)). intros [ex ey ez] [gx gy gz]. cbn [px py pz]. intros E. apply Rmult_integral in E as [E|E]; apply A in E as (-> & -> & ->); unfold cross3, dot3; cbn [px py pz]; ring.
Qed.

(** Planes that are not skipped: the distance is the one at which the ray meets the plane. *)
Lemma plane_hit_spec tol r f : 0 < tol -> nonzero3 (normal (tri_a f)) ->
  match plane_hit (N := RNum) tol r f with
  | Some d => ~ grazing tol r f /\ 0 <= d /\ on_plane (tri_a f) (along r d)
  | None => grazing tol r f \/ forall d, 0 <= d -> ~ on_plane (tri_a f) (along r d)
  end.
Proof.
  intros T NZ. rewrite hit_R. unfold grazing. change (dot3 (r_direction r) (normal (tri_a f))) with (denom r f). assert (EP := edge_size_pos f NZ).
  destruct (Rlt_dec (Rabs (denom r f)) (tol * edge_size f)) as [L|L]; [left; exact L|].
  assert (denom r f <> 0) as D0 by (intros E; rewrite E, Rabs_R0 in L; apply L; apply Rmult_lt_0_compat; assumption).
  destruct (Rlt_dec (offset r f / - denom r f) 0) as [N|N].
  - right. intros d Hd P. apply plane_eq in P. assert (offset r f / - denom r f = d) as E by (replace (offset r f) with (- (d * denom r f)) by lra; field; exact D0). lra.
  - split; [exact L|]. split; [lra|]. apply plane_eq. field. exact D0.
Qed.
Lemma plane_unique r f d d' : denom r f <> 0 -> on_plane (tri_a f) (along r d) -> on_plane (tri_a f) (along r d') -> d = d'.
Proof. intros D A B. apply plane_eq in A. apply plane_eq in B. apply (Rmult_eq_reg_r (denom r f)); [lra|exact D]. Qed.

(** ** One face *)
Definition candidate tol r f d : Prop := ~ grazing tol r f /\ meets r f d.
Lemma candidate_unique tol r f d d' : 0 < tol -> flat f -> candidate tol r f d -> candidate tol r f d' -> d = d'.
Proof.
  intros T F [G [_ A]] [_ [_ B]]. apply (plane_unique r f); [|apply face_plane; assumption|apply face_plane; assumption].
  intros E. apply G. unfold grazing. change (dot3 (r_direction r) (normal (tri_a f))) with (denom r f). rewrite E, Rabs_R0. apply Rmult_lt_0_compat; [exact T|apply edge_size_pos; apply F].
Qed.
Lemma along_model (r : ray RNum) (d : R) : padd (N := RNum) (r_origin r) (pscale (N := RNum) d (r_direction r)) = along r d.
Proof. unfold padd, pscale, along. cbn. f_equal; f_equal; apply Rmult_comm. Qed.
Lemma visit_face_spec tol r st f : 0 < tol -> flat f ->
  (visit_face (N := RNum) tol r st f = st /\ (forall d, candidate tol r f d -> fst st <= d)) \/
  (exists d, visit_face (N := RNum) tol r st f = (d, along r d) /\ candidate tol r f d /\ d < fst st).
Proof.
  intros T F. assert (H := plane_hit_spec tol r f T (proj1 (proj2 F))). unfold visit_face. destruct (plane_hit (N := RNum) tol r f) as [d|].
  - destruct H as (G & D0 & P). cbn [nltb RNum]. rewrite along_model. assert (DEC := faces_decided f (along r d) F P). destruct (Rltb_spec d (fst st)) as [L|L].
    + destruct (point_in_triangle (N := RNum) (f0 f) (f1 f) (f2 f) (along r d)) eqn:E1.
      * right. exists d. split; [reflexivity|]. split; [|exact L]. split; [exact G|]. split; [exact D0|]. apply DEC. left. reflexivity.
      * destruct (point_in_triangle (N := RNum) (f1 f) (f2 f) (f3 f) (along r d)) eqn:E2.
        -- right. exists d. split; [reflexivity|]. split; [|exact L]. split; [exact G|]. split; [exact D0|]. apply DEC. right. reflexivity.
        -- left. split; [reflexivity|]. intros d' [_ [D0' A]]. exfalso. assert (d' = d) as ->.
           { apply (plane_unique r f); [|apply face_plane; assumption|exact P]. intros E. apply G. unfold grazing. change (dot3 (r_direction r) (normal (tri_a f))) with (denom r f). rewrite E, Rabs_R0. apply Rmult_lt_0_compat; [exact T|apply edge_size_pos; apply F]. }
           apply DEC in A. destruct A as [A|A]; discriminate A.
    + left. split; [reflexivity|]. intros d' [_ [D0' A]]. assert (d' = d) as ->; [|lra].
      apply (plane_unique r f); [|apply face_plane; assumption|exact P]. intros E. apply G. unfold grazing. change (dot3 (r_direction r) (normal (tri_a f))) with (denom r f). rewrite E, Rabs_R0. apply Rmult_lt_0_compat; [exact T|apply edge_size_pos; apply F].
  - left. split; [reflexivity|]. intros d' [G [D0 A]]. exfalso. destruct H as [H|H]; [contradiction|]. apply (H d' D0). apply face_plane; assumption.
Qed.

(** ** Many faces *)
Lemma visit_faces_spec tol r fs : 0 < tol -> (forall f, In f fs -> flat f) -> forall st,
  let st' := fold_left (visit_face (N := RNum) tol r) fs st in
  (forall f d, In f fs -> candidate tol r f d -> fst st' <= d) /\ fst st' <= fst st /\
  (st' = st \/ exists f d, In f fs /\ candidate tol r f d /\ st' = (d, along r d) /\ d < fst st).
Proof.
  intros T. induction fs as [|f fs IH]; intros F st; cbv zeta.
  - cbn [fold_left]. split; [intros f d []|]. split; [lra|]. left. reflexivity.
  - cbn [fold_left]. destruct (IH (fun g Hg => F g (or_intror Hg)) (visit_face (N := RNum) tol r st f)) as (A & B & C). set (st' := fold_left (visit_face (N := RNum) tol r) fs (visit_face (N := RNum) tol r st f)) in *.
    destruct (visit_face_spec tol r st f T (F f (or_introl eq_refl))) as [[E N]|(d & E & K & L)].
    + rewrite E in *. split; [|split; [exact B|]].
      * intros g d [<-|Hg] K; [|apply (A g); assumption]. specialize (N d K). lra.
      * destruct C as [C|(g & d & Hg & K & C & L)]; [left; exact C|]. right. exists g, d. split; [right; exact Hg|]. auto.
    + rewrite E in *. cbn [fst] in *. split; [|split; [lra|]].
      * intros g d' [<-|Hg] K'; [|apply (A g); assumption]. assert (d' = d) as -> by (apply (candidate_unique tol r f); auto; apply F; left; reflexivity). exact B.
      * right. destruct C as [C|(g & d' & Hg & K' & C & L')]; [exists f, d; split; [left; reflexivity|]; auto|]. exists g, d'. split; [right; exact Hg|]. split; [exact K'|]. split; [exact C|]. lra.
Qed.
Lemma visit_cells_concat tol r cs : forall st, fold_left (visit_cell (N := RNum) tol r) cs st = fold_left (visit_face (N := RNum) tol r) (List.concat cs) st.
Proof. induction cs as [|c cs IH]; intros st; [reflexivity|]. cbn [fold_left List.concat]. rewrite fold_left_app. apply IH. Qed.
Lemma cells_at_ok {N : Num} (cells : list (cell N)) is : (forall i, In i is -> (i < List.length cells)%nat) -> exists cs, cells_at cells is = Ok cs /\
  forall c, In c cs <-> exists i, In i is /\ nth_error cells i = Some c.
Proof.
  induction is as [|i is IH]; intros H.
  - exists []. split; [reflexivity|]. intros c. split; [intros []|intros [i [[] _]]].
  - destruct IH as (cs & E & S); [intros j Hj; apply H; right; exact Hj|]. destruct (nth_error cells i) as [c|] eqn:Ec; [|apply nth_error_None in Ec; specialize (H i (or_introl eq_refl)); lia].
    exists (c :: cs). cbn [cells_at]. unfold at_. rewrite Ec. cbn [bind]. rewrite E. cbn [bind]. split; [reflexivity|]. intros c'. split.
    + intros [<-|Hc]; [exists i; split; [left; reflexivity|exact Ec]|]. apply S in Hc as (j & Hj & Ej). exists j. split; [right; exact Hj|exact Ej].
    + intros (j & [<-|Hj] & Ej); [left; congruence|right; apply S; exists j; auto].
Qed.
Lemma kept_in my_rank found i : In i (kept my_rank found) <-> exists first rest, found = first :: rest /\ snd first = my_rank /\ In (i, my_rank) found.
Proof.
  unfold kept. destruct found as [|[i0 r0] rest]; [split; [intros []|intros (f & r & E & _); discriminate E]|]. cbn [snd].
  rewrite in_map_iff. split.
  - intros ([j s] & <- & H). apply filter_In in H as [H1 H2]. cbn [fst snd] in *. apply andb_true_iff in H2 as [A B]. apply Nat.eqb_eq in A. apply Nat.eqb_eq in B. exists (i0, r0), rest. cbn [snd]. rewrite B in H1. split; [reflexivity|]. split; [congruence|exact H1].
  - intros (f & r & E & A & B). injection E as Ef Er. subst f r. cbn [snd] in A. rewrite A in *. exists (i, my_rank). split; [reflexivity|]. apply filter_In. split; [exact B|]. cbn [snd]. rewrite Nat.eqb_refl. reflexivity.
Qed.

(** ** One ray *)
Lemma trace_spec tol my_rank cells r found : 0 < tol -> (forall c f, In c cells -> In f c -> flat f) -> valid_found my_rank cells found ->
  exists hit, trace (N := RNum) tol my_rank cells r found = Ok hit /\ hit_spec tol my_rank cells r found hit.
Proof.
  intros T FL VF. unfold trace.
  destruct (cells_at_ok cells (kept my_rank found)) as (cs & E & S). { intros i Hi. apply kept_in in Hi as (f & rr & _ & _ & H). apply VF. exact H. }
  rewrite E. cbn [bind]. rewrite visit_cells_concat.
  assert (TE : forall f, In f (List.concat cs) <-> tested my_rank cells found f).
  { intros f. rewrite in_concat. split.
    - intros (c & Hc & Hf). apply S in Hc as (i & Hi & Ei). apply kept_in in Hi as (first & rest & A & B & C). exists first, rest, i, c. auto.
    - intros (first & rest & i & c & A & B & C & D & G). exists c. split; [|exact G]. apply S. exists i. split; [|exact D]. apply kept_in. exists first, rest. auto. }
  assert (FA : forall f, In f (List.concat cs) -> flat f).
  { intros f Hf. apply in_concat in Hf as (c & Hc & Hf). apply S in Hc as (i & _ & Ei). apply (FL c); [eapply nth_error_In; exact Ei|exact Hf]. }
  destruct (visit_faces_spec tol r (List.concat cs) T FA (nmax RNum, mkpt (N := RNum) 0 0 0)) as (A & B & C). cbn [fst] in *.
  change (nmax RNum, mkpt (N := RNum) 0 0 0) with (nmax RNum, mkpt (N := RNum) (nofZ RNum 0) (nofZ RNum 0) (nofZ RNum 0)) in A, B, C.
  destruct (fold_left (visit_face (N := RNum) tol r) (List.concat cs) (nmax RNum, mkpt (N := RNum) (nofZ RNum 0) (nofZ RNum 0) (nofZ RNum 0))) as [dist q]. cbn [fst] in *.
  eexists. split; [reflexivity|]. unfold hit_spec. change (nltb RNum dist (nmax RNum)) with (Rltb dist (nmax RNum)). destruct (Rltb_spec dist (nmax RNum)) as [L|L].
  - destruct C as [C|(f & d & Hf & [G K] & C & L')]; [exfalso; apply (f_equal fst) in C; cbn [fst] in C; rewrite C in L; exact (Rlt_irrefl _ L)|]. injection C as -> ->. exists f, d. split; [apply TE; exact Hf|]. split; [exact G|]. split; [exact K|]. split; [reflexivity|]. split; [exact L|].
    intros f' d' Ht G' M. apply (A f'); [apply TE; exact Ht|split; assumption].
  - intros f' d' Ht G' M. assert (dist <= d') by (apply (A f'); [apply TE; exact Ht|split; assumption]). lra.
Qed.
