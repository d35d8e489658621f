(** GeometryProofs2.v -- proofs for C61 (cells inside the STL part) and C62 (initial material). *)
From Coq Require Import Reals ZArith Bool List Lia Lra Psatz.
From Verif Require Import Base BaseFacts GeometryModel GeometrySpec.
Import ListNotations.
Local Open Scope R_scope.

Ltac open3 := unfold on_plane, behind, dist2, combination, normal, cross3, dot3, minus3, v_a, v_b, v_c in *; cbn [px py pz fst snd num RNum] in *.

Ltac nle := repeat match goal with H : ~ _ <= _ |- _ => apply Rnot_le_lt in H end.
Lemma callback_value (p q : pt RNum) (t : tri) : inside_callback (N := RNum) p t q = true <-> dot3 (minus3 q p) (normal t) > 0.
Proof.
  destruct t as [[a b] c]. destruct a as [ax ay az], b as [bx by' bz], c as [cx cy cz], p as [x y z], q as [u v w]. unfold inside_callback, psub. open3. cbn.
  rewrite Rltb_true. split; intros H; [eapply Rlt_le_trans; [exact H|]|eapply Rlt_le_trans; [exact H|]]; apply Req_le; ring.
Qed.
Lemma triangle_plane t q : on_triangle t q -> on_plane t q.
Proof.
  intros (l & m & n & Hl & Hm & Hn & S & ->). destruct t as [[a b] c]. destruct a as [ax ay az], b as [bx by' bz], c as [cx cy cz]. open3.
  replace l with (1 - m - n) by lra. ring.
Qed.
Lemma side_any_point p q t : on_plane t q -> (dot3 (minus3 q p) (normal t) > 0 <-> behind t p).
Proof.
  intros P. unfold behind. replace (dot3 (minus3 q p) (normal t)) with (dot3 (minus3 (v_a t) p) (normal t)); [tauto|].
  unfold on_plane in P. revert P. generalize (normal t) (v_a t). intros [nx ny nz] [ax ay az]. destruct p as [x y z], q as [u v w]. unfold dot3, minus3. cbn. intros P. nra.
Qed.
Lemma within_3 p t q : is_within_stl (N := RNum) 3 false p (t, q) = inside_callback (N := RNum) p t q.
Proof. reflexivity. Qed.
Lemma within_side ts p t q : nearest_answer ts p t q -> (is_within_stl (N := RNum) 3 false p (t, q) = true <-> behind t p).
Proof. intros [_ [T _]]. rewrite within_3, callback_value. apply side_any_point. apply triangle_plane. exact T. Qed.
Lemma convex_inside ts p t q : inside_convex ts p -> nearest_answer ts p t q -> is_within_stl (N := RNum) 3 false p (t, q) = true.
Proof. intros C A. apply (within_side ts p t q A). apply C. apply A. Qed.
Lemma within_hits dim p (a : tri * pt RNum) : is_within_stl (N := RNum) dim true p a = false.
Proof. unfold is_within_stl. destruct (dim =? 2)%nat; reflexivity. Qed.
Lemma within_2 hits p (a : tri * pt RNum) : is_within_stl (N := RNum) 2 hits p a = false.
Proof. reflexivity. Qed.

(** ** Boxes *)
Definition clamp (l h x : R) : R := Rmax l (Rmin x h).
Lemma clamp_in l h x : l <= h -> l <= clamp l h x <= h.
Proof. intros H. unfold clamp, Rmax, Rmin. destruct (Rle_dec x h); [destruct (Rle_dec l x)|destruct (Rle_dec l h)]; lra. Qed.
Lemma sq_le a b : (0 <= a <= b \/ b <= a <= 0) -> a * a <= b * b.
Proof. intros [H|H]; nra. Qed.
Lemma sq_lt a b : (0 <= a < b \/ b < a <= 0) -> a * a < b * b.
Proof. intros [H|H]; nra. Qed.
Lemma clamp_near l h x y : l <= y <= h -> (x - clamp l h x) * (x - clamp l h x) <= (x - y) * (x - y).
Proof.
  intros H. unfold clamp, Rmax, Rmin. destruct (Rle_dec x h); [destruct (Rle_dec l x)|destruct (Rle_dec l h)]; nle.
  - replace (x - x) with 0 by ring. assert (Q := Rle_0_sqr (x - y)). unfold Rsqr in Q. lra.
  - apply sq_le. lra.
  - apply sq_le. lra.
  - exfalso. lra.
Qed.
Lemma clamp_hi l h x : l < h -> x < h -> (x - clamp l h x) * (x - clamp l h x) < (x - h) * (x - h).
Proof. intros H H'. unfold clamp, Rmax, Rmin. destruct (Rle_dec x h); [destruct (Rle_dec l x)|destruct (Rle_dec l h)]; nle; apply sq_lt; lra. Qed.
Lemma clamp_lo l h x : l < h -> l < x -> (x - clamp l h x) * (x - clamp l h x) < (x - l) * (x - l).
Proof. intros H H'. unfold clamp, Rmax, Rmin. destruct (Rle_dec x h); [destruct (Rle_dec l x)|destruct (Rle_dec l h)]; nle; apply sq_lt; lra. Qed.
Lemma clamp_open l h x : l < clamp l h x < h -> clamp l h x = x.
Proof. unfold clamp, Rmax, Rmin. destruct (Rle_dec x h); [destruct (Rle_dec l x)|destruct (Rle_dec l h)]; lra. Qed.

Definition clamp3 (lo hi p : pt RNum) : pt RNum := mkpt (N := RNum) (clamp (px lo) (px hi) (px p)) (clamp (py lo) (py hi) (py p)) (clamp (pz lo) (pz hi) (pz p)).
Lemma clamp3_surface lo hi p : proper lo hi -> ~ in_open_box lo hi p -> in_box lo hi (clamp3 lo hi p) /\ ~ in_open_box lo hi (clamp3 lo hi p).
Proof.
  intros (Px & Py & Pz) NO. split.
  - unfold in_box, clamp3. cbn. split; [|split]; apply clamp_in; lra.
  - unfold in_open_box, clamp3. cbn. intros (X & Y & Z). apply NO. assert (EX := clamp_open _ _ _ X). assert (EY := clamp_open _ _ _ Y). assert (EZ := clamp_open _ _ _ Z).
    rewrite EX in X. rewrite EY in Y. rewrite EZ in Z. unfold in_open_box. tauto.
Qed.
Lemma on_triangle_in_box lo hi t q : (forall v, In v [v_a t; v_b t; v_c t] -> in_box lo hi v) -> on_triangle t q -> in_box lo hi q.
Proof.
  intros B (l & m & n & Hl & Hm & Hn & S & ->). assert (A1 := B (v_a t) ltac:(cbn; tauto)). assert (A2 := B (v_b t) ltac:(cbn; tauto)). assert (A3 := B (v_c t) ltac:(cbn; tauto)).
  revert A1 A2 A3. unfold in_box, combination. generalize (v_a t) (v_b t) (v_c t). intros [ax ay az] [bx by' bz] [cx cy cz]. cbn [px py pz]. intros A1 A2 A3.
  assert (l = 1 - m - n) as -> by lra. repeat split; nra.
Qed.
Lemma coord_on (coord : pt RNum -> R) t q h : In coord [px; py; pz] -> coord (v_a t) = h -> coord (v_b t) = h -> coord (v_c t) = h -> on_triangle t q -> coord q = h.
Proof.
  intros I A B C (l & m & n & Hl & Hm & Hn & S & ->). cbn in I. destruct I as [<-|[<-|[<-|[]]]]; unfold combination; cbn [px py pz]; rewrite A, B, C; replace l with (1 - m - n) by lra; ring.
Qed.
Lemma dot_axis (coord : pt RNum -> R) t p q h : In coord [px; py; pz] -> coord (v_a t) = h -> coord (v_b t) = h -> coord (v_c t) = h -> coord q = h ->
  dot3 (minus3 q p) (normal t) = (h - coord p) * coord (normal t).
Proof.
  intros I A B C Q. destruct t as [[a b] c]. destruct a as [ax ay az], b as [bx by' bz], c as [cx cy cz], p as [x y z], q as [u v w]. cbn in I.
  destruct I as [<-|[<-|[<-|[]]]]; open3; subst; ring.
Qed.
Lemma box_near lo hi ts p t q : proper lo hi -> covers_box lo hi ts -> (forall t', In t' ts -> face_of_box lo hi t') -> nearest_answer ts p t q -> ~ in_open_box lo hi p ->
  dist2 p q <= dist2 p (clamp3 lo hi p) /\ in_box lo hi q.
Proof.
  intros P C F (It & Tq & Near) NO. destruct (clamp3_surface lo hi p P NO) as [B N]. destruct (C _ B N) as (t' & It' & T'). split; [apply (Near t'); assumption|].
  destruct (F t It) as [V _]. apply (on_triangle_in_box lo hi t); assumption.
Qed.
Lemma box_outside lo hi ts p t q : proper lo hi -> covers_box lo hi ts -> (forall t', In t' ts -> face_of_box lo hi t') -> nearest_answer ts p t q -> ~ in_open_box lo hi p ->
  is_within_stl (N := RNum) 3 false p (t, q) = false.
Proof.
  intros P C F A NO. destruct (box_near lo hi ts p t q P C F A NO) as [D B]. destruct A as (It & Tq & _). destruct (F t It) as [_ (coord & I & H)].
  rewrite within_3. destruct (inside_callback p t q) eqn:E; [|reflexivity]. exfalso. apply callback_value in E.
  unfold in_box in B. destruct P as (Px & Py & Pz). destruct B as (Bx & By & Bz).
  assert (NX := clamp_near (px lo) (px hi) (px p) (px q) Bx). assert (NY := clamp_near (py lo) (py hi) (py p) (py q) By). assert (NZ := clamp_near (pz lo) (pz hi) (pz p) (pz q) Bz).
  assert (D' : (px p - px q) * (px p - px q) + (py p - py q) * (py p - py q) + (pz p - pz q) * (pz p - pz q) <=
    (px p - clamp (px lo) (px hi) (px p)) * (px p - clamp (px lo) (px hi) (px p)) + (py p - clamp (py lo) (py hi) (py p)) * (py p - clamp (py lo) (py hi) (py p)) + (pz p - clamp (pz lo) (pz hi) (pz p)) * (pz p - clamp (pz lo) (pz hi) (pz p))) by exact D.
  destruct H as [(Ha & Hb & Hc & K)|(Ha & Hb & Hc & K)]; assert (Hq := coord_on coord t q _ I Ha Hb Hc Tq); rewrite (dot_axis coord t p q _ I Ha Hb Hc Hq) in E.
  - assert (L : coord p < coord hi) by nra. clear E. cbn in I. destruct I as [<-|[<-|[<-|[]]]]; rewrite Hq in *.
    + assert (S := clamp_hi (px lo) (px hi) (px p) Px L). lra.
    + assert (S := clamp_hi (py lo) (py hi) (py p) Py L). lra.
    + assert (S := clamp_hi (pz lo) (pz hi) (pz p) Pz L). lra.
  - assert (L : coord lo < coord p) by nra. clear E. cbn in I. destruct I as [<-|[<-|[<-|[]]]]; rewrite Hq in *.
    + assert (S := clamp_lo (px lo) (px hi) (px p) Px L). lra.
    + assert (S := clamp_lo (py lo) (py hi) (py p) Py L). lra.
    + assert (S := clamp_lo (pz lo) (pz hi) (pz p) Pz L). lra.
Qed.
Lemma box_inside lo hi ts p t q : (forall t', In t' ts -> face_of_box lo hi t') -> nearest_answer ts p t q -> in_open_box lo hi p ->
  is_within_stl (N := RNum) 3 false p (t, q) = true.
Proof.
  intros F (It & Tq & _) O. destruct (F t It) as [_ (coord & I & H)]. rewrite within_3. apply callback_value. unfold in_open_box in O.
  destruct H as [(Ha & Hb & Hc & K)|(Ha & Hb & Hc & K)]; assert (Hq := coord_on coord t q _ I Ha Hb Hc Tq); rewrite (dot_axis coord t p q _ I Ha Hb Hc Hq); cbn in I; destruct I as [<-|[<-|[<-|[]]]]; nra.
Qed.
Lemma box_exact_ lo hi ts p t q : proper lo hi -> covers_box lo hi ts -> (forall t', In t' ts -> face_of_box lo hi t') -> nearest_answer ts p t q ->
  (is_within_stl (N := RNum) 3 false p (t, q) = true <-> in_open_box lo hi p).
Proof.
  intros P C F A. split; [|apply (box_inside lo hi ts); assumption]. intros E. destruct (Rlt_dec (px lo) (px p)), (Rlt_dec (px p) (px hi)), (Rlt_dec (py lo) (py p)), (Rlt_dec (py p) (py hi)), (Rlt_dec (pz lo) (pz p)), (Rlt_dec (pz p) (pz hi));
  try (unfold in_open_box; tauto); exfalso; (rewrite (box_outside lo hi ts p t q P C F A) in E; [discriminate|unfold in_open_box; tauto]).
Qed.

(** ** A convex part with a sharp tip *)
Lemma near_vertex p a t q : (forall v, In v [v_a t; v_b t; v_c t] -> dot3 (minus3 p a) (minus3 a v) >= 0) -> on_triangle t q -> dist2 p a <= dist2 p q.
Proof.
  intros H (l & m & n & Hl & Hm & Hn & S & ->). assert (A1 := H (v_a t) ltac:(cbn; tauto)). assert (A2 := H (v_b t) ltac:(cbn; tauto)). assert (A3 := H (v_c t) ltac:(cbn; tauto)). clear H.
  revert A1 A2 A3. unfold combination. generalize (v_a t) (v_b t) (v_c t). intros [ax ay az] [bx by' bz] [cx cy cz]. destruct p as [x y z], a as [u v w]. unfold dist2, dot3, minus3. cbn [px py pz]. intros A1 A2 A3.
  set (qx := l * ax + m * bx + n * cx). set (qy := l * ay + m * by' + n * cy). set (qz := l * az + m * bz + n * cz).
  assert (E : (x - u) * (u - qx) + (y - v) * (v - qy) + (z - w) * (w - qz) =
    l * ((x - u) * (u - ax) + (y - v) * (v - ay) + (z - w) * (w - az)) + m * ((x - u) * (u - bx) + (y - v) * (v - by') + (z - w) * (w - bz)) + n * ((x - u) * (u - cx) + (y - v) * (v - cy) + (z - w) * (w - cz))).
  { unfold qx, qy, qz. replace l with (1 - m - n) by lra. ring. }
  assert (0 <= (x - u) * (u - qx) + (y - v) * (v - qy) + (z - w) * (w - qz)) as G by (rewrite E; assert (0 <= l * ((x - u) * (u - ax) + (y - v) * (v - ay) + (z - w) * (w - az))) by (apply Rmult_le_pos; lra);
    assert (0 <= m * ((x - u) * (u - bx) + (y - v) * (v - by') + (z - w) * (w - bz))) by (apply Rmult_le_pos; lra); assert (0 <= n * ((x - u) * (u - cx) + (y - v) * (v - cy) + (z - w) * (w - cz))) by (apply Rmult_le_pos; lra); lra).
  assert (Q1 := Rle_0_sqr (u - qx)). assert (Q2 := Rle_0_sqr (v - qy)). assert (Q3 := Rle_0_sqr (w - qz)). unfold Rsqr in *. nra.
Qed.
Lemma vertex_on t : on_triangle t (v_a t).
Proof. exists 1, 0, 0. repeat split; try lra. destruct t as [[a b] c]. destruct a, b, c. open3. f_equal; match goal with |- @eq _ ?a ?b => change (@eq R a b) end; ring. Qed.

(** ** C62 *)
Lemma active_R (h z : R) : initially_active (N := RNum) h z = true <-> z < h.
Proof. unfold initially_active. cbn. apply Rltb_true. Qed.
Lemma state_R (h l z : R) : (assign_state (N := RNum) h (Some l) z = solid <-> z < h - l) /\ (assign_state (N := RNum) h (Some l) z = powder <-> h - l <= z).
Proof. unfold assign_state. cbn. destruct (Rltb_spec z (h - l)) as [L|L]; split; split; intros H; try discriminate; try reflexivity; lra. Qed.
Lemma state_none (h z : R) : assign_state (N := RNum) h None z = solid.
Proof. reflexivity. Qed.

(** ** Layers *)
Lemma layers (h l z : R) : 0 <= l ->
  (initially_active (N := RNum) h z = true /\ assign_state (N := RNum) h (Some l) z = solid <-> z < h - l) /\
  (initially_active (N := RNum) h z = true /\ assign_state (N := RNum) h (Some l) z = powder <-> h - l <= z < h) /\
  (initially_active (N := RNum) h z = false <-> h <= z).
Proof.
  intros L. assert (A := active_R h z). destruct (state_R h l z) as [S P].
  split; [rewrite A, S; lra|]. split; [rewrite A, P; lra|]. destruct (initially_active (N := RNum) h z) eqn:E; split; intros H; try discriminate; try reflexivity.
  - assert (z < h) by (apply A; reflexivity). lra.
  - destruct (Rlt_le_dec z h) as [Q|Q]; [|exact Q]. apply A in Q. discriminate.
Qed.
Lemma data_of_active (h : R) (zs : list R) : forall cs ss ms, initial_cell_data (N := RNum) h zs = (cs, ss, ms) ->
  length cs = length (filter (fun z => if Rlt_dec z h then true else false) zs) /\ length ss = length cs /\ length ms = length cs /\
  (forall c, In c cs -> c = 1) /\ (forall s, In s ss -> s = 0) /\ (forall m, In m ms -> m = false).
Proof.
  intros cs ss ms E. unfold initial_cell_data in E. injection E as <- <- <-. rewrite !map_length.
  split; [reflexivity|]. split; [reflexivity|]. split; [reflexivity|].
  split; [|split]; intros x Hx; apply in_map_iff in Hx as [? [<- _]]; reflexivity.
Qed.

Lemma box_from_input (sizes origins : list R) i (s o : R) : nth_error sizes i = Some s -> nth_error origins i = Some o ->
  nth_error (fst (box_corners (N := RNum) sizes origins)) i = Some o /\ nth_error (snd (box_corners (N := RNum) sizes origins)) i = Some (o + s).
Proof.
  unfold box_corners. cbn [fst snd]. intros A B. split; [exact B|]. revert sizes origins A B. induction i as [|i IH]; intros [|a sizes] [|b origins] A B; try discriminate.
  - cbn in *. injection A as ->. injection B as ->. f_equal. apply Rplus_comm.
  - cbn [combine map nth_error] in *. apply IH; assumption.
Qed.
