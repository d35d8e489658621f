(** GeometryExamples.v -- concrete cases for C51, C61 and C62. *)
From Coq Require Import Reals ZArith Bool List Lia Lra Psatz Floats.
From Verif Require Import Base BaseFacts GeometryModel GeometrySpec GeometryProofs GeometryProofs2.
Import ListNotations.

(** A file with two triangles: words 0x3f800000 = 1, 0x40000000 = 2, 0xbf000000 = -0.5, 0 = 0; three bytes follow. *)
Definition w1 : Z := 1065353216. Definition w2 : Z := 1073741824. Definition wm : Z := 3204448256.
Definition ex_facets : list facet :=
  [mk_facet (repeat 7%Z 12) [[0; 0; 0]; [w1; 0; 0]; [0; w2; 0]]%Z [0; 0]%Z; mk_facet (repeat 9%Z 12) [[wm; w1; w2]; [w1; w1; 0]; [0; 0; w2]]%Z [1; 2]%Z].
Definition ex_header : list Z := repeat 32%Z 80.
Definition ex_file : list Z := stl_bytes ex_header ex_facets [1; 2; 3]%Z.
Lemma ex_facets_ok : forall x, In x ex_facets -> facet_ok x.
Proof.
  intros x [<-|[<-|[]]]; (split; [reflexivity|]; split; [reflexivity|]; split; [reflexivity|]; intros v [<-|[<-|[<-|[]]]]; (split; [reflexivity|]; intros w [<-|[<-|[<-|[]]]]; unfold w1, w2, wm; lia)).
Qed.
Lemma ex_file_long : (84 + 50 * announced ex_file <= length ex_file)%nat /\ announced ex_file = 2%nat.
Proof. split; [vm_compute; repeat constructor|vm_compute; reflexivity]. Qed.
Lemma ex_vertices : read_stl (Some ex_file) 0.5%float = Ok [
  (mkpt (N := FNum) 0%float 0%float 0%float, mkpt (N := FNum) 0.5%float 0%float 0%float, mkpt (N := FNum) 0%float 1%float 0%float);
  (mkpt (N := FNum) (-0.25)%float 0.5%float 1%float, mkpt (N := FNum) 0.5%float 0.5%float 0%float, mkpt (N := FNum) 0%float 0%float 1%float)].
Proof. vmrefl. Qed.
Lemma ex_truncated : (84 <= length (firstn 150 ex_file) < 84 + 50 * announced (firstn 150 ex_file))%nat.
Proof. vm_compute. split; repeat constructor. Qed.

Local Open Scope R_scope.
Notation P x y z := (mkpt (N := RNum) (x : R) (y : R) (z : R)).
(** The unit cube. *)
Definition cube : list tri :=
  [(P 0 0 0, P 0 0 1, P 0 1 1); (P 0 0 0, P 0 1 1, P 0 1 0);
   (P 1 0 0, P 1 1 1, P 1 0 1); (P 1 0 0, P 1 1 0, P 1 1 1);
   (P 0 0 0, P 1 0 0, P 1 0 1); (P 0 0 0, P 1 0 1, P 0 0 1);
   (P 0 1 0, P 1 1 1, P 1 1 0); (P 0 1 0, P 0 1 1, P 1 1 1);
   (P 0 0 0, P 1 1 0, P 1 0 0); (P 0 0 0, P 0 1 0, P 1 1 0);
   (P 0 0 1, P 1 0 1, P 1 1 1); (P 0 0 1, P 1 1 1, P 0 1 1)].
Definition c0 := P 0 0 0.
Definition c1 := P 1 1 1.
Lemma cube_proper : proper c0 c1.
Proof. unfold proper, c0, c1. cbn. lra. Qed.
Ltac face_hi c := exists c; split; [cbn; tauto|]; left; open3; repeat split; lra.
Ltac face_lo c := exists c; split; [cbn; tauto|]; right; open3; repeat split; lra.
Lemma cube_faces : forall t, In t cube -> face_of_box c0 c1 t.
Proof.
  intros t Ht. cbn in Ht. repeat (destruct Ht as [<-|Ht]; [split; [intros v Hv; cbn in Hv; destruct Hv as [<-|[<-|[<-|[]]]]; unfold in_box, c0, c1; cbn; lra|]; unfold c0, c1|]); [..|destruct Ht].
  - face_lo (@px RNum). - face_lo (@px RNum). - face_hi (@px RNum). - face_hi (@px RNum).
  - face_lo (@py RNum). - face_lo (@py RNum). - face_hi (@py RNum). - face_hi (@py RNum).
  - face_lo (@pz RNum). - face_lo (@pz RNum). - face_hi (@pz RNum). - face_hi (@pz RNum).
Qed.
Ltac wit k l m n := exists (nth k cube (c0, c0, c0)); split; [cbn; tauto|]; exists l, m, n; split; [lra|split; [lra|split; [lra|split; [lra|]]]]; cbn [cube nth]; open3; f_equal; match goal with |- @eq _ ?a ?b => change (@eq R a b) end; lra.
Lemma cube_covers : covers_box c0 c1 cube.
Proof.
  intros [x y z] (X & Y & Z) N. unfold c0, c1 in X, Y, Z. cbn [px py pz num RNum] in *.
  assert (x = 0 \/ x = 1 \/ y = 0 \/ y = 1 \/ z = 0 \/ z = 1) as C.
  { destruct (Req_dec x 0); [tauto|]. destruct (Req_dec x 1); [tauto|]. destruct (Req_dec y 0); [tauto|]. destruct (Req_dec y 1); [tauto|]. destruct (Req_dec z 0); [tauto|]. destruct (Req_dec z 1); [tauto|].
    exfalso. apply N. unfold in_open_box, c0, c1. cbn. lra. }
  clear N. destruct C as [->|[->|[->|[->|[->| ->]]]]].
  - destruct (Rle_dec y z) as [Q|Q]; [wit 0%nat (1 - z) (z - y) y|apply Rnot_le_lt in Q; wit 1%nat (1 - y) z (y - z)].
  - destruct (Rle_dec y z) as [Q|Q]; [wit 2%nat (1 - z) y (z - y)|apply Rnot_le_lt in Q; wit 3%nat (1 - y) (y - z) z].
  - destruct (Rle_dec z x) as [Q|Q]; [wit 4%nat (1 - x) (x - z) z|apply Rnot_le_lt in Q; wit 5%nat (1 - z) x (z - x)].
  - destruct (Rle_dec z x) as [Q|Q]; [wit 6%nat (1 - x) z (x - z)|apply Rnot_le_lt in Q; wit 7%nat (1 - z) (z - x) x].
  - destruct (Rle_dec y x) as [Q|Q]; [wit 8%nat (1 - x) y (x - y)|apply Rnot_le_lt in Q; wit 9%nat (1 - y) (y - x) x].
  - destruct (Rle_dec y x) as [Q|Q]; [wit 10%nat (1 - x) (x - y) y|apply Rnot_le_lt in Q; wit 11%nat (1 - y) x (y - x)].
Qed.
(** A centre below the cube and its nearest triangle. *)
Definition below_cube := P (1/2) (1/4) (-1).
Lemma below_nearest : nearest_answer cube below_cube (P 0 0 0, P 1 1 0, P 1 0 0) (P (1/2) (1/4) 0).
Proof.
  split; [cbn; tauto|]. split.
  - exists (1/2), (1/4), (1/4). open3. split; [lra|]. split; [lra|]. split; [lra|]. split; [lra|]. f_equal; match goal with |- @eq _ ?a ?b => change (@eq R a b) end; lra.
  - intros t' q' I T. assert (B := on_triangle_in_box c0 c1 t' q' (proj1 (cube_faces t' I)) T). destruct q' as [x y z]. unfold in_box, c0, c1 in B. unfold below_cube. open3. assert (Q1 := Rle_0_sqr (1/2 - x)). assert (Q2 := Rle_0_sqr (1/4 - y)). assert (1 * 1 <= (z + 1) * (z + 1)) as Q3 by (apply Rmult_le_compat; lra). unfold Rsqr in *. nra.
Qed.
(** A centre in the cube. *)
Lemma cube_interior : inside_convex cube (P (1/2) (1/4) (1/8)) /\ in_open_box c0 c1 (P (1/2) (1/4) (1/8)).
Proof.
  split; [|unfold in_open_box, c0, c1; cbn; lra]. intros t Ht. cbn in Ht. repeat (destruct Ht as [<-|Ht]; [open3; lra|]). destruct Ht.
Qed.

(** A thin tetrahedron with its normals outwards; a point beyond its tip and a little to the side. *)
Definition tip := P 0 0 10.
Definition needle : list tri :=
  [(tip, P (-1) (-1) 0, P 1 (-1) 0); (tip, P 1 (-1) 0, P 0 1 0); (tip, P 0 1 0, P (-1) (-1) 0); (P (-1) (-1) 0, P 0 1 0, P 1 (-1) 0)].
Definition beyond := P 5 0 11.
Lemma needle_interior : inside_convex needle (P 0 0 1).
Proof. intros t Ht. cbn in Ht. unfold tip in Ht. repeat (destruct Ht as [<-|Ht]; [open3; lra|]). destruct Ht. Qed.
Lemma beyond_outside : ~ inside_convex needle beyond.
Proof. intros H. specialize (H (tip, P 1 (-1) 0, P 0 1 0) ltac:(cbn; tauto)). unfold beyond, tip in *. open3. lra. Qed.
Lemma beyond_nearest : nearest_answer needle beyond (tip, P 0 1 0, P (-1) (-1) 0) tip.
Proof.
  split; [cbn; tauto|]. split; [apply (vertex_on (tip, P 0 1 0, P (-1) (-1) 0))|]. intros t' q' I T. apply (near_vertex beyond tip t' q'); [|exact T].
  intros v Hv. cbn in I. unfold tip, beyond in *. repeat (destruct I as [<-|I]; [cbn in Hv; destruct Hv as [<-|[<-|[<-|[]]]]; open3; lra|]). destruct I.
Qed.
Lemma beyond_accepted : is_within_stl (N := RNum) 3 false beyond ((tip, P 0 1 0, P (-1) (-1) 0), tip) = true.
Proof. rewrite within_3. apply callback_value. unfold tip, beyond. open3. lra. Qed.
