(** QuaternionProperties.v -- C07, C08.  Only statements, witnesses and assumptions. *)
From Coq Require Import Reals Bool List String Lra Lia.
From Verif Require Import Base BaseFacts QuaternionModel ScanPathModel ScanPathSpec ScanPathProofs QuaternionProofs.
Import ListNotations.
Local Open Scope R_scope.

(** * C07 *)
Theorem C07_inverse : forall q p, unit_q q -> inv_rotate q (rotate q p) = p /\ rotate q (inv_rotate q p) = p.
Proof. exact (fun q p H => conj (inv_rotate_rotate q p H) (rotate_inv_rotate q p H)). Qed.
Print Assumptions C07_inverse.
Theorem C07_isometry : forall q a b, unit_q q ->
  dot3 (rotate q a) (rotate q b) = dot3 a b /\ dot3 (inv_rotate q a) (inv_rotate q b) = dot3 a b /\
  (pnorm (rotate q a) : R) = pnorm a.
Proof. exact (fun q a b H => conj (rotate_dot q a b H) (conj (inv_rotate_dot q a b H) (rotate_norm q a H))). Qed.
Print Assumptions C07_isometry.
(** Orientation is preserved: it is a rotation, not a reflection. *)
Theorem C07_orientation : forall q a b, unit_q q -> rotate q (cross a b) = cross (rotate q a) (rotate q b).
Proof. exact rotate_cross. Qed.
Print Assumptions C07_orientation.
Theorem C07_composition : forall p q v, unit_q p -> unit_q q ->
  unit_q (qmul p q) /\ rotate (qmul p q) v = rotate p (rotate q v).
Proof. exact (fun p q v H H' => conj (mul_unit p q H H') (rotate_mul p q v H H')). Qed.
Print Assumptions C07_composition.
Theorem C07_division : forall p q v, unit_q p -> unit_q q ->
  unit_q (qdiv p q) /\ qmul (qdiv p q) q = p /\ rotate (qdiv p q) (rotate q v) = rotate p v.
Proof.
  exact (fun p q v H H' => conj (div_unit p q H H') (conj (div_mul p q H')
    (eq_trans (eq_sym (rotate_mul _ q v (div_unit p q H H') H')) (f_equal (fun x => rotate x v) (div_mul p q H'))))).
Qed.
Print Assumptions C07_division.
Theorem C07_sign : forall q v, rotate (neg_q q) v = rotate q v.
Proof. exact rotate_neg. Qed.
Print Assumptions C07_sign.
(** The convention: rotation by the angle 2a about the unit axis [u] (Rodrigues' formula). *)
Theorem C07_axis_fixed : forall u a, unit_v u -> unit_q (about u a) /\ rotate (about u a) u = u.
Proof. exact (fun u a H => conj (about_unit u a H) (rotate_axis u a H)). Qed.
Print Assumptions C07_axis_fixed.
Theorem C07_quarter_turn : forall p : pt RNum,
  rotate (mkq (N := RNum) (sqrt 2 / 2) 0 0 (sqrt 2 / 2)) p = mkpt (N := RNum) (- py p) (px p) (pz p).
Proof. exact quarter_turn. Qed.
Print Assumptions C07_quarter_turn.

Example C07_witness : unit_q (mkq (N := RNum) (1/2) (1/2) (-1/2) (1/2)).
Proof. unfold unit_q; simpl; lra. Qed.
(** Non-unit quaternions do not rotate. *)
Example C07_not_unit : exists q p, inv_rotate (N := RNum) q (rotate q p) <> p.
Proof.
  exists (mkq (N := RNum) 0 1 1 0), (mkpt (N := RNum) 1 0 0). unfold inv_rotate, rotate; simpl.
  intros H. injection H as H _ _. lra.
Qed.

(** * C08  Inside a segment the orientation is the start orientation followed by the fraction
    [(t-t0)/(t1-t0)] of the rotation (by at most 180 degrees: half-angle at most PI/2) that leads to the end orientation. *)
Theorem C08_shortest_arc :
  forall (P : parser RNum) fmt ds vs lines sp (t : R) last i s p0 (t0 : R) q0 q1,
  new_scan_path P fmt ds vs lines = Ok sp ->
  sp_five_axis sp = true -> last_segment (sp_segs sp) last -> t <= (end_time last : R) ->
  current (sp_segs sp) t i s -> segment_start (sp_segs sp) i s p0 t0 ->
  start_rotation (sp_segs sp) i s = Some q0 -> end_rotation s = Some q1 ->
  unit_q q0 -> unit_q q1 -> / 1000000000000 <= (end_time s : R) - t0 ->
  (q1 = q0 -> get_quaternion qpow sp t = Ok (Some q0)) /\
  (q1 = neg_q q0 -> q1 <> q0 -> get_quaternion qpow sp t = Ok None) /\
  (q1 <> q0 -> q1 <> neg_q q0 ->
   exists u th, unit_v u /\ 0 < th <= PI / 2 /\
     (qmul (about u th) q0 = q1 \/ qmul (about u th) q0 = neg_q q1) /\
     get_quaternion qpow sp t = Ok (Some (qmul (about u ((t - t0) / (end_time s - t0) * th)) q0))).
Proof.
  exact (fun P fmt ds vs lines sp t last i s p0 t0 q0 q1 H =>
    get_quaternion_R sp t last i s p0 t0 q0 q1 (new_scan_path_old P fmt ds vs lines sp H)).
Qed.
Print Assumptions C08_shortest_arc.

Theorem C08_reaches_both_ends :
  forall (P : parser RNum) fmt ds vs lines sp (t : R) last i s p0 (t0 : R) q0 q1,
  new_scan_path P fmt ds vs lines = Ok sp ->
  sp_five_axis sp = true -> last_segment (sp_segs sp) last -> t <= (end_time last : R) ->
  current (sp_segs sp) t i s -> segment_start (sp_segs sp) i s p0 t0 ->
  start_rotation (sp_segs sp) i s = Some q0 -> end_rotation s = Some q1 ->
  unit_q q0 -> unit_q q1 -> / 1000000000000 <= (end_time s : R) - t0 -> q1 <> neg_q q0 ->
  exists q, get_quaternion qpow sp t = Ok (Some q) /\ unit_q q /\
    (t = t0 -> q = q0) /\ (t = end_time s -> forall p, rotate q p = rotate q1 p).
Proof.
  exact (fun P fmt ds vs lines sp t last i s p0 t0 q0 q1 H =>
    quaternion_rotates_ends sp t last i s p0 t0 q0 q1 (new_scan_path_old P fmt ds vs lines sp H)).
Qed.
Print Assumptions C08_reaches_both_ends.

(** Two quaternions of opposite sign describe the same orientation, yet the interpolation between them is
    not a number at every time of the segment: instance of the second clause of C08_shortest_arc. *)
Definition sq (c : R) : quat RNum := mkq (N := RNum) c 0 0 0.
Definition sp_opp : scan_path RNum :=
  mkSP (N := RNum) false true 1 1 FEventSeries
    [mkseg (N := RNum) 1 0 (mkpt (N := RNum) 0 0 0) (Some (sq 1)); mkseg (N := RNum) 2 1 (mkpt (N := RNum) 1 0 0) (Some (sq (-1)))] 0.
Theorem C08_opposite_signs_refuted : forall t : R, 1 < t <= 2 ->
  get_quaternion qpow sp_opp t = Ok None /\ forall p, rotate (sq 1) p = rotate (sq (-1)) p.
Proof. exact opposite_nan. Qed.
Print Assumptions C08_opposite_signs_refuted.

(** A path without rotations has the identity rotation at all times. *)
Theorem C08_without_rotations : forall (N : Num) pow (sp : scan_path N) (t : N), sp_five_axis sp = false -> get_quaternion pow sp t = Ok (Some (mkq (nZ 1) (nZ 0) (nZ 0) (nZ 0))).
Proof. exact without_rotations. Qed.
Print Assumptions C08_without_rotations.

(** The hypotheses are met by a path that turns by 90 degrees about x. *)
Example C08_witness :
  let q := mkq (N := RNum) (3/5) (4/5) 0 0 in
  let s1 := mkseg (N := RNum) 1 0 (mkpt (N := RNum) 0 0 0) (Some (sq 1)) in
  let s2 := mkseg (N := RNum) 2 1 (mkpt (N := RNum) 1 0 0) (Some q) in
  current [s1; s2] (3/2 : R) 1 s2 /\ start_rotation [s1; s2] 1 s2 = Some (sq 1) /\ unit_q (sq 1) /\ unit_q q /\ q <> sq 1 /\ q <> neg_q (sq 1).
Proof.
  cbv zeta. repeat split.
  - simpl. apply Rltb_false. lra.
  - intros [|j] s' Hj E; [|lia]. injection E as <-. simpl. apply Rltb_true. lra.
  - unfold unit_q; simpl; lra.
  - unfold unit_q; simpl; lra.
  - unfold sq. intros H. injection H as H. lra.
  - unfold sq, neg_q. simpl. intros H. injection H as H. lra.
Qed.
