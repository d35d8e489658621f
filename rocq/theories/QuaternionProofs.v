(** QuaternionProofs.v -- rotations by unit quaternions (C07) and orientation interpolation (C08), over R. *)
From Coq Require Import Reals Bool List String Lra Lia.
From Verif Require Import Base BaseFacts QuaternionModel ScanPathModel ScanPathSpec ScanPathProofs.
Import ListNotations.
Local Open Scope R_scope.

Definition unit_q (q : quat RNum) : Prop := (qr q * qr q + qi q * qi q + qj q * qj q + qk q * qk q)%R = 1.
Definition neg_q (q : quat RNum) : quat RNum := mkq (N := RNum) (- qr q) (- qi q) (- qj q) (- qk q).
Definition cross (a b : pt RNum) : pt RNum :=
  mkpt (N := RNum) (py a * pz b - pz a * py b)%R (pz a * px b - px a * pz b)%R (px a * py b - py a * px b)%R.
Definition dot3 (a b : pt RNum) : R := (px a * px b + py a * py b + pz a * pz b)%R.

Ltac dq := repeat match goal with q : quat RNum |- _ => destruct q as [? ? ? ?] end;
           repeat match goal with p : pt RNum |- _ => destruct p as [? ? ?] end;
           unfold unit_q, neg_q, cross, dot3, rotate, inv_rotate, qmul, qdiv, qscale, qone in *; simpl in *.

(** The rotation matrix entries in homogeneous form. *)
Lemma diag_eq a b c d : a * a + b * b + c * c + d * d = 1 -> 1 - 2 * (c * c + d * d) = a * a + b * b - c * c - d * d.
Proof. intros H. lra. Qed.

Lemma rotate_hom r i j k x y z : r * r + i * i + j * j + k * k = 1 ->
  rotate (mkq (N := RNum) r i j k) (mkpt (N := RNum) x y z) =
  mkpt (N := RNum) ((r*r + i*i - j*j - k*k) * x + 2 * (i*j - k*r) * y + 2 * (i*k + j*r) * z)
       (2 * (i*j + k*r) * x + (r*r - i*i + j*j - k*k) * y + 2 * (j*k - i*r) * z)
       (2 * (i*k - j*r) * x + 2 * (j*k + i*r) * y + (r*r - i*i - j*j + k*k) * z).
Proof.
  intros H. unfold rotate; simpl. f_equal.
  - replace (1 - 2 * (j * j + k * k)) with (r*r + i*i - j*j - k*k) by lra. ring.
  - replace (1 - 2 * (i * i + k * k)) with (r*r - i*i + j*j - k*k) by lra. ring.
  - replace (1 - 2 * (i * i + j * j)) with (r*r - i*i - j*j + k*k) by lra. ring.
Qed.
Lemma inv_rotate_hom r i j k x y z : r * r + i * i + j * j + k * k = 1 ->
  inv_rotate (mkq (N := RNum) r i j k) (mkpt (N := RNum) x y z) =
  mkpt (N := RNum) ((r*r + i*i - j*j - k*k) * x + 2 * (i*j + k*r) * y + 2 * (i*k - j*r) * z)
       (2 * (i*j - k*r) * x + (r*r - i*i + j*j - k*k) * y + 2 * (j*k + i*r) * z)
       (2 * (i*k + j*r) * x + 2 * (j*k - i*r) * y + (r*r - i*i - j*j + k*k) * z).
Proof.
  intros H. unfold inv_rotate; simpl. f_equal.
  - replace (1 - 2 * (j * j + k * k)) with (r*r + i*i - j*j - k*k) by lra. ring.
  - replace (1 - 2 * (i * i + k * k)) with (r*r - i*i + j*j - k*k) by lra. ring.
  - replace (1 - 2 * (i * i + j * j)) with (r*r - i*i - j*j + k*k) by lra. ring.
Qed.

Lemma times_one n x : n = 1 -> n * n * x = x.
Proof. intros ->. ring. Qed.

Lemma inv_rotate_rotate q p : unit_q q -> inv_rotate q (rotate q p) = p.
Proof.
  destruct q as [r i j k], p as [x y z]. unfold unit_q; simpl. intros H.
  rewrite rotate_hom, inv_rotate_hom by exact H.
  f_equal; match goal with |- _ = ?v => transitivity ((r*r+i*i+j*j+k*k)*(r*r+i*i+j*j+k*k)*v); [ring|rewrite H; ring] end.
Qed.
Lemma rotate_inv_rotate q p : unit_q q -> rotate q (inv_rotate q p) = p.
Proof.
  destruct q as [r i j k], p as [x y z]. unfold unit_q; simpl. intros H.
  rewrite inv_rotate_hom, rotate_hom by exact H.
  f_equal; match goal with |- _ = ?v => transitivity ((r*r+i*i+j*j+k*k)*(r*r+i*i+j*j+k*k)*v); [ring|rewrite H; ring] end.
Qed.
Lemma rotate_dot q a b : unit_q q -> dot3 (rotate q a) (rotate q b) = dot3 a b.
Proof.
  destruct q as [r i j k], a as [x y z], b as [x' y' z']. unfold unit_q; simpl. intros H.
  rewrite !rotate_hom by exact H. unfold dot3; simpl.
  match goal with |- _ = ?v => transitivity ((r*r+i*i+j*j+k*k)*(r*r+i*i+j*j+k*k)*v); [ring|rewrite H; ring] end.
Qed.
Lemma inv_rotate_dot q a b : unit_q q -> dot3 (inv_rotate q a) (inv_rotate q b) = dot3 a b.
Proof.
  intros H. rewrite <- (rotate_dot q (inv_rotate q a) (inv_rotate q b) H).
  rewrite !rotate_inv_rotate by exact H. reflexivity.
Qed.
Lemma rotate_cross q a b : unit_q q -> rotate q (cross a b) = cross (rotate q a) (rotate q b).
Proof.
  destruct q as [r i j k], a as [x y z], b as [x' y' z']. unfold unit_q; simpl. intros H.
  unfold cross; cbn [px py pz]. rewrite !rotate_hom by exact H. cbn [px py pz].
  f_equal; match goal with |- ?u = _ => transitivity ((r*r+i*i+j*j+k*k)*u); [rewrite H; ring|ring] end.
Qed.
Lemma mul_unit p q : unit_q p -> unit_q q -> unit_q (qmul p q).
Proof.
  destruct p as [r i j k], q as [r' i' j' k']. unfold unit_q, qmul; simpl. intros H H'.
  replace 1 with ((r * r + i * i + j * j + k * k) * (r' * r' + i' * i' + j' * j' + k' * k')) by (rewrite H, H'; ring).
  ring.
Qed.
Lemma rotate_mul p q v : unit_q p -> unit_q q -> rotate (qmul p q) v = rotate p (rotate q v).
Proof.
  intros Hp Hq. assert (Hm := mul_unit p q Hp Hq).
  destruct p as [r i j k], q as [r' i' j' k'], v as [x y z]. unfold unit_q, qmul in *; simpl in *.
  rewrite (rotate_hom r' i' j' k') by exact Hq. rewrite (rotate_hom r i j k) by exact Hp.
  rewrite rotate_hom by exact Hm. f_equal; ring.
Qed.
Lemma rotate_neg q v : rotate (neg_q q) v = rotate q v.
Proof. dq. f_equal; ring. Qed.
Lemma inv_is_conj q v : inv_rotate q v = rotate (mkq (N := RNum) (qr q) (- qi q) (- qj q) (- qk q)) v.
Proof. dq. f_equal; ring. Qed.
Lemma rotate_one (v : pt RNum) : rotate qone v = v.
Proof. dq. f_equal; ring. Qed.
Lemma rotate_norm (q : quat RNum) (v : pt RNum) : unit_q q -> pnorm (rotate q v) = pnorm v.
Proof. intros H. unfold pnorm. f_equal. exact (rotate_dot q v v H). Qed.

(** ** pow *)
(** Rotation by half-angle [a] about the axis [u]. *)
Definition about (u : pt RNum) (a : R) : quat RNum :=
  mkq (N := RNum) (cos a) (px u * sin a)%R (py u * sin a)%R (pz u * sin a)%R.
Definition unit_v (u : pt RNum) : Prop := dot3 u u = 1.

Lemma about_unit u a : unit_v u -> unit_q (about u a).
Proof.
  unfold unit_v, unit_q, about, dot3; simpl. intros H.
  replace (_ + _) with (cos a * cos a + (px u * px u + py u * py u + pz u * pz u) * (sin a * sin a)) by (simpl; ring).
  rewrite H. generalize (sin2_cos2 a). unfold Rsqr. lra.
Qed.
Lemma about_add u a b : unit_v u -> about u (a + b) = qmul (about u a) (about u b).
Proof.
  destruct u as [x y z]. unfold unit_v, about, dot3, qmul; simpl. intros H.
  rewrite cos_plus, sin_plus. f_equal; try ring.
  replace (sin a * sin b) with ((x * x + y * y + z * z) * (sin a * sin b)) by (rewrite H; ring). ring.
Qed.

Lemma atan2_polar x y : 0 < y -> x * x + y * y = 1 ->
  cos (atan2_nn y x) = x /\ sin (atan2_nn y x) = y /\ 0 < atan2_nn y x < PI /\ (0 <= x -> atan2_nn y x <= PI / 2).
Proof.
  intros Hy Hn. unfold atan2_nn.
  assert (HPI := PI_RGT_0).
  assert (Hx : x <> 0 -> 1 + (y / x)² = / (x * x)).
  { intros Hx. unfold Rsqr. apply Rmult_eq_reg_l with (x * x); [|nra].
    rewrite Rinv_r by nra. replace (x * x * (1 + y / x * (y / x))) with (x * x + y * y) by (field; auto). exact Hn. }
  destruct (Rltb_spec 0 x) as [P|P].
  - assert (Hs : sqrt (1 + (y / x)²) = / x).
    { rewrite Hx by lra. replace (/ (x * x)) with ((/ x)²) by (unfold Rsqr; field; lra). rewrite sqrt_Rsqr; [reflexivity|].
      apply Rlt_le, Rinv_0_lt_compat, P. }
    rewrite cos_atan, sin_atan, Hs.
    assert (0 < y / x) by (apply Rdiv_lt_0_compat; lra).
    assert (A := atan_bound (y / x)). assert (B := atan_increasing 0 (y / x)). rewrite atan_0 in B.
    split; [field; lra|]. split; [field; lra|]. split; [split; [auto|lra]|]. intros _; lra.
  - destruct (Rltb_spec x 0) as [M|M].
    + assert (Hs : sqrt (1 + (y / x)²) = / (- x)).
      { rewrite Hx by lra. replace (/ (x * x)) with ((/ (- x))²) by (unfold Rsqr; field; lra).
        rewrite sqrt_Rsqr; [reflexivity|]. apply Rlt_le, Rinv_0_lt_compat. lra. }
      rewrite neg_cos, neg_sin, cos_atan, sin_atan, Hs.
      assert (y / x < 0). { apply Rmult_lt_reg_r with (- x); [lra|]. replace (y / x * - x) with (- y) by (field; lra). lra. }
      assert (A := atan_bound (y / x)). assert (B := atan_increasing (y / x) 0). rewrite atan_0 in B.
      split; [field; lra|]. split; [field; lra|]. split; [split; [lra|specialize (B H); lra]|]. intros; lra.
    + assert (x = 0) by lra. subst x. destruct (Rltb_spec 0 y); [|lra].
      rewrite cos_PI2, sin_PI2. assert (y = 1) by nra.
      split; [reflexivity|]. split; [lra|]. split; [lra|]. intros; lra.
Qed.

Lemma qpow_about q : unit_q q -> ~ (qi q = 0 /\ qj q = 0 /\ qk q = 0) ->
  exists u th, unit_v u /\ 0 < th < PI /\ (0 <= qr q -> th <= PI / 2) /\ q = about u th /\
    forall e, qpow q e = Some (about u (e * th)).
Proof.
  intros H NZ. set (s := qi q * qi q + qj q * qj q + qk q * qk q).
  assert (Hs : 0 < s).
  { unfold s. destruct (Req_dec (qi q) 0) as [A|A]; destruct (Req_dec (qj q) 0) as [B|B];
      destruct (Req_dec (qk q) 0) as [C|C]; try tauto;
      simpl in *; repeat match goal with X : ?z <> 0 |- _ => assert (0 < z * z) by nra; clear X end;
      repeat match goal with X : ?z = 0 |- _ => rewrite X end; 
      try (assert (0 <= qi q * qi q) by nra); try (assert (0 <= qj q * qj q) by nra); try (assert (0 <= qk q * qk q) by nra); simpl in *; lra. }
  set (pn := sqrt s). assert (Hp : 0 < pn) by (apply sqrt_lt_R0, Hs).
  assert (Hpp : pn * pn = s) by (apply sqrt_sqrt; lra).
  destruct (atan2_polar (qr q) pn Hp) as [Hc [Hsn [Hth Hq]]].
  { rewrite Hpp. unfold s. unfold unit_q in H. simpl in *. lra. }
  set (u := mkpt (N := RNum) (qi q / pn) (qj q / pn) (qk q / pn)).
  assert (Hne : pn <> 0) by lra.
  exists u, (atan2_nn pn (qr q)).
  split. { unfold unit_v, dot3, u; simpl.
    replace (_ + _) with (s / (pn * pn)) by (unfold s; simpl; field; exact Hne). rewrite Hpp. field. lra. }
  split; [exact Hth|]. split; [exact Hq|]. split.
  - unfold about, u. simpl. rewrite Hc, Hsn. destruct q as [r i j k]; simpl in *. f_equal; field; exact Hne.
  - intros e. unfold qpow. fold s. fold pn. destruct (Reqb_spec pn 0) as [E|E]; [lra|]. reflexivity.
Qed.

Lemma qpow_real (q : quat RNum) e : qi q = 0 -> qj q = 0 -> qk q = 0 -> qpow q e = None.
Proof.
  intros A B C. unfold qpow. rewrite A, B, C.
  replace (0 * 0 + 0 * 0 + 0 * 0) with 0 by ring. rewrite sqrt_0.
  destruct (Reqb_spec 0 0); [reflexivity|lra].
Qed.

Lemma conj_unit q : unit_q q -> unit_q (mkq (N := RNum) (qr q) (- qi q) (- qj q) (- qk q)).
Proof. dq. intros H. rewrite <- H. ring. Qed.
Lemma div_unit p q : unit_q p -> unit_q q -> unit_q (qdiv p q).
Proof. intros. apply mul_unit; [assumption|]. apply conj_unit; assumption. Qed.
Lemma div_mul p q : unit_q q -> qmul (qdiv p q) q = p.
Proof.
  destruct p as [r i j k], q as [r' i' j' k']. unfold unit_q, qdiv, qmul; simpl. intros H.
  f_equal; match goal with |- _ = ?v => transitivity ((r' * r' + i' * i' + j' * j' + k' * k') * v); [ring|rewrite H; ring] end.
Qed.
(** A quotient with zero imaginary part means equal or opposite quaternions. *)
Lemma div_real p q : unit_q p -> unit_q q -> qi (qdiv p q) = 0 -> qj (qdiv p q) = 0 -> qk (qdiv p q) = 0 ->
  p = q \/ p = neg_q q.
Proof.
  intros Hp Hq A B C. assert (Hd := div_unit _ _ Hp Hq). assert (Hm := div_mul p q Hq).
  destruct (qdiv p q) as [r i j k]. simpl in A, B, C. subst i j k.
  unfold unit_q in Hd; simpl in Hd.
  assert (r = 1 \/ r = -1) as [-> | ->].
  { assert ((r - 1) * (r + 1) = 0) by lra. apply Rmult_integral in H. lra. }
  - left. rewrite <- Hm. destruct q as [r' i' j' k']. unfold qmul; simpl. f_equal; ring.
  - right. rewrite <- Hm. destruct q as [r' i' j' k']. unfold qmul, neg_q; simpl. f_equal; ring.
Qed.

Lemma qeqb_R p q : qeqb (N := RNum) p q = true <-> p = q.
Proof.
  destruct p as [r i j k], q as [r' i' j' k']. unfold qeqb; simpl. split.
  - rewrite !andb_true_iff. intros [[[A B] C] D].
    repeat match goal with H : Reqb ?a ?b = true |- _ => destruct (Reqb_spec a b); [clear H|discriminate] end. congruence.
  - intros E. injection E as -> -> -> ->. repeat (rcase; [|contradiction]). reflexivity.
Qed.

Lemma current_advance {N} (l : list (seg N)) : forall t i k s, current l t k s -> advance l i t = Ok (i + k)%nat.
Proof.
  induction l as [|x l IH]; intros t i k s [C1 [C2 C3]]; [destruct k; discriminate|].
  simpl. destruct k as [|k].
  - simpl in C1. injection C1 as <-. rewrite C2. f_equal. lia.
  - rewrite (C3 0%nat x) by (lia || reflexivity). rewrite (IH t (S i) k s); [f_equal; lia|].
    split; [exact C1|]. split; [exact C2|]. intros j s' Hj Es. apply (C3 (S j) s'); [lia|exact Es].
Qed.

(** The orientation a segment starts with: its predecessor's, or its own for the first one. *)
Definition start_rotation {N} (segs : list (seg N)) (i : nat) (s : seg N) : option (quat N) :=
  match i with O => end_rotation s | S k => match nth_error segs k with Some s' => end_rotation s' | None => None end end.

Lemma get_quaternion_R (sp : scan_path RNum) (t : R) last i s p0 (t0 : R) q0 q1 :
  sp_old sp = 0%nat -> sp_five_axis sp = true -> last_segment (sp_segs sp) last -> t <= (end_time last : R) ->
  current (sp_segs sp) t i s -> segment_start (sp_segs sp) i s p0 t0 ->
  start_rotation (sp_segs sp) i s = Some q0 -> end_rotation s = Some q1 ->
  unit_q q0 -> unit_q q1 -> / 1000000000000 <= (end_time s : R) - t0 ->
  (q1 = q0 -> get_quaternion qpow sp t = Ok (Some q0)) /\
  (q1 = neg_q q0 -> q1 <> q0 -> get_quaternion qpow sp t = Ok None) /\
  (q1 <> q0 -> q1 <> neg_q q0 ->
   exists u th, unit_v u /\ 0 < th <= PI / 2 /\
     (qmul (about u th) q0 = q1 \/ qmul (about u th) q0 = neg_q q1) /\
     get_quaternion qpow sp t = Ok (Some (qmul (about u ((t - t0) / (end_time s - t0) * th)) q0))).
Proof.
  intros O FA L TL C SS R0 R1 U0 U1 D.
  assert (G : get_quaternion qpow sp t =
    if qeqb (N := RNum) q0 q1 then Ok (Some q0) else
      let q1' := if nltb RNum (qdot q0 q1) (nofZ RNum 0) then qscale q1 (nopp RNum (nofZ RNum 1)) else q1 in
      match qpow (qdiv q1' q0) ((t - t0) / (end_time s - t0)) with
      | Some q => Ok (Some (qmul q q0)) | None => Ok None end).
  { unfold get_quaternion. rewrite FA, (back_of_last _ _ L). cbn [negb bind].
    assert (Q : nltb RNum (end_time last) t = false) by (apply Rltb_false; exact TL). rewrite Q.
    unfold update_current_segment_info. rewrite O. simpl skipn. rewrite (current_advance (N := RNum) _ t 0 i s C). cbn [bind].
    simpl plus. destruct C as [C1 C23].
    assert (D' : nltb RNum (nsub RNum (end_time s) t0) (ndiv RNum (nofZ RNum 1) (nofZ RNum 1000000000000)) = false).
    { apply Rltb_false. simpl. unfold Rdiv. rewrite Rmult_1_l. exact D. }
    destruct i as [|k].
    - simpl in SS, R0. destruct SS as [-> ->]. unfold at_. rewrite C1. cbn [bind]. rewrite C1. cbn [bind].
      rewrite R0 in *. injection R1 as <-.
      rewrite (proj2 (qeqb_R q0 q0) eq_refl). reflexivity.
    - simpl in R0. destruct SS as [s' [E' [-> ->]]]. rewrite E' in R0. unfold at_. rewrite E'. cbn [bind]. rewrite C1. cbn [bind].
      rewrite R0, R1. destruct (qeqb q0 q1); [reflexivity|]. rewrite D'. reflexivity. }
  rewrite G. clear G. split; [|split].
  - intros ->. rewrite (proj2 (qeqb_R q0 q0) eq_refl). reflexivity.
  - intros E NE. destruct (qeqb q0 q1) eqn:EQ; [apply qeqb_R in EQ; congruence|].
    subst q1. cbv zeta.
    assert (ND : nltb RNum (qdot q0 (neg_q q0)) (nofZ RNum 0) = true).
    { apply Rltb_true. destruct q0 as [r i0 j k]. unfold unit_q, qdot, neg_q in *; simpl in *. lra. }
    rewrite ND. rewrite qpow_real; [reflexivity| | |];
      destruct q0 as [r i0 j k]; unfold qdiv, qmul, qscale, neg_q; simpl; ring.
  - intros NE NN. destruct (qeqb q0 q1) eqn:EQ; [apply qeqb_R in EQ; congruence|]. cbv zeta.
    set (q1' := if nltb RNum (qdot q0 q1) (nofZ RNum 0) then qscale q1 (nopp RNum (nofZ RNum 1)) else q1).
    assert (S1 : (q1' = q1 \/ q1' = neg_q q1) /\ 0 <= qr (qdiv q1' q0)).
    { unfold q1'. destruct (nltb RNum (qdot q0 q1) (nofZ RNum 0)) eqn:ED.
      - apply Rltb_true in ED. split; [right|].
        + destruct q1 as [r i0 j k]. unfold qscale, neg_q; simpl. f_equal; ring.
        + destruct q0 as [r i0 j k], q1 as [r' i' j' k']. unfold qdiv, qmul, qscale, qdot in *; simpl in *. lra.
      - apply Rltb_false in ED. split; [left; reflexivity|].
        destruct q0 as [r i0 j k], q1 as [r' i' j' k']. unfold qdiv, qmul, qdot in *; simpl in *. lra. }
    destruct S1 as [S1 S2].
    assert (U1' : unit_q q1').
    { destruct S1 as [-> | ->]; [exact U1|]. clear - U1. dq. rewrite <- U1. ring. }
    destruct (qpow_about (qdiv q1' q0) (div_unit _ _ U1' U0)) as [u [th [Uu [Hth [Hq [Eq Ep]]]]]].
    { intros [A [B E]]. destruct (div_real _ _ U1' U0 A B E) as [E'|E'].
      - destruct S1 as [S1|S1]; [congruence|]. apply NN. rewrite <- E', S1. clear. dq. f_equal; ring.
      - destruct S1 as [S1|S1]; [congruence|]. apply NE.
        rewrite E' in S1. clear - S1. dq. injection S1 as A B C D. f_equal; lra. }
    exists u, th. split; [exact Uu|]. split; [lra|]. split.
    + rewrite <- Eq, div_mul by exact U0. exact S1.
    + rewrite Ep. reflexivity.
Qed.

Lemma quaternion_rotates_ends (sp : scan_path RNum) (t : R) last i s p0 (t0 : R) q0 q1 :
  sp_old sp = 0%nat -> sp_five_axis sp = true -> last_segment (sp_segs sp) last -> t <= (end_time last : R) ->
  current (sp_segs sp) t i s -> segment_start (sp_segs sp) i s p0 t0 ->
  start_rotation (sp_segs sp) i s = Some q0 -> end_rotation s = Some q1 ->
  unit_q q0 -> unit_q q1 -> / 1000000000000 <= (end_time s : R) - t0 -> q1 <> neg_q q0 ->
  exists q, get_quaternion qpow sp t = Ok (Some q) /\ unit_q q /\
    (t = t0 -> q = q0) /\ (t = end_time s -> forall p, rotate q p = rotate q1 p).
Proof.
  intros O FA L TL C SS R0 R1 U0 U1 D NN.
  destruct (get_quaternion_R sp t last i s p0 t0 q0 q1 O FA L TL C SS R0 R1 U0 U1 D) as [A [_ B]].
  assert (DEC : q1 = q0 \/ q1 <> q0).
  { destruct (qeqb (N := RNum) q1 q0) eqn:E; [left; apply qeqb_R; exact E|right].
    intros ->. rewrite (proj2 (qeqb_R q0 q0) eq_refl) in E. discriminate. }
  destruct DEC as [->|NE].
  - exists q0. rewrite (A eq_refl). auto.
  - destruct (B NE NN) as [u [th [Uu [Hth [HE G]]]]].
    eexists. split; [exact G|]. split; [apply mul_unit; [apply about_unit, Uu|exact U0]|].
    assert (0 < / 1000000000000) by (apply Rinv_0_lt_compat; lra).
    split.
    + intros ->. replace ((t0 - t0) / (end_time s - t0) * th) with 0 by (field; simpl in *; lra).
      unfold about. rewrite cos_0, sin_0. destruct q0 as [r x y z]; unfold qmul; simpl; f_equal; ring.
    + intros -> p. replace ((end_time s - t0) / (end_time s - t0) * th) with th by (field; simpl in *; lra).
      destruct HE as [-> | ->]; [reflexivity|]. apply rotate_neg.
Qed.

Lemma rotate_axis u a : unit_v u -> rotate (about u a) u = u.
Proof.
  intros H. assert (U := about_unit u a H). destruct u as [x y z]. unfold unit_v, dot3 in H; simpl in H.
  unfold about in *. simpl in *. unfold unit_q in U; simpl in U. rewrite rotate_hom by exact U.
  assert (C := sin2_cos2 a). unfold Rsqr in C. set (c := cos a) in *. set (s := sin a) in *.
  f_equal; match goal with |- _ = ?w => transitivity ((c * c + s * s * (x * x + y * y + z * z)) * w);
    [ring|rewrite H; replace (c * c + s * s * 1) with 1 by lra; ring] end.
Qed.

Lemma quarter_turn (p : pt RNum) :
  rotate (mkq (N := RNum) (sqrt 2 / 2) 0 0 (sqrt 2 / 2)) p = mkpt (N := RNum) (- py p) (px p) (pz p).
Proof.
  destruct p as [x y z]. assert (H : sqrt 2 * sqrt 2 = 2) by (apply sqrt_sqrt; lra).
  unfold rotate; simpl. set (r := sqrt 2 / 2).
  assert (E : r * r = / 2) by (unfold r; replace (sqrt 2 / 2 * (sqrt 2 / 2)) with (sqrt 2 * sqrt 2 / 4) by field; lra).
  f_equal.
  - replace (1 - 2 * (0 * 0 + r * r)) with 0 by lra. replace (2 * (0 * 0 - r * r)) with (-1) by lra. ring.
  - replace (1 - 2 * (0 * 0 + r * r)) with 0 by lra. replace (2 * (0 * 0 + r * r)) with 1 by lra. ring.
  - ring.
Qed.

Lemma opposite_nan (t : R) : 1 < t <= 2 ->
  get_quaternion qpow (mkSP (N := RNum) false true 1 1 FEventSeries
    [mkseg (N := RNum) 1 0 (mkpt (N := RNum) 0 0 0) (Some (mkq (N := RNum) 1 0 0 0));
     mkseg (N := RNum) 2 1 (mkpt (N := RNum) 1 0 0) (Some (mkq (N := RNum) (-1) 0 0 0))] 0) t = Ok None /\
  forall p, rotate (mkq (N := RNum) 1 0 0 0) p = rotate (mkq (N := RNum) (-1) 0 0 0) p.
Proof.
  intros Ht. split; [|intros [x y z]; unfold rotate; simpl; f_equal; ring].
  match goal with |- get_quaternion _ ?spx _ = _ => set (sp := spx) end.
  set (s2 := mkseg (N := RNum) 2 1 (mkpt (N := RNum) 1 0 0) (Some (mkq (N := RNum) (-1) 0 0 0))).
  destruct (get_quaternion_R sp t s2 1 s2 (mkpt (N := RNum) 0 0 0) 1 (mkq (N := RNum) 1 0 0 0) (mkq (N := RNum) (-1) 0 0 0))
    as [_ [B _]]; try reflexivity.
  - exists [mkseg (N := RNum) 1 0 (mkpt (N := RNum) 0 0 0) (Some (mkq (N := RNum) 1 0 0 0))]. reflexivity.
  - simpl. lra.
  - split; [reflexivity|]. split; [simpl; apply Rltb_false; lra|].
    intros [|j] s' Hj E; [|lia]. injection E as <-. simpl. apply Rltb_true. lra.
  - eexists. split; [reflexivity|]. split; reflexivity.
  - unfold unit_q; simpl; ring.
  - unfold unit_q; simpl; ring.
  - simpl. lra.
  - apply B.
    + unfold neg_q; simpl. f_equal; ring.
    + intros H. injection H as H. lra.
Qed.

Lemma without_rotations (N : Num) pow (sp : scan_path N) (t : N) : sp_five_axis sp = false -> get_quaternion pow sp t = Ok (Some (mkq (nofZ N 1) (nofZ N 0) (nofZ N 0) (nofZ N 0))).
Proof. intros H. unfold get_quaternion. rewrite H. reflexivity. Qed.
