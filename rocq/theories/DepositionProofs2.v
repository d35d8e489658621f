(** DepositionProofs2.v -- deposition along the scan path (C13), over the reals. *)
From Coq Require Import Reals ZArith Bool List String Sorted Permutation Lra Lia.
From Verif Require Import Base BaseFacts QuaternionModel ScanPathModel ScanPathSpec ScanPathProofs DepositionModel DepositionSpec DepositionProofs.
Import ListNotations.
Local Open Scope R_scope.

Definition e10 : R := / 10000000000.
Lemma eps10_R : (eps10 : RNum) = e10.
Proof. unfold eps10, e10; simpl. lra. Qed.
Lemma e10_pos : 0 < e10.
Proof. unfold e10. lra. Qed.

Lemma nabs_R (x : R) : @nabs RNum x = Rabs x.
Proof. unfold nabs; simpl. unfold Rabs. rcase; destruct (Rcase_abs x); lra. Qed.
Lemma nmaxi_R (x y : R) : @nmaxi RNum x y = Rmax x y.
Proof. unfold nmaxi; simpl. unfold Rmax. rcase; destruct (Rle_dec x y); lra. Qed.
Lemma nmin_R (x y : R) : @nmin RNum x y = Rmin x y.
Proof. unfold nmin; simpl. unfold Rmin. rcase; destruct (Rle_dec x y); lra. Qed.

(** Position at arc length [x] from [A] in the unit direction (c,s,0). *)
Definition along (A : pt RNum) (c s x : R) : pt RNum := mkpt (N := RNum) (px A + c * x) (py A + s * x) (pz A).
Lemma along_dist A c s x : c * c + s * s = 1 -> 0 <= x -> pdist (along A c s x) A = x.
Proof.
  intros U X. unfold pdist, pnorm, pdot, psub, along. simpl.
  replace ((px A + c * x - px A) * (px A + c * x - px A) + (py A + s * x - py A) * (py A + s * x - py A) + (pz A - pz A) * (pz A - pz A))
    with (x * x * (c * c + s * s)) by ring. rewrite U, Rmult_1_r. apply sqrt_square, X.
Qed.

(** The box of a row at arc length [x] with box length [w]. *)
Definition flat_box (dim3 : bool) (dp : dep_params RNum) (c s w : R) (m : pt RNum) : pt RNum * pt RNum :=
  if dim3 then
    (mkpt (N := RNum) (px m - 1 / 2 * (Rabs c * w + Rabs s * dp_width dp)) (py m - 1 / 2 * (Rabs c * dp_width dp + Rabs s * w)) (pz m - dp_height dp),
     mkpt (N := RNum) (px m + 1 / 2 * (Rabs c * w + Rabs s * dp_width dp)) (py m + 1 / 2 * (Rabs c * dp_width dp + Rabs s * w)) (pz m))
  else
    (mkpt (N := RNum) (px m - 1 / 2 * w) (py m - dp_height dp) 0, mkpt (N := RNum) (px m + 1 / 2 * w) (py m) 0).
Lemma make_flat_box dim3 dp (c s w : R) m : make_box (N := RNum) dim3 dp None c s w m = Ok (flat_box dim3 dp c s w m).
Proof. unfold make_box, flat_box. cbv zeta. rewrite !nabs_R. destruct dim3; reflexivity. Qed.

Definition time_at (v x : R) : R := if Req_EM_T v 0 then 0 else x / v.
Lemma time_at_mono v x y : 0 <= v -> x <= y -> time_at v x <= time_at v y.
Proof.
  intros V H. unfold time_at. destruct (Req_EM_T v 0); [lra|]. assert (0 < v) by lra. unfold Rdiv. apply Rmult_le_compat_r; [|exact H].
  apply Rlt_le, Rinv_0_lt_compat, H0.
Qed.

Section Leg.
  Variables (dim3 : bool) (dp : dep_params RNum) (cx : seg_ctx RNum).
  Let A := c_start cx.
  Let c : R := c_cos cx.
  Let s : R := c_sin cx.
  Let L : R := c_len cx.
  Let len : R := dp_length dp.
  Hypothesis Hrot : c_rot cx = None.
  Hypothesis Hunit : c * c + s * s = 1.
  Hypothesis HL : 0 <= L.
  Hypothesis Hvel : 0 <= (c_vel cx : R).
  Hypothesis Hlen : 2 * e10 <= len.
  Hypothesis Hw : 0 <= (dp_width dp : R).
  Hypothesis Hh : 0 <= (dp_height dp : R).
  Hypothesis H2d : dim3 = false -> s = 0.

  Definition row_at (x w : R) : row RNum :=
    mkrow (N := RNum) (flat_box dim3 dp c s w (along A c s x)) (Rmax (c_t0 cx + time_at (c_vel cx) x - dp_lead dp) e10) c s.

  Lemma step (x w : R) fuel r : 0 <= x ->
    segment_loop (S fuel) dim3 dp cx (along A c s x) w r =
    let r' := dep_app r [row_at x w] in
    if Rlt_dec L (x + e10) then Ok (Some r')
    else if Rlt_dec L (x + len) then segment_loop fuel dim3 dp cx (along A c s L) (L - x) r'
    else segment_loop fuel dim3 dp cx (along A c s (x + len)) w r'.
  Proof.
    intros X. cbn [segment_loop]. cbv zeta. rewrite Hrot. rewrite make_flat_box. cbn [bind].
    fold A. rewrite (along_dist A c s x Hunit X). rewrite nmaxi_R, eps10_R. rewrite dep_push_app.
    assert (ET : (if neqb RNum (c_vel cx) (nofZ RNum 0) then nofZ RNum 0 else (x / c_vel cx)) = time_at (c_vel cx) x).
    { simpl. unfold time_at. destruct (Reqb_spec (c_vel cx) 0); destruct (Req_EM_T (c_vel cx) 0); try contradiction; reflexivity. }
    change (ndiv RNum x (c_vel cx)) with (x / c_vel cx). rewrite ET. fold L. fold len. fold c. fold s.
    change (mkrow _ _ _ _) with (row_at x w). 
    change (nltb RNum L (nadd RNum x e10)) with (Rltb L (x + e10)). change (nltb RNum L (nadd RNum x len)) with (Rltb L (x + len)).
    unfold Rltb. destruct (Rlt_dec L (x + e10)); [reflexivity|]. destruct (Rlt_dec L (x + len)).
    - f_equal. unfold next_center, along. rewrite Hrot. simpl. fold c. fold s. f_equal; ring.
    - f_equal. unfold next_center, along. rewrite Hrot. simpl. fold c. fold s. f_equal; ring.
  Qed.

  (** Along a stretch the row covers the points within half its length. *)
  Lemma covers x w y : Rabs (y - x) <= w / 2 -> in_dep_box dim3 (flat_box dim3 dp c s w (along A c s x)) (along A c s y).
  Proof.
    intros H. assert (W : 0 <= w) by (assert (Q := Rabs_pos (y - x)); lra).
    assert (C1 : Rabs c <= 1).
    { rewrite <- (Rabs_pos_eq 1) by lra. apply Rsqr_le_abs_0. unfold Rsqr. nra. }
    assert (K : forall k, Rabs (k * (y - x)) <= Rabs k * (w / 2)).
    { intros k. rewrite Rabs_mult. apply Rmult_le_compat_l; [apply Rabs_pos|exact H]. }
    assert (Kc := K c). assert (Ks := K s). assert (Pc := Rabs_pos c). assert (Ps := Rabs_pos s).
    assert (Q1 : 0 <= Rabs c * dp_width dp) by (apply Rmult_le_pos; assumption).
    assert (Q2 : 0 <= Rabs s * dp_width dp) by (apply Rmult_le_pos; assumption).
    assert (E1 : - (Rabs c * (w / 2)) <= c * (y - x) <= Rabs c * (w / 2)).
    { unfold Rabs in Kc at 1. destruct (Rcase_abs (c * (y - x))); lra. }
    assert (E2 : - (Rabs s * (w / 2)) <= s * (y - x) <= Rabs s * (w / 2)).
    { unfold Rabs in Ks at 1. destruct (Rcase_abs (s * (y - x))); lra. }
    unfold in_dep_box, flat_box, along. destruct dim3 eqn:D3; simpl.
    - repeat split; intros; try lra.
    - assert (S0 := H2d eq_refl). rewrite S0. repeat split; intros; try discriminate; try lra.
      + assert (Rabs c * (w / 2) <= 1 * (w / 2)) by (apply Rmult_le_compat_r; lra). lra.
      + assert (Rabs c * (w / 2) <= 1 * (w / 2)) by (apply Rmult_le_compat_r; lra). lra.
  Qed.

  Definition good_rows (x w : R) (rows : list (row RNum)) : Prop :=
    (forall r, In r rows -> exists y v, x <= y <= L /\ 0 <= v <= len /\ r = row_at y v) /\
    StronglySorted Rle (map (fun r : row RNum => (r_time r : R)) rows) /\
    (forall y, x - w / 2 <= y <= L -> exists r, In r rows /\ in_dep_box dim3 (r_box r) (along A c s y)).

  Lemma leg_loop n : forall x w, 0 <= x <= L -> L - x < INR n * len -> (w = len \/ (x = L /\ 0 <= w <= len)) ->
    exists rows, (forall fuel r, (S n <= fuel)%nat -> segment_loop fuel dim3 dp cx (along A c s x) w r = Ok (Some (dep_app r rows))) /\
      good_rows x w rows.
  Proof.
    assert (E0 := e10_pos).
    assert (Last : forall x w, 0 <= x <= L -> L < x + e10 -> (w = len \/ (x = L /\ 0 <= w <= len)) ->
      exists rows, (forall fuel r, (1 <= fuel)%nat -> segment_loop fuel dim3 dp cx (along A c s x) w r = Ok (Some (dep_app r rows))) /\ good_rows x w rows).
    { intros x w X HE W. exists [row_at x w]. split.
      - intros [|fuel] r HF; [lia|]. rewrite step by lra. cbv zeta. destruct (Rlt_dec L (x + e10)); [reflexivity|contradiction].
      - split; [|split].
        + intros r [<-|[]]. exists x, w. split; [lra|]. split; [destruct W as [-> | [_ W]]; lra|reflexivity].
        + simpl. repeat constructor.
        + intros y Y. exists (row_at x w). split; [left; reflexivity|]. apply covers. unfold Rabs. destruct (Rcase_abs (y - x)); [lra|].
          destruct W as [-> | [-> W]]; lra. }
    induction n as [|n IH]; intros x w X HN W; [simpl in HN; lra|].
    destruct (Rlt_dec L (x + e10)) as [HE|HE].
    { destruct (Last x w X HE W) as [rows [R1 R2]]. exists rows. split; [|exact R2]. intros fuel r HF. apply R1. lia. }
    assert (W' : w = len) by (destruct W as [W|[W _]]; [exact W|lra]). subst w.
    assert (Mono : forall y, x <= y -> forall v v', (r_time (row_at x v) : R) <= r_time (row_at y v')).
    { intros y Y v v'. simpl. apply Rle_max_compat_r. assert (Q := time_at_mono (c_vel cx) x y Hvel Y). lra. }
    destruct (Rlt_dec L (x + len)) as [HE2|HE2].
    - destruct (Last L (L - x)) as [rows [R1 [R2 [R3 R4]]]]; [lra|lra|right; lra|].
      exists (row_at x len :: rows). split; [|split; [|split]].
      + intros [|fuel] r HF; [lia|]. rewrite step by lra. cbv zeta. destruct (Rlt_dec L (x + e10)); [contradiction|]. destruct (Rlt_dec L (x + len)); [|contradiction].
        rewrite R1 by lia. rewrite dep_app_app. reflexivity.
      + intros r [<-|Hr]; [exists x, len; split; [lra|]; split; [lra|reflexivity]|].
        destruct (R2 r Hr) as (y & v & Y & V & ->). exists y, v. split; [lra|]. split; [lra|reflexivity].
      + simpl. constructor; [exact R3|]. apply Forall_forall. intros t Ht. apply in_map_iff in Ht. destruct Ht as (r & <- & Hr).
        destruct (R2 r Hr) as (y & v & Y & V & ->). apply (Mono y) with (v := len) (v' := v); lra.
      + intros y Y. destruct (Rle_dec y (x + (L - x) / 2)).
        * exists (row_at x len). split; [left; reflexivity|]. apply covers. unfold Rabs. destruct (Rcase_abs (y - x)); lra.
        * destruct (R4 y) as (r & Hr & HB); [lra|]. exists r. split; [right; exact Hr|exact HB].
    - destruct (IH (x + len) len) as [rows [R1 [R2 [R3 R4]]]]; [lra| |left; reflexivity|].
      { rewrite S_INR in HN. lra. }
      exists (row_at x len :: rows). split; [|split; [|split]].
      + intros [|fuel] r HF; [lia|]. rewrite step by lra. cbv zeta. destruct (Rlt_dec L (x + e10)); [contradiction|]. destruct (Rlt_dec L (x + len)); [contradiction|].
        rewrite R1 by lia. rewrite dep_app_app. reflexivity.
      + intros r [<-|Hr]; [exists x, len; split; [lra|]; split; [lra|reflexivity]|].
        destruct (R2 r Hr) as (y & v & Y & V & ->). exists y, v. split; [lra|]. split; [lra|reflexivity].
      + simpl. constructor; [exact R3|]. apply Forall_forall. intros t Ht. apply in_map_iff in Ht. destruct Ht as (r & <- & Hr).
        destruct (R2 r Hr) as (y & v & Y & V & ->). apply (Mono y) with (v := len) (v' := v); lra.
      + intros y Y. destruct (Rle_dec y (x + len / 2)).
        * exists (row_at x len). split; [left; reflexivity|]. apply covers. unfold Rabs. destruct (Rcase_abs (y - x)); lra.
        * destruct (R4 y) as (r & Hr & HB); [lra|]. exists r. split; [right; exact Hr|exact HB].
  Qed.

  Lemma leg_terminates : exists n rows, (forall fuel r, (n <= fuel)%nat -> segment_loop fuel dim3 dp cx A len r = Ok (Some (dep_app r rows))) /\
    good_rows 0 len rows.
  Proof.
    assert (E0 := e10_pos). assert (U : exists n, L / len < INR n).
    { exists (Z.to_nat (up (L / len))). destruct (archimed (L / len)) as [U _]. assert (0 <= L / len) by (apply Rmult_le_pos; [exact HL|apply Rlt_le, Rinv_0_lt_compat; lra]).
      rewrite INR_IZR_INZ, Z2Nat.id; [exact U|]. apply le_IZR. simpl. lra. }
    destruct U as [n Hn].
    destruct (leg_loop n 0 len) as [rows [R1 R2]]; [lra| |left; reflexivity|].
    - apply (Rmult_lt_compat_r len) in Hn; [|lra]. unfold Rdiv in Hn. rewrite Rmult_assoc, Rinv_l in Hn by lra. lra.
    - exists (S n), rows. split; [|exact R2]. intros fuel r HF.
      assert (EA : along A c s 0 = A) by (unfold along; destruct A; simpl; f_equal; ring). rewrite EA in R1. apply R1, HF.
  Qed.
End Leg.

(** ** From one leg to the whole path *)
Lemma dist_flat (p q : pt RNum) : (pdist q p : R) * pdist q p = (px q - px p) * (px q - px p) + (py q - py p) * (py q - py p) + (pz q - pz p) * (pz q - pz p).
Proof. unfold pdist, pnorm, pdot, psub. simpl. apply sqrt_sqrt. assert (A := Rle_0_sqr (px q - px p)). assert (B := Rle_0_sqr (py q - py p)). assert (C := Rle_0_sqr (pz q - pz p)). unfold Rsqr in *. simpl in *. lra. Qed.
Lemma dist_nonneg (p q : pt RNum) : 0 <= (pdist q p : R).
Proof. unfold pdist, pnorm. apply sqrt_pos. Qed.
Lemma dist_zero (p q : pt RNum) : (pdist q p : R) = 0 -> q = p.
Proof.
  intros H. assert (D := dist_flat p q). rewrite H in D.
  assert (A := Rle_0_sqr (px q - px p)). assert (B := Rle_0_sqr (py q - py p)). assert (C := Rle_0_sqr (pz q - pz p)). unfold Rsqr in *. simpl in *.
  assert (X : px q - px p = 0) by (apply Rsqr_0_uniq; unfold Rsqr; lra).
  assert (Y : py q - py p = 0) by (apply Rsqr_0_uniq; unfold Rsqr; lra).
  assert (Z : pz q - pz p = 0) by (apply Rsqr_0_uniq; unfold Rsqr; lra).
  destruct p, q; simpl in *. f_equal; lra.
Qed.

Lemma one_leg dim3 dp p t sg : dp_ok dp -> flat_leg dim3 (p, t, sg) ->
  exists n rows, (forall fuel r, (n <= fuel)%nat ->
      segment_loop fuel dim3 dp (make_ctx false p p t sg) p (dp_length dp) r = Ok (Some (dep_app r rows))) /\
    (forall r, In r rows -> row_on_leg dim3 dp (p, t, sg) r) /\
    StronglySorted Rle (map (fun r : row RNum => (r_time r : R)) rows) /\
    (forall u, 0 <= u <= 1 -> exists r, In r rows /\ in_dep_box dim3 (r_box r) (between u p (end_point sg))).
Proof.
  intros (D1 & D2 & D3) (T & F3 & F2 & HR).
  set (L := pdist (end_point sg) p : R).
  assert (LN : 0 <= L) by apply dist_nonneg.
  assert (LL := dist_flat p (end_point sg)). fold L in LL.
  assert (HZ : (pz p : R) = pz (end_point sg)) by (destruct dim3; [apply F3|apply F2]; reflexivity).
  set (c := if Req_EM_T L 0 then 1 else (px (end_point sg) - px p) / L).
  set (s := if Req_EM_T L 0 then 0 else (py (end_point sg) - py p) / L).
  set (T' := end_time sg - t) in *. assert (TP : 0 < T') by (unfold T'; simpl in *; lra).
  assert (EC : make_ctx false p p t sg = mkctx (N := RNum) None p (end_point sg) L (L / T') t c s).
  { unfold make_ctx. rewrite HR. cbv zeta. change (pdist (end_point sg) p) with L. unfold c, s, T'.
    f_equal; change (neqb RNum L (nofZ RNum 0)) with (Reqb L 0); unfold Reqb; destruct (Req_EM_T L 0); reflexivity. }
  assert (CL : c * L = px (end_point sg) - px p /\ s * L = py (end_point sg) - py p /\ c * c + s * s = 1).
  { unfold c, s. destruct (Req_EM_T L 0) as [E|E].
    - assert (Q := dist_zero p (end_point sg) E). rewrite Q. split; [|split]; simpl in *; lra.
    - split; [field; exact E|]. split; [field; exact E|].
      replace ((px (end_point sg) - px p) / L * ((px (end_point sg) - px p) / L) + (py (end_point sg) - py p) / L * ((py (end_point sg) - py p) / L))
        with (((px (end_point sg) - px p) * (px (end_point sg) - px p) + (py (end_point sg) - py p) * (py (end_point sg) - py p)) / (L * L)) by (field; exact E).
      replace ((px (end_point sg) - px p) * (px (end_point sg) - px p) + (py (end_point sg) - py p) * (py (end_point sg) - py p)) with (L * L).
      + field. exact E.
      + rewrite HZ in LL. simpl in LL |- *. lra. }
  destruct CL as (CX & SY & CS).
  assert (AB : forall u, along p c s (u * L) = between u p (end_point sg)).
  { intros u. unfold along, between. f_equal; simpl in *; match goal with |- @eq _ ?a ?b => change (@eq R a b) end.
    - replace (c * (u * L)) with (u * (c * L)) by ring. rewrite CX. ring.
    - replace (s * (u * L)) with (u * (s * L)) by ring. rewrite SY. ring.
    - rewrite <- HZ. simpl in *. lra. }
  assert (TT : forall y, 0 <= y <= L -> exists u, 0 <= u <= 1 /\ y = u * L /\ time_at (L / T') y = u * T').
  { intros y Y. destruct (Req_EM_T L 0) as [E|E].
    - exists 0. split; [lra|]. split; [lra|]. unfold time_at. rewrite E. destruct (Req_EM_T (0 / T') 0); unfold Rdiv in *; lra.
    - assert (LP : 0 < L) by lra. exists (y / L). split.
      + split; [apply Rmult_le_pos; [lra|apply Rlt_le, Rinv_0_lt_compat, LP]|]. apply (Rmult_le_reg_r L); [exact LP|]. unfold Rdiv. rewrite Rmult_assoc, Rinv_l by lra. lra.
      + split; [field; exact E|]. unfold time_at. destruct (Req_EM_T (L / T') 0) as [Z|Z].
        * exfalso. assert (0 < L / T') by (apply Rdiv_lt_0_compat; assumption). lra.
        * field. split; lra. }
  destruct (leg_terminates dim3 dp (mkctx (N := RNum) None p (end_point sg) L (L / T') t c s)) as (n & rows & R1 & R2 & R3 & R4); simpl; try assumption; try reflexivity.
  { apply Rmult_le_pos; [exact LN|]. apply Rlt_le, Rinv_0_lt_compat, TP. }
  { intros E. destruct (F2 E) as [HY _]. unfold s. destruct (Req_EM_T L 0); [reflexivity|]. simpl in HY |- *. rewrite HY. unfold Rdiv. ring. }
  exists n, rows. rewrite EC. split; [exact R1|]. split; [|split].
  - intros r Hr. destruct (R2 r Hr) as (y & v & Y & V & ->). simpl in Y, V. destruct (TT y Y) as (u & U & EY & ET).
    exists u, v. split; [exact U|]. split; [exact V|]. split; [|split].
    + simpl. rewrite ET. fold T'. reflexivity.
    + simpl. split.
      * intros E. unfold c, s. assert (L = 0). { unfold L. rewrite E. unfold pdist, pnorm, pdot, psub. simpl. rewrite !Rminus_eq_0, Rmult_0_l, !Rplus_0_r. apply sqrt_0. }
        destruct (Req_EM_T L 0); [split; reflexivity|contradiction].
      * intros NE. exists L. split; [destruct (Req_EM_T L 0) as [E|E]; [exfalso; apply NE, dist_zero, E|lra]|]. split; [exact LL|]. split; [exact CX|exact SY].
    + simpl. rewrite EY, AB. unfold box_around, flat_box. destruct dim3; simpl; repeat split; lra.
  - exact R3.
  - intros u U. rewrite <- AB. apply R4. simpl. assert (0 <= dp_length dp / 2) by (assert (Q := e10_pos); unfold e10 in Q; simpl in *; lra). simpl in *. split; [assert (0 <= u * L) by (apply Rmult_le_pos; lra)|]; [lra|].
    rewrite <- (Rmult_1_l L) at 2. apply Rmult_le_compat_r; lra.
Qed.

Lemma leg_time_bounds (dp : dep_params RNum) (p : pt RNum) t (sg : seg RNum) u : t <= (end_time sg : R) -> 0 <= u <= 1 ->
  Rmax (t - dp_lead dp) e10 <= leg_time dp (p, t, sg) u <= Rmax (end_time sg - dp_lead dp) e10.
Proof.
  intros T U. unfold leg_time. fold e10. split; apply Rle_max_compat_r.
  - assert (0 <= u * (end_time sg - t)) by (apply Rmult_le_pos; simpl in *; lra). simpl in *; lra.
  - assert (u * (end_time sg - t) <= 1 * (end_time sg - t)) by (apply Rmult_le_compat_r; simpl in *; lra). simpl in *; lra.
Qed.

Lemma whole_path dim3 dp segs : dp_ok dp -> forall p t, path_ok dim3 (legs_from p t segs) ->
  exists n rows, (forall fuel r, (n <= fuel)%nat -> segments_loop fuel dim3 false dp p p t segs r = Ok (Some (dep_app r rows))) /\
    (forall r, In r rows -> exists leg, In leg (legs_from p t segs) /\ powered (snd leg) /\ row_on_leg dim3 dp leg r) /\
    (forall leg, In leg (legs_from p t segs) -> powered (snd leg) -> forall u, 0 <= u <= 1 ->
       exists r, In r rows /\ row_on_leg dim3 dp leg r /\ in_dep_box dim3 (r_box r) (between u (fst (fst leg)) (end_point (snd leg)))) /\
    StronglySorted Rle (map (fun r : row RNum => (r_time r : R)) rows) /\
    (forall r, In r rows -> Rmax (t - dp_lead dp) e10 <= (r_time r : R)).
Proof.
  intros D. induction segs as [|s segs IH]; intros p t PK.
  - exists 0%nat, []. split; [intros fuel r _; simpl; rewrite dep_app_nil; reflexivity|]. simpl. repeat split; try contradiction. constructor.
  - simpl in PK. unfold path_ok in PK. apply Forall_cons_iff in PK. destruct PK as [PK0 PK']. destruct PK0 as (HT & HR & HF). destruct (IH _ _ PK') as (n & rows & R1 & R2 & R3 & R4 & R5).
    assert (BP : build_point s = end_point s) by (unfold build_point; rewrite HR; reflexivity).
    assert (Later : forall x, x <= Rmax (end_time s - dp_lead dp) e10 -> Forall (Rle x) (map (fun r : row RNum => (r_time r : R)) rows)).
    { intros x Hx. apply Forall_forall. intros y Hy. apply in_map_iff in Hy. destruct Hy as (r & <- & Hr). apply Rle_trans with (1 := Hx), R5, Hr. }
    assert (Step : Rmax (t - dp_lead dp) e10 <= Rmax (end_time s - dp_lead dp) e10) by (apply Rle_max_compat_r; simpl in *; lra).
    destruct (Rlt_dec (/ 10000000000) (power_modifier s)) as [HP|HP].
    + destruct (one_leg dim3 dp p t s D (HF HP)) as (n1 & rows1 & Q1 & Q2 & Q3 & Q4).
      exists (Nat.max n1 n), (rows1 ++ rows).
      assert (B1 : forall r, In r rows1 -> Rmax (t - dp_lead dp) e10 <= (r_time r : R) <= Rmax (end_time s - dp_lead dp) e10).
      { intros r Hr. destruct (Q2 r Hr) as (u & w & U & W & -> & _). apply leg_time_bounds; assumption. }
      split; [|split; [|split; [|split]]].
      * intros fuel r HFu. cbn [segments_loop]. rewrite eps10_R. change (nltb RNum e10 (power_modifier s)) with (Rltb e10 (power_modifier s)).
        destruct (Rltb_spec e10 (power_modifier s)); [|contradiction]. rewrite Q1 by lia. cbn [bind]. rewrite BP, R1 by lia. rewrite dep_app_app. reflexivity.
      * intros r Hr. apply in_app_or in Hr. destruct Hr as [Hr|Hr].
        -- exists (p, t, s). split; [left; reflexivity|]. split; [exact HP|apply Q2, Hr].
        -- destruct (R2 r Hr) as (leg & A & B & C). exists leg. split; [right; exact A|]. split; assumption.
      * intros leg [<-|Hl] HPl u U.
        -- destruct (Q4 u U) as (r & Hr & HB). exists r. split; [apply in_or_app; left; exact Hr|]. split; [apply Q2, Hr|exact HB].
        -- destruct (R3 leg Hl HPl u U) as (r & Hr & A & B). exists r. split; [apply in_or_app; right; exact Hr|]. split; assumption.
      * rewrite map_app. clear - Q3 R4 B1 Later. induction rows1 as [|r1 rows1 IH1]; simpl; [exact R4|].
        simpl in Q3. inversion Q3; subst. constructor; [apply IH1; [assumption|]; intros r Hr; apply B1; right; exact Hr|].
        apply Forall_app. split; [assumption|]. apply Later, B1. left. reflexivity.
      * intros r Hr. apply in_app_or in Hr. destruct Hr as [Hr|Hr]; [apply B1, Hr|]. apply Rle_trans with (1 := Step), R5, Hr.
    + exists n, rows. split; [|split; [|split; [|split]]].
      * intros fuel r HFu. cbn [segments_loop]. rewrite eps10_R. change (nltb RNum e10 (power_modifier s)) with (Rltb e10 (power_modifier s)).
        destruct (Rltb_spec e10 (power_modifier s)); [contradiction|]. cbn [bind]. rewrite BP. apply R1, HFu.
      * intros r Hr. destruct (R2 r Hr) as (leg & A & B & C). exists leg. split; [right; exact A|]. split; assumption.
      * intros leg [<-|Hl] HPl u U; [contradiction|]. apply R3; assumption.
      * exact R4.
      * intros r Hr. apply Rle_trans with (1 := Step), R5, Hr.
Qed.

Lemma deposition_ok dim3 dp segs : dp_ok dp -> segs <> [] -> path_ok dim3 (legs segs) ->
  exists n d rows, (forall fuel, (n <= fuel)%nat -> deposition_along fuel dim3 dp false segs = Ok (Some d)) /\ columns d rows /\
    (forall r, In r rows -> exists leg, In leg (legs segs) /\ powered (snd leg) /\ row_on_leg dim3 dp leg r) /\
    (forall leg, In leg (legs segs) -> powered (snd leg) -> forall u, 0 <= u <= 1 ->
       exists r, In r rows /\ row_on_leg dim3 dp leg r /\ in_dep_box dim3 (r_box r) (between u (fst (fst leg)) (end_point (snd leg)))) /\
    StronglySorted Rle (d_times d) /\ (forall t, In t (d_times d) -> / 10000000000 <= (t : R)).
Proof.
  intros D NE PK. destruct segs as [|s segs]; [contradiction|]. simpl legs in *.
  destruct (whole_path dim3 dp (s :: segs) D (end_point s) 0 PK) as (n & rows & R1 & R2 & R3 & R4 & R5).
  exists n, (dep_app dep_nil rows), rows. split; [|split; [apply dep_nil_app; reflexivity|split; [exact R2|split; [exact R3|split]]]].
  - intros fuel HF. unfold deposition_along. apply R1, HF.
  - exact R4.
  - intros t Ht. simpl in Ht. apply in_map_iff in Ht. destruct Ht as (r & <- & Hr). apply Rle_trans with (2 := R5 r Hr). apply Rmax_r.
Qed.
