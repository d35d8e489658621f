(** DepositionProofs3.v -- C13: inputs on which the deposition loop never ends, and witnesses. *)
From Coq Require Import Reals ZArith QArith Bool List String Sorted Permutation Lra Lia.
From Verif Require Import Base BaseFacts Decimal QuaternionModel ScanPathModel ScanPathSpec ScanPathProofs DepositionModel DepositionSpec DepositionProofs DepositionProofs2.
Import ListNotations.
Local Open Scope R_scope.

Lemma pdist_self (p : pt RNum) : (pdist p p : R) = 0.
Proof. unfold pdist, pnorm, pdot, psub. simpl. rewrite !Rminus_eq_0, Rmult_0_l, !Rplus_0_r. apply sqrt_0. Qed.

(** A center that does not move: the loop never ends. *)
Lemma stuck dim3 (dp : dep_params RNum) (cx : seg_ctx RNum) fuel : c_rot cx = None -> e10 <= (c_len cx : R) ->
  (c_cos cx = 0 /\ c_sin cx = 0 \/ (dp_length dp : R) = 0) ->
  forall nbl r, segment_loop fuel dim3 dp cx (c_start cx) nbl r = Ok None.
Proof.
  intros HR HL HC. induction fuel as [|fuel IH]; intros nbl r; [reflexivity|].
  cbn [segment_loop]. cbv zeta. rewrite HR, make_flat_box. cbn [bind]. rewrite pdist_self, eps10_R.
  change (nltb RNum (c_len cx) (nadd RNum 0 e10)) with (Rltb (c_len cx) (0 + e10)).
  change (nltb RNum (c_len cx) (nadd RNum 0 (dp_length dp))) with (Rltb (c_len cx) (0 + dp_length dp)).
  destruct (Rltb_spec (c_len cx) (0 + e10)); [exfalso; lra|].
  assert (NC : forall x : R, (c_cos cx = 0 /\ c_sin cx = 0 \/ x = 0) -> next_center cx (c_start cx) x = c_start cx).
  { intros x Hx. unfold next_center. rewrite HR. destruct (c_start cx) as [a b z]. simpl.
    destruct Hx as [[-> ->]| ->]; f_equal; simpl; lra. }
  destruct (Rltb_spec (c_len cx) (0 + dp_length dp)).
  - destruct HC as [HC|HC]; [|exfalso; assert (P := e10_pos); simpl in *; lra]. rewrite NC by auto. apply IH.
  - rewrite NC by exact HC. apply IH.
Qed.

Lemma eps_le_1 : e10 <= 1.
Proof. unfold e10. lra. Qed.

(** A vertical powered leg. *)
Lemma vertical_never_ends (dp : dep_params RNum) fuel (p q : pt RNum) (t0 t1 pw : R) :
  (px p : R) = px q -> (py p : R) = py q -> e10 <= Rabs (pz q - pz p) -> / 10000000000 < pw ->
  deposition_along fuel true dp false [mkseg (N := RNum) t0 0 p None; mkseg (N := RNum) t1 pw q None] = Ok None.
Proof.
  intros HX HY HZ HP. unfold deposition_along. cbn [end_rotation end_point]. cbn [segments_loop power_modifier end_time end_point].
  rewrite eps10_R. change (nltb RNum e10 0) with (Rltb e10 0). destruct (Rltb_spec e10 0) as [B|_]; [exfalso; assert (Q := e10_pos); lra|].
  cbn [bind]. change (nltb RNum e10 pw) with (Rltb e10 pw). destruct (Rltb_spec e10 pw) as [_|B]; [|contradiction].
  unfold build_point. cbn [end_rotation end_point].
  set (cx := make_ctx false p p t0 (mkseg (N := RNum) t1 pw q None)).
  assert (L : e10 <= (c_len cx : R)).
  { simpl. change (e10 <= (pdist q p : R)). apply Rle_trans with (1 := HZ).
    assert (D := dist_flat p q). rewrite HX, HY in D. assert (N := dist_nonneg p q).
    rewrite <- (Rabs_pos_eq (pdist q p)) by exact N. apply Rsqr_le_abs_0. unfold Rsqr. rewrite D. simpl. lra. }
  assert (NZ : (pdist q p : R) <> 0) by (change (pdist q p : R) with (c_len cx : R); assert (Q := e10_pos); lra).
  assert (H : c_cos cx = 0 /\ c_sin cx = 0 \/ (dp_length dp : R) = 0); [|assert (H1 := stuck true dp cx fuel eq_refl L H); change (c_start cx) with p in H1; rewrite H1; reflexivity].
  left. unfold cx, make_ctx. cbn [c_cos c_sin end_point]. change (neqb RNum (pdist q p) (nofZ RNum 0)) with (Reqb (pdist q p) 0).
  destruct (Reqb_spec (pdist q p) 0); [contradiction|]. simpl. rewrite HX, HY. split; unfold Rdiv; simpl; rewrite Rminus_eq_0; ring.
Qed.

(** Deposition length 0. *)
Lemma zero_length_never_ends dim3 (dp : dep_params RNum) fuel (p q : pt RNum) (t0 t1 pw : R) :
  (dp_length dp : R) = 0 -> e10 <= (pdist q p : R) -> / 10000000000 < pw ->
  deposition_along fuel dim3 dp false [mkseg (N := RNum) t0 0 p None; mkseg (N := RNum) t1 pw q None] = Ok None.
Proof.
  intros HZ HL HP. unfold deposition_along. cbn [end_rotation end_point]. cbn [segments_loop power_modifier end_time end_point].
  rewrite eps10_R. change (nltb RNum e10 0) with (Rltb e10 0). destruct (Rltb_spec e10 0) as [B|_]; [exfalso; assert (Q := e10_pos); lra|].
  cbn [bind]. change (nltb RNum e10 pw) with (Rltb e10 pw). destruct (Rltb_spec e10 pw) as [_|B]; [|contradiction].
  unfold build_point. cbn [end_rotation end_point].
  set (cx := make_ctx false p p t0 (mkseg (N := RNum) t1 pw q None)).
  assert (H1 := stuck dim3 dp cx fuel eq_refl HL (or_intror HZ)). change (c_start cx) with p in H1. rewrite H1. reflexivity.
Qed.

(** Five-axis: a half turn of the table between two points of the machine frame. *)
Definition osc_segs : list (seg RNum) :=
  [mkseg (N := RNum) 0 0 (mkpt (N := RNum) 5 0 0) (Some (mkq (N := RNum) 1 0 0 0));
   mkseg (N := RNum) 1 1 (mkpt (N := RNum) (-13/2) 0 0) (Some (mkq (N := RNum) 0 0 0 1))].
Definition osc_dp : dep_params RNum := mkdp (N := RNum) 1 1 1 0.

Lemma norm_x (x y z : R) : y = 0 -> z = 0 -> (pnorm (mkpt (N := RNum) x y z) : R) = Rabs x.
Proof. intros -> ->. unfold pnorm, pdot. simpl. rewrite Rmult_0_l, !Rplus_0_r. apply sqrt_Rsqr_abs. Qed.

Lemma osc_loop (dp : dep_params RNum) (cx : seg_ctx RNum) q fuel : c_rot cx = Some q -> (dp_length dp : R) = 1 -> (c_len cx : R) = 23 / 2 ->
  c_start cx = mkpt (N := RNum) 5 0 0 -> c_stop cx = mkpt (N := RNum) (13 / 2) 0 0 ->
  forall x nbl r, x = 5 \/ x = 6 \/ x = 7 -> segment_loop fuel true dp cx (mkpt (N := RNum) x 0 0) nbl r = Ok None.
Proof.
  intros HR HD HL HA HB. induction fuel as [|fuel IH]; intros x nbl r HX; [reflexivity|].
  cbn [segment_loop]. cbv zeta. rewrite HR. unfold make_box. cbn [bind].
  assert (DI : (pdist (mkpt (N := RNum) x 0 0) (c_start cx) : R) = x - 5).
  { rewrite HA. unfold pdist, psub. rewrite norm_x by (simpl; lra). simpl. rewrite Rabs_pos_eq by lra. reflexivity. }
  rewrite DI, HL, HD, eps10_R. assert (E0 := eps_le_1).
  change (nltb RNum (23 / 2) (nadd RNum (x - 5) e10)) with (Rltb (23 / 2) (x - 5 + e10)).
  change (nltb RNum (23 / 2) (nadd RNum (x - 5) 1)) with (Rltb (23 / 2) (x - 5 + 1)).
  destruct (Rltb_spec (23 / 2) (x - 5 + e10)); [exfalso; lra|]. destruct (Rltb_spec (23 / 2) (x - 5 + 1)); [exfalso; lra|].
  assert (NX : next_center cx (mkpt (N := RNum) x 0 0) 1 = mkpt (N := RNum) (x + (13 / 2 - x) / Rabs (13 / 2 - x)) 0 0).
  { unfold next_center. rewrite HR, HB. unfold psub. cbn [px py pz]. rewrite norm_x by (simpl; lra). unfold padd, pscale, pdivs. simpl.
    f_equal; unfold Rdiv; simpl; ring. }
  rewrite NX. apply IH. destruct HX as [ -> | [ -> | -> ] ]; unfold Rabs; destruct (Rcase_abs _); try (exfalso; lra); [right; left|right; right|right; left]; field.
Qed.

Lemma five_axis_never_ends fuel : deposition_along fuel true osc_dp true osc_segs = Ok None.
Proof.
  unfold deposition_along, osc_segs. cbn [end_rotation end_point]. cbn [segments_loop power_modifier end_time end_point].
  rewrite eps10_R. change (nltb RNum e10 0) with (Rltb e10 0). destruct (Rltb_spec e10 0) as [B|_]; [exfalso; assert (Q := e10_pos); lra|].
  cbn [bind]. change (nltb RNum e10 1) with (Rltb e10 1). destruct (Rltb_spec e10 1) as [_|B]; [|exfalso; unfold e10 in B; lra].
  unfold build_point. cbn [end_rotation end_point].
  assert (ES : inv_rotate (N := RNum) (mkq (N := RNum) 1 0 0 0) (mkpt (N := RNum) 5 0 0) = mkpt (N := RNum) 5 0 0)
    by (unfold inv_rotate; simpl; f_equal; ring).
  rewrite ES. rewrite (osc_loop osc_dp _ (mkq (N := RNum) 0 0 0 1)); [reflexivity|reflexivity|reflexivity| |reflexivity| |left; reflexivity].
  - unfold make_ctx. cbn [c_len end_point]. unfold pdist, psub. rewrite norm_x by (simpl; lra). simpl. unfold Rabs. destruct (Rcase_abs _); lra.
  - unfold make_ctx. cbn [c_stop end_rotation end_point]. unfold inv_rotate. simpl. f_equal; field.
Qed.

(** A path that meets the hypotheses of the positive theorem: out 10 units along x, then a diagonal. *)
Definition dep_segs : list (seg RNum) :=
  [mkseg (N := RNum) 0 0 (mkpt (N := RNum) 0 0 1) None;
   mkseg (N := RNum) 5 1 (mkpt (N := RNum) 10 0 1) None;
   mkseg (N := RNum) 6 0 (mkpt (N := RNum) 10 5 2) None;
   mkseg (N := RNum) 9 1 (mkpt (N := RNum) 13 9 2) None].
Lemma dep_segs_ok : dp_ok (mkdp (N := RNum) 3 1 1 0) /\ path_ok true (legs dep_segs).
Proof.
  split; [unfold dp_ok; simpl; repeat split; lra|].
  unfold path_ok, dep_segs, legs. simpl. repeat (apply Forall_cons; [|]); [..|apply Forall_nil]; simpl; unfold powered; simpl;
    (split; [lra|]; split; [reflexivity|]); intros HP; try (exfalso; lra); unfold flat_leg; simpl; repeat split; try lra; try discriminate.
Qed.

(** The same path executed over the rationals: boxes at 0,3,6,9,10 on the first leg and 0,3,5 on the last. *)
Definition dep_segs_Q : list (seg QNum) :=
  [mkseg (N := QNum) (0#1) (0#1) (mkpt (N := QNum) (0#1) (0#1) (1#1)) None;
   mkseg (N := QNum) (5#1) (1#1) (mkpt (N := QNum) (10#1) (0#1) (1#1)) None;
   mkseg (N := QNum) (6#1) (0#1) (mkpt (N := QNum) (10#1) (5#1) (2#1)) None;
   mkseg (N := QNum) (9#1) (1#1) (mkpt (N := QNum) (13#1) (9#1) (2#1)) None]%Q.
Definition dep_of (r : res (option (dep QNum))) : dep QNum := match r with Ok (Some d) => d | _ => mkdep (N := QNum) [] [] [] [] end.
Definition dep_Q : dep QNum := Eval vm_compute in dep_of (deposition_along (N := QNum) 10 true (mkdp (N := QNum) (3#1) (1#1) (1#1) (0#1))%Q false dep_segs_Q).
Lemma dep_Q_is : deposition_along (N := QNum) 10 true (mkdp (N := QNum) (3#1) (1#1) (1#1) (0#1))%Q false dep_segs_Q = Ok (Some dep_Q).
Proof. vmrefl. Qed.
Lemma dep_segs_Q_run : exists d, deposition_along (N := QNum) 10 true (mkdp (N := QNum) (3#1) (1#1) (1#1) (0#1))%Q false dep_segs_Q = Ok (Some d) /\
  d_times d = [1 # 10000000000; 3 # 2; 3 # 1; 9 # 2; 5 # 1; 6 # 1; 39 # 5; 9 # 1]%Q /\
  nth_error (d_boxes d) 4 = Some (mkpt (N := QNum) (19 # 2) (-1 # 2) (0 # 1), mkpt (N := QNum) (21 # 2) (1 # 2) (1 # 1))%Q.
Proof. exists dep_Q. split; [exact dep_Q_is|]. split; vmrefl. Qed.
Lemma read_sorted (P : parser RNum) dim3 lines d :
  read_material_deposition P cos sin dim3 lines = Ok d -> StronglySorted Rle (d_times d).
Proof. intros H. apply read_ok in H. destruct H as (h & b & r & _ & _ & _ & _ & H). apply never_decreases_sorted, H. Qed.

Lemma dep_segs_witness : dp_ok (mkdp (N := RNum) 3 1 1 0) /\ path_ok true (legs dep_segs) /\
  exists leg, In leg (legs dep_segs) /\ powered (snd leg).
Proof.
  destruct dep_segs_ok as [A B]. split; [exact A|]. split; [exact B|]. eexists. split; [simpl; right; left; reflexivity|]. unfold powered; simpl. lra.
Qed.

Lemma five_axis_witness : exists dp segs, dp_ok dp /\
  Forall (fun s : seg RNum => match end_rotation s with Some q => qnorm2 q = 1 | None => False end) segs /\
  forall fuel, deposition_along fuel true dp true segs = Ok None.
Proof.
  exists osc_dp, osc_segs. split; [unfold dp_ok, osc_dp; simpl; repeat split; lra|]. split; [|exact five_axis_never_ends].
  unfold osc_segs. repeat constructor; simpl; unfold qnorm2; simpl; lra.
Qed.

Lemma merge_witness : exists (paths : list (dep RNum)) rows, Forall2 columns paths rows /\
  map (fun d : dep RNum => (d_times d : list R)) paths = [[1; 3]; [2]].
Proof.
  set (r := fun t : R => mkrow (N := RNum) (mkpt (N := RNum) 0 0 0, mkpt (N := RNum) 1 1 1) t 1 0).
  exists [dep_app dep_nil [r 1; r 3]; dep_app dep_nil [r 2]], [[r 1; r 3]; [r 2]]. split; [|reflexivity].
  repeat constructor.
Qed.

Lemma candidates_witness : exists (cells : list (mesh_cell RNum nat)) boxes, get_elements_to_activate true false cells boxes = [[7%nat]; []].
Proof.
  set (P := fun x : R => mkpt (N := RNum) x x x).
  exists [mkmc (N := RNum) 6%nat true 0 (P 0) (P 1) false; mkmc (N := RNum) 7%nat true 1 (P 0) (P 1) false; mkmc (N := RNum) 8%nat false 1 (P 0) (P 1) false], [(P 0, P 1); (P 2, P 3)].
  unfold get_elements_to_activate. simpl. unfold boxes_intersect, P. simpl.
  repeat (rcase; try (exfalso; lra); simpl); reflexivity.
Qed.

Definition read_lines : list string := ["3"; "0.0 0.0 1.0 2.0 2.0 1.0 0.5 0.0"; "1 0 1 2 2 1 0.5 0.25"; "1 0 1 2 2 1 7 0"]%string.
Definition read_Q : dep QNum := Eval vm_compute in match read_material_deposition QParser (fun _ => 1%Q) (fun a => a) true read_lines with Ok d => d | _ => dep_Q end.
Lemma read_Q_is : read_material_deposition QParser (fun _ => 1%Q) (fun a => a) true read_lines = Ok read_Q.
Proof. vmrefl. Qed.
Lemma read_witness : exists d, read_material_deposition QParser (fun _ => 1%Q) (fun a => a) true
    ["3"; "0.0 0.0 1.0 2.0 2.0 1.0 0.5 0.0"; "1 0 1 2 2 1 0.5 0.25"; "1 0 1 2 2 1 7 0"]%string = Ok d /\ d_times d = [1 # 2; 1 # 2; 7 # 1]%Q.
Proof. exists read_Q. split; [exact read_Q_is|vmrefl]. Qed.
Lemma read_decreasing : read_material_deposition QParser (fun _ => 1%Q) (fun a => a) true
    ["3"; "0.0 0.0 1.0 2.0 2.0 1.0 0.5 0.0"; "1 0 1 2 2 1 0.4 0.25"]%string = Throw.
Proof. vm_compute. reflexivity. Qed.
