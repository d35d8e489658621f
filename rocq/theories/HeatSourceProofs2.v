(** HeatSourceProofs2.v -- the density laws, the electron beam lanes, the bounding boxes. *)
From Coq Require Import Reals ZArith Bool List String Lra Lia.
From Verif Require Import Base BaseFacts QuaternionModel ScanPathModel ScanPathSpec ScanPathProofs HeatSourceModel HeatSourceSpec HeatSourceProofs.
Import ListNotations.
Local Open Scope R_scope.

Lemma xpy_radial d c p : xpy_squared d c p = radial2 d c p.
Proof. unfold xpy_squared, radial2, Rsqr. destruct d; simpl; ring. Qed.
Lemma ax_height d c p : ax_z d p - ax_z d c = height d c p.
Proof. unfold ax_z, height. destruct d; reflexivity. Qed.

Lemma frame_rotated d five q p rp : beam_frame d five q p rp <-> rotated d five q p = Some rp.
Proof.
  unfold beam_frame, rotated. destruct d; [destruct five|]; simpl.
  - split; [intros [q' [-> ->]]; reflexivity|]. destruct q; [|discriminate]. intros E; injection E as <-; eauto.
  - split; [intros ->; reflexivity|intros E; injection E as <-; reflexivity].
  - split; [intros ->; reflexivity|intros E; injection E as <-; reflexivity].
Qed.
(** Not a number exactly when the orientation is not one. *)
Lemma goldak_defined d g p : goldak_value d g p = None <-> (d = true /\ g_five g = true /\ g_quat g = None).
Proof.
  unfold goldak_value, rotated. destruct d; [destruct (g_five g); [destruct (g_quat g)|]|]; cbv zeta;
  try (split; [|intros (A & B & C); discriminate]; destruct (Rltb _ 0); [discriminate|destruct (Rltb _ _); discriminate]).
  split; auto.
Qed.
Lemma ebeam_defined d g p : ebeam_value d g p = None <-> (d = true /\ e_five g = true /\ e_quat g = None).
Proof.
  unfold ebeam_value, rotated. destruct d; [destruct (e_five g); [destruct (e_quat g)|]|]; cbv zeta;
  try (split; [|intros (A & B & C); discriminate]; destruct (Rltb _ 0); [discriminate|destruct (Rltb _ _); discriminate]).
  split; auto.
Qed.

(** What update_time reads from the scan path. *)
Lemma goldak_inputs g t g' : goldak_update_time g t = Ok g' ->
  exists pm c q sp1 sp2, get_power_modifier (g_path g) t = Ok (pm, sp1) /\ value sp1 t true = Ok (c, sp2) /\
    get_quaternion qpow sp2 t = Ok q /\ g_path g' = sp2 /\ g_center g' = c /\ g_quat g' = q /\ g_five g' = g_five g /\
    g_alpha g' = 2 * b_eff (g_beam g) * b_power (g_beam g) * pm / (b_radius2 (g_beam g) * b_depth (g_beam g) * pi_over_3_to_1p5).
Proof.
  unfold goldak_update_time. intros H. inv_bind H. destruct a as [pm sp1]. inv_bind H. destruct a as [path sp2].
  inv_bind H. injection H as <-. exists pm, path, a, sp1, sp2. simpl. auto 10.
Qed.
Lemma ebeam_inputs g t g' : ebeam_update_time g t = Ok g' ->
  exists pm c q sp1 sp2, get_power_modifier (e_path g) t = Ok (pm, sp1) /\ value sp1 t true = Ok (c, sp2) /\
    get_quaternion qpow sp2 t = Ok q /\ e_path g' = sp2 /\ e_center g' = c /\ e_quat g' = q /\ e_five g' = e_five g /\
    e_alpha g' = - b_eff (e_beam g) * b_power (e_beam g) * pm * log_01 / (PI * b_radius2 (e_beam g) * b_depth (e_beam g)).
Proof.
  unfold ebeam_update_time. intros H. inv_bind H. destruct a as [pm sp1]. inv_bind H. destruct a as [path sp2].
  inv_bind H. injection H as <-. exists pm, path, a, sp1, sp2. simpl. auto 10.
Qed.

Lemma goldak_law d g t g' p rp v : goldak_update_time g t = Ok g' -> good_beam (g_beam g) ->
  beam_frame d (g_five g') (g_quat g') p rp -> goldak_value d g' p = Some v ->
  exists pm sp1, get_power_modifier (g_path g) t = Ok (pm, sp1) /\
    (in_support d (b_radius2 (g_beam g)) (b_depth (g_beam g)) (g_center g') rp ->
       v = goldak_density d (b_eff (g_beam g)) (b_power (g_beam g) * pm) (b_radius2 (g_beam g)) (b_depth (g_beam g)) (g_center g') rp) /\
    (~ in_support d (b_radius2 (g_beam g)) (b_depth (g_beam g)) (g_center g') rp -> v = 0).
Proof.
  intros H B R HV. apply frame_rotated in R. destruct (goldak_updated _ _ _ H) as (E0 & E1 & E2 & E3 & E4 & pm & _ & EA & sp1 & HP).
  exists pm, sp1. split; [exact HP|]. destruct B as [B1 [B2 _]]. unfold goldak_value in HV. rewrite R in HV. cbv zeta in HV.
  rewrite E0, E1, E3, E4, EA, xpy_radial, ax_height in HV. unfold in_support. set (b := g_beam g) in *.
  destruct (Rltb_spec (height d (g_center g') rp + b_depth b) 0); [injection HV as <-; split; [intros [X _]; exfalso; lra|reflexivity]|].
  destruct (Rltb_spec (5 * b_radius2 b) (radial2 d (g_center g') rp)); [injection HV as <-; split; [intros [_ X]; exfalso; lra|reflexivity]|].
  injection HV as <-. split; [|intros X; exfalso; apply X; split; lra]. intros _. unfold goldak_density, pi_over_3_to_1p5, Rsqr.
  f_equal; [unfold Rdiv; ring|]. f_equal. field. split; lra.
Qed.

Lemma ln_10 : - log_01 = ln 10.
Proof. unfold log_01. replace (1 / 10) with (/ 10) by lra. rewrite ln_Rinv by lra. ring. Qed.

Lemma ebeam_law d g t g' p rp v : ebeam_update_time g t = Ok g' -> good_beam (e_beam g) ->
  beam_frame d (e_five g') (e_quat g') p rp -> ebeam_value d g' p = Some v ->
  exists pm sp1, get_power_modifier (e_path g) t = Ok (pm, sp1) /\
    (in_support d (b_radius2 (e_beam g)) (b_depth (e_beam g)) (e_center g') rp ->
       v = ebeam_density d (b_eff (e_beam g)) (b_power (e_beam g) * pm) (b_radius2 (e_beam g)) (b_depth (e_beam g)) (e_center g') rp) /\
    (~ in_support d (b_radius2 (e_beam g)) (b_depth (e_beam g)) (e_center g') rp -> v = 0).
Proof.
  intros H B R HV. apply frame_rotated in R. destruct (ebeam_updated _ _ _ H) as (E1 & E2 & E3 & E4 & pm & _ & EA & sp1 & HP).
  exists pm, sp1. split; [exact HP|]. destruct B as [B1 [B2 _]]. unfold ebeam_value in HV. rewrite R in HV. cbv zeta in HV.
  rewrite E1, E2, E3, E4, EA, xpy_radial, ax_height in HV. unfold in_support. set (b := e_beam g) in *.
  destruct (Rltb_spec (height d (e_center g') rp + b_depth b) 0); [injection HV as <-; split; [intros [X _]; exfalso; lra|reflexivity]|].
  destruct (Rltb_spec (5 * b_radius2 b) (radial2 d (e_center g') rp)); [injection HV as <-; split; [intros [_ X]; exfalso; lra|reflexivity]|].
  injection HV as <-. split; [|intros X; exfalso; apply X; split; lra]. intros _. unfold ebeam_density, Rpower, Rsqr.
  rewrite <- ln_10. f_equal; [f_equal|].
  - unfold Rdiv. ring.
  - f_equal. field. lra.
  - field. lra.
Qed.

Lemma on_iff_power g t g' : goldak_update_time g t = Ok g' ->
  exists pm sp1, get_power_modifier (g_path g) t = Ok (pm, sp1) /\ (g_on g' = true <-> (0 < (pm : R))).
Proof.
  intros H. destruct (goldak_updated _ _ _ H) as (_ & _ & _ & _ & _ & pm & E & _ & sp1 & HP). exists pm, sp1.
  split; [exact HP|]. rewrite E. apply Rltb_true.
Qed.
Lemma e_on_iff_power g t g' : ebeam_update_time g t = Ok g' ->
  exists pm sp1, get_power_modifier (e_path g) t = Ok (pm, sp1) /\ (e_on g' = true <-> (0 < (pm : R))).
Proof.
  intros H. destruct (ebeam_updated _ _ _ H) as (_ & _ & _ & _ & pm & E & _ & sp1 & HP). exists pm, sp1.
  split; [exact HP|]. rewrite E. apply Rltb_true.
Qed.

(** ** Electron beam lanes *)
Definition ebeam_lane (d : bool) (g : ebeam) (p : pt RNum) : R :=
  let z := ax_z d p - ax_z d (e_center g) in
  if Rltb (z + e_depth g) 0 then 0
  else e_alpha g * exp (log_01 * xpy_squared d (e_center g) p * e_ir2 g) *
       (z * e_id g * (z * e_id g) * -3 - z * e_id g - z * e_id g + 1).

Lemma ebeam_vec_cases d g ps rps : rotated_lanes d (e_five g) (e_quat g) ps = Some rps ->
  let deep p := ax_z d p - ax_z d (e_center g) + e_depth g < 0 in
  let far p := 5 * e_r2 g - xpy_squared d (e_center g) p < 0 in
  ((Forall deep rps \/ Forall far rps) -> ebeam_value_vec d g ps = Some (map (fun _ => 0) rps)) /\
  (~ Forall deep rps -> ~ Forall far rps -> ebeam_value_vec d g ps = Some (map (ebeam_lane d g) rps)).
Proof.
  intros R deep far. unfold ebeam_value_vec. rewrite R. cbv zeta.
  destruct (Reqb (lane_sum (mask_lt0 (map (fun p => ax_z d p - ax_z d (e_center g) + e_depth g) rps))) 0) eqn:E1.
  - apply (mask_sum_nonzero (fun p => ax_z d p - ax_z d (e_center g) + e_depth g)) in E1.
    rewrite (mask_all_zero (fun p => ax_z d p - ax_z d (e_center g) + e_depth g)) by exact E1. split; [auto|]. intros N; contradiction.
  - assert (N1 : ~ Forall deep rps).
    { intros F. apply (mask_sum_nonzero (fun p => ax_z d p - ax_z d (e_center g) + e_depth g)) in F. congruence. }
    destruct (Reqb (lane_sum (mask_lt0 (map (fun p => 5 * e_r2 g - xpy_squared d (e_center g) p) rps))) 0) eqn:E2.
    + apply (mask_sum_nonzero (fun p => 5 * e_r2 g - xpy_squared d (e_center g) p)) in E2.
      rewrite (mask_all_zero (fun p => 5 * e_r2 g - xpy_squared d (e_center g) p)) by exact E2. split; [auto|]. intros _ N; contradiction.
    + assert (N2 : ~ Forall far rps).
      { intros F. apply (mask_sum_nonzero (fun p => 5 * e_r2 g - xpy_squared d (e_center g) p)) in F. congruence. }
      split; [tauto|]. intros _ _. f_equal. rewrite (combine_mask (fun p => ax_z d p - ax_z d (e_center g) + e_depth g)).
      apply map_ext. intros p. unfold ebeam_lane. cbv zeta. rcase; ring.
Qed.

Definition ebeam_at (d : bool) (g : ebeam) (rp : pt RNum) : R :=
  let z := ax_z d rp - ax_z d (e_center g) in
  if Rltb (z + e_depth g) 0 then 0
  else if Rltb (5 * e_r2 g) (xpy_squared d (e_center g) rp) then 0
  else e_alpha g * exp (log_01 * xpy_squared d (e_center g) rp * e_ir2 g) * (-3 * (z * e_id g * (z * e_id g)) - 2 * (z * e_id g) + 1).
Lemma ebeam_scalar d g ps rps : rotated_lanes d (e_five g) (e_quat g) ps = Some rps ->
  map (ebeam_value d g) ps = map (fun rp => Some (ebeam_at d g rp)) rps.
Proof.
  intros R. apply rotated_lanes_map in R.
  assert (E : forall p, ebeam_value d g p = match rotated d (e_five g) (e_quat g) p with None => None | Some rp => Some (ebeam_at d g rp) end).
  { intros p. unfold ebeam_value, ebeam_at. destruct (rotated d (e_five g) (e_quat g) p); [|reflexivity].
    cbv zeta. rcase; [reflexivity|]. rcase; reflexivity. }
  rewrite (map_ext _ _ E). rewrite <- (map_map (rotated d (e_five g) (e_quat g)) (fun o => match o with None => None | Some rp => Some (ebeam_at d g rp) end)).
  rewrite R, map_map. reflexivity.
Qed.
Lemma ebeam_lane_near d g rp : near d (e_center g) (e_r2 g) rp -> ebeam_lane d g rp = ebeam_at d g rp.
Proof.
  unfold near, ebeam_lane, ebeam_at. intros H. cbv zeta. rcase; [reflexivity|]. rcase; [lra|]. f_equal. ring.
Qed.

Lemma ebeam_vec_agrees d g t g' ps rps : ebeam_update_time g t = Ok g' ->
  rotated_lanes d (e_five g') (e_quat g') ps = Some rps ->
  (Forall (near d (e_center g') (b_radius2 (e_beam g))) rps \/
   Forall (fun p => ~ near d (e_center g') (b_radius2 (e_beam g)) p) rps) ->
  exists vs, ebeam_value_vec d g' ps = Some vs /\ map (ebeam_value d g') ps = map Some vs.
Proof.
  intros H R HN. destruct (ebeam_updated _ _ _ H) as (E1 & E2 & _).
  rewrite (ebeam_scalar d g' ps rps R). destruct (ebeam_vec_cases d g' ps rps R) as [C1 C2].
  assert (FarAt : forall p, ~ near d (e_center g') (b_radius2 (e_beam g)) p -> ebeam_at d g' p = 0).
  { intros p Hp. unfold ebeam_at, near in *. cbv zeta. rewrite E2. rcase; [reflexivity|]. rcase; [reflexivity|]. exfalso; lra. }
  assert (Zero : Forall (fun p => ebeam_at d g' p = 0) rps -> map (fun rp => Some (ebeam_at d g' rp)) rps = map Some (map (fun _ : pt RNum => 0) rps)).
  { intros F. rewrite map_map. apply map_ext_in. rewrite Forall_forall in F. intros p Hp. rewrite (F p Hp). reflexivity. }
  destruct HN as [HN|HN].
  - destruct (Forall_dec _ (fun p => Rlt_dec (ax_z d p - ax_z d (e_center g') + e_depth g') 0) rps) as [D|D].
    + exists (map (fun _ => 0) rps). rewrite C1 by auto. split; [reflexivity|]. apply Zero.
      rewrite Forall_forall in D |- *. intros p Hp. specialize (D p Hp). unfold ebeam_at; cbv zeta. rcase; [reflexivity|contradiction].
    + destruct (Forall_dec _ (fun p => Rlt_dec (5 * e_r2 g' - xpy_squared d (e_center g') p) 0) rps) as [F|F].
      * exists (map (fun _ => 0) rps). rewrite C1 by auto. split; [reflexivity|]. apply Zero.
        rewrite Forall_forall in F |- *. intros p Hp. specialize (F p Hp). apply FarAt. unfold near. rewrite E2 in F. lra.
      * exists (map (ebeam_lane d g') rps). rewrite C2 by assumption. split; [reflexivity|].
        rewrite map_map. apply map_ext_in. intros p Hp. rewrite Forall_forall in HN. rewrite ebeam_lane_near; [reflexivity|].
        rewrite E2. apply HN, Hp.
  - exists (map (fun _ => 0) rps). rewrite C1.
    + split; [reflexivity|]. apply Zero. rewrite Forall_forall in HN |- *. intros p Hp. apply FarAt, HN, Hp.
    + right. rewrite Forall_forall in HN |- *. intros p Hp. specialize (HN p Hp). unfold near in HN. rewrite E2. lra.
Qed.

Lemma ebeam_vec_mixed d g t g' p1 p2 : ebeam_update_time g t = Ok g' -> 0 < e_alpha g' -> 0 < b_depth (e_beam g) ->
  (d = true -> e_five g' = false) ->
  0 <= ax_z d p1 - ax_z d (e_center g') + b_depth (e_beam g) ->
  - b_depth (e_beam g) < ax_z d p2 - ax_z d (e_center g') < b_depth (e_beam g) / 3 ->
  near d (e_center g') (b_radius2 (e_beam g)) p1 -> ~ near d (e_center g') (b_radius2 (e_beam g)) p2 ->
  ebeam_value d g' p2 = Some 0 /\ exists v1 v2, ebeam_value_vec d g' [p1; p2] = Some [v1; v2] /\ 0 < v2.
Proof.
  intros H A B F5 D1 D2 N1 N2. destruct (ebeam_updated _ _ _ H) as (E1 & E2 & E3 & _).
  assert (R : rotated_lanes d (e_five g') (e_quat g') [p1; p2] = Some [p1; p2]).
  { unfold rotated_lanes. destruct d; [rewrite F5 by reflexivity|]; reflexivity. }
  split.
  - assert (Q := ebeam_scalar d g' _ _ R). simpl in Q. injection Q as _ ->. f_equal. unfold ebeam_at, near in *. cbv zeta.
    rewrite E1, E2. rcase; [reflexivity|]. rcase; [reflexivity|]. exfalso; lra.
  - destruct (ebeam_vec_cases d g' _ _ R) as [_ C2]. exists (ebeam_lane d g' p1), (ebeam_lane d g' p2). rewrite C2.
    + split; [reflexivity|]. unfold ebeam_lane. cbv zeta. rewrite E1, E3. rcase; [exfalso; lra|].
      apply Rmult_lt_0_compat; [apply Rmult_lt_0_compat; [exact A|apply exp_pos]|].
      set (z := ax_z d p2 - ax_z d (e_center g')) in *. set (D := b_depth (e_beam g)) in *.
      replace (z * (1 / D) * (z * (1 / D)) * -3 - z * (1 / D) - z * (1 / D) + 1) with ((D - 3 * z) * (D + z) * / (D * D)) by (field; lra).
      apply Rmult_lt_0_compat; [apply Rmult_lt_0_compat; lra|]. apply Rinv_0_lt_compat. nra.
    + intros F. inversion F; subst. rewrite E1 in *. lra.
    + intros F. inversion F; subst. unfold near in N1. rewrite E2 in *. lra.
Qed.

(** ** Bounding boxes *)
Lemma box_exact d b sp t s box : (d = true -> sp_five_axis sp = false) ->
  beam_bounding_box d b sp t s = Ok (Some box) ->
  exists c sp', value sp t false = Ok (c, sp') /\ forall p, in_box d box p <-> in_scaled_beam d (b_radius b) (b_depth b) s c p.
Proof.
  intros F5 H. unfold beam_bounding_box in H. inv_bind H. destruct a as [c sp']. exists c, sp'. split; [exact E|].
  simpl in H. intros p. unfold in_box, in_scaled_beam, height. destruct d.
  - rewrite F5 in H by reflexivity. injection H as <-. simpl. split.
    + intros (X & Y & Z). specialize (Z eq_refl). repeat split; intros; try apply Rabs_le; lra.
    + intros (X & Y & Z). specialize (Y eq_refl). unfold Rabs in X, Y. destruct (Rcase_abs _) in X; destruct (Rcase_abs _) in Y; repeat split; intros; lra.
  - injection H as <-. simpl. split.
    + intros (X & Y & Z). repeat split; intros; try discriminate; try apply Rabs_le; lra.
    + intros (X & Y & Z). unfold Rabs in X. destruct (Rcase_abs _) in X; repeat split; intros; try discriminate; lra.
Qed.

Lemma box_well_formed d b sp t s box : 0 <= b_radius b -> 0 <= b_depth b -> 0 <= s ->
  beam_bounding_box d b sp t s = Ok (Some box) -> well_formed d box.
Proof.
  intros HR HD HS H. unfold beam_bounding_box in H. inv_bind H. destruct a as [c sp']. simpl in H.
  assert (A : 0 <= s * b_radius b) by (apply Rmult_le_pos; assumption).
  assert (B : 0 <= s * b_depth b) by (apply Rmult_le_pos; assumption).
  destruct d; [destruct (sp_five_axis sp)|].
  - inv_bind H. inv_bind H. destruct a as [a|]; [destruct a0 as [a0|]|]; try discriminate. injection H as <-.
    unfold well_formed, nmin, nmaxi; simpl. repeat split; intros; repeat rcase; lra.
  - injection H as <-. unfold well_formed; simpl. repeat split; intros; lra.
  - injection H as <-. unfold well_formed; simpl. repeat split; intros; try discriminate; lra.
Qed.

(** Every point of the support that is not above the beam lies in the box when the scaling is at least sqrt 5. *)
Lemma support_in_box d b sp t s box c sp' p : (d = true -> sp_five_axis sp = false) -> 0 <= b_radius b -> 0 <= b_depth b ->
  b_radius2 b = b_radius b ^ 2 -> sqrt 5 <= s -> value sp t false = Ok (c, sp') ->
  beam_bounding_box d b sp t s = Ok (Some box) ->
  in_support d (b_radius2 b) (b_depth b) c p -> height d c p <= 0 -> in_box d box p.
Proof.
  intros F5 HR HD HR2 HS HV H [S1 S2] HZ. destruct (box_exact _ _ _ _ _ _ F5 H) as (c' & sp'' & HV' & HB).
  rewrite HV in HV'. injection HV' as <- <-. apply HB.
  assert (S0 : 0 < sqrt 5) by (apply sqrt_lt_R0; lra).
  assert (S5 : sqrt 5 * sqrt 5 = 5) by (apply sqrt_sqrt; lra).
  assert (S6 : 1 <= sqrt 5) by (apply Rsqr_incr_0_var; unfold Rsqr; lra).
  assert (K : forall x, x * x <= 5 * b_radius2 b -> Rabs x <= s * b_radius b).
  { intros x Hx. rewrite HR2 in Hx. apply Rle_trans with (sqrt 5 * b_radius b); [|apply Rmult_le_compat_r; assumption].
    apply Rsqr_incr_0_var; [|apply Rmult_le_pos; lra]. rewrite <- Rsqr_abs. unfold Rsqr.
    replace (sqrt 5 * b_radius b * (sqrt 5 * b_radius b)) with (sqrt 5 * sqrt 5 * (b_radius b * b_radius b)) by ring.
    rewrite S5. simpl in Hx. lra. }
  unfold in_scaled_beam. unfold radial2, Rsqr in S2. split; [|split].
  - apply K. destruct d; [|exact S2]. assert (Q := Rle_0_sqr (py p - py c)); unfold Rsqr in Q. simpl in *; lra.
  - intros ->. apply K. assert (Q := Rle_0_sqr (px p - px c)); unfold Rsqr in Q. simpl in *; lra.
  - split; [|exact HZ]. assert (b_depth b <= s * b_depth b); [|lra]. rewrite <- (Rmult_1_l (b_depth b)) at 1. apply Rmult_le_compat_r; lra.
Qed.

Lemma cube_box_exact d c p : in_box d (cube_bounding_box d c) p <-> in_box d (c_min c, c_max c) p.
Proof. unfold cube_bounding_box, in_box. destruct d; simpl; [tauto|]. split; intros (A & B & C); repeat split; intros; try discriminate; lra. Qed.

(** ** Witnesses *)
Definition P0 (x y z : R) : pt RNum := mkpt (N := RNum) x y z.
Definition unit_beam : beam := set_from_database 1 1 1 1 2 1.
(** One segment from time 0 to time 1 at the origin, power 1. *)
Definition still (five : bool) (q : option (quat RNum)) : scan_path RNum :=
  mkSP (N := RNum) false five 1 1 FEventSeries [mkseg (N := RNum) 1 1 (P0 0 0 0) q] 0.
Definition goldak0 five q : goldak := mkG false unit_beam (still five q) five q (P0 0 0 0) 0 0 0 0 0.
Definition ebeam0 five q : ebeam := mkE false unit_beam (still five q) five q (P0 0 0 0) 0 0 0 0 0.

Lemma still_power five q (t : R) : 0 <= t <= 1 -> get_power_modifier (still five q) t = Ok (1, still five q).
Proof.
  intros H. unfold get_power_modifier, still, update_current_segment_info. simpl. destruct (Rltb_spec 1 t); [exfalso; lra|]. simpl.
  reflexivity.
Qed.
Lemma still_value five q (t : R) save : 0 <= t <= 1 -> value (still five q) t save = Ok (P0 0 0 0, still five q).
Proof.
  intros H. unfold value, still, update_current_segment_info. simpl. destruct (Rltb_spec 1 t); [exfalso; lra|]. simpl.
  unfold padd, pscale, pdivs, psub, P0, set_old. simpl. destruct save; (f_equal; f_equal; f_equal; unfold Rdiv; ring).
Qed.
Lemma still_quat q (t : R) : 0 <= t <= 1 -> get_quaternion qpow (still true (Some q)) t = Ok (Some q).
Proof.
  intros H. unfold get_quaternion, still, update_current_segment_info. simpl. destruct (Rltb_spec 1 t); [exfalso; lra|]. simpl.
  unfold qeqb. simpl. assert (RR : forall x, Reqb x x = true) by (intros x; destruct (Reqb_spec x x); [reflexivity|contradiction]). rewrite !RR. reflexivity.
Qed.
Lemma still_noquat q (t : R) : get_quaternion qpow (still false q) t = Ok (Some qone).
Proof. reflexivity. Qed.

Lemma unit_good : good_beam unit_beam.
Proof. unfold good_beam, unit_beam, set_from_database; simpl. lra. Qed.

Lemma goldak0_update five q t : 0 <= t <= 1 -> (five = true -> exists q', q = Some q') ->
  exists g', goldak_update_time (goldak0 five q) t = Ok g' /\ g_center g' = P0 0 0 0 /\ g_on g' = true /\
    g_quat g' = (if five then q else Some qone) /\ g_five g' = five /\ 0 < g_alpha g'.
Proof.
  intros H F. unfold goldak_update_time, goldak0. simpl g_path. rewrite (still_power _ _ _ H). simpl bind at 1. cbv iota beta. rewrite (still_value _ _ _ _ H). simpl bind at 1.
  cbv iota beta.
  assert (Q : get_quaternion qpow (still five q) t = Ok (if five then q else Some qone)).
  { destruct five; [|reflexivity]. destruct (F eq_refl) as [q' ->]. apply still_quat, H. }
  rewrite Q. simpl. eexists. split; [reflexivity|]. simpl. repeat split; auto.
  - apply Rltb_true. lra.
  - assert (C := c_pos). unfold Rdiv. apply Rmult_lt_0_compat; [lra|]. apply Rinv_0_lt_compat.
    apply Rmult_lt_0_compat; [|exact C]. nra.
Qed.

Lemma ebeam0_update five q t : 0 <= t <= 1 -> (five = true -> exists q', q = Some q') ->
  exists g', ebeam_update_time (ebeam0 five q) t = Ok g' /\ e_center g' = P0 0 0 0 /\ e_on g' = true /\
    e_quat g' = (if five then q else Some qone) /\ e_five g' = five /\ 0 < e_alpha g'.
Proof.
  intros H F. unfold ebeam_update_time, ebeam0. simpl e_path. rewrite (still_power _ _ _ H). simpl bind at 1. cbv iota beta. rewrite (still_value _ _ _ _ H). simpl bind at 1.
  cbv iota beta.
  assert (Q : get_quaternion qpow (still five q) t = Ok (if five then q else Some qone)).
  { destruct five; [|reflexivity]. destruct (F eq_refl) as [q' ->]. apply still_quat, H. }
  rewrite Q. simpl. eexists. split; [reflexivity|]. simpl. repeat split; auto.
  - apply Rltb_true. lra.
  - assert (C := log_01_neg). assert (PP := PI_RGT_0). unfold Rdiv. apply Rmult_lt_0_compat; [nra|]. apply Rinv_0_lt_compat.
    apply Rmult_lt_0_compat; [|lra]. apply Rmult_lt_0_compat; [exact PP|nra].
Qed.

(** A heated point outside the box used for refinement (scaling 2). *)
Lemma refinement_box_misses : exists g t g' p v box,
  goldak_update_time g t = Ok g' /\ good_beam (g_beam g) /\ goldak_value true g' p = Some v /\ 0 < v /\
  beam_bounding_box true (g_beam g) (g_path g') t 2 = Ok (Some box) /\ height true (g_center g') p = 0 /\ ~ in_box true box p.
Proof.
  assert (T : 0 <= 1/2 <= 1) by lra.
  destruct (goldak0_update false None (1/2) T) as (g' & HU & HC & HO & HQ & HF & HA); [discriminate|].
  exists (goldak0 false None), (1/2), g', (P0 (21/10) 0 0).
  destruct (goldak_updated _ _ _ HU) as (E0 & E1 & E2 & E3 & E4 & _).
  destruct (goldak_inputs _ _ _ HU) as (pm & c & q & sp1 & sp2 & I1 & I2 & _ & I4 & _).
  assert (I5 : g_path g' = still false None).
  { simpl g_path in I1. rewrite (still_power false None _ T) in I1. injection I1 as <- <-. rewrite (still_value _ _ _ _ T) in I2. injection I2 as <- <-. exact I4. }
  eexists. eexists. split; [exact HU|]. split; [apply unit_good|]. split.
  - unfold goldak_value. unfold rotated. rewrite HF. cbv zeta. rewrite HC, E0, E1. simpl ax_z. destruct (Rltb_spec (0 - 0 + b_depth (g_beam (goldak0 false None))) 0); [exfalso; simpl in *; lra|].
    rcase; [exfalso; unfold xpy_squared in *; simpl in *; lra|]. reflexivity.
  - split; [apply Rmult_lt_0_compat; [exact HA|apply exp_pos]|]. split.
    + rewrite I5. unfold beam_bounding_box. rewrite (still_value _ _ _ _ T). simpl. reflexivity.
    + split; [rewrite HC; unfold height; simpl; lra|]. unfold in_box. simpl. intros (X & _). lra.
Qed.

(** Five-axis: a point at one beam radius from the beam centre that is heated but outside the box, already at scaling 1. *)
Definition q_tilt : quat RNum := mkq (N := RNum) (3/5) 0 0 (4/5).
Lemma five_axis_box_misses : exists g t g' p v box,
  goldak_update_time g t = Ok g' /\ good_beam (g_beam g) /\ goldak_value true g' p = Some v /\ 0 < v /\
  beam_bounding_box true (g_beam g) (g_path g') t 1 = Ok (Some box) /\
  radial2 true (g_center g') p <= b_radius2 (g_beam g) /\ height true (g_center g') p = 0 /\ ~ in_box true box p.
Proof.
  assert (T : 0 <= 1/2 <= 1) by lra.
  destruct (goldak0_update true (Some q_tilt) (1/2) T) as (g' & HU & HC & HO & HQ & HF & HA); [eauto|].
  exists (goldak0 true (Some q_tilt)), (1/2), g', (P0 0 1 0).
  destruct (goldak_updated _ _ _ HU) as (E0 & E1 & E2 & E3 & E4 & _).
  destruct (goldak_inputs _ _ _ HU) as (pm & c & q & sp1 & sp2 & I1 & I2 & _ & I4 & _).
  assert (I5 : g_path g' = still true (Some q_tilt)).
  { simpl g_path in I1. rewrite (still_power true (Some q_tilt) _ T) in I1. injection I1 as <- <-. rewrite (still_value _ _ _ _ T) in I2. injection I2 as <- <-. exact I4. }
  eexists. eexists. split; [exact HU|]. split; [apply unit_good|]. split.
  - unfold goldak_value. unfold rotated. rewrite HF, HQ. cbv zeta. rewrite HC, E0, E1. rcase; [exfalso; unfold rotate, q_tilt, P0 in *; simpl in *; lra|].
    rcase; [exfalso; unfold rotate, q_tilt, P0, xpy_squared in *; simpl in *; lra|]. reflexivity.
  - split; [apply Rmult_lt_0_compat; [exact HA|apply exp_pos]|]. split.
    + rewrite I5. unfold beam_bounding_box. rewrite (still_value _ _ _ _ T). simpl fst. cbv iota. simpl bind at 1. cbv beta.
      change (sp_five_axis (still true (Some q_tilt))) with true. cbv iota.
      unfold sp_rotate. rewrite still_quat by exact T. simpl. destruct (Rltb_spec 1 (1/2)); [exfalso; lra|]. simpl. reflexivity.
    + rewrite HC. split; [unfold radial2, Rsqr, P0; simpl; lra|]. split; [unfold height; simpl; lra|].
      unfold in_box. simpl. intros (_ & Y & _). unfold nmin, nmaxi, q_tilt in Y. simpl in Y. repeat rcase_in Y; lra.
Qed.

(** The database entries of a positive beam give a good beam. *)
Lemma database_good ds ps depth eff diameter pw : 0 < ds -> 0 <= ps -> 0 < depth -> 0 <= eff -> 0 < diameter -> 0 <= pw ->
  let b := set_from_database ds ps depth eff diameter pw in
  good_beam b /\ b_radius2 b = b_radius b ^ 2 /\ b_radius b = diameter * ds / 2 /\ b_depth b = depth * ds /\ b_power b = pw * ps /\ b_eff b = eff.
Proof.
  intros A B C D E F. cbv zeta. unfold good_beam, set_from_database. simpl. assert (0 < diameter * ds) by nra. assert (0 < depth * ds) by nra.
  repeat split; try reflexivity; try assumption; nra.
Qed.
Lemma ebeam_above_negative : exists e t e' p v, ebeam_update_time e t = Ok e' /\ good_beam (e_beam e) /\ nonneg_modifiers (e_path e) /\
  ebeam_value true e' p = Some v /\ v < 0.
Proof.
  assert (T : 0 <= 1/2 <= 1) by lra.
  destruct (ebeam0_update false None (1/2) T) as (g' & HU & HC & HO & HQ & HF & HA); [discriminate|].
  exists (ebeam0 false None), (1/2), g', (P0 0 0 (1/2)).
  destruct (ebeam_value true g' (P0 0 0 (1/2))) as [v|] eqn:EV; [|unfold ebeam_value, rotated in EV; rewrite HF in EV; cbv zeta in EV; destruct (Rltb _ 0); [discriminate|]; destruct (Rltb _ _); discriminate].
  exists v. split; [exact HU|]. split; [apply unit_good|]. split; [|split; [reflexivity|]].
  - intros s [<-|[]]. simpl. lra.
  - eapply ebeam_negative with (rp := P0 0 0 (1/2)); [exact HU|apply unit_good|exact HA| | | |exact EV].
    + unfold rotated. rewrite HF. reflexivity.
    + rewrite HC. simpl. lra.
    + rewrite HC. unfold xpy_squared; simpl. lra.
Qed.

Lemma vec_mixed_goldak : exists g t g' p1 p2 v1 v2, goldak_update_time g t = Ok g' /\ good_beam (g_beam g) /\
  goldak_value true g' p2 = Some 0 /\ goldak_value_vec true g' [p1; p2] = Some [v1; v2] /\ 0 < v2.
Proof.
  assert (T : 0 <= 1/2 <= 1) by lra.
  destruct (goldak0_update false None (1/2) T) as (g' & HU & HC & HO & HQ & HF & HA); [discriminate|].
  destruct (goldak_vec_mixed true _ _ g' (P0 0 0 0) (P0 3 0 0) HU HA) as [V0 [v1 [v2 [VV V2]]]].
  - intros _; exact HF.
  - rewrite HC. simpl. lra.
  - rewrite HC. simpl. lra.
  - rewrite HC. unfold near, xpy_squared; simpl. lra.
  - rewrite HC. unfold near, xpy_squared; simpl. lra.
  - exists (goldak0 false None), (1/2), g', (P0 0 0 0), (P0 3 0 0), v1, v2. repeat split; auto; apply unit_good.
Qed.
Lemma vec_mixed_ebeam : exists g t g' p1 p2 v1 v2, ebeam_update_time g t = Ok g' /\ good_beam (e_beam g) /\
  ebeam_value true g' p2 = Some 0 /\ ebeam_value_vec true g' [p1; p2] = Some [v1; v2] /\ 0 < v2.
Proof.
  assert (T : 0 <= 1/2 <= 1) by lra.
  destruct (ebeam0_update false None (1/2) T) as (g' & HU & HC & HO & HQ & HF & HA); [discriminate|].
  destruct (ebeam_vec_mixed true _ _ g' (P0 0 0 0) (P0 3 0 0) HU HA) as [V0 [v1 [v2 [VV V2]]]].
  - simpl. lra.
  - intros _; exact HF.
  - rewrite HC. simpl. lra.
  - rewrite HC. simpl. lra.
  - rewrite HC. unfold near, xpy_squared; simpl. lra.
  - rewrite HC. unfold near, xpy_squared; simpl. lra.
  - exists (ebeam0 false None), (1/2), g', (P0 0 0 0), (P0 3 0 0), v1, v2. repeat split; auto; apply unit_good.
Qed.

(** Concrete hypotheses for the witnesses. *)
Lemma goldak_witness : exists g t g' p v, goldak_update_time g t = Ok g' /\ good_beam (g_beam g) /\ nonneg_modifiers (g_path g) /\
  goldak_value true g' p = Some v /\ 0 < v /\ g_on g' = true /\
  rotated true (g_five g') (g_quat g') p = Some p /\ in_support true (b_radius2 (g_beam g)) (b_depth (g_beam g)) (g_center g') p.
Proof.
  assert (T : 0 <= 1/2 <= 1) by lra.
  destruct (goldak0_update false None (1/2) T) as (g' & HU & HC & HO & HQ & HF & HA); [discriminate|].
  exists (goldak0 false None), (1/2), g', (P0 (1/2) 0 (-1/2)). eexists.
  destruct (goldak_updated _ _ _ HU) as (E0 & E1 & _).
  split; [exact HU|]. split; [apply unit_good|]. split; [intros s [<-|[]]; simpl; lra|]. split; [|split].
  - unfold goldak_value, rotated. rewrite HF. cbv zeta. rewrite HC, E0, E1. rcase; [exfalso; unfold P0 in *; simpl in *; lra|].
    rcase; [exfalso; unfold P0, xpy_squared in *; simpl in *; lra|]. reflexivity.
  - apply Rmult_lt_0_compat; [exact HA|apply exp_pos].
  - split; [exact HO|]. split; [unfold rotated; rewrite HF; reflexivity|]. rewrite HC. unfold in_support, height, radial2, Rsqr, P0; simpl. lra.
Qed.
Lemma ebeam_witness : exists g t g' p v, ebeam_update_time g t = Ok g' /\ good_beam (e_beam g) /\ nonneg_modifiers (e_path g) /\
  ebeam_value true g' p = Some v /\ 0 < v /\ e_on g' = true /\
  rotated true (e_five g') (e_quat g') p = Some p /\ in_support true (b_radius2 (e_beam g)) (b_depth (e_beam g)) (e_center g') p /\
  height true (e_center g') p <= b_depth (e_beam g) / 3.
Proof.
  assert (T : 0 <= 1/2 <= 1) by lra.
  destruct (ebeam0_update false None (1/2) T) as (g' & HU & HC & HO & HQ & HF & HA); [discriminate|].
  exists (ebeam0 false None), (1/2), g', (P0 (1/2) 0 (-1/2)). eexists.
  destruct (ebeam_updated _ _ _ HU) as (E1 & E2 & E3 & _).
  split; [exact HU|]. split; [apply unit_good|]. split; [intros s [<-|[]]; simpl; lra|]. split; [|split].
  - unfold ebeam_value, rotated. rewrite HF. cbv zeta. rewrite HC, E1, E2, E3. rcase; [exfalso; unfold P0 in *; simpl in *; lra|].
    rcase; [exfalso; unfold P0, xpy_squared in *; simpl in *; lra|]. reflexivity.
  - apply Rmult_lt_0_compat; [apply Rmult_lt_0_compat; [exact HA|apply exp_pos]|]. simpl. lra.
  - split; [exact HO|]. split; [unfold rotated; rewrite HF; reflexivity|]. rewrite HC. unfold in_support, height, radial2, Rsqr, P0; simpl. lra.
Qed.
