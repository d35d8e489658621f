(** HeatSourceProofs.v -- proofs about the heat source model (C09-C11). *)
From Coq Require Import Reals ZArith Bool List String Lra Lia.
From Verif Require Import Base BaseFacts QuaternionModel ScanPathModel ScanPathSpec ScanPathProofs HeatSourceModel HeatSourceSpec.
Import ListNotations.
Local Open Scope R_scope.

(** The power modifier is that of a segment of the path, or 0. *)
Lemma power_from_path {N} (sp : scan_path N) t pm sp' : get_power_modifier sp t = Ok (pm, sp') ->
  (pm = nofZ N 0 /\ sp' = sp) \/ exists s, In s (sp_segs sp) /\ pm = power_modifier s.
Proof.
  unfold get_power_modifier. intros H. inv_bind H. destruct (nltb N (end_time a) t); [injection H as <- <-; auto|].
  inv_bind H. destruct a0 as [[[[c p0] t0] r0] sp1]. inv_bind H. injection H as <- <-. right.
  exists a0. split; [|reflexivity]. unfold at_ in E1. destruct (nth_error (sp_segs sp) c) eqn:EN; [|discriminate].
  injection E1 as <-. eapply nth_error_In; eauto.
Qed.


Lemma c_pos : 0 < pi_over_3_to_1p5.
Proof. unfold pi_over_3_to_1p5, Rpower. apply exp_pos. Qed.

Lemma log_01_neg : log_01 < 0.
Proof. unfold log_01. rewrite <- ln_1. apply ln_increasing; lra. Qed.

(** What update_time stores. *)
Lemma goldak_updated g t g' : goldak_update_time g t = Ok g' ->
  g_beam g' = g_beam g /\ g_depth g' = b_depth (g_beam g) /\ g_r2 g' = b_radius2 (g_beam g) /\
  g_id2 g' = 1 / (b_depth (g_beam g) * b_depth (g_beam g)) /\ g_ir2 g' = 1 / b_radius2 (g_beam g) /\
  exists pm, g_on g' = Rltb 0 pm /\
    g_alpha g' = 2 * b_eff (g_beam g) * b_power (g_beam g) * pm / (b_radius2 (g_beam g) * b_depth (g_beam g) * pi_over_3_to_1p5) /\
    (exists sp1, get_power_modifier (g_path g) t = Ok (pm, sp1)).
Proof.
  unfold goldak_update_time. intros H. inv_bind H. destruct a as [pm sp1]. inv_bind H. destruct a as [path sp2].
  inv_bind H. injection H as <-. simpl. do 5 (split; [reflexivity|]). exists pm. eauto.
Qed.


Lemma goldak_alpha_nonneg g t g' : goldak_update_time g t = Ok g' -> good_beam (g_beam g) -> nonneg_modifiers (g_path g) ->
  0 <= g_alpha g'.
Proof.
  intros H [B1 [B2 [B3 B4]]] M. destruct (goldak_updated _ _ _ H) as (_ & _ & _ & _ & _ & pm & _ & -> & sp1 & HP).
  assert (0 <= pm).
  { destruct (power_from_path _ _ _ _ HP) as [[-> _]|[s [Hs ->]]]; [simpl; lra|apply M, Hs]. }
  assert (C := c_pos). unfold Rdiv. apply Rmult_le_pos.
  - repeat apply Rmult_le_pos; lra.
  - apply Rlt_le, Rinv_0_lt_compat. repeat apply Rmult_lt_0_compat; lra.
Qed.

Lemma exp_le_1 x : x <= 0 -> exp x <= 1.
Proof. intros [H| ->]; [rewrite <- exp_0; apply Rlt_le, exp_increasing, H|rewrite exp_0; lra]. Qed.

Lemma xpy_nonneg d c p : 0 <= xpy_squared d c p.
Proof.
  unfold xpy_squared. assert (A := pow2_ge_0 (px p - px c)). assert (B := pow2_ge_0 (py p - py c)).
  destruct d; simpl in *; lra.
Qed.

Lemma goldak_bounds d g t g' p v : goldak_update_time g t = Ok g' -> good_beam (g_beam g) -> nonneg_modifiers (g_path g) ->
  goldak_value d g' p = Some v -> 0 <= v <= g_alpha g'.
Proof.
  intros H B M HV. assert (A := goldak_alpha_nonneg _ _ _ H B M).
  destruct (goldak_updated _ _ _ H) as (_ & _ & _ & E3 & E4 & _). destruct B as [B1 [B2 _]].
  unfold goldak_value in HV. destruct (rotated d (g_five g') (g_quat g') p) as [rp|]; [|discriminate].
  cbv zeta in HV. destruct (Rltb _ 0); [injection HV as <-; lra|].
  destruct (Rltb _ (xpy_squared d _ rp)); [injection HV as <-; lra|].
  injection HV as <-. set (z := ax_z d rp - ax_z d (g_center g')).
  set (e := -3 * xpy_squared d (g_center g') rp * g_ir2 g' + -3 * (z * z) * g_id2 g').
  assert (e <= 0).
  { unfold e. rewrite E3, E4. assert (X := xpy_nonneg d (g_center g') rp).
    assert (0 < / b_radius2 (g_beam g)) by (apply Rinv_0_lt_compat, B2).
    assert (0 < / (b_depth (g_beam g) * b_depth (g_beam g))) by (apply Rinv_0_lt_compat; nra).
    unfold Rdiv. rewrite !Rmult_1_l. assert (0 <= z * z) by nra.
    assert (0 <= xpy_squared d (g_center g') rp * / b_radius2 (g_beam g)) by (apply Rmult_le_pos; lra).
    assert (0 <= z * z * / (b_depth (g_beam g) * b_depth (g_beam g))) by (apply Rmult_le_pos; lra).
    lra. }
  assert (X := exp_pos e). assert (Y := exp_le_1 e H0). split; [apply Rmult_le_pos; lra|]. nra.
Qed.

Lemma goldak_support d g t g' p v : goldak_update_time g t = Ok g' ->
  goldak_value d g' p = Some v -> v <> 0 ->
  exists rp, rotated d (g_five g') (g_quat g') p = Some rp /\
    - b_depth (g_beam g) <= ax_z d rp - ax_z d (g_center g') /\
    xpy_squared d (g_center g') rp <= 5 * b_radius2 (g_beam g).
Proof.
  intros H HV NZ. destruct (goldak_updated _ _ _ H) as (E0 & E1 & _).
  unfold goldak_value in HV. destruct (rotated d (g_five g') (g_quat g') p) as [rp|]; [|discriminate].
  exists rp. split; [reflexivity|]. cbv zeta in HV. rewrite E0, E1 in HV.
  destruct (Rltb_spec (ax_z d rp - ax_z d (g_center g') + b_depth (g_beam g)) 0); [injection HV as <-; lra|].
  destruct (Rltb_spec (5 * b_radius2 (g_beam g)) (xpy_squared d (g_center g') rp)); [injection HV as <-; lra|].
  split; lra.
Qed.

Lemma goldak_off d g t g' p v : goldak_update_time g t = Ok g' -> nonneg_modifiers (g_path g) ->
  g_on g' = false -> goldak_value d g' p = Some v -> v = 0.
Proof.
  intros H M OFF HV. destruct (goldak_updated _ _ _ H) as (_ & _ & _ & _ & _ & pm & Hon & HA & sp1 & HP).
  rewrite Hon in OFF. apply Rltb_false in OFF.
  assert (pm = 0).
  { destruct (power_from_path _ _ _ _ HP) as [[-> _]|[s [Hs ->]]]; [reflexivity|]. assert (Q := M s Hs). simpl in *; lra. }
  subst pm. unfold goldak_value in HV. destruct (rotated d (g_five g') (g_quat g') p); [|discriminate]. cbv zeta in HV.
  destruct (Rltb _ 0); [injection HV as <-; reflexivity|]. destruct (Rltb _ _); [injection HV as <-; reflexivity|].
  injection HV as <-. rewrite HA. unfold Rdiv. ring.
Qed.

Lemma after_end_off (sp : scan_path RNum) t last pm sp' : last_segment (sp_segs sp) last -> (end_time last : R) < t ->
  get_power_modifier sp t = Ok (pm, sp') -> pm = 0.
Proof.
  intros L T H. rewrite (power_after sp t last L) in H by (apply Rltb_true; exact T). injection H as <- _. reflexivity.
Qed.

Lemma goldak_after_end g t g' last : goldak_update_time g t = Ok g' ->
  last_segment (sp_segs (g_path g)) last -> (end_time last : R) < t -> g_on g' = false /\ g_alpha g' = 0.
Proof.
  intros H L T. destruct (goldak_updated _ _ _ H) as (_ & _ & _ & _ & _ & pm & -> & -> & sp1 & HP).
  rewrite (after_end_off _ _ _ _ _ L T HP). split; [apply Rltb_false; lra|unfold Rdiv; ring].
Qed.

(** ** Electron beam *)
Lemma ebeam_updated e t e' : ebeam_update_time e t = Ok e' ->
  e_depth e' = b_depth (e_beam e) /\ e_r2 e' = b_radius2 (e_beam e) /\
  e_id e' = 1 / b_depth (e_beam e) /\ e_ir2 e' = 1 / b_radius2 (e_beam e) /\
  exists pm, e_on e' = Rltb 0 pm /\
    e_alpha e' = - b_eff (e_beam e) * b_power (e_beam e) * pm * log_01 / (PI * b_radius2 (e_beam e) * b_depth (e_beam e)) /\
    (exists sp1, get_power_modifier (e_path e) t = Ok (pm, sp1)).
Proof.
  unfold ebeam_update_time. intros H. inv_bind H. destruct a as [pm sp1]. inv_bind H. destruct a as [path sp2].
  inv_bind H. injection H as <-. simpl. do 4 (split; [reflexivity|]). exists pm. eauto.
Qed.

Lemma ebeam_alpha_nonneg g t g' : ebeam_update_time g t = Ok g' -> good_beam (e_beam g) -> nonneg_modifiers (e_path g) ->
  0 <= e_alpha g'.
Proof.
  intros H [B1 [B2 [B3 B4]]] M. destruct (ebeam_updated _ _ _ H) as (_ & _ & _ & _ & pm & _ & -> & sp1 & HP).
  assert (0 <= pm).
  { destruct (power_from_path _ _ _ _ HP) as [[-> _]|[s [Hs ->]]]; [simpl; lra|apply M, Hs]. }
  assert (C := log_01_neg). assert (P := PI_RGT_0). unfold Rdiv. apply Rmult_le_pos.
  - replace (- b_eff (e_beam g) * b_power (e_beam g) * pm * log_01) with (b_eff (e_beam g) * b_power (e_beam g) * pm * - log_01) by ring.
    repeat apply Rmult_le_pos; lra.
  - apply Rlt_le, Rinv_0_lt_compat. apply Rmult_lt_0_compat; [apply Rmult_lt_0_compat|]; lra.
Qed.

Lemma ebeam_support d e t e' p v : ebeam_update_time e t = Ok e' ->
  ebeam_value d e' p = Some v -> v <> 0 ->
  exists rp, rotated d (e_five e') (e_quat e') p = Some rp /\
    - b_depth (e_beam e) <= ax_z d rp - ax_z d (e_center e') /\
    xpy_squared d (e_center e') rp <= 5 * b_radius2 (e_beam e).
Proof.
  intros H HV NZ. destruct (ebeam_updated _ _ _ H) as (E1 & E2 & _).
  unfold ebeam_value in HV. destruct (rotated d (e_five e') (e_quat e') p) as [rp|]; [|discriminate].
  exists rp. split; [reflexivity|]. cbv zeta in HV. rewrite E1, E2 in HV.
  destruct (Rltb_spec (ax_z d rp - ax_z d (e_center e') + b_depth (e_beam e)) 0); [injection HV as <-; lra|].
  destruct (Rltb_spec (5 * b_radius2 (e_beam e)) (xpy_squared d (e_center e') rp)); [injection HV as <-; lra|].
  split; lra.
Qed.

(** The electron beam deposits heat from its depth up to a third of the depth above the beam centre ... *)
Lemma ebeam_nonneg d e t e' p v rp : ebeam_update_time e t = Ok e' -> good_beam (e_beam e) -> nonneg_modifiers (e_path e) ->
  ebeam_value d e' p = Some v -> rotated d (e_five e') (e_quat e') p = Some rp ->
  ax_z d rp - ax_z d (e_center e') <= b_depth (e_beam e) / 3 -> 0 <= v.
Proof.
  intros H B M HV R Z. assert (A := ebeam_alpha_nonneg _ _ _ H B M).
  destruct (ebeam_updated _ _ _ H) as (E1 & E2 & E3 & E4 & _). destruct B as [B1 _].
  unfold ebeam_value in HV. rewrite R in HV. cbv zeta in HV. rewrite E1 in HV.
  destruct (Rltb_spec (ax_z d rp - ax_z d (e_center e') + b_depth (e_beam e)) 0); [injection HV as <-; lra|].
  destruct (Rltb _ _); [injection HV as <-; lra|]. injection HV as <-.
  set (z := ax_z d rp - ax_z d (e_center e')) in *. rewrite E3. set (D := b_depth (e_beam e)) in *.
  replace (-3 * (z * (1 / D) * (z * (1 / D))) - 2 * (z * (1 / D)) + 1) with ((D - 3 * z) * (D + z) * / (D * D)) by (field; lra).
  assert (X := exp_pos (log_01 * xpy_squared d (e_center e') rp * e_ir2 e')).
  apply Rmult_le_pos; [apply Rmult_le_pos; lra|].
  apply Rmult_le_pos; [apply Rmult_le_pos; lra|]. apply Rlt_le, Rinv_0_lt_compat. nra.
Qed.

(** ... and is negative above that. *)
Lemma ebeam_negative d e t e' p v rp : ebeam_update_time e t = Ok e' -> good_beam (e_beam e) ->
  0 < e_alpha e' -> rotated d (e_five e') (e_quat e') p = Some rp ->
  b_depth (e_beam e) / 3 < ax_z d rp - ax_z d (e_center e') -> xpy_squared d (e_center e') rp <= 5 * b_radius2 (e_beam e) ->
  ebeam_value d e' p = Some v -> v < 0.
Proof.
  intros H B A R Z X HV.
  destruct (ebeam_updated _ _ _ H) as (E1 & E2 & E3 & E4 & _). destruct B as [B1 _].
  unfold ebeam_value in HV. rewrite R in HV. cbv zeta in HV. rewrite E1, E2 in HV.
  destruct (Rltb_spec (ax_z d rp - ax_z d (e_center e') + b_depth (e_beam e)) 0); [exfalso; lra|].
  destruct (Rltb_spec (5 * b_radius2 (e_beam e)) (xpy_squared d (e_center e') rp)); [exfalso; lra|]. injection HV as <-.
  set (z := ax_z d rp - ax_z d (e_center e')) in *. rewrite E3. set (D := b_depth (e_beam e)) in *.
  replace (-3 * (z * (1 / D) * (z * (1 / D))) - 2 * (z * (1 / D)) + 1) with (- ((3 * z - D) * (D + z) * / (D * D))) by (field; lra).
  assert (Y := exp_pos (log_01 * xpy_squared d (e_center e') rp * e_ir2 e')).
  assert (0 < (3 * z - D) * (D + z) * / (D * D)).
  { apply Rmult_lt_0_compat; [apply Rmult_lt_0_compat; lra|]. apply Rinv_0_lt_compat. nra. }
  assert (0 < e_alpha e' * exp (log_01 * xpy_squared d (e_center e') rp * e_ir2 e')) by (apply Rmult_lt_0_compat; lra).
  nra.
Qed.

Lemma ebeam_off d g t g' p v : ebeam_update_time g t = Ok g' -> nonneg_modifiers (e_path g) ->
  e_on g' = false -> ebeam_value d g' p = Some v -> v = 0.
Proof.
  intros H M OFF HV. destruct (ebeam_updated _ _ _ H) as (_ & _ & _ & _ & pm & Hon & HA & sp1 & HP).
  rewrite Hon in OFF. apply Rltb_false in OFF.
  assert (pm = 0).
  { destruct (power_from_path _ _ _ _ HP) as [[-> _]|[s [Hs ->]]]; [reflexivity|]. assert (Q := M s Hs). simpl in *; lra. }
  subst pm. unfold ebeam_value in HV. destruct (rotated d (e_five g') (e_quat g') p); [|discriminate]. cbv zeta in HV.
  destruct (Rltb _ 0); [injection HV as <-; reflexivity|]. destruct (Rltb _ _); [injection HV as <-; reflexivity|].
  injection HV as <-. rewrite HA. unfold Rdiv. ring.
Qed.

Lemma ebeam_after_end g t g' last : ebeam_update_time g t = Ok g' ->
  last_segment (sp_segs (e_path g)) last -> (end_time last : R) < t -> e_on g' = false /\ e_alpha g' = 0.
Proof.
  intros H L T. destruct (ebeam_updated _ _ _ H) as (_ & _ & _ & _ & pm & -> & -> & sp1 & HP).
  rewrite (after_end_off _ _ _ _ _ L T HP). split; [apply Rltb_false; lra|unfold Rdiv; ring].
Qed.

(** ** Cube *)
Lemma cube_value_in d c t p : in_box d (c_min c, c_max c) p -> c_start c < t < c_end c -> cube_value d (cube_update_time c t) p = c_value c.
Proof.
  intros [X [Y Z]] [T1 T2]. unfold cube_value, cube_update_time. simpl.
  destruct (Rltb_spec (c_start c) t); [|lra]. destruct (Rltb_spec t (c_end c)); [|lra]. simpl.
  assert (H : in_source (coords d p) (coords d (c_min c)) (coords d (c_max c)) = true); [|rewrite H; reflexivity].
  destruct d; simpl; repeat (rcase; [exfalso; simpl in *; try (specialize (Z eq_refl)); lra|]; simpl); reflexivity.
Qed.
Lemma cube_value_out d c t p : ~ (in_box d (c_min c, c_max c) p /\ c_start c < t < c_end c) -> cube_value d (cube_update_time c t) p = 0.
Proof.
  intros H. unfold cube_value, cube_update_time. simpl.
  destruct (Rltb_spec (c_start c) t); [|reflexivity]. destruct (Rltb_spec t (c_end c)); [|reflexivity]. simpl.
  destruct (in_source _ _ _) eqn:E; [|reflexivity]. exfalso. apply H. split; [|lra].
  unfold in_box; simpl. destruct d; simpl in E; repeat (rcase_in E; simpl in E; try discriminate); simpl in *; repeat split; intros; try discriminate; simpl; lra.
Qed.

(** ** Lanes *)
Lemma lane_sum_zero l : Forall (fun v => v = 0 \/ v = 1) l -> lane_sum l = 0 -> Forall (fun v => v = 0) l.
Proof.
  intros F H. assert (P : forall l, Forall (fun v => v = 0 \/ v = 1) l -> 0 <= lane_sum l).
  { clear. induction 1 as [|x l [-> | ->] F IH]; simpl; lra. }
  induction F as [|x l X F IH]; constructor; simpl in H; assert (Q := P l F).
  - destruct X; lra.
  - apply IH. destruct X; lra.
Qed.
Lemma mask_01 l : Forall (fun v => v = 0 \/ v = 1) (mask_lt0 l).
Proof. induction l; simpl; constructor; auto. rcase; auto. Qed.

Lemma lane_sum_pos l x : Forall (fun v => v = 0 \/ v = 1) l -> In x l -> x = 1 -> lane_sum l <> 0.
Proof.
  intros F I E S. assert (Z := lane_sum_zero l F S). rewrite Forall_forall in Z. specialize (Z x I). lra.
Qed.

Lemma cube_vec_agrees d c ps : cube_value_vec d c ps = map (cube_value d c) ps.
Proof.
  unfold cube_value_vec. rewrite map_map. apply map_ext. intros p. unfold cube_value.
  destruct (c_on c); [|lra]. destruct d; simpl.
  - repeat (rcase; simpl; try (exfalso; simpl in *; lra)); simpl in *; try lra.
  - repeat (rcase; simpl; try (exfalso; simpl in *; lra)); simpl in *; try lra.
Qed.

Lemma map_mask_zero {A} (f : A -> R) (l : list A) : Forall (fun v => v = 0) (mask_lt0 (map f l)) <-> Forall (fun p => f p < 0) l.
Proof.
  induction l as [|a l IH]; simpl; [split; constructor|].
  split; intros H; inversion H; subst; constructor; try (apply IH; assumption).
  - destruct (Rltb_spec (f a) 0); [assumption|lra].
  - destruct (Rltb_spec (f a) 0); [reflexivity|contradiction].
Qed.

Lemma mask_sum_nonzero {A} (f : A -> R) (l : list A) : Reqb (lane_sum (mask_lt0 (map f l))) 0 = true <-> Forall (fun p => f p < 0) l.
Proof.
  rewrite <- map_mask_zero. split.
  - intros H. apply lane_sum_zero; [apply mask_01|]. destruct (Reqb_spec (lane_sum (mask_lt0 (map f l))) 0); [assumption|discriminate].
  - intros H. assert (E : lane_sum (mask_lt0 (map f l)) = 0).
    { revert H. generalize (mask_lt0 (map f l)). induction 1 as [|x r -> F IH]; simpl; lra. }
    rewrite E. destruct (Reqb_spec 0 0); [reflexivity|lra].
Qed.

Lemma mask_all_zero {A} (f : A -> R) (l : list A) : Forall (fun p => f p < 0) l -> mask_lt0 (map f l) = map (fun _ => 0) l.
Proof. induction 1 as [|a l H F IH]; simpl; [reflexivity|]. rewrite IH. destruct (Rltb_spec (f a) 0); [reflexivity|contradiction]. Qed.

Lemma combine_mask {A} (f : A -> R) (g : R * A -> R) (l : list A) :
  map g (combine (mask_lt0 (map f l)) l) = map (fun p => g (if Rltb (f p) 0 then 0 else 1, p)) l.
Proof. induction l as [|a l IH]; simpl; [reflexivity|]. rewrite IH. reflexivity. Qed.

(** The value of one lane when no early return happens. *)
Definition goldak_lane (d : bool) (g : goldak) (p : pt RNum) : R :=
  let z := ax_z d p - ax_z d (g_center g) in
  if Rltb (z + g_depth g) 0 then 0
  else g_alpha g * exp ((z * z * g_id2 g + xpy_squared d (g_center g) p * g_ir2 g) * -3).

Lemma goldak_vec_cases d g ps rps : rotated_lanes d (g_five g) (g_quat g) ps = Some rps ->
  let deep p := ax_z d p - ax_z d (g_center g) + g_depth g < 0 in
  let far p := 5 * g_r2 g - xpy_squared d (g_center g) p < 0 in
  ((Forall deep rps \/ Forall far rps) -> goldak_value_vec d g ps = Some (map (fun _ => 0) rps)) /\
  (~ Forall deep rps -> ~ Forall far rps -> goldak_value_vec d g ps = Some (map (goldak_lane d g) rps)).
Proof.
  intros R deep far. unfold goldak_value_vec. rewrite R. cbv zeta.
  destruct (Reqb (lane_sum (mask_lt0 (map (fun p => ax_z d p - ax_z d (g_center g) + g_depth g) rps))) 0) eqn:E1.
  - apply (mask_sum_nonzero (fun p => ax_z d p - ax_z d (g_center g) + g_depth g)) in E1.
    rewrite (mask_all_zero (fun p => ax_z d p - ax_z d (g_center g) + g_depth g)) by exact E1. split; [auto|]. intros N; contradiction.
  - assert (N1 : ~ Forall deep rps).
    { intros F. apply (mask_sum_nonzero (fun p => ax_z d p - ax_z d (g_center g) + g_depth g)) in F. congruence. }
    destruct (Reqb (lane_sum (mask_lt0 (map (fun p => 5 * g_r2 g - xpy_squared d (g_center g) p) rps))) 0) eqn:E2.
    + apply (mask_sum_nonzero (fun p => 5 * g_r2 g - xpy_squared d (g_center g) p)) in E2.
      rewrite (mask_all_zero (fun p => 5 * g_r2 g - xpy_squared d (g_center g) p)) by exact E2. split; [auto|]. intros _ N; contradiction.
    + assert (N2 : ~ Forall far rps).
      { intros F. apply (mask_sum_nonzero (fun p => 5 * g_r2 g - xpy_squared d (g_center g) p)) in F. congruence. }
      split; [tauto|]. intros _ _. f_equal. rewrite (combine_mask (fun p => ax_z d p - ax_z d (g_center g) + g_depth g)).
      apply map_ext. intros p. unfold goldak_lane. cbv zeta. rcase; ring.
Qed.

Lemma rotated_lanes_map d five q ps rps : rotated_lanes d five q ps = Some rps ->
  map (rotated d five q) ps = map Some rps.
Proof.
  unfold rotated_lanes, rotated. destruct d; [destruct five|].
  - destruct q; [|discriminate]. intros E. injection E as <-. rewrite map_map. reflexivity.
  - intros E. injection E as <-. reflexivity.
  - intros E. injection E as <-. reflexivity.
Qed.
Lemma rotated_lanes_none d five q ps : rotated_lanes d five q ps = None -> forall p, rotated d five q p = None.
Proof.
  unfold rotated_lanes, rotated. destruct d; [destruct five|]; try discriminate. destruct q; [discriminate|reflexivity].
Qed.

(** Scalar value at an already rotated point. *)
Definition goldak_at (d : bool) (g : goldak) (rp : pt RNum) : R :=
  let z := ax_z d rp - ax_z d (g_center g) in
  if Rltb (z + g_depth g) 0 then 0
  else if Rltb (5 * b_radius2 (g_beam g)) (xpy_squared d (g_center g) rp) then 0
  else g_alpha g * exp (-3 * xpy_squared d (g_center g) rp * g_ir2 g + -3 * (z * z) * g_id2 g).
Lemma goldak_scalar d g ps rps : rotated_lanes d (g_five g) (g_quat g) ps = Some rps ->
  map (goldak_value d g) ps = map (fun rp => Some (goldak_at d g rp)) rps.
Proof.
  intros R. apply rotated_lanes_map in R.
  assert (E : forall p, goldak_value d g p = match rotated d (g_five g) (g_quat g) p with None => None | Some rp => Some (goldak_at d g rp) end).
  { intros p. unfold goldak_value, goldak_at. destruct (rotated d (g_five g) (g_quat g) p); [|reflexivity].
    cbv zeta. rcase; [reflexivity|]. rcase; reflexivity. }
  rewrite (map_ext _ _ E). rewrite <- (map_map (rotated d (g_five g) (g_quat g)) (fun o => match o with None => None | Some rp => Some (goldak_at d g rp) end)).
  rewrite R, map_map. reflexivity.
Qed.

(** A lane is inside the radial cutoff of the beam. *)
Definition near (d : bool) (c : pt RNum) (r2 : R) (p : pt RNum) : Prop := xpy_squared d c p <= 5 * r2.

Lemma goldak_lane_near d g rp : near d (g_center g) (b_radius2 (g_beam g)) rp -> goldak_lane d g rp = goldak_at d g rp.
Proof.
  unfold near, goldak_lane, goldak_at. intros H. cbv zeta. rcase; [reflexivity|]. rcase; [lra|]. f_equal. f_equal. ring.
Qed.

Lemma goldak_vec_agrees d g t g' ps rps : goldak_update_time g t = Ok g' ->
  rotated_lanes d (g_five g') (g_quat g') ps = Some rps ->
  (Forall (near d (g_center g') (b_radius2 (g_beam g))) rps \/
   Forall (fun p => ~ near d (g_center g') (b_radius2 (g_beam g)) p) rps) ->
  exists vs, goldak_value_vec d g' ps = Some vs /\ map (goldak_value d g') ps = map Some vs.
Proof.
  intros H R HN. destruct (goldak_updated _ _ _ H) as (E0 & E1 & E2 & _).
  rewrite (goldak_scalar d g' ps rps R). destruct (goldak_vec_cases d g' ps rps R) as [C1 C2].
  assert (FarAt : forall p, ~ near d (g_center g') (b_radius2 (g_beam g)) p -> goldak_at d g' p = 0).
  { intros p Hp. unfold goldak_at, near in *. cbv zeta. rewrite E0. rcase; [reflexivity|]. rcase; [reflexivity|]. exfalso; lra. }
  assert (Zero : Forall (fun p => goldak_at d g' p = 0) rps -> map (fun rp => Some (goldak_at d g' rp)) rps = map Some (map (fun _ : pt RNum => 0) rps)).
  { intros F. rewrite map_map. apply map_ext_in. rewrite Forall_forall in F. intros p Hp. rewrite (F p Hp). reflexivity. }
  destruct HN as [HN|HN].
  - destruct (Forall_dec _ (fun p => Rlt_dec (ax_z d p - ax_z d (g_center g') + g_depth g') 0) rps) as [D|D].
    + exists (map (fun _ => 0) rps). rewrite C1 by auto. split; [reflexivity|]. apply Zero.
      rewrite Forall_forall in D |- *. intros p Hp. specialize (D p Hp). unfold goldak_at; cbv zeta. rcase; [reflexivity|contradiction].
    + destruct (Forall_dec _ (fun p => Rlt_dec (5 * g_r2 g' - xpy_squared d (g_center g') p) 0) rps) as [F|F].
      * exists (map (fun _ => 0) rps). rewrite C1 by auto. split; [reflexivity|]. apply Zero.
        rewrite Forall_forall in F |- *. intros p Hp. specialize (F p Hp). apply FarAt. unfold near. rewrite E2 in F. lra.
      * exists (map (goldak_lane d g') rps). rewrite C2 by assumption. split; [reflexivity|].
        rewrite map_map. apply map_ext_in. intros p Hp. rewrite Forall_forall in HN. rewrite goldak_lane_near; [reflexivity|].
        rewrite E0. apply HN, Hp.
  - exists (map (fun _ => 0) rps). rewrite C1.
    + split; [reflexivity|]. apply Zero. rewrite Forall_forall in HN |- *. intros p Hp. apply FarAt, HN, Hp.
    + right. rewrite Forall_forall in HN |- *. intros p Hp. specialize (HN p Hp). unfold near in HN. rewrite E2. lra.
Qed.

(** Whatever the batch: the lane value is the scalar value or exceeds it by at most alpha*exp(-15), and only outside the cutoff. *)
Lemma goldak_vec_error d g t g' ps rps : goldak_update_time g t = Ok g' -> good_beam (g_beam g) -> nonneg_modifiers (g_path g) ->
  rotated_lanes d (g_five g') (g_quat g') ps = Some rps ->
  exists vs, goldak_value_vec d g' ps = Some vs /\ List.length vs = List.length ps /\
    forall i v w, nth_error vs i = Some v -> nth_error (map (goldak_value d g') ps) i = Some (Some w) ->
      w <= v <= w + g_alpha g' * exp (-15).
Proof.
  intros H B M R. destruct (goldak_updated _ _ _ H) as (E0 & E1 & E2 & E3 & E4 & _).
  assert (A := goldak_alpha_nonneg _ _ _ H B M).
  assert (XP := exp_pos (-15)).
  assert (Len : List.length rps = List.length ps).
  { apply rotated_lanes_map in R. apply (f_equal (@List.length _)) in R. rewrite !map_length in R. auto. }
  rewrite (goldak_scalar d g' ps rps R). destruct (goldak_vec_cases d g' ps rps R) as [C1 C2].
  destruct B as [B1 [B2 _]].
  assert (AE : 0 <= g_alpha g' * exp (-15)) by (apply Rmult_le_pos; lra).
  assert (Far0 : Forall (fun p => goldak_at d g' p = 0) rps ->
     forall i v w, nth_error (map (fun _ : pt RNum => 0) rps) i = Some v -> nth_error (map (fun rp => Some (goldak_at d g' rp)) rps) i = Some (Some w) -> w <= v <= w + g_alpha g' * exp (-15)).
  { intros F i v w Hv Hw. rewrite nth_error_map in Hv, Hw. destruct (nth_error rps i) as [p|] eqn:EP; [|discriminate].
    simpl in Hv, Hw. injection Hv as <-. injection Hw as <-. rewrite Forall_forall in F. rewrite (F p (nth_error_In _ _ EP)). lra. }
  destruct (Forall_dec _ (fun p => Rlt_dec (ax_z d p - ax_z d (g_center g') + g_depth g') 0) rps) as [D|D].
  { exists (map (fun _ => 0) rps). rewrite C1 by auto. split; [reflexivity|]. split; [rewrite map_length; exact Len|]. apply Far0.
    rewrite Forall_forall in D |- *. intros p Hp. specialize (D p Hp). unfold goldak_at; cbv zeta. rcase; [reflexivity|contradiction]. }
  destruct (Forall_dec _ (fun p => Rlt_dec (5 * g_r2 g' - xpy_squared d (g_center g') p) 0) rps) as [F|F].
  { exists (map (fun _ => 0) rps). rewrite C1 by auto. split; [reflexivity|]. split; [rewrite map_length; exact Len|]. apply Far0.
    rewrite Forall_forall in F |- *. intros p Hp. specialize (F p Hp). unfold goldak_at; cbv zeta. rewrite E0. rcase; [reflexivity|].
    rcase; [reflexivity|]. rewrite E2 in F. exfalso; lra. }
  exists (map (goldak_lane d g') rps). rewrite C2 by assumption. split; [reflexivity|]. split; [rewrite map_length; exact Len|].
  intros i v w Hv Hw. rewrite nth_error_map in Hv, Hw. destruct (nth_error rps i) as [p|] eqn:EP; [|discriminate].
  simpl in Hv, Hw. injection Hv as <-. injection Hw as <-.
  destruct (Rle_dec (xpy_squared d (g_center g') p) (5 * b_radius2 (g_beam g))) as [N|N].
  - rewrite goldak_lane_near by (unfold near; rewrite E0; exact N). lra.
  - unfold goldak_lane, goldak_at. cbv zeta. rewrite E0. rcase; [lra|]. destruct (Rltb_spec (5 * b_radius2 (g_beam g)) (xpy_squared d (g_center g') p)); [|exfalso; lra].
    set (z := ax_z d p - ax_z d (g_center g')). rewrite E3, E4.
    set (e := (z * z * (1 / (b_depth (g_beam g) * b_depth (g_beam g))) + xpy_squared d (g_center g') p * (1 / b_radius2 (g_beam g))) * -3).
    assert (e <= -15).
    { unfold e. assert (0 <= z * z * (1 / (b_depth (g_beam g) * b_depth (g_beam g)))).
      { apply Rmult_le_pos; [nra|]. unfold Rdiv. rewrite Rmult_1_l. apply Rlt_le, Rinv_0_lt_compat. nra. }
      assert (5 <= xpy_squared d (g_center g') p * (1 / b_radius2 (g_beam g))).
      { apply (Rmult_le_reg_r (b_radius2 (g_beam g))); [lra|]. replace (xpy_squared d (g_center g') p * (1 / b_radius2 (g_beam g)) * b_radius2 (g_beam g)) with (xpy_squared d (g_center g') p) by (field; lra). lra. }
      lra. }
    assert (exp e <= exp (-15)). { destruct H0 as [H0| ->]; [apply Rlt_le, exp_increasing, H0|lra]. }
    assert (Q := exp_pos e). split; [rewrite Rplus_comm || idtac; nra|nra].
Qed.

(** Mixed batches: a lane outside the cutoff gets a positive value where the scalar value is 0. *)
Lemma goldak_vec_mixed d g t g' p1 p2 : goldak_update_time g t = Ok g' -> 0 < g_alpha g' ->
  (d = true -> g_five g' = false) ->
  0 <= ax_z d p1 - ax_z d (g_center g') + b_depth (g_beam g) -> 0 <= ax_z d p2 - ax_z d (g_center g') + b_depth (g_beam g) ->
  near d (g_center g') (b_radius2 (g_beam g)) p1 -> ~ near d (g_center g') (b_radius2 (g_beam g)) p2 ->
  goldak_value d g' p2 = Some 0 /\ exists v1 v2, goldak_value_vec d g' [p1; p2] = Some [v1; v2] /\ 0 < v2.
Proof.
  intros H A F5 D1 D2 N1 N2. destruct (goldak_updated _ _ _ H) as (E0 & E1 & E2 & _).
  assert (R : rotated_lanes d (g_five g') (g_quat g') [p1; p2] = Some [p1; p2]).
  { unfold rotated_lanes. destruct d; [rewrite F5 by reflexivity|]; reflexivity. }
  split.
  - assert (Q := goldak_scalar d g' _ _ R). simpl in Q. injection Q as _ ->. f_equal. unfold goldak_at, near in *. cbv zeta.
    rewrite E0, E1. rcase; [reflexivity|]. rcase; [reflexivity|]. exfalso; lra.
  - destruct (goldak_vec_cases d g' _ _ R) as [_ C2]. exists (goldak_lane d g' p1), (goldak_lane d g' p2). rewrite C2.
    + split; [reflexivity|]. unfold goldak_lane. cbv zeta. rewrite E1. rcase; [exfalso; lra|]. apply Rmult_lt_0_compat; [exact A|apply exp_pos].
    + intros F. inversion F; subst. rewrite E1 in *. lra.
    + intros F. inversion F; subst. unfold near in N1. rewrite E2 in *. lra.
Qed.
