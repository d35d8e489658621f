(** PlacementExamples.v -- a moved run, and five-axis paths. *)
From Coq Require Import Reals List Bool String ZArith Lra Lia.
From Verif Require Import Base BaseFacts QuaternionModel ScanPathModel ScanPathSpec HeatSourceModel HeatSourceProofs2 MaterialModel InputModel HeatModel HeatSpec PowerSpec EnergyModel EnergySpec EnergyProofs3 EnergyExamples HeatExamples PlacementSpec PlacementProofs.
Import ListNotations.
Local Open Scope R_scope.

(** A turn by 3-4-5 and a shift; a mirror. *)
Definition quarter : motion := mkmotion (3/5) (-4/5) (4/5) (3/5) (mkpt (N := RNum) 10 20 30).
Definition mirror : motion := mkmotion (-1) 0 0 1 (mkpt (N := RNum) 1 2 0).
Lemma quarter_rigid : rigid true quarter /\ rigid false mirror.
Proof. unfold rigid, quarter, mirror. cbn [m_a m_b m_c m_d]. repeat split; try lra; intros; discriminate. Qed.
Lemma placed_case : forall s dts, Forall (fun d => 0 <= d) dts -> exists srcs (K : nat -> nat -> laws RNum) (t' : R) (y' : list R),
  List.length srcs = 2%nat /\ Forall (fun s => source_five s = false) srcs /\ (forall n i c q T, pl_kx (K n i c q T) <> pl_ky (K n i c q T)) /\
  thermal_run true s (mesh3 (N := RNum) adiabatic) (fun _ _ => P00) K (fun _ _ _ _ _ => mkfl (N := RNum) 0 0 0 0 0) 0 0 dts srcs (repeat 300 8) = Ok (t', y') /\
  thermal_run true s (turned_mesh quarter (mesh3 (N := RNum) adiabatic)) (fun _ _ => mkpt (N := RNum) 10 20 30) (fun n i c q T => turned_law quarter (K n i c q T)) (fun _ _ _ _ _ => mkfl (N := RNum) 0 0 0 0 0) 0 0 dts
    (map (moved_source quarter) srcs) (repeat 300 8) = Ok (t', y').
Proof.
  intros s dts Fd. set (srcs := [pulse_source [(1/4, 0); (3/8, 1)]; ex_ebeam]). set (K := fun (_ _ : nat) => K3 (N := RNum)).
  destruct (thermal_runs s (mesh3 (N := RNum) adiabatic) (fun _ _ => P00) K (fun _ _ _ _ _ => mkfl (N := RNum) 0 0 0 0 0) dts srcs (repeat 300 8) Fd ex_new) as (t' & y' & T).
  exists srcs, K, t', y'. split; [reflexivity|]. split; [repeat (apply Forall_cons; [reflexivity|]); apply Forall_nil|]. split; [intros; unfold K, K3; cbn; lra|]. split; [exact T|].
  rewrite <- T. rewrite <- (run_moved true s (mesh3 (N := RNum) adiabatic) quarter (fun _ _ => P00) K (fun _ _ _ _ _ => mkfl (N := RNum) 0 0 0 0 0) 0 0 dts srcs (repeat 300 8) (proj1 quarter_rigid)).
  - assert (X : move quarter P00 = mkpt (N := RNum) 10 20 30) by (unfold move, quarter, P00; cbn [m_a m_b m_c m_d m_shift px py pz]; apply pt_eq; ring). rewrite X. reflexivity.
  - repeat (apply Forall_cons; [reflexivity|]); apply Forall_nil.
Qed.

(** A five-axis path that turns the part by half a turn about the vertical through the origin of the machine. *)
Definition half_turn : quat RNum := mkq (N := RNum) 0 0 0 1.
Definition five_source : source :=
  Goldak (mkG false unit_beam (mkSP (N := RNum) false true 1 1 FEventSeries [mkseg (N := RNum) 1 1 P00 (Some half_turn)] 0) true None P00 0 0 0 0 0).
Definition shift_x : motion := mkmotion 1 0 0 1 (mkpt (N := RNum) 10 0 0).
Lemma five_axis_place : exists M s t s1 s1' p, rigid true M /\ update_time s t = Ok s1 /\ update_time (moved_source M s) t = Ok s1' /\
  source_value true s1 p <> Some 0 /\ source_value true s1' (move M p) = Some 0.
Proof.
  assert (L1 : forall a b, a < b -> Rltb a b = true) by (intros a b H; unfold Rltb; destruct (Rlt_dec a b); [reflexivity|lra]).
  assert (L2 : forall a b, b <= a -> Rltb a b = false) by (intros a b H; unfold Rltb; destruct (Rlt_dec a b); [lra|reflexivity]).
  assert (E1 : forall a, Reqb a a = true) by (intros a; unfold Reqb; destruct (Req_EM_T a a); [reflexivity|congruence]).
  set (fp := mkSP (N := RNum) false true 1 1 FEventSeries [mkseg (N := RNum) 1 1 P00 (Some half_turn)] 0).
  assert (I : forall save, update_current_segment_info (N := RNum) fp (1/2) save = Ok (0%nat, P00, 0, Some half_turn, fp)).
  { intros save. unfold update_current_segment_info, fp. cbn [sp_segs sp_old skipn advance end_time nltb RNum]. rewrite (L2 1 (1/2)) by lra. cbn [bind at_ nth_error end_point end_rotation]. destruct save; reflexivity. }
  assert (P : get_power_modifier (N := RNum) fp (1/2) = Ok (1, fp)).
  { unfold get_power_modifier. rewrite I. unfold fp at 1. cbn [sp_segs back rev List.app bind end_time nltb RNum]. rewrite (L2 1 (1/2)) by lra. reflexivity. }
  assert (V : value (N := RNum) fp (1/2) true = Ok (P00, fp)).
  { unfold value. rewrite I. unfold fp at 1. cbn [sp_segs back rev List.app bind end_time nltb RNum]. rewrite (L2 1 (1/2)) by lra. cbn [bind fp sp_segs at_ nth_error end_point]. f_equal. f_equal.
    unfold padd, pscale, psub, pdivs, P00. cbn [px py pz nadd nsub nmul ndiv RNum end_time]. apply pt_eq; field. }
  assert (Q : get_quaternion qpow fp (1/2) = Ok (Some half_turn)).
  { unfold get_quaternion. rewrite I. unfold fp at 1 2. cbn [sp_five_axis negb sp_segs back rev List.app bind end_time nltb RNum]. rewrite (L2 1 (1/2)) by lra. cbn [bind fp sp_segs at_ nth_error end_rotation].
    unfold qeqb, half_turn. cbn [qr qi qj qk neqb RNum]. rewrite !E1. reflexivity. }
  set (al := 2 * 1 * (1 * 1) * 1 / (b_radius2 unit_beam * (1 * 1) * pi_over_3_to_1p5)).
  assert (A : al <> 0).
  { unfold al. assert (0 < pi_over_3_to_1p5) by (unfold pi_over_3_to_1p5, Rpower; apply exp_pos). assert (B : b_radius2 unit_beam = 1) by (unfold unit_beam, set_from_database; cbn; field). rewrite B.
    apply Rgt_not_eq. apply Rdiv_lt_0_compat; lra. }
  set (g1 := mkG true unit_beam fp true (Some half_turn) P00 al (1 * 1) (1 / (1 * 1 * (1 * 1))) (b_radius2 unit_beam) (1 / b_radius2 unit_beam)).
  assert (U : update_time five_source (1/2) = Ok (Goldak g1)).
  { unfold update_time, five_source, goldak_update_time. cbn [g_path g_beam g_five]. change (mkSP _ _ _ _ _ _ _) with fp. rewrite P. cbn [bind]. rewrite V. cbn [bind]. rewrite Q. cbn [bind]. rewrite (L1 0 1) by lra. reflexivity. }
  assert (Rg : rigid true shift_x) by (unfold rigid, shift_x; cbn [m_a m_b m_c m_d]; repeat split; try lra; intros; discriminate).
  pose proof (update_follows shift_x five_source (moved_source shift_x five_source) (1/2) (follows_moved _ _)) as F. rewrite U in F. destruct F as (s1' & U' & (c & -> & C)). specialize (C A).
  exists shift_x, five_source, (1/2), (Goldak g1), (recentred (moved_source shift_x (Goldak g1)) c), P00. split; [exact Rg|]. split; [exact U|]. split; [exact U'|].
  assert (D : b_depth unit_beam = 1) by (unfold unit_beam, set_from_database; cbn; ring). assert (B : b_radius2 unit_beam = 1) by (unfold unit_beam, set_from_database; cbn; field).
  split.
  - cbn [source_value]. unfold goldak_value, g1. cbn [g_five g_quat g_center g_depth g_beam g_alpha g_ir2 g_id2 rotated]. rewrite B.
    unfold rotate, half_turn, P00, ax_z, xpy_squared. cbn [px py pz qr qi qj qk nadd nsub nmul nofZ RNum]. rewrite L2 by lra. rewrite L2 by lra. intros [= X]. apply Rmult_integral in X. destruct X as [X|X]; [exact (A X)|].
    match type of X with exp ?e = 0 => pose proof (exp_pos e) as Z end. lra.
  - subst c. cbn [moved_source recentred source_value source_center]. unfold goldak_value, g1. cbn [g_five g_quat g_center g_depth g_beam g_alpha g_ir2 g_id2 rotated]. rewrite B.
    unfold rotate, half_turn, P00, ax_z, xpy_squared, move, shift_x. cbn [px py pz qr qi qj qk nadd nsub nmul nofZ RNum m_a m_b m_c m_d m_shift]. rewrite L2 by lra. rewrite L1 by lra. reflexivity.
Qed.
