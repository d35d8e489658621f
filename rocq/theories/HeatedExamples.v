(** HeatedExamples.v -- two heated squares in air; a square whose temperature reaches the bound. *)
From Coq Require Import Reals List Bool String ZArith Lra Lia Permutation.
From Verif Require Import Base MaterialModel MaterialSpec InputModel HeatModel HeatSpec MaterialProofs MaterialProofs2 HeatProofs HeatProofs2 HeatProofs3 HeatProofs4 HeatProofs5 HeatProofs7 HeatExamples
  StabilitySpec StabilityProofs StabilityProofs2 StabilityProofs3 StabilityProofs4 StabilityProofs5 StabilityExamples MaximumSpec MaximumProofs MaximumProofs2 MaximumExamples RadiationSpec RadiationProofs RadiationProofs2 RadiationProofs3 RadiationExamples HeatedSpec HeatedProofs.
Import ListNotations.
Open Scope R_scope.

(** Two beams, one of which is on the left cell only. *)
Definition beamed : laws RNum := fun i _ (T : R) => mkpl (N := RNum) (/ (1 + T * T)) 1 (1/2) 1 1 0 [4; if Nat.eqb i 0 then 6 else 0].
Lemma beamed_heating i q T : heating (beamed i q T) = / (1 + T * T) * (4 + (if Nat.eqb i 0 then 6 else 0)).
Proof. unfold heating, beamed. cbn [pl_inv pl_beams]. cbn [Sum num RNum]. f_equal. cbn. destruct (Nat.eqb i 0); ring. Qed.
Lemma beamed_laws : heated_laws hot_squares beamed hot_air 300 1000 1100 1 (1/4) 10.
Proof.
  split.
  - intros i q T HT. rewrite beamed_heating. unfold aligned_law, beamed. cbn [pl_inv pl_kx pl_ky pl_kz pl_cos pl_sin pl_beams]. assert (B : 0 < / (1 + T * T) <= 1).
    { assert (1 <= 1 + T * T) by nra. split; [apply Rinv_0_lt_compat; lra|]. rewrite <- Rinv_1. apply Rinv_le_contravar; lra. }
    split; [repeat split; lra|]. set (z := / (1 + T * T)) in *. clearbody z. destruct (Nat.eqb i 0); split; lra.
  - intros j f q T I B HT. unfold hot_air, largest_coef. cbn [fl_inv fl_h fl_conv fl_emissivity fl_rad]. rewrite sigma_num. repeat split; try lra.
    destruct (has_flag (hf_type f) convective), (has_flag (hf_type f) radiative); lra.
Qed.
Lemma ten_steps : 1000 + INR 10 * (1/5 * 10) <= 1100. Proof. replace (INR 10) with 10 by (cbn; ring). lra. Qed.
Lemma one_fifth : 1/5 * (4 * (1 / (1 * 1) + 1/4 / 1)) <= 1. Proof. right. field. Qed.
Definition beam_law : frozen := fun i _ => mkpl (N := RNum) 1 1 1 1 1 0 [4; if Nat.eqb i 0 then 6 else 0].
Lemma beam_heated : heated_at_most beam_law 10.
Proof. intros i q. assert (X : heating (beam_law i q) = 4 + (if Nat.eqb i 0 then 6 else 0)) by (unfold heating, beam_law; cbn; destruct (Nat.eqb i 0); ring). rewrite X. destruct (Nat.eqb i 0); lra. Qed.
Lemma beam_heated0 : heated beam_law. Proof. intros i q. apply beam_heated. Qed.
Lemma beam_aligned : aligned beam_law 1.
Proof. intros i q. unfold aligned_law. cbn. repeat split; lra. Qed.
Lemma beam_moderate : moderate false false hot_squares beam_law (losses hot_squares hot_faces hot_spot) (2/9).
Proof.
  apply (moderate_largest false false hot_squares beam_law hot_faces 300 1000 (2/9) hot_spot); try exact hot_ok; try exact hot_surroundings; try exact hot_between; try lra; try apply Forall_nil.
  apply (boxes_moderate false hot_squares beam_law hot_faces 1 (1/8) 300 1000 1 (2/9) hot_ok hot_massive eq_refl hot_exposed beam_aligned hot_losses hot_surroundings); [lra|lra|exact two_ninths].
Qed.
Lemma beam_at : at_temperatures hot_squares (fun i q _ => beam_law i q) beam_law (fun i q _ => hot_faces i q) hot_faces hot_spot.
Proof. split; intros; reflexivity. Qed.
Lemma hot_points : positive_points hot_squares. Proof. apply (boxes_points false 1); [lra|exact hot_exposed]. Qed.
Lemma hot_masses : same_masses hot_squares. Proof. apply (boxes_masses false 1); exact hot_exposed. Qed.

(** A square without losses under a uniform beam: the bound is reached at every step. *)
Definition heater : heat_mesh RNum := mkhm (N := RNum) 4 [] [rectangle ends 1 1 left_dofs] [rectangle ends 1 1 left_dofs] [].
Definition even_beam : laws RNum := fun _ _ _ => mkpl (N := RNum) 1 1 1 1 1 0 [5].
Lemma heater_ok : mesh_ok heater.
Proof.
  split; [split; [apply NoDup_nil|apply Forall_nil]|].
  split; [|split]; [repeat (apply Forall_cons; [apply rectangle_shape; [reflexivity|repeat (apply Forall_cons; [cbn; lia|]); apply Forall_nil]|]); apply Forall_nil..|apply Forall_nil].
Qed.
Lemma heater_massive : massive heater.
Proof. intros j [L N]. cbn in L, N. unfold nodal_mass. do 4 (destruct j as [|j]; [calc|]). lia. Qed.
Lemma heater_exposed : exposed_boxes false 1 heater.
Proof.
  split; [reflexivity|]. exists [map (side_of left_dofs) (sides2 1 1)], (map (side_of left_dofs) (sides2 1 1)). split.
  - apply Forall2_cons; [|apply Forall2_nil]. split; [cbn; repeat constructor; cbn; intuition lia|]. exists 1, 1, left_dofs. repeat split; try lra. unfold sides2. cbn [map]. repeat (apply Forall2_cons; [apply side_of_side|]). apply Forall2_nil.
  - cbn [heater m_faces filter map List.app List.concat]. rewrite app_nil_r. apply Permutation_refl.
Qed.
Lemma heater_laws top : heated_laws heater even_beam hot_air 300 1000 top 1 0 5.
Proof.
  split; [|intros j f q T I; destruct I]. intros i q T _. assert (X : heating (even_beam i q T) = 5) by (unfold heating, even_beam; cbn; ring). rewrite X. unfold aligned_law, even_beam. cbn [pl_inv pl_kx pl_ky pl_kz pl_cos pl_sin pl_beams]. repeat split; lra.
Qed.
Lemma heater_mass j : (j < 4)%nat -> nodal_mass heater j = 1/4.
Proof. intros L. unfold nodal_mass, integral, heater. do 4 (destruct j as [|j]; [calc|]). lia. Qed.
Lemma heater_weak (T : R) j : (j < 4)%nat -> weak false true false heater even_beam hot_air [T; T; T; T] (hat j) = 5/4.
Proof. intros L. do 4 (destruct j as [|j]; [calc|]). lia. Qed.
Lemma heater_rate (T : R) : evaluate (N := RNum) false true false heater even_beam hot_air [T; T; T; T] = [5; 5; 5; 5].
Proof.
  assert (Lr : List.length (evaluate (N := RNum) false true false heater even_beam hot_air [T; T; T; T]) = 4%nat) by apply (rate_length false true false heater even_beam hot_air [T; T; T; T]).
  assert (E : forall j, (j < 4)%nat -> entry (evaluate (N := RNum) false true false heater even_beam hot_air [T; T; T; T]) j = 5).
  { intros j L. assert (Fr : free heater j) by (split; [exact L|intros []]). etransitivity; [exact (rate_free false true false heater even_beam hot_air [T; T; T; T] heater_ok j Fr)|]. rewrite heater_weak, heater_mass by exact L. field. }
  revert Lr E. generalize (evaluate (N := RNum) false true false heater even_beam hot_air [T; T; T; T]). cbn [num RNum]. intros l Lr E.
  do 4 (destruct l as [|? l]; [discriminate|]). destruct l; [|discriminate].
  pose proof (E 0%nat ltac:(lia)) as E0. pose proof (E 1%nat ltac:(lia)) as E1. pose proof (E 2%nat ltac:(lia)) as E2. pose proof (E 3%nat ltac:(lia)) as E3. unfold entry in *. cbn [nth] in *. subst. reflexivity.
Qed.
Lemma heater_many t dt n : exists t1, many ForwardEuler (fun _ _ v => evaluate (N := RNum) false true false heater even_beam hot_air v) dt n (t, glowing) =
  (t1, let T := 1000 + INR n * (dt * 5) in [T; T; T; T]).
Proof.
  induction n as [|n [t1 IH]]; [exists t; cbn [many INR]; unfold glowing; cbv zeta; rewrite Rmult_0_l, Rplus_0_r; reflexivity|].
  cbn [many]. rewrite IH. cbn [fst snd]. cbv zeta. set (T := 1000 + INR n * (dt * 5)).
  match goal with |- exists t2, evolve _ ?f _ _ ?y = _ => change (exists t2, evolveR ForwardEuler f t1 dt y = (t2, let U := 1000 + INR (S n) * (dt * 5) in [U; U; U; U])) end.
  rewrite evolve_step. eexists. f_equal. cbn [step].
  assert (E : forall y : list R, y = [5; 5; 5; 5] -> saddR [T; T; T; T] dt y = (let U := 1000 + INR (S n) * (dt * 5) in [U; U; U; U])).
  { intros y ->. cbv zeta. assert (X : 1000 + INR (S n) * (dt * 5) = 1 * T + dt * 5) by (unfold T; rewrite S_INR; ring). rewrite X. reflexivity. }
  apply E. apply heater_rate.
Qed.
Lemma warm_losses : losses_at_most hot_squares hot_faces 1100 (1/4).
Proof.
  split; [lra|]. intros j f q I B. unfold largest_coef. cbn [hot_faces fl_inv fl_h fl_conv fl_emissivity fl_rad]. rewrite sigma_num. destruct (has_flag (hf_type f) convective), (has_flag (hf_type f) radiative); lra.
Qed.
Lemma warm_surroundings : surroundings false hot_squares hot_faces 300 400.
Proof.
  intros _ j f I B. split; [apply (sides_values false 1 hot_squares); [lra|exact hot_exposed|exact (in_indexed _ _ I)|exact B]|]. intros q. cbn [hot_faces fl_inv fl_h fl_conv fl_emissivity fl_rad]. repeat split; lra.
Qed.
Lemma warm_moderate dt : 0 <= dt <= 1/5 -> moderate false false hot_squares beam_law (largest_losses hot_faces 1100) dt.
Proof.
  intros D. apply (boxes_moderate false hot_squares beam_law hot_faces 1 (1/4) 300 1100 1 dt hot_ok hot_massive eq_refl hot_exposed beam_aligned warm_losses (surroundings_wider false hot_squares hot_faces 300 400 1100 ltac:(lra) warm_surroundings)); [lra|lra|].
  unfold even_factor. assert (X : dt * (4 * (1 / (1 * 1) + 1 / 4 / 1)) = 5 * dt) by field. rewrite X. lra.
Qed.
Lemma beam_run : exists y2, heated_run false false hot_squares 300 400 1100 10 0 hot_spot (0 + 1/5 + 1/10) y2.
Proof.
  destruct (evolve (N := RNum) ForwardEuler (fun _ _ v => evaluate (N := RNum) false true false hot_squares (fun i q _ => beam_law i q) (fun i q _ => hot_faces i q) v) 0 (1/5) hot_spot) as [t1 y1] eqn:E1.
  destruct (evolve (N := RNum) ForwardEuler (fun _ _ v => evaluate (N := RNum) false false false hot_squares (fun i q _ => beam_law i q) (fun i q _ => hot_faces i q) v) t1 (1/10) y1) as [t2 y2] eqn:E2. exists y2.
  destruct (evolve_parts ForwardEuler _ 0 (1/5) hot_spot t1 y1 E1) as [T1 _]. destruct (evolve_parts ForwardEuler _ t1 (1/10) y1 t2 y2 E2) as [T2 _]. rewrite <- T1, <- T2.
  apply (hr_step false false hot_squares 300 400 1100 10 0 (1/5) hot_spot t1 y1 t2 y2 true (fun i q _ => beam_law i q) (fun i q _ => hot_faces i q) beam_law hot_faces); [split; intros; reflexivity|exact warm_surroundings|exact beam_heated|lra|apply warm_moderate; lra|exact E1|].
  apply (hr_step false false hot_squares 300 400 1100 10 t1 (1/10) y1 t2 y2 t2 y2 false (fun i q _ => beam_law i q) (fun i q _ => hot_faces i q) beam_law hot_faces); [split; intros; reflexivity|exact warm_surroundings|exact beam_heated|lra|apply warm_moderate; lra|exact E2|].
  apply hr_stop.
Qed.
