(** PowerExamples.v -- a beam that meets the hypotheses of the theorems of C75, and the counterexamples of its refuted claims. *)
From Coq Require Import Reals Lra Psatz Bool List.
From Coquelicot Require Import Coquelicot.
From Verif Require Import Base BaseFacts QuaternionModel ScanPathModel HeatSourceModel HeatSourceSpec HeatSourceProofs HeatSourceProofs2 PowerSpec PowerProofs PowerProofs2.
Local Open Scope R_scope.

(** A beam of unit radius and depth, absorbing the whole of its unit power, at the origin for one second. *)
Lemma pw_goldak : exists g', goldak_update_time (goldak0 false None) (1 / 2) = Ok g' /\ good_beam (g_beam (goldak0 false None)) /\ g_five (goldak0 false None) = false /\
  get_power_modifier (g_path (goldak0 false None)) (1 / 2) = Ok (1, still false None) /\ b_eff (g_beam (goldak0 false None)) * b_power (g_beam (goldak0 false None)) * 1 = 1 /\
  b_radius2 (g_beam (goldak0 false None)) = 1 /\ b_depth (g_beam (goldak0 false None)) = 1.
Proof.
  destruct (goldak0_update false None (1 / 2) ltac:(lra)) as (g' & U & _); [discriminate|]. exists g'.
  split; [exact U|]. split; [apply unit_good|]. split; [reflexivity|]. split; [apply (still_power false None (1 / 2)); lra|].
  unfold goldak0, unit_beam, set_from_database; cbn; repeat split; lra.
Qed.
Lemma pw_ebeam : exists g', ebeam_update_time (ebeam0 false None) (1 / 2) = Ok g' /\ good_beam (e_beam (ebeam0 false None)) /\ e_five (ebeam0 false None) = false /\
  get_power_modifier (e_path (ebeam0 false None)) (1 / 2) = Ok (1, still false None) /\ b_eff (e_beam (ebeam0 false None)) * b_power (e_beam (ebeam0 false None)) * 1 = 1 /\
  b_radius2 (e_beam (ebeam0 false None)) = 1 /\ b_depth (e_beam (ebeam0 false None)) = 1.
Proof.
  destruct (ebeam0_update false None (1 / 2) ltac:(lra)) as (g' & U & _); [discriminate|]. exists g'.
  split; [exact U|]. split; [apply unit_good|]. split; [reflexivity|]. split; [apply (still_power false None (1 / 2)); lra|].
  unfold ebeam0, unit_beam, set_from_database; cbn; repeat split; lra.
Qed.
(** The same beam with half the radius. *)
Definition pw_narrow : goldak := mkG false (set_from_database 1 1 1 1 1 1) (still false None) false None (P0 0 0 0) 0 0 0 0 0.
Lemma pw_radius : exists g1 h1 x y, goldak_update_time (goldak0 false None) (1 / 2) = Ok g1 /\ goldak_update_time pw_narrow (1 / 2) = Ok h1 /\ good_beam (g_beam pw_narrow) /\ b_radius2 (g_beam pw_narrow) = 1 / 2 * (1 / 2) /\
  heat_in_2d (goldak_value false g1) (g_center g1) 3 (- 1) 0 x /\ heat_in_2d (goldak_value false h1) (g_center h1) 3 (- 1) 0 y /\ 0 < x /\ y = 2 * x.
Proof.
  destruct pw_goldak as (g1 & U & G & _ & Pm & Pw & Ra & De).
  assert (V : exists h1, goldak_update_time pw_narrow (1 / 2) = Ok h1).
  { unfold goldak_update_time, pw_narrow. simpl g_path. rewrite (still_power false None (1 / 2) ltac:(lra)). simpl bind at 1. cbv iota beta. rewrite (still_value false None (1 / 2) true ltac:(lra)). simpl bind at 1. cbv iota beta.
    change (get_quaternion qpow (still false None) (1 / 2)) with (Ok (Some (@qone RNum))). simpl. eexists. reflexivity. }
  destruct V as (h1 & V). assert (H : good_beam (g_beam pw_narrow)) by (unfold good_beam, pw_narrow, set_from_database; cbn; repeat split; lra).
  assert (R1 : b_radius2 (g_beam (goldak0 false None)) = 1 * 1) by (rewrite Ra; lra).
  assert (R2 : b_radius2 (g_beam pw_narrow) = 1 / 2 * (1 / 2)) by (unfold pw_narrow, set_from_database; cbn; lra).
  assert (X := goldak_total_2d _ _ g1 1 _ 1 3 1 U G Pm ltac:(lra) R1 ltac:(lra) ltac:(rewrite R1; lra) ltac:(rewrite De; lra)).
  assert (D2 : b_depth (g_beam pw_narrow) = 1) by (unfold pw_narrow, set_from_database; cbn; lra).
  assert (Y := goldak_total_2d pw_narrow _ h1 1 _ (1 / 2) 3 1 V H Pm ltac:(lra) R2 ltac:(lra) ltac:(rewrite R2; lra) ltac:(rewrite D2; lra)).
  do 4 eexists. split; [exact U|]. split; [exact V|]. split; [exact H|]. split; [exact R2|]. split; [exact X|]. split; [exact Y|]. split.
  - rewrite Pw. assert (S := share_2d_pos). lra.
  - eapply (radius_2d (goldak0 false None) pw_narrow (1 / 2) g1 h1 1 _ 1 3 1); try eassumption; try reflexivity; try lra; try (rewrite De; lra); try (rewrite D2; lra); unfold goldak0, pw_narrow, unit_beam, set_from_database; cbn; lra.
Qed.
