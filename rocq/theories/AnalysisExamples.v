(** AnalysisExamples.v -- concrete cases for C80. *)
From Coq Require Import Reals ZArith Bool List Lia Lra.
From Verif Require Import Base BaseFacts AssimilationModel AssimilationSpec AssimilationProofs AssimilationProofs2 AssimilationProofs3 AssimilationProofs4 AssimilationExamples AnalysisSpec AnalysisProofs AnalysisProofs2.
Import ListNotations.
Local Open Scope R_scope.

Lemma line_within i j (c : R) : nleb RNum (pdist (N := RNum) (line_pos i) (line_pos j)) c = true <-> Rabs (INR i - INR j) <= c.
Proof. rewrite distance_ok, line_distance. cbn [nleb RNum]. unfold Rleb. destruct (Rle_dec _ _); split; intros; congruence || assumption. Qed.
Lemma line_query_R : query_ok (N := RNum) (3 / 2) (map (map line_pos) line_owned) line_hits.
Proof.
  unfold query_ok. change (map (map line_pos) line_owned) with [[line_pos 0; line_pos 1]; [line_pos (N := RNum) 2]]. unfold line_hits.
  repeat (apply Forall2_cons || apply Forall2_nil); intros k r; split; intros H;
  match type of H with
  | In _ _ => cbn [In] in H; repeat (destruct H as [H|H]; [injection H as <- <-; eexists; split; [reflexivity|apply line_within; simpl; unfold Rabs; destruct (Rcase_abs _); lra]|]); destruct H
  | _ => destruct H as [q [H1 H2]]; destruct r as [|[|[|r]]]; destruct k as [|[|[|k]]]; cbn [nth nth_error] in H1; try discriminate H1; injection H1 as <-; apply line_within in H2;
         first [cbn [In]; tauto | exfalso; revert H2; simpl; unfold Rabs; destruct (Rcase_abs _); lra]
  end.
Qed.
(** Truncated covariances: three temperatures 1 apart, the ensemble [five], all observed. *)
Definition five_solver (b : nat -> R) (e : nat) : R :=
  match e with 0%nat => (24 * b 0%nat - 12 * b 1%nat + 6 * b 2%nat) / 39 | 1%nat => (- 12 * b 0%nat + 32 * b 1%nat - 16 * b 2%nat) / 39 | _ => (6 * b 0%nat - 16 * b 1%nat + 55 / 2 * b 2%nat) / 39 end.
Lemma five_P i j : localized_covariance step_cutoff (3 / 2) line_pos 3 five i j = if ((i <? 3)%nat && (j <? 3)%nat && ((i =? j + 2)%nat || (j =? i + 2)%nat))%bool then 0 else unbiased_covariance five i j.
Proof.
  unfold localized_covariance, taper. destruct (Nat.ltb_spec i 3); [|reflexivity]. destruct (Nat.ltb_spec j 3); [|reflexivity]. cbn [andb].
  assert (Hi : i = 0%nat \/ i = 1%nat \/ i = 2%nat) by lia. assert (Hj : j = 0%nat \/ j = 1%nat \/ j = 2%nat) by lia.
  destruct Hi as [->|[->| ->]]; destruct Hj as [->|[->| ->]]; cbn [Nat.eqb Nat.add orb]; dist_cases; lra.
Qed.
Lemma five_exact : exact_solver 3 (localized_covariance step_cutoff (3 / 2) line_pos 3 five) (fun e => e) 1 five_solver.
Proof.
  intros b e He. rewrite obs_cov_apply by assumption. unfold Rsum_to, Rsum. cbn [map seq fold_right]. rewrite !five_P, !five_cov.
  destruct e as [|[|[|e]]]; [| | |lia]; cbn [Nat.ltb Nat.leb Nat.eqb Nat.add orb andb five_solver]; field.
Qed.
Lemma five_observed : observed (3 / 2) line_pos line_owned line_hits 3 [0; 0; 0] (fun e => e) five.
Proof.
  split; [simpl; lia|]. split; [lra|]. split; [exact line_query_R|]. split; [exact line_complete|]. intros e H. exact H.
Qed.
Lemma zero_same u E k M : same_perturbations u (fun _ => 0) E k M. Proof. intros m m' e _ _ _. reflexivity. Qed.
Lemma zero_mean u E k M e : mean_perturbation u (fun _ => 0) E k M e = 0.
Proof. unfold mean_perturbation, perturbation. rewrite Rsum_to_zero; [unfold Rdiv; ring|]. intros. ring. Qed.
Lemma step_grows : exists ens', analysed step_cutoff (3 / 2) line_pos line_owned line_hits 3 0 1 [0; 0; 0] (fun e => e) (fun _ => 0) 0 five_solver five ens' /\
  sample_variance (map (along 3 kernel) five) = 11 / 2 /\ sample_variance (map (along 3 kernel) ens') = 88 / 9.
Proof.
  destruct (analysis_exists step_cutoff (3 / 2) line_pos line_owned line_hits 3 0 1 [0; 0; 0] (fun e => e) (fun _ => 0) 0 five_solver five five_observed) as [ens' An]. exists ens'. split; [exact An|].
  assert (V : sample_variance (map (along 3 kernel) five) = 11 / 2).
  { unfold sample_variance, average, along, Rsum_to, Rsum, five, kernel, Rsqr. cbn [map List.length seq fold_right INR]. field. }
  split; [exact V|]. pose proof (len' _ _ _ _ _ _ _ _ _ _ _ _ _ _ _ five_observed An) as L.
  rewrite variance_val, L in *. rewrite (Rsum_to_ext _ _ (fun m => 16 / 9 * Rsqr (val 3 kernel (mem five) m - av (List.length five) (val 3 kernel (mem five))))).
  - rewrite Rsum_to_scal. unfold Rdiv in *. rewrite Rmult_assoc, V. field.
  - intros m Lm. pose proof (deviation_ok _ _ _ _ _ _ _ _ _ _ _ _ _ _ _ five_observed An five_exact kernel (fun e => - / 3 * kernel e)) as D.
    assert (HD : forall x x', nth_error five m = Some x -> nth_error ens' m = Some x' ->
      along 3 kernel x' - average (map (along 3 kernel) ens') = along 3 kernel x - average (map (along 3 kernel) five) + Rsum_to 3 (fun e => - / 3 * kernel e * (- (x e - sample_mean five e)))).
    { intros x x' X1 X2. refine (eq_trans (D _ m x x' X1 X2) _).
      - intros e He. rewrite obs_cov_apply by assumption. unfold Rsum_to, Rsum. cbn [map seq fold_right List.length Nat.add]. rewrite !five_P, !five_cov.
        cbn [List.length] in He. destruct e as [|[|[|e]]]; [| | |lia]; cbn [Nat.ltb Nat.leb Nat.eqb Nat.add orb andb kernel]; field.
      - cbn [List.length Nat.add]. f_equal. apply Rsum_to_ext. intros e _. rewrite (zero_mean 1 3 0 (List.length five) e). unfold perturbation. ring. }
    clear D. specialize (HD _ _ (mem_nth five m Lm) (mem_nth ens' m ltac:(rewrite L; exact Lm))). rewrite !average_av, L in HD.
    change (along 3 kernel (mem ens' m)) with (val 3 kernel (mem ens') m) in HD. change (along 3 kernel (mem five m)) with (val 3 kernel (mem five) m) in HD. rewrite HD.
    rewrite (Rsum_to_ext 3 _ (fun e => / 3 * (kernel e * (mem five m e - av (List.length five) (fun m => mem five m e))))) by (intros e _; rewrite sample_mean_av; ring).
    rewrite Rsum_to_scal, <- (val_dev 3 (List.length five) (mem five) kernel m). unfold Rsqr. field.
Qed.

(** Two temperatures, an absorption efficiency; four members; the first temperature is observed with an uncertainty of 10. *)
Definition four : list (nat -> R) := let m sg := fun i : nat => match i with 0%nat => 1000 + 50 * sg | 1%nat => 300 | _ => 1 / 2 + 2 / 5 * sg end in [m 1; m 1; m (-1); m (-1)].
Definition pair_hits : list (list (list (nat * nat))) := [[[(0, 0); (1, 0)]; [(0, 0); (1, 0)]]]%nat.
Definition at0 (e : nat) : nat := 0%nat.
Lemma pair_query : query_ok (N := RNum) 10 (map (map line_pos) [[0; 1]%nat]) pair_hits.
Proof.
  unfold query_ok. change (map (map line_pos) [[0; 1]%nat]) with [[line_pos 0; line_pos (N := RNum) 1]]. unfold pair_hits.
  repeat (apply Forall2_cons || apply Forall2_nil); intros k r; split; intros H;
  match type of H with
  | In _ _ => cbn [In] in H; repeat (destruct H as [H|H]; [injection H as <- <-; eexists; split; [reflexivity|apply line_within; simpl; unfold Rabs; destruct (Rcase_abs _); lra]|]); destruct H
  | _ => destruct H as [q [H1 H2]]; destruct r as [|[|r]]; destruct k as [|[|[|k]]]; cbn [nth nth_error] in H1; try discriminate H1; cbn [In]; tauto
  end.
Qed.
Lemma four_observed : observed 10 line_pos [[0; 1]%nat] pair_hits 2 [500] at0 four.
Proof. split; [simpl; lia|]. split; [lra|]. split; [exact pair_query|]. split; [intros k; simpl; lia|]. intros e H. unfold at0. lia. Qed.
Lemma pair_wide : wide 10 line_pos 2.
Proof. intros i j Hi Hj. rewrite line_distance. assert (Ci : i = 0%nat \/ i = 1%nat) by lia. assert (Cj : j = 0%nat \/ j = 1%nat) by lia. destruct Ci as [-> | ->], Cj as [-> | ->]; simpl; unfold Rabs; destruct (Rcase_abs _); lra. Qed.
Definition four_solver (b : nat -> R) (e : nat) : R := b 0%nat / (10000 / 3 + 10 * 10).
Lemma four_P i j : localized_covariance no_cutoff 10 line_pos 2 four i j = unbiased_covariance four i j.
Proof. exact (Pw 10 line_pos [[0; 1]%nat] pair_hits 2 [500] at0 four four_observed pair_wide i j). Qed.
Lemma four_cov i j : unbiased_covariance four i j = match i, j with 0%nat, 0%nat => 10000 / 3 | 1%nat, _ => 0 | _, 1%nat => 0 | 0%nat, _ => 80 / 3 | _, 0%nat => 80 / 3 | _, _ => 16 / 75 end.
Proof. destruct i as [|[|i]], j as [|[|j]]; unfold unbiased_covariance, sample_mean, four, Rsum; simpl; field. Qed.
Lemma four_exact : exact_solver 1 (localized_covariance no_cutoff 10 line_pos 2 four) at0 10 four_solver.
Proof. intros b e He. assert (e = 0%nat) by lia. subst e. rewrite obs_cov_apply by lia. unfold Rsum_to, Rsum, at0. cbn [map seq fold_right]. rewrite four_P, four_cov. unfold four_solver. field. Qed.
Lemma efficiency_leaves : exists ens', analysed no_cutoff 10 line_pos [[0; 1]%nat] pair_hits 2 1 10 [500] at0 (fun _ => 0) 0 four_solver four ens' /\
  (forall x, In x four -> 0 <= x 2%nat <= 1) /\ exists x', In x' ens' /\ x' 2%nat < -3.
Proof.
  destruct (analysis_exists no_cutoff 10 line_pos [[0; 1]%nat] pair_hits 2 1 10 [500] at0 (fun _ => 0) 0 four_solver four four_observed) as [ens' An]. exists ens'. split; [exact An|]. split.
  - intros x I. cbn [four In] in I. repeat (destruct I as [<-|I]; [cbv beta iota; lra|]). destruct I.
  - pose proof (len' _ _ _ _ _ _ _ _ _ _ _ _ _ _ _ four_observed An) as L. exists (mem ens' 2). split; [apply mem_in; rewrite L; simpl; lia|].
    rewrite (upd _ _ _ _ _ _ _ _ _ _ _ _ _ _ _ four_observed An 2%nat 2%nat) by (simpl; lia). cbn [List.length]. unfold Rsum_to, Rsum. cbn [map seq fold_right]. unfold at0 at 1. rewrite four_P, four_cov. unfold four_solver at 1.
    rewrite (innov_value 10 [500] at0 (fun _ => 0) 0 2 (mem four 2) 0) by (simpl; lia). unfold perturbation, mem, four, at0. cbn [nth]. rewrite Rmult_0_l. lra.
Qed.
(** Perturbations of the four members. *)
Definition four_draws (j : nat) : R := match j with 0%nat => sqrt 3 / 2 | 1%nat => - (sqrt 3 / 2) | 2%nat => sqrt 3 / 2 | _ => - (sqrt 3 / 2) end.
Lemma four_ideal : ideal_perturbations 3 10 four_draws 1 0 four.
Proof.
  assert (S3 : sqrt 3 * sqrt 3 = 3) by (apply sqrt_sqrt; lra). assert (S1 : sqrt (10 * 10) = 10) by (apply sqrt_square; lra).
  assert (PV : forall m, perturbation 10 four_draws 1 0 m 0 = four_draws m * 10) by (intros m; unfold perturbation; rewrite S1; repeat f_equal; lia).
  assert (MP : mean_perturbation 10 four_draws 1 0 4 0 = 0).
  { unfold mean_perturbation. rewrite (Rsum_to_ext 4 _ (fun m => four_draws m * 10)) by (intros; apply PV). unfold Rsum_to, Rsum. cbn [map seq fold_right four_draws INR]. field. }
  unfold ideal_perturbations. change (List.length four) with 4%nat. split.
  - intros e f He Hf. assert (e = 0%nat) by lia. assert (f = 0%nat) by lia. subst e f. rewrite MP. rewrite (Rsum_to_ext 4 _ (fun m => four_draws m * 10 * (four_draws m * 10))) by (intros; rewrite PV; ring).
    unfold Rsum_to, Rsum. cbn [map seq fold_right four_draws INR]. unfold observation_covariance. cbn [Nat.eqb nmul RNum].
    transitivity (sqrt 3 * sqrt 3 * 100 / 3); [field|]. rewrite S3. field.
  - intros e i He Hi. assert (e = 0%nat) by lia. subst e. rewrite MP. rewrite (Rsum_to_ext 4 _ (fun m => four_draws m * 10 * (nth m four (fun _ => 0) i - sample_mean four i))) by (intros; rewrite PV; ring).
    unfold Rsum_to, Rsum. cbn [map seq fold_right four_draws nth four]. ring.
Qed.
Lemma four_gain : solves_kalman 1 (localized_covariance no_cutoff 10 line_pos 2 four) at0 (observation_covariance (N := RNum) 10) (fun _ => 8 / 1030) (fun e => Rsum_to 3 (fun i => ind (Nat.eqb 2 i) * localized_covariance no_cutoff 10 line_pos 2 four i (at0 e))).
Proof.
  intros e He. assert (e = 0%nat) by lia. subst e. rewrite obs_cov_apply by lia. rewrite Rsum_pick by lia. unfold Rsum_to, Rsum, at0. cbn [map seq fold_right]. rewrite !four_P, !four_cov. field.
Qed.
Lemma four_agree : forall x, In x four -> x 1%nat = 300.
Proof. intros x I. cbn [four In] in I. repeat (destruct I as [<-|I]; [reflexivity|]). destruct I. Qed.
(** All members satisfy x_0 - 125 x_2 = 1875/2. *)
Definition relation (i : nat) : R := match i with 0%nat => 1 | 2%nat => -125 | _ => 0 end.
Lemma four_relation : forall x, In x four -> along 3 relation x = 1875 / 2.
Proof. intros x I. unfold along, Rsum_to, Rsum, relation. cbn [map seq fold_right]. cbn [four In] in I. repeat (destruct I as [<-|I]; [cbv beta iota; field|]). destruct I. Qed.
Lemma four_spread : sample_variance (map (along 3 (fun i => ind (Nat.eqb 2 i))) four) = 16 / 75.
Proof. unfold sample_variance, average, along, Rsum_to, Rsum, four, ind, Rsqr. cbn [map List.length seq fold_right INR Nat.eqb]. field. Qed.
