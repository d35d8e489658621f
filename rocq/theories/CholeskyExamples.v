(** CholeskyExamples.v -- concrete cases for C81: two correlated observations of one temperature. *)
From Coq Require Import Reals ZArith Bool List Lia Lra.
From Verif Require Import Base BaseFacts AssimilationModel AssimilationSpec AssimilationProofs AssimilationProofs2 AssimilationProofs3 AssimilationProofs4 AssimilationExamples CholeskyModel AnalysisSpec CholeskySpec AnalysisProofs AnalysisProofs2 AnalysisExamples
  CholeskyProofs CholeskyProofs2 CholeskyProofs3.
Import ListNotations.
Local Open Scope R_scope.

(** [[4, 2], [2, 5]], with the factor [[2, 0], [1, 2]]. *)
Definition correlated (i j : nat) : R := match i, j with 0%nat, 0%nat => 4 | 1%nat, 1%nat => 5 | _, _ => 2 end.
Definition correlated_factor (i j : nat) : R := match i, j with 0%nat, 0%nat => 2 | 1%nat, 0%nat => 1 | 1%nat, 1%nat => 2 | _, _ => 0 end.
Lemma correlated_symmetric : symmetric 2 correlated.
Proof. intros i j Hi Hj. destruct i as [|[|i]], j as [|[|j]]; try lia; reflexivity. Qed.
Lemma correlated_definite : positive_definite 2 correlated.
Proof.
  intros v [i [Li Vi]]. unfold quadratic, Rsum_to, Rsum. cbn [map seq fold_right correlated]. set (a := v 0%nat) in *. set (b := v 1%nat) in *.
  assert (H : a <> 0 \/ b <> 0) by (destruct i as [|[|i]]; [left; exact Vi|right; exact Vi|lia]).
  replace (a * 4 * a + (a * 2 * b + 0) + (b * 2 * a + (b * 5 * b + 0) + 0)) with (Rsqr (2 * a + b) + 4 * Rsqr b) by (unfold Rsqr; ring).
  destruct (Req_dec b 0) as [B|B].
  - subst b. assert (A0 : a <> 0) by (destruct H; [assumption|contradiction]). rewrite B. pose proof (Rlt_0_sqr (2 * a + 0)) as Q. assert (2 * a + 0 <> 0) by lra. specialize (Q H0). replace (Rsqr 0) with 0 by (unfold Rsqr; ring). lra.
  - pose proof (Rlt_0_sqr b B). pose proof (Rle_0_sqr (2 * a + b)). lra.
Qed.
Lemma correlated_factored : lower_factor 2 correlated correlated_factor.
Proof.
  split; [|split].
  - intros i j H. destruct i as [|[|i]], j as [|[|j]]; try lia; reflexivity.
  - intros i H. destruct i as [|[|i]]; try lia; cbn; lra.
  - intros i j Hi Hj. destruct i as [|[|i]], j as [|[|j]]; try lia; unfold Rsum_to, Rsum; cbn [map seq fold_right correlated correlated_factor]; ring.
Qed.
(** So the program finds that factor. *)
Lemma correlated_result : exists L : list (list R), cholesky (N := RNum) 2 correlated = Ok L /\ forall i j, (i < 2)%nat -> (j < 2)%nat -> factor_entry (N := RNum) L i j = correlated_factor i j.
Proof.
  destruct (cholesky_ok 2 correlated correlated_symmetric correlated_definite) as [L [E F]]. exists L. split; [exact E|]. exact (factor_unique 2 correlated _ _ F correlated_factored).
Qed.
(** [[1, 2], [2, 1]] is not a covariance. *)
Definition no_covariance (i j : nat) : R := if Nat.eqb i j then 1 else 2.
Lemma no_covariance_symmetric : symmetric 2 no_covariance. Proof. intros i j _ _. unfold no_covariance. rewrite Nat.eqb_sym. reflexivity. Qed.
Lemma no_covariance_indefinite : ~ positive_semidefinite 2 no_covariance.
Proof. intros H. specialize (H (fun i => match i with 0%nat => 1 | _ => -1 end)). unfold quadratic, Rsum_to, Rsum, no_covariance in H. cbn [map seq fold_right Nat.eqb] in H. lra. Qed.
(** A diagonal matrix with different variances. *)
Definition variances (i j : nat) : R := if Nat.eqb i j then INR (S i) else 0.
Lemma variances_diagonal n : diagonal_matrix n variances /\ forall i, (i < n)%nat -> 0 < variances i i.
Proof. split; [intros i j _ _ H; unfold variances; apply Nat.eqb_neq in H; rewrite H; reflexivity|]. intros i _. unfold variances. rewrite Nat.eqb_refl. apply lt_0_INR. lia. Qed.

Definition two_data : list R := [500; 510].
Lemma two_observed : observed 10 line_pos [[0; 1]%nat] pair_hits 2 two_data at0 four.
Proof. split; [simpl; lia|]. split; [lra|]. split; [exact pair_query|]. split; [intros k; simpl; lia|]. intros e H. unfold at0. lia. Qed.
Definition two_solver (b : nat -> R) (e : nat) : R :=
  let p := 10000 / 3 in match e with 0%nat => ((p + 5) * b 0%nat - (p + 2) * b 1%nat) / (5 * p + 16) | _ => ((p + 4) * b 1%nat - (p + 2) * b 0%nat) / (5 * p + 16) end.
Lemma two_exact : exact_general 2 (localized_covariance no_cutoff 10 line_pos 2 four) at0 correlated two_solver.
Proof.
  intros b e He. unfold Rsum_to, Rsum, at0. cbn [map seq fold_right]. rewrite !four_P, !four_cov. unfold two_solver. destruct e as [|[|e]]; [| |lia]; cbn [correlated]; field.
Qed.
Definition two_draws (j : nat) : R := match j with 0%nat | 1%nat | 4%nat | 7%nat => sqrt 3 / 2 | _ => - (sqrt 3 / 2) end.
Lemma two_standard : standard_draws 3 two_draws 2 0 four.
Proof.
  assert (S3 : sqrt 3 * sqrt 3 = 3) by (apply sqrt_sqrt; lra). unfold standard_draws. change (List.length four) with 4%nat.
  assert (MZ : forall e, (e < 2)%nat -> drawn_mean two_draws 2 0 4 e = 0).
  { intros e He. destruct e as [|[|e]]; [| |lia]; unfold drawn_mean, drawn, Rsum_to, Rsum; cbn [map seq fold_right Nat.add Nat.mul two_draws INR]; field. }
  split.
  - intros e f He Hf. rewrite !MZ by assumption. destruct e as [|[|e]], f as [|[|f]]; try lia; unfold drawn, Rsum_to, Rsum; cbn [map seq fold_right Nat.add Nat.mul two_draws INR Nat.eqb];
    [transitivity (sqrt 3 * sqrt 3 / 3); [field|rewrite S3; field]|field|field|transitivity (sqrt 3 * sqrt 3 / 3); [field|rewrite S3; field]].
  - intros e i He Hi. rewrite !MZ by assumption. destruct e as [|[|e]]; [| |lia]; unfold drawn, Rsum_to, Rsum; cbn [map seq fold_right Nat.add Nat.mul two_draws nth four]; ring.
Qed.
Definition two_gain (e : nat) : R := match e with 0%nat => 30000 / 50048 | _ => 20000 / 50048 end.
Lemma two_gains : solves_kalman 2 (localized_covariance no_cutoff 10 line_pos 2 four) at0 correlated two_gain (fun e => Rsum_to 3 (fun i => ind (Nat.eqb 0 i) * localized_covariance no_cutoff 10 line_pos 2 four i (at0 e))).
Proof.
  intros e He. rewrite Rsum_pick by lia. unfold Rsum_to, Rsum, at0. cbn [map seq fold_right]. rewrite !four_P, !four_cov. unfold two_gain. destruct e as [|[|e]]; [| |lia]; cbn [correlated]; field.
Qed.
(** The variance of the temperature, 10000/3 before, is 160000/50048 after: below both variances of the observations. *)
Lemma two_spread ens' : analysed_general false no_cutoff 10 line_pos [[0; 1]%nat] pair_hits 2 1 correlated two_data at0 two_draws 0 two_solver four ens' ->
  sample_variance (map (along 3 (fun i => ind (Nat.eqb 0 i))) ens') = 160000 / 50048.
Proof.
  intros An. pose proof (correlated_kalman _ _ _ _ _ _ _ _ _ _ _ _ _ _ two_observed An pair_wide two_exact correlated_symmetric two_standard (fun i => ind (Nat.eqb 0 i)) two_gain two_gains) as H. refine (eq_trans H _).
  assert (V : sample_variance (map (along 3 (fun i => ind (Nat.eqb 0 i))) four) = 10000 / 3).
  { unfold sample_variance, average, along, Rsum_to, Rsum, four, ind, Rsqr. cbn [map List.length seq fold_right INR Nat.eqb]. field. }
  change (2 + 1)%nat with 3%nat. rewrite V. rewrite (Rsum_to_ext _ _ (fun e => two_gain e * (10000 / 3))).
  - unfold two_data, Rsum_to, Rsum, two_gain. cbn [map seq fold_right List.length]. field.
  - intros e _. rewrite Rsum_pick by lia. rewrite four_P, four_cov. reflexivity.
Qed.
