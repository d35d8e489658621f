(** AssimilationExamples.v -- concrete cases for C33-C36, C56, C57. *)
From Coq Require Import Reals ZArith QArith Bool List Floats Lra Lia.
From Verif Require Import Base BaseFacts AssimilationModel AssimilationSpec AssimilationProofs AssimilationProofs2 AssimilationProofs3 AssimilationProofs4.
Import ListNotations.

(** Three points on a line, 1 apart, cutoff 3/2, two ranks. *)
Definition line_pos {N : Num} (k : nat) : pt N := mkpt (nofZ N (Z.of_nat k)) (nofZ N 0) (nofZ N 0).
Definition line_owned : list (list nat) := [[0; 1]; [2]]%nat.
Definition line_hits : list (list (list (nat * nat))) := [[[(0, 0); (1, 0)]; [(0, 0); (1, 0); (0, 1)]]; [[(1, 0); (0, 1)]]]%nat.
Definition line_data (N : Num) (pos : nat -> pt N) : pattern_data N := mkpd line_owned (map (map pos) line_owned) (map csr_offsets line_hits) (map (@List.concat _) line_hits).
Lemma line_query : query_ok (N := QNum) (3 # 2) (map (map line_pos) line_owned) line_hits.
Proof.
  unfold query_ok. change (map (map line_pos) line_owned) with [[line_pos 0; line_pos 1]; [line_pos (N := QNum) 2]]. unfold line_hits.
  repeat (apply Forall2_cons || apply Forall2_nil); intros k r; split; intros H;
  match type of H with
  | In _ _ => simpl in H; repeat (destruct H as [H|H]; [injection H as <- <-; eexists; split; reflexivity|]); destruct H
  | _ => destruct H as [q [H1 H2]]; destruct r as [|[|[|r]]]; destruct k as [|[|[|k]]]; cbn in H1; try discriminate H1; injection H1 as <-; vm_compute in H2; try discriminate H2; simpl; tauto
  end.
Qed.
Lemma line_complete k : In k (List.concat line_owned) <-> (k < 3)%nat.
Proof. simpl. lia. Qed.
Lemma line_pattern : match sparsity_pattern (line_data QNum line_pos) 2 3 1 [] with Ok (m, pat) => (pat, map_find m (2, 1)%nat, map_find m (2, 0)%nat) | _ => ([], None, None) end =
  ([(0, 0); (0, 1); (1, 0); (1, 1); (1, 2); (2, 1); (2, 2); (3, 0); (3, 1); (3, 2); (3, 3); (0, 3); (1, 3); (2, 3)]%nat, Some 1%Q, None).
Proof. vmrefl. Qed.

(** Matrix of size n as rows. *)
Definition rows (n : nat) (A : nat -> nat -> res Q) : list (list (res Q)) := map (fun i => map (fun j => match A i j with Ok x => Ok (Qred x) | r => r end) (seq 0 n)) (seq 0 n).
Definition vec (l : list Z) (i : nat) : Q := inject_Z (nth i l 0%Z).
Definition localised_line (fn : cutoff_function) (ens : list (nat -> Q)) (i j : nat) : res Q :=
  match sparsity_pattern (line_data QNum line_pos) 2 3 1 [] with Ok (m, pat) => sample_covariance (N := QNum) fn (3 # 2) 3 pat m ens i j | _ => UB end.
(** Two members, all the values equal inside a member (the fourth entry is a parameter). *)
Definition two_members : list (nat -> Q) := [vec [1; 1; 1; 1]; vec [-1; -1; -1; -1]]%Z.
Lemma ex_localised : rows 4 (localised_line gaspari_cohn_cutoff two_members) =
  [[Ok 2; Ok (71 # 729); Ok 0; Ok 2]; [Ok (71 # 729); Ok 2; Ok (71 # 729); Ok 2]; [Ok 0; Ok (71 # 729); Ok 2; Ok 2]; [Ok 2; Ok 2; Ok 2; Ok 2]]%Q.
Proof. vmrefl. Qed.

(** Reals: the same line. *)
Local Open Scope R_scope.
Lemma line_distance i j : distance (line_pos i) (line_pos j) = Rabs (INR i - INR j).
Proof.
  unfold distance, line_pos. cbn [px py pz RNum nofZ num]. rewrite !INR_ofnat. rewrite (Rminus_diag_eq 0 0 eq_refl). rewrite Rsqr_0, !Rplus_0_r. apply sqrt_Rsqr_abs.
Qed.
Definition pm (i : nat) : list (nat -> R) := [fun _ => 1; fun _ => -1].
Lemma pm_cov k i j : unbiased_covariance (pm k) i j = 2.
Proof. unfold unbiased_covariance, sample_mean, pm, Rsum. simpl. field. Qed.
Ltac dist_cases := repeat match goal with |- context [Rle_dec ?a ?b] => let h := fresh in destruct (Rle_dec a b) as [h|h]; try (exfalso; revert h; rewrite ?line_distance; unfold Rabs; simpl; destruct (Rcase_abs _); lra) end.
(** Two degrees of freedom 2 apart, a cutoff of 1 and one parameter. *)
Lemma augmented_not_psd fn : ~ positive_semidefinite 3 (localized_covariance fn 1 (fun i => line_pos (2 * i)) 2 (pm 0)).
Proof.
  intros H. specialize (H (fun i => match i with 2%nat => -1 | _ => 1 end)). unfold quadratic, Rsum_to, Rsum in H. simpl in H. unfold localized_covariance in H. simpl in H. rewrite !pm_cov in H.
  assert (D : forall a, distance (line_pos (N := RNum) a) (line_pos a) = 0) by (intros; apply distance_self).
  rewrite !D in H. rewrite !taper_zero in H by lra. revert H. dist_cases. lra.
Qed.
(** Three degrees of freedom 1 apart, cutoff 3/2. *)
Lemma step_not_psd : ~ positive_semidefinite 3 (localized_covariance step_cutoff (3 / 2) line_pos 3 (pm 0)).
Proof.
  intros H. specialize (H (fun i => match i with 1%nat => -1 | _ => 1 end)). unfold quadratic, Rsum_to, Rsum in H. simpl in H. unfold localized_covariance, taper in H. simpl in H. rewrite !pm_cov in H.
  revert H. dist_cases. lra.
Qed.
(** Five members whose truncated covariance makes the system of the Kalman gain singular. *)
Definition five : list (nat -> R) :=
  let m a b := fun i : nat => match i with 0%nat => a | _ => b end in [m (-1) (-1); m (-1) (-1); m 0 1; m 1 0; m 1 1].
Lemma five_cov i j : unbiased_covariance five i j = match i, j with 0%nat, 0%nat => 1 | 0%nat, _ => 3 / 4 | _, 0%nat => 3 / 4 | _, _ => 1 end.
Proof. destruct i, j; unfold unbiased_covariance, sample_mean, five, Rsum; simpl; field. Qed.
Definition kernel (i : nat) : R := match i with 0%nat => 3 | 1%nat => -5 | _ => 4 end.
Lemma step_singular : solves_kalman 3 (localized_covariance step_cutoff (3 / 2) line_pos 3 five) (fun e => e) (observation_covariance (N := RNum) (1 / 2)) kernel (fun _ => 0).
Proof.
  intros e He. rewrite obs_cov_apply by assumption. unfold Rsum_to, Rsum, localized_covariance, taper.
  destruct e as [|[|[|e]]]; [| | |lia]; simpl; rewrite !five_cov; unfold kernel; dist_cases; lra.
Qed.
(** Without uncertainty (the default), two points observed at the same degree of freedom cannot be assimilated. *)
Lemma no_uncertainty (P : nat -> nat -> R) s (b : nat -> R) : s 0%nat = s 1%nat -> b 0%nat <> b 1%nat -> ~ exists w, solves_kalman 2 P s (observation_covariance (N := RNum) 0) w b.
Proof.
  intros Hs Hb [w Hw]. apply Hb. pose proof (Hw 0%nat ltac:(lia)) as A. pose proof (Hw 1%nat ltac:(lia)) as B. rewrite obs_cov_apply in A, B by lia. rewrite <- A, <- B. unfold Rsum_to, Rsum. simpl. rewrite <- Hs. lra.
Qed.
(** A system that has a solution: one observation. *)
Lemma one_solution (P : nat -> nat -> R) s b u : 0 <= P (s 0%nat) (s 0%nat) -> u <> 0 ->
  solves_kalman 1 P s (observation_covariance (N := RNum) u) (fun _ => b 0%nat / (P (s 0%nat) (s 0%nat) + u * u)) b.
Proof. intros HP Hu e He. assert (e = 0%nat) by lia. subst e. rewrite obs_cov_apply by lia. unfold Rsum_to, Rsum. simpl. field. nra. Qed.
Local Close Scope R_scope.

(** Numbering that does not follow the cells: the nodes are visited in the order 1, 0, 2, so that node 1 is at position 0. *)
Definition swapped (k : nat) : pt QNum := match k with 0%nat => line_pos 1 | 1%nat => line_pos 0 | _ => line_pos k end.
Lemma ex_renumbered : match sparsity_pattern (N := QNum) (mkpd [[0; 1; 2]]%nat [map swapped [1; 0; 2]%nat] [csr_offsets [[(0, 0); (1, 0)]; [(0, 0); (1, 0); (2, 0)]; [(1, 0); (2, 0)]]%nat]
      [List.concat [[(0, 0); (1, 0)]; [(0, 0); (1, 0); (2, 0)]; [(1, 0); (2, 0)]]%nat]) 1 3 0 [] with
  | Ok (m, pat) => (existsb (key_eqb (0, 2)%nat) pat, existsb (key_eqb (1, 2)%nat) pat, Qle_bool (pdist (N := QNum) (swapped 0) (swapped 2)) (3 # 2), Qle_bool (pdist (N := QNum) (swapped 1) (swapped 2)) (3 # 2))
  | _ => (true, true, true, true) end = (false, true, true, false).
Proof. vmrefl. Qed.

(** One member: 0/0. *)
Lemma ex_one_member : match cov_element (N := FNum) [fun _ => 0x1.2cp+8%float] 0 0 with Ok x => PrimFloat.eqb x x | _ => true end = false.
Proof. vmrefl. Qed.
(** Close to the end of its support the taper, computed in binary64, is negative. *)
Lemma ex_taper_negative : PrimFloat.ltb (gaspari_cohn (N := FNum) 0x1.fffep+0%float) 0%float = true.
Proof. vmrefl. Qed.
(** The same point mapped twice: the matrix sums, the direct evaluation does not. *)
Lemma ex_duplicate : (apply (N := QNum) 3 (calc_H [(0, 1); (0, 1)]%nat) (fun _ => 5%Q) 0%nat, calc_Hx (N := QNum) [(0, 1); (0, 1)]%nat (fun _ => 5%Q) 0%nat) = (10%Q, 5%Q).
Proof. vmrefl. Qed.

(** Two groups: the first with two processes that share four unknowns, the second with one; one parameter. *)
Definition wex : world QNum :=
  [(0%nat, mkproc (N := QNum) [0; 2]%nat [0]%nat [([1; 3]%Q, [7]%Q); ([11; 13]%Q, [8]%Q)]);
   (0%nat, mkproc (N := QNum) [1; 3]%nat [0]%nat [([2; 4]%Q, [7]%Q); ([12; 14]%Q, [8]%Q)]);
   (1%nat, mkproc (N := QNum) [0; 1; 2; 3]%nat [0]%nat [([21; 22; 23; 24]%Q, [9]%Q)])].
Definition wfull (c : nat) : list (list Q * list Q) := match c with 0%nat => [([1; 2; 3; 4]%Q, [7]%Q); ([11; 12; 13; 14]%Q, [8]%Q)] | _ => [([21; 22; 23; 24]%Q, [9]%Q)] end.
Lemma wex_holds c p : In (c, p) wex -> holds (group_of wex c) 4 1 (wfull c).
Proof.
  intros H. assert (Hc : c = 0%nat \/ c = 1%nat) by (simpl in H; intuition congruence). clear H p. unfold holds.
  destruct Hc as [-> | ->]; cbn [group_of wex filter map fst snd Nat.eqb pr_set0 List.concat app wfull]; (split; [repeat (apply NoDup_cons; [simpl; lia|]); apply NoDup_nil|]); (split; [intros k; simpl; lia|]);
  (split; [intros m Hm; simpl in Hm; intuition (subst; reflexivity)|]); intros p Hp; simpl in Hp; repeat (destruct Hp as [Hp|Hp]);
  try contradiction; subst p; (split; [reflexivity|repeat (apply Forall2_cons; [split; [repeat (apply Forall2_cons; [reflexivity|]); apply Forall2_nil|reflexivity]|]); apply Forall2_nil]).
Qed.
Lemma ex_gather : gather_ensemble wex = Ok ([([1; 2; 3; 4]%Q, [7]%Q); ([11; 12; 13; 14]%Q, [8]%Q); ([21; 22; 23; 24]%Q, [9]%Q)], [2; 0; 1]%nat).
Proof. vmrefl. Qed.
Lemma ex_scatter : match gather_ensemble wex with Ok (ens, counts) => scatter_ensemble wex counts ens | _ => UB end =
  Ok [(0%nat, mkproc (N := QNum) [0; 2]%nat [0]%nat [([1; 3]%Q, [7]%Q); ([11; 13]%Q, [8]%Q)]);
      (0%nat, mkproc (N := QNum) [1; 3]%nat [0]%nat [([2; 4]%Q, [0]%Q); ([12; 14]%Q, [0]%Q)]);
      (1%nat, mkproc (N := QNum) [0; 1; 2; 3]%nat [0]%nat [([21; 22; 23; 24]%Q, [9]%Q)])].
Proof. vmrefl. Qed.
