(** AssimilationProperties.v -- C33-C36, C56, C57.  Only statements, witnesses and assumptions. *)
From Coq Require Import Reals ZArith QArith Bool List Floats.
From Verif Require Import Base BaseFacts AssimilationModel AssimilationSpec AssimilationProofs AssimilationProofs2 AssimilationProofs3 AssimilationProofs4 AssimilationExamples.
Import ListNotations.
Local Open Scope R_scope.

(** ** C33.  The taper is equation (4.10) of Gaspari and Cohn. *)
Theorem C33_textbook : forall z c : R, 0 < c -> gaspari_cohn (N := RNum) (Rabs z / c) = gaspari_cohn_4_10 z c.
Proof. exact gc_textbook. Qed.
Print Assumptions C33_textbook.
Theorem C33_ends : gaspari_cohn (N := RNum) 0 = 1 /\ (forall r : R, 2 <= r -> gaspari_cohn (N := RNum) r = 0) /\ forall r : R, 0 <= r -> r < 2 -> 0 < gaspari_cohn (N := RNum) r.
Proof. exact (conj gc_zero (conj gc_beyond gc_positive)). Qed.
Print Assumptions C33_ends.
Theorem C33_decreasing : (forall x y : R, 0 <= x -> x < y -> x < 2 -> gaspari_cohn (N := RNum) y < gaspari_cohn (N := RNum) x) /\ forall x y : R, 0 <= x -> x <= y -> gaspari_cohn (N := RNum) y <= gaspari_cohn (N := RNum) x.
Proof. exact (conj gc_strict gc_nonincreasing). Qed.
Print Assumptions C33_decreasing.
Theorem C33_range : forall r : R, 0 <= r -> 0 <= gaspari_cohn (N := RNum) r <= 1.
Proof. exact gc_range. Qed.
Print Assumptions C33_range.
Theorem C33_continuous : forall x : R, continuity_pt (gaspari_cohn (N := RNum)) x.
Proof. exact gc_continuous. Qed.
Print Assumptions C33_continuous.
(** As used, with twice the distance over the cutoff: the taper of half-width cutoff/2, zero from the cutoff on. *)
Theorem C33_localization : forall fn (cutoff dist : R), 0 < cutoff -> 0 <= dist -> localization (N := RNum) fn cutoff dist = taper fn cutoff dist.
Proof. exact taper_ok. Qed.
Print Assumptions C33_localization.
Theorem C33_cutoff : forall cutoff dist : R, 0 < cutoff -> cutoff <= dist -> localization (N := RNum) gaspari_cohn_cutoff cutoff dist = 0.
Proof. exact localization_beyond. Qed.
Print Assumptions C33_cutoff.
(** In binary64 the values are not all in [0,1]: rounding makes this one, at 2 - 2^-15, negative (powers by repeated product). *)
Theorem C33_binary64_refuted : PrimFloat.ltb (gaspari_cohn (N := FNum) 0x1.fffep+0%float) 0%float = true.
Proof. exact ex_taper_negative. Qed.
Print Assumptions C33_binary64_refuted.

(** ** C34.  The entries computed are the unbiased estimator. *)
Theorem C34_estimator : forall (ens : list (nat -> R)) i j, ens <> [] -> cov_element (N := RNum) ens i j = Ok (unbiased_covariance ens i j).
Proof. exact cov_ok. Qed.
Print Assumptions C34_estimator.
Theorem C34_symmetric : forall (ens : list (nat -> R)) i j, cov_element (N := RNum) ens i j = cov_element (N := RNum) ens j i.
Proof. exact (fun ens i j => match ens as l return cov_element (N := RNum) l i j = cov_element (N := RNum) l j i with [] => eq_refl | x :: r =>
  eq_trans (cov_ok (x :: r) i j ltac:(discriminate)) (eq_trans (f_equal Ok (unbiased_sym (x :: r) i j)) (eq_sym (cov_ok (x :: r) j i ltac:(discriminate)))) end). Qed.
Print Assumptions C34_symmetric.
Theorem C34_psd : forall (ens : list (nat -> R)) n, (2 <= List.length ens)%nat -> positive_semidefinite n (unbiased_covariance ens) /\ forall i, 0 <= unbiased_covariance ens i i.
Proof. exact (fun ens n H => conj (cov_psd ens n H) (fun i => diag_nonneg ens i H)). Qed.
Print Assumptions C34_psd.
Theorem C34_identical : forall (ens : list (nat -> R)) i j a, ens <> [] -> (forall x, In x ens -> x i = a) -> unbiased_covariance ens i j = 0.
Proof. exact cov_identical. Qed.
Print Assumptions C34_identical.
Theorem C34_shift : forall (ens : list (nat -> R)) i j (c : nat -> R), ens <> [] -> unbiased_covariance (map (fun x k => x k + c k) ens) i j = unbiased_covariance ens i j.
Proof. exact cov_shift. Qed.
Print Assumptions C34_shift.
Example C34_values : forall i j, unbiased_covariance five i j = match i, j with 0%nat, 0%nat => 1 | 0%nat, _ => 3 / 4 | _, 0%nat => 3 / 4 | _, _ => 1 end. Proof. exact five_cov. Qed.
(** One member: not a number.  No member: undefined. *)
Example C34_one_member : match cov_element (N := FNum) [fun _ => 0x1.2cp+8%float] 0 0 with Ok x => PrimFloat.eqb x x | _ => true end = false. Proof. exact ex_one_member. Qed.
Example C34_no_member : cov_element (N := FNum) [] 0 0 = UB. Proof. exact eq_refl. Qed.
(** Pattern: pairs of degrees of freedom within the cutoff, and everything that involves a parameter; the distance found for a pair is the
    current one, whatever the map held before.  Any arithmetic, any distribution over the ranks; degrees of freedom numbered in the order of the cells. *)
Theorem C34_pattern : forall (N : Num) (cutoff : N) (pos : nat -> pt N) owned hits, query_ok cutoff (map (map pos) owned) hits -> forall sim par m, (forall k, In k (List.concat owned) <-> (k < sim)%nat) ->
  exists m' pat, sparsity_pattern (mkpd owned (map (map pos) owned) (map csr_offsets hits) (map (@List.concat _) hits)) (List.length owned) sim par m = Ok (m', pat) /\
    (forall i j, In (i, j) pat <-> ((i < sim /\ j < sim)%nat /\ nleb N (pdist (pos i) (pos j)) cutoff = true) \/
                                  ((i < sim + par /\ j < sim + par)%nat /\ ~ (i < sim /\ j < sim)%nat)) /\
    (forall i j, (i < sim)%nat -> (j < sim)%nat -> In (i, j) pat -> map_find m' (i, j) = Some (pdist (pos i) (pos j))).
Proof. exact @pattern_ok. Qed.
Print Assumptions C34_pattern.
Example C34_query : query_ok (N := QNum) (3 # 2) (map (map line_pos) line_owned) line_hits. Proof. exact line_query. Qed.
Example C34_all_owned : forall k, In k (List.concat line_owned) <-> (k < 3)%nat. Proof. exact line_complete. Qed.
Example C34_pattern_example : match sparsity_pattern (line_data QNum line_pos) 2 3 1 [] with Ok (m, pat) => (pat, map_find m (2, 1)%nat, map_find m (2, 0)%nat) | _ => ([], None, None) end =
  ([(0, 0); (0, 1); (1, 0); (1, 1); (1, 2); (2, 1); (2, 2); (3, 0); (3, 1); (3, 2); (3, 3); (0, 3); (1, 3); (2, 3)]%nat, Some 1%Q, None). Proof. exact line_pattern. Qed.
(** Otherwise the pairs are not the right ones: here nodes 0 and 2, 1 apart, are left out and 1 and 2, 2 apart, are in (cutoff 3/2). *)
Theorem C34_renumbered_refuted : match sparsity_pattern (N := QNum) (mkpd [[0; 1; 2]]%nat [map swapped [1; 0; 2]%nat] [csr_offsets [[(0, 0); (1, 0)]; [(0, 0); (1, 0); (2, 0)]; [(1, 0); (2, 0)]]%nat]
      [List.concat [[(0, 0); (1, 0)]; [(0, 0); (1, 0); (2, 0)]; [(1, 0); (2, 0)]]%nat]) 1 3 0 [] with
  | Ok (m, pat) => (existsb (key_eqb (0, 2)%nat) pat, existsb (key_eqb (1, 2)%nat) pat, Qle_bool (pdist (N := QNum) (swapped 0) (swapped 2)) (3 # 2), Qle_bool (pdist (N := QNum) (swapped 1) (swapped 2)) (3 # 2))
  | _ => (true, true, true, true) end = (false, true, true, false).
Proof. exact ex_renumbered. Qed.
Print Assumptions C34_renumbered_refuted.
(** The matrix used by the filter is the localised covariance. *)
Theorem C34_localised : forall fn (cutoff : R) (pos : nat -> pt RNum) owned hits sim par m (ens : list (nat -> R)), ens <> [] -> 0 < cutoff ->
  query_ok (N := RNum) cutoff (map (map pos) owned) hits -> (forall k, In k (List.concat owned) <-> (k < sim)%nat) ->
  exists m' pat, sparsity_pattern (N := RNum) (mkpd (N := RNum) owned (map (map pos) owned) (map csr_offsets hits) (map (@List.concat _) hits)) (List.length owned) sim par m = Ok (m', pat) /\
  forall i j, (i < sim + par)%nat -> (j < sim + par)%nat -> sample_covariance (N := RNum) fn cutoff sim pat m' ens i j = Ok (localized_covariance fn cutoff pos sim ens i j).
Proof. exact localized_ok. Qed.
Print Assumptions C34_localised.
Example C34_localised_example : rows 4 (localised_line gaspari_cohn_cutoff two_members) =
  [[Ok 2; Ok (71 # 729); Ok 0; Ok 2]; [Ok (71 # 729); Ok 2; Ok (71 # 729); Ok 2]; [Ok 0; Ok (71 # 729); Ok 2; Ok 2]; [Ok 2; Ok 2; Ok 2; Ok 2]]%Q. Proof. exact ex_localised. Qed.
Theorem C34_localised_shape : forall fn cutoff pos sim ens, 0 < cutoff -> (2 <= List.length ens)%nat ->
  (forall i j, localized_covariance fn cutoff pos sim ens i j = localized_covariance fn cutoff pos sim ens j i) /\
  (forall i, localized_covariance fn cutoff pos sim ens i i = unbiased_covariance ens i i /\ 0 <= unbiased_covariance ens i i) /\
  (forall i j, exists t, 0 <= t <= 1 /\ localized_covariance fn cutoff pos sim ens i j = unbiased_covariance ens i j * t) /\
  (forall i j, (sim <= i)%nat \/ (sim <= j)%nat -> localized_covariance fn cutoff pos sim ens i j = unbiased_covariance ens i j).
Proof. exact localized_shape. Qed.
Print Assumptions C34_localised_shape.
(** The option "none" truncates like "step_function"; it keeps the whole covariance, hence a positive semidefinite matrix, when the cutoff exceeds all the distances (default). *)
Theorem C34_none_is_step : forall cutoff pos sim ens i j, localized_covariance no_cutoff cutoff pos sim ens i j = localized_covariance step_cutoff cutoff pos sim ens i j.
Proof. exact none_is_step. Qed.
Print Assumptions C34_none_is_step.
Theorem C34_wide_cutoff : forall cutoff pos sim ens, (2 <= List.length ens)%nat -> (forall i j, (i < sim)%nat -> (j < sim)%nat -> distance (pos i) (pos j) <= cutoff) ->
  (forall i j, localized_covariance no_cutoff cutoff pos sim ens i j = unbiased_covariance ens i j) /\ forall n, positive_semidefinite n (localized_covariance no_cutoff cutoff pos sim ens).
Proof. exact wide_cutoff. Qed.
Print Assumptions C34_wide_cutoff.
(** Truncation loses positivity; so does any localisation of a state augmented with a parameter. *)
Theorem C34_step_psd_refuted : ~ positive_semidefinite 3 (localized_covariance step_cutoff (3 / 2) line_pos 3 (pm 0)).
Proof. exact step_not_psd. Qed.
Print Assumptions C34_step_psd_refuted.
Theorem C34_augmented_psd_refuted : forall fn, ~ positive_semidefinite 3 (localized_covariance fn 1 (fun i => line_pos (2 * i)) 2 (pm 0)).
Proof. exact augmented_not_psd. Qed.
Print Assumptions C34_augmented_psd_refuted.

(** ** C35.  The observation matrix and the direct evaluation agree and give the value at the mapped degree of freedom. *)
Theorem C35_operator : forall mapping n (x : nat -> R) e, NoDup (map fst mapping) -> (forall p, In p mapping -> (snd p < n)%nat) ->
  apply (N := RNum) n (calc_H (N := RNum) mapping) x e = calc_Hx (N := RNum) mapping x e.
Proof. exact H_is_Hx. Qed.
Print Assumptions C35_operator.
Theorem C35_value : forall (N : Num) mapping e s (x : nat -> N), NoDup (map fst mapping) -> In (e, s) mapping -> calc_Hx mapping x e = x s.
Proof. exact @Hx_unique. Qed.
Print Assumptions C35_value.
Example C35_program_mapping : forall E s e, NoDup (map fst (obs E s)) /\ map fst (obs E s) = seq 0 E /\ ((e < E)%nat -> In (e, s e) (obs E s)).
Proof. exact (fun E s e => conj (obs_nodup E s) (conj (obs_fst E s) (obs_in E s e))). Qed.
(** They differ if a point were mapped twice. *)
Theorem C35_duplicate_refuted : (apply (N := QNum) 3 (calc_H [(0, 1); (0, 1)]%nat) (fun _ => 5%Q) 0%nat, calc_Hx (N := QNum) [(0, 1); (0, 1)]%nat (fun _ => 5%Q) 0%nat) = (10%Q, 5%Q).
Proof. exact ex_duplicate. Qed.
Print Assumptions C35_duplicate_refuted.
(** Innovation: observation plus perturbation minus simulated value; each draw is used once. *)
Theorem C35_innovation : forall (N : Num) E s (y : nat -> N) Ro draws k m x i, (i < E)%nat ->
  perturbed_innovation (obs E s) y Ro draws E k m x i = nadd N (nmul N (draws (k + m * E + i)%nat) (nsqrt N (Ro i i))) (nsub N (y i) (x (s i))).
Proof. exact @innovation_ok. Qed.
Print Assumptions C35_innovation.
Theorem C35_draws : forall E k m m' i i', (i < E)%nat -> (i' < E)%nat -> (k + m * E + i = k + m' * E + i')%nat -> m = m' /\ i = i'.
Proof. exact draws_distinct. Qed.
Print Assumptions C35_draws.

(** ** C36.  Gathering: the global ensemble has the complete members of every group, group by group. *)
Theorem C36_gather : forall (N : Num) (w : world N) n0 n1 (F : nat -> list (list N * list N)), (forall c p, In (c, p) w -> holds (group_of w c) n0 n1 (F c)) ->
  gather_ensemble w = Ok (List.concat (owners w F), map (@List.length _) (owners w F)).
Proof. exact @gather_ok. Qed.
Print Assumptions C36_gather.
(** Scattering any updated ensemble of the same shape: every group gets its members, except for the parameters, which only its first process gets; the others have zeros. *)
Theorem C36_scatter : forall (N : Num) (w : world N) n0 n1 (F F' : nat -> list (list N * list N)), (forall c p, In (c, p) w -> holds (group_of w c) n0 n1 (F c)) ->
  (forall c p, In (c, p) w -> List.length (F' c) = List.length (F c) /\ forall m, In m (F' c) -> List.length (fst m) = n0 /\ List.length (snd m) = n1) ->
  exists w', scatter_ensemble w (map (@List.length _) (owners w F)) (List.concat (owners w F')) = Ok w' /\ map fst w' = map fst w /\
    forall c p, In (c, p) w -> map pr_set0 (group_of w' c) = map pr_set0 (group_of w c) /\ holds_at_root (group_of w' c) n0 n1 (F' c).
Proof. exact @scatter_ok. Qed.
Print Assumptions C36_scatter.
Theorem C36_round_trip : forall (N : Num) (w : world N) n0 n1 F, (forall c p, In (c, p) w -> holds (group_of w c) n0 n1 (F c)) ->
  exists counts ens w', gather_ensemble w = Ok (ens, counts) /\ scatter_ensemble w counts ens = Ok w' /\ map fst w' = map fst w /\
    forall c p, In (c, p) w -> map pr_set0 (group_of w' c) = map pr_set0 (group_of w c) /\ holds_at_root (group_of w' c) n0 n1 (F c).
Proof. exact @round_trip. Qed.
Print Assumptions C36_round_trip.
(** Lossless with one process per group or without augmented parameters. *)
Theorem C36_lossless : forall (N : Num) (group : list (process N)) n0 n1 full, (List.length group <= 1)%nat \/ n1 = 0%nat -> holds_at_root group n0 n1 full -> holds group n0 n1 full.
Proof. exact @holds_root_single. Qed.
Print Assumptions C36_lossless.
Example C36_world : forall c p, In (c, p) wex -> holds (group_of wex c) 4 1 (wfull c). Proof. exact wex_holds. Qed.
Example C36_gather_example : gather_ensemble wex = Ok ([([1; 2; 3; 4]%Q, [7]%Q); ([11; 12; 13; 14]%Q, [8]%Q); ([21; 22; 23; 24]%Q, [9]%Q)], [2; 0; 1]%nat). Proof. exact ex_gather. Qed.
(** Not lossless in general: the second process of the first group loses the parameters 7 and 8. *)
Theorem C36_parameters_refuted : match gather_ensemble wex with Ok (ens, counts) => scatter_ensemble wex counts ens | _ => UB end =
  Ok [(0%nat, mkproc (N := QNum) [0; 2]%nat [0]%nat [([1; 3]%Q, [7]%Q); ([11; 13]%Q, [8]%Q)]);
      (0%nat, mkproc (N := QNum) [1; 3]%nat [0]%nat [([2; 4]%Q, [0]%Q); ([12; 14]%Q, [0]%Q)]);
      (1%nat, mkproc (N := QNum) [0; 1; 2; 3]%nat [0]%nat [([21; 22; 23; 24]%Q, [9]%Q)])].
Proof. exact ex_scatter. Qed.
Print Assumptions C36_parameters_refuted.

(** ** C56.  Update of a member: the sum over the observations of the covariance with the observed degree of freedom times the weight returned by the solver. *)
Theorem C56_update : forall n (P Ro : nat -> nat -> R) (data : list R) s draws k solve (ens : list (nat -> R)), (forall e, (e < List.length data)%nat -> (s e < n)%nat) ->
  exists ens', update_ensemble (N := RNum) n P (obs (List.length data) s) Ro data draws k solve ens = Ok ens' /\ List.length ens' = List.length ens /\
  forall m x, nth_error ens m = Some x -> exists x', nth_error ens' m = Some x' /\
    forall i, x' i = x i + Rsum_to (List.length data) (fun e => P i (s e) * solve (perturbed_innovation (N := RNum) (obs (List.length data) s) (fun i => nth i data 0) Ro draws (List.length data) k m x) e).
Proof. exact update_ok. Qed.
Print Assumptions C56_update.
(** With the covariance of the ensemble itself, localised. *)
Theorem C56_assimilate : forall fn (cutoff : R) (pos : nat -> pt RNum) owned hits sim par m (ens : list (nat -> R)) Ro (data : list R) s draws k solve,
  ens <> [] -> 0 < cutoff -> query_ok (N := RNum) cutoff (map (map pos) owned) hits -> (forall k, In k (List.concat owned) <-> (k < sim)%nat) ->
  (forall e, (e < List.length data)%nat -> (s e < sim)%nat) ->
  exists m' pat, sparsity_pattern (N := RNum) (mkpd (N := RNum) owned (map (map pos) owned) (map csr_offsets hits) (map (@List.concat _) hits)) (List.length owned) sim par m = Ok (m', pat) /\
  exists ens', assimilate (N := RNum) fn cutoff sim par pat m' (obs (List.length data) s) Ro data draws k solve ens = Ok ens' /\ List.length ens' = List.length ens /\
  forall mb x, nth_error ens mb = Some x -> exists x', nth_error ens' mb = Some x' /\
    forall i, (i < sim + par)%nat -> x' i = x i + Rsum_to (List.length data) (fun e => localized_covariance fn cutoff pos sim ens i (s e) *
      solve (perturbed_innovation (N := RNum) (obs (List.length data) s) (fun i => nth i data 0) Ro draws (List.length data) k mb x) e).
Proof. exact assimilate_ok. Qed.
Print Assumptions C56_assimilate.
Theorem C56_sizes : forall (N : Num) n P mapping Ro (data : list N) draws k solve ens, List.length mapping <> List.length data -> update_ensemble n P mapping Ro data draws k solve ens = Throw.
Proof. exact @update_sizes. Qed.
Print Assumptions C56_sizes.
(** The system given to the solver is (H P H^T + R) w = innovation. *)
Theorem C56_system : forall E s n (P Ro : nat -> nat -> R) (w : nat -> R) e, (forall e, (e < E)%nat -> (s e < n)%nat) -> (e < E)%nat ->
  HPH_plus_R (N := RNum) n E P (obs E s) Ro w e = Rsum_to E (fun f => P (s e) (s f) * w f) + Rsum_to E (fun f => Ro e f * w f).
Proof. exact system_obs. Qed.
Print Assumptions C56_system.
(** After the update the innovation that remains is R w ... *)
Theorem C56_residual : forall E s (P Ro : nat -> nat -> R) (w b x x' : nat -> R), solves_kalman E P s Ro w b ->
  (forall e, (e < E)%nat -> x' (s e) = x (s e) + Rsum_to E (fun f => P (s e) (s f) * w f)) ->
  forall e, (e < E)%nat -> b e - (x' (s e) - x (s e)) = Rsum_to E (fun f => Ro e f * w f).
Proof. exact residual_ok. Qed.
Print Assumptions C56_residual.
(** ... and is not larger than the innovation, for a positive semidefinite covariance. *)
Theorem C56_smaller : forall E s n (P : nat -> nat -> R) (u : R) (w b : nat -> R), positive_semidefinite n P -> (forall e, (e < E)%nat -> (s e < n)%nat) ->
  solves_kalman E P s (observation_covariance (N := RNum) u) w b -> Rsum_to E (fun e => (u * u * w e) * (u * u * w e)) <= Rsum_to E (fun e => b e * b e).
Proof. exact residual_smaller. Qed.
Print Assumptions C56_smaller.
Theorem C56_observation_covariance : forall E (u : R) (w : nat -> R) e, (e < E)%nat -> Rsum_to E (fun f => observation_covariance (N := RNum) u e f * w f) = u * u * w e.
Proof. exact obs_cov_apply. Qed.
Print Assumptions C56_observation_covariance.
(** The weights are determined. *)
Theorem C56_unique : forall E s n (P : nat -> nat -> R) (u : R) (w w' b : nat -> R), positive_semidefinite n P -> u <> 0 -> (forall e, (e < E)%nat -> (s e < n)%nat) ->
  solves_kalman E P s (observation_covariance (N := RNum) u) w b -> solves_kalman E P s (observation_covariance (N := RNum) u) w' b -> forall e, (e < E)%nat -> w e = w' e.
Proof. exact kalman_unique. Qed.
Print Assumptions C56_unique.
Example C56_solution : forall (P : nat -> nat -> R) s b u, 0 <= P (s 0%nat) (s 0%nat) -> u <> 0 ->
  solves_kalman 1 P s (observation_covariance (N := RNum) u) (fun _ => b 0%nat / (P (s 0%nat) (s 0%nat) + u * u)) b. Proof. exact one_solution. Qed.
(** One observation: weighted mean of the old value x and the perturbed observation x + b. *)
Theorem C56_single : forall n (P : nat -> nat -> R) (u : R) s (w b : nat -> R) (x : R), (s 0 < n)%nat -> 0 <= P (s 0%nat) (s 0%nat) -> u <> 0 ->
  solves_kalman 1 P s (observation_covariance (N := RNum) u) w b ->
  x + Rsum_to 1 (fun f => P (s 0%nat) (s f) * w f) = (u * u * x + P (s 0%nat) (s 0%nat) * (x + b 0%nat)) / (P (s 0%nat) (s 0%nat) + u * u).
Proof. exact single_observation. Qed.
Print Assumptions C56_single.
(** What is not correlated with an observed degree of freedom (beyond the cutoff, or no spread in the ensemble: C34) does not move, whatever the weights. *)
Theorem C56_uncorrelated : forall E (s : nat -> nat) (P : nat -> nat -> R) (w : nat -> R) i, (forall e, (e < E)%nat -> P i (s e) = 0) -> Rsum_to E (fun e => P i (s e) * w e) = 0.
Proof. exact uncorrelated. Qed.
Print Assumptions C56_uncorrelated.
(** With the step function the system may be singular (uncertainty 1/2): kernel is a nonzero solution for zero innovation ... *)
Theorem C56_step_unique_refuted : solves_kalman 3 (localized_covariance step_cutoff (3 / 2) line_pos 3 five) (fun e => e) (observation_covariance (N := RNum) (1 / 2)) kernel (fun _ => 0).
Proof. exact step_singular. Qed.
Print Assumptions C56_step_unique_refuted.
Example C56_kernel : kernel 0 = 3. Proof. exact eq_refl. Qed.
(** ... and with the default uncertainty, zero, two points observed at one degree of freedom make it insoluble. *)
Theorem C56_no_uncertainty_refuted : forall (P : nat -> nat -> R) s (b : nat -> R), s 0%nat = s 1%nat -> b 0%nat <> b 1%nat -> ~ exists w, solves_kalman 2 P s (observation_covariance (N := RNum) 0) w b.
Proof. exact no_uncertainty. Qed.
Print Assumptions C56_no_uncertainty_refuted.

(** ** C57.  The parameters put back are those of the state; what is not augmented is not changed. *)
Theorem C57_put : forall (N : Num) a b (v : list N) (e : beam_entry N), List.length v = List.length (selected a b) -> exists e', put_parameters (selected a b) v e = Ok e' /\ read_parameters (selected a b) e' = v /\
  (a = false -> absorption_efficiency e' = absorption_efficiency e) /\ (b = false -> max_power e' = max_power e).
Proof. exact @put_read. Qed.
Print Assumptions C57_put.
Theorem C57_order : forall (N : Num) (x y : N) (e : beam_entry N), put_parameters (selected true true) [x; y] e = Ok (mkbeam x y) /\ read_parameters (selected true true) e = [absorption_efficiency e; max_power e].
Proof. exact @put_both. Qed.
Print Assumptions C57_order.
Theorem C57_unchanged : forall (N : Num) a b (e : beam_entry N), put_parameters (selected a b) (read_parameters (selected a b) e) e = Ok e.
Proof. exact @put_same. Qed.
Print Assumptions C57_unchanged.
(** Without beams the block is empty and the access is undefined. *)
Theorem C57_no_beam_refuted : forall (N : Num) a b (e : beam_entry N), a = true \/ b = true -> put_parameters (selected a b) [] e = UB.
Proof. exact @put_missing. Qed.
Print Assumptions C57_no_beam_refuted.
