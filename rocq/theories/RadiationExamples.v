(** RadiationExamples.v -- two squares in air that radiate on one side; a square that radiates too much in one step. *)
From Coq Require Import Reals List Bool String ZArith Lra Lia Permutation.
From Verif Require Import Base MaterialModel MaterialSpec InputModel HeatModel HeatSpec MaterialProofs MaterialProofs2 HeatProofs HeatProofs2 HeatProofs3 HeatProofs4 HeatProofs5 HeatProofs7 HeatExamples
  StabilitySpec StabilityProofs StabilityProofs2 StabilityProofs3 StabilityProofs4 StabilityProofs5 StabilityExamples MaximumSpec MaximumProofs MaximumProofs2 MaximumExamples RadiationSpec RadiationProofs RadiationProofs2 RadiationProofs3.
Import ListNotations.
Open Scope R_scope.

Definition corner_point (w : R) (a : nat) : hquad RNum := mkhq (N := RNum) w (map (fun k => if Nat.eqb k a then 1 else 0) (seq 0 4)) (repeat (mkpt (N := RNum) 0 0 0) 4).
Definition side_of (dofs : list nat) (wc : R * list nat) : hcell RNum := mkhc (N := RNum) dofs (map (corner_point (fst wc)) (snd wc)).
Lemma side_of_side dofs wc : side 4 dofs wc (side_of dofs wc).
Proof. split; [reflexivity|]. unfold side_of. cbn [c_quads]. rewrite map_map. reflexivity. Qed.
Definition outer (s : hcell RNum) (ty : BinNums.N) : hface RNum := mkhf (N := RNum) 0 7 s (mkhc (N := RNum) [] []) ty.
Definition left_dofs := [0; 1; 2; 3]%nat.
Definition right_dofs := [1; 4; 3; 5]%nat.
Definition hot_squares : heat_mesh RNum := mkhm (N := RNum) 6 [] [rectangle ends 1 1 left_dofs; rectangle ends 1 1 right_dofs] [rectangle ends 1 1 left_dofs; rectangle ends 1 1 right_dofs]
  [outer (side_of left_dofs (1/2, [0; 2]%nat)) convective; outer (side_of left_dofs (1/2, [0; 1]%nat)) convective; outer (side_of left_dofs (1/2, [2; 3]%nat)) convective;
   outer (side_of right_dofs (1/2, [1; 3]%nat)) radiative; outer (side_of right_dofs (1/2, [0; 1]%nat)) convective; outer (side_of right_dofs (1/2, [2; 3]%nat)) convective].
Lemma side_shape n dofs wc : List.length dofs = 4%nat -> Forall (fun d => (d < n)%nat) dofs -> Forall (fun a => (a < 4)%nat) (snd wc) -> shape_ok n (side_of dofs wc).
Proof.
  intros L Fd Fa. split; [exact Fd|]. apply Forall_forall. intros q I. unfold side_of in I. cbn [c_quads] in I. apply in_map_iff in I as [a [<- Ia]]. apply (proj1 (Forall_forall _ _) Fa) in Ia.
  cbn [side_of c_dofs corner_point h_values h_grads]. rewrite map_length, seq_length, repeat_length, L. repeat split; try reflexivity; [|calc..].
  revert a Ia. refine (below4 _ _ _ _ _); calc.
Qed.
Lemma hot_ok : mesh_ok hot_squares.
Proof.
  split; [split; [apply NoDup_nil|apply Forall_nil]|].
  split; [|split]; [repeat (apply Forall_cons; [apply rectangle_shape; [reflexivity|repeat (apply Forall_cons; [cbn; lia|]); apply Forall_nil]|]); apply Forall_nil..|].
  repeat (apply Forall_cons; [split; cbn [outer hf_inner hf_outer]; [apply side_shape; [reflexivity|repeat (apply Forall_cons; [cbn; lia|]); apply Forall_nil..]|split; apply Forall_nil]|]). apply Forall_nil.
Qed.
Lemma hot_massive : massive hot_squares.
Proof. intros j [L N]. cbn in L, N. unfold nodal_mass. do 6 (destruct j as [|j]; [calc|]). lia. Qed.
Lemma hot_exposed : exposed_boxes false 1 hot_squares.
Proof.
  split; [reflexivity|]. exists [map (side_of left_dofs) (sides2 1 1); map (side_of right_dofs) (sides2 1 1)], [side_of left_dofs (1/2, [1; 3]%nat); side_of right_dofs (1/2, [0; 2]%nat)]. split.
  - apply Forall2_cons; [|apply Forall2_cons; [|apply Forall2_nil]].
    + split; [cbn; repeat constructor; cbn; intuition lia|]. exists 1, 1, left_dofs. repeat split; try lra. unfold sides2. cbn [map]. repeat (apply Forall2_cons; [apply side_of_side|]). apply Forall2_nil.
    + split; [cbn; repeat constructor; cbn; intuition lia|]. exists 1, 1, right_dofs. repeat split; try lra. unfold sides2. cbn [map]. repeat (apply Forall2_cons; [apply side_of_side|]). apply Forall2_nil.
  - unfold hot_squares, sides2, outer. cbn [m_faces filter on_boundary hf_first hf_second Nat.eqb xorb map active_side hf_inner List.app List.concat].
    generalize (side_of left_dofs (1/2, [0; 2]%nat)) (side_of left_dofs (1/2, [1; 3]%nat)) (side_of left_dofs (1/2, [0; 1]%nat)) (side_of left_dofs (1/2, [2; 3]%nat))
      (side_of right_dofs (1/2, [0; 2]%nat)) (side_of right_dofs (1/2, [1; 3]%nat)) (side_of right_dofs (1/2, [0; 1]%nat)) (side_of right_dofs (1/2, [2; 3]%nat)). intros a b c d e f g h.
    apply perm_skip. apply (Permutation_cons_app [b] [d; e; f; g; h] c). apply (Permutation_cons_app [b] [e; f; g; h] d). apply (Permutation_cons_app [b; e] [g; h] f). apply (Permutation_cons_app [b; e] [h] g).
    apply (Permutation_cons_app [b; e] [] h). apply Permutation_refl.
Qed.
(** The heat capacity grows with the temperature. *)
Definition warming : laws RNum := fun _ _ (T : R) => mkpl (N := RNum) (/ (1 + T * T)) 1 (1/2) 1 1 0 [].
Definition hot_air : face_laws RNum := fun _ _ (T : R) => mkfl (N := RNum) (/ 1000) 10 (300 + 20) (1/2) 300.
Lemma sigma_num : sigma = 5670374419 / 100000000000000000. Proof. reflexivity. Qed.
Lemma hot_within : laws_within hot_squares warming hot_air 300 1000 1 (1/8).
Proof.
  split; [lra|]. split.
  - intros i q T HT. unfold aligned_law, warming. cbn [pl_inv pl_kx pl_ky pl_kz pl_cos pl_sin]. assert (B : 0 < / (1 + T * T) <= 1).
    { assert (1 <= 1 + T * T) by nra. split; [apply Rinv_0_lt_compat; lra|]. rewrite <- Rinv_1. apply Rinv_le_contravar; lra. } repeat split; lra.
  - intros j f q T I B HT. unfold hot_air, largest_coef. cbn [fl_inv fl_h fl_conv fl_emissivity fl_rad]. rewrite sigma_num. repeat split; try lra.
    destruct (has_flag (hf_type f) convective), (has_flag (hf_type f) radiative); lra.
Qed.
Definition hot_spot : list R := [1000; 300; 400; 500; 600; 1000].
Lemma hot_between : between hot_squares 300 1000 hot_spot.
Proof. intros j [L _]. cbn in L. unfold entry, hot_spot. do 6 (destruct j as [|j]; [cbn [nth]; lra|]). lia. Qed.
Lemma two_ninths : 2/9 * (even_factor false true * (1 / (1 * 1) + 1/8 / 1)) <= 1. Proof. unfold even_factor. right. field. Qed.

(** A square that radiates on the right, on which conduction allows steps of a quarter. *)
Definition radiator : heat_mesh RNum := mkhm (N := RNum) 4 [] [rectangle ends 1 1 left_dofs] [rectangle ends 1 1 left_dofs] [outer (side_of left_dofs (1/2, [1; 3]%nat)) radiative].
Definition strong : face_laws RNum := fun _ _ _ => mkfl (N := RNum) 1 0 0 1 300.
Definition glowing : list R := [1000; 1000; 1000; 1000].
Lemma radiator_ok : mesh_ok radiator.
Proof.
  split; [split; [apply NoDup_nil|apply Forall_nil]|].
  split; [|split]; [repeat (apply Forall_cons; [apply rectangle_shape; [reflexivity|repeat (apply Forall_cons; [cbn; lia|]); apply Forall_nil]|]); apply Forall_nil..|].
  repeat (apply Forall_cons; [split; cbn [outer hf_inner hf_outer]; [apply side_shape; [reflexivity|repeat (apply Forall_cons; [cbn; lia|]); apply Forall_nil..]|split; apply Forall_nil]|]). apply Forall_nil.
Qed.
Lemma radiator_massive : massive radiator.
Proof. intros j [L N]. cbn in L, N. unfold nodal_mass. do 4 (destruct j as [|j]; [calc|]). lia. Qed.
Lemma radiator_exposed : exposed_boxes false 1 radiator.
Proof.
  split; [reflexivity|]. exists [map (side_of left_dofs) (sides2 1 1)], [side_of left_dofs (1/2, [0; 2]%nat); side_of left_dofs (1/2, [0; 1]%nat); side_of left_dofs (1/2, [2; 3]%nat)]. split.
  - apply Forall2_cons; [|apply Forall2_nil]. split; [cbn; repeat constructor; cbn; intuition lia|]. exists 1, 1, left_dofs. repeat split; try lra. unfold sides2. cbn [map]. repeat (apply Forall2_cons; [apply side_of_side|]). apply Forall2_nil.
  - unfold radiator, sides2, outer. cbn [m_faces filter on_boundary hf_first hf_second Nat.eqb xorb map active_side hf_inner List.app List.concat]. apply perm_swap.
Qed.
Lemma radiator_within : exists g, laws_within radiator unit_K strong 300 1000 1 g.
Proof.
  exists (sigma * (4 * 1000 ^ 3)). split; [rewrite sigma_num; lra|]. split.
  - intros i q T _. unfold aligned_law. cbn. repeat split; lra.
  - intros j f q T I B HT. unfold strong, largest_coef. cbn [fl_inv fl_h fl_conv fl_emissivity fl_rad]. assert (E : In f (m_faces radiator)) by exact (in_indexed _ _ I). destruct E as [<-|[]].
    cbn [outer hf_type]. change (has_flag radiative convective) with false. change (has_flag radiative radiative) with true. repeat split; try lra; discriminate.
Qed.
Lemma radiator_mass j : (j < 4)%nat -> nodal_mass radiator j = 1/4.
Proof. intros L. unfold nodal_mass, integral, radiator. do 4 (destruct j as [|j]; [calc|]). lia. Qed.
Lemma radiator_weak : weak false false false radiator unit_K strong glowing (hat 1) = - (1/2 * (sigma * (1000 ^ 4 - 300 ^ 4))).
Proof. calc. Qed.

Lemma radiator_after t : entry (snd (evolve (N := RNum) ForwardEuler (fun _ _ v => evaluate (N := RNum) false false false radiator unit_K strong v) t (1/4) glowing)) 1 < 300.
Proof.
  match goal with |- entry (snd ?e) _ < _ => change e with (evolveR ForwardEuler (fun _ _ v => evaluate (N := RNum) false false false radiator unit_K strong v) t (1/4) glowing) end. rewrite evolve_step. cbn [snd step].
  assert (Lr : List.length (evaluate (N := RNum) false false false radiator unit_K strong glowing) = 4%nat) by apply (rate_length false false false radiator unit_K strong glowing).
  rewrite entry_sadd by exact (eq_sym Lr). assert (Fr : free radiator 1) by (split; [cbn; lia|intros []]).
  assert (E : entry (evaluate (N := RNum) false false false radiator unit_K strong glowing) 1 = - (1/2 * (sigma * (1000 ^ 4 - 300 ^ 4))) / (1/4)).
  { etransitivity; [exact (rate_free false false false radiator unit_K strong glowing radiator_ok 1 Fr)|]. rewrite radiator_weak, radiator_mass by lia. reflexivity. }
  rewrite E, sigma_num. unfold entry, glowing. cbn [nth]. lra.
Qed.
Lemma glowing_between : between radiator 300 1000 glowing.
Proof. intros j [L _]. cbn in L. unfold entry, glowing. do 4 (destruct j as [|j]; [cbn [nth]; lra|]). lia. Qed.
Lemma quarter : 1/4 * (even_factor false true * (1 / (1 * 1))) <= 1. Proof. unfold even_factor. right. field. Qed.
Definition hot_faces : frozen_faces := fun _ _ => mkfl (N := RNum) (/ 1000) 10 (300 + 20) (1/2) 300.
Lemma unit_aligned : aligned unit_law 1.
Proof. intros i q. unfold aligned_law. cbn. repeat split; lra. Qed.
Lemma hot_surroundings : surroundings false hot_squares hot_faces 300 1000.
Proof.
  intros _ j f I B. split; [apply (sides_values false 1 hot_squares); [lra|exact hot_exposed|exact (in_indexed _ _ I)|exact B]|]. intros q. cbn [hot_faces fl_inv fl_h fl_conv fl_emissivity fl_rad]. repeat split; lra.
Qed.
Lemma hot_losses : losses_at_most hot_squares hot_faces 1000 (1/8).
Proof.
  split; [lra|]. intros j f q I B. unfold largest_coef. cbn [hot_faces fl_inv fl_h fl_conv fl_emissivity fl_rad]. rewrite sigma_num. destruct (has_flag (hf_type f) convective), (has_flag (hf_type f) radiative); lra.
Qed.
Lemma hot_moderate : moderate false false hot_squares unit_law (largest_losses hot_faces 1000) (2/9).
Proof. apply (boxes_moderate false hot_squares unit_law hot_faces 1 (1/8) 300 1000 1 (2/9) hot_ok hot_massive eq_refl hot_exposed unit_aligned hot_losses hot_surroundings); [lra|lra|exact two_ninths]. Qed.
Lemma hot_run : exists y2, radiating_run false false hot_squares 300 1000 0 hot_spot (0 + 2/9) y2.
Proof.
  destruct (evolve (N := RNum) ForwardEuler (fun _ _ v => evaluate (N := RNum) false false false hot_squares unit_K (fun i q _ => hot_faces i q) v) 0 (2/9) hot_spot) as [t1 y1] eqn:E. exists y1.
  destruct (evolve_parts ForwardEuler _ 0 (2/9) hot_spot t1 y1 E) as [T1 _]. rewrite <- T1.
  apply (rr_step false false hot_squares 300 1000 0 (2/9) hot_spot t1 y1 t1 y1 unit_K (fun i q _ => hot_faces i q) unit_law hot_faces); [split; intros; reflexivity|exact hot_surroundings|lra|exact hot_moderate|exact E|apply rr_stop].
Qed.
