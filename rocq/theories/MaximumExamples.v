(** MaximumExamples.v -- two squares; a square cooled by air; a flat rectangle on which a step overshoots. *)
From Coq Require Import Reals List Bool String ZArith Lra Lia.
From Verif Require Import Base MaterialModel MaterialSpec InputModel HeatModel HeatSpec MaterialProofs MaterialProofs2 HeatProofs HeatProofs2 HeatProofs3 HeatProofs4 HeatProofs5 HeatProofs7 HeatExamples
  StabilitySpec StabilityProofs StabilityProofs2 StabilityProofs3 StabilityProofs4 StabilityProofs5 StabilityExamples MaximumSpec MaximumProofs MaximumProofs2.
Import ListNotations.
Open Scope R_scope.

Lemma evolve_between dim3 ad s m K P F Q lo hi t dt (y : list R) : mesh_ok m -> massive m -> List.length y = m_n m -> laws_of_step s m K P F Q y -> air_between ad m Q lo hi -> 0 <= dt -> downhill dim3 ad m P Q dt ->
  between m lo hi y -> between m lo hi (snd (evolve (N := RNum) s (fun _ _ v => evaluate (N := RNum) dim3 false ad m K F v) t dt y)).
Proof.
  intros Mok M L Lw A D0 Dn B. match goal with |- between m lo hi (snd ?e) => change e with (evolveR s (fun _ _ v => evaluate (N := RNum) dim3 false ad m K F v) t dt y) end. rewrite evolve_step. cbn [snd].
  exact (step_between dim3 ad s m K P F Q lo hi t dt y Mok M L Lw A D0 Dn B).
Qed.
Lemma boxes_between dim3 lob s m K P F Q alpha h lo hi t dt (y : list R) : mesh_ok m -> massive m -> m_C m = [] -> even_boxes dim3 lob h m -> isotropic P alpha -> 0 < h -> 0 <= dt -> dt * (even_factor dim3 lob * alpha / (h * h)) <= 1 ->
  List.length y = m_n m -> laws_of_step s m K P F Q y -> between m lo hi y -> between m lo hi (snd (evolve (N := RNum) s (fun _ _ v => evaluate (N := RNum) dim3 false true m K F v) t dt y)).
Proof.
  intros Mok M C0 B I H0 D0 DL L Lw Bt. apply (evolve_between dim3 true s m K P F Q lo hi t dt y Mok M L Lw); [discriminate|exact D0| |exact Bt].
  exact (boxes_downhill dim3 lob m P Q alpha h dt Mok C0 B I H0 D0 DL M).
Qed.

(** Two squares side by side. *)
Definition two_squares : heat_mesh RNum := mkhm (N := RNum) 6 [] [rectangle gauss 1 1 [0; 1; 2; 3]%nat; rectangle gauss 1 1 [1; 4; 3; 5]%nat] [rectangle ends 1 1 [0; 1; 2; 3]%nat; rectangle ends 1 1 [1; 4; 3; 5]%nat] [].
Lemma two_ok : mesh_ok two_squares.
Proof.
  split; [split; [apply NoDup_nil|apply Forall_nil]|].
  split; [|split]; [repeat (apply Forall_cons; [apply rectangle_shape; [reflexivity|repeat (apply Forall_cons; [cbn; lia|]); apply Forall_nil]|]); apply Forall_nil..|apply Forall_nil].
Qed.
Lemma two_massive : massive two_squares.
Proof. intros j [L N]. cbn in L, N. unfold nodal_mass. do 6 (destruct j as [|j]; [calc|]). lia. Qed.
Lemma two_boxes : even_boxes false false 1 two_squares.
Proof.
  apply Forall2_cons; [|apply Forall2_cons; [|apply Forall2_nil]].
  - split; [cbn; repeat constructor; cbn; intuition lia|]. exists 1, 1, [0; 1; 2; 3]%nat. repeat split; try lra; reflexivity.
  - split; [cbn; repeat constructor; cbn; intuition lia|]. exists 1, 1, [1; 4; 3; 5]%nat. repeat split; try lra; reflexivity.
Qed.
Lemma unit_isotropic : isotropic unit_law 1.
Proof. exists (fun _ => 1). split; [intros; lra|]. intros i q. cbn. repeat split; lra. Qed.
Definition spot : list R := [1000; 300; 300; 300; 300; 300].
Lemma two_between : between two_squares 300 1000 spot.
Proof. intros j [L _]. cbn in L. unfold entry, spot. do 6 (destruct j as [|j]; [cbn [nth]; lra|]). lia. Qed.
Lemma two_run s : exists y2, downhill_run false true s two_squares 300 1000 0 spot (0 + 3/8) y2.
Proof.
  destruct (evolve (N := RNum) s (fun _ _ v => evaluate (N := RNum) false false true two_squares unit_K unit_F v) 0 (3/8) spot) as [t1 y1] eqn:E. exists y1.
  destruct (evolve_parts s _ 0 (3/8) spot t1 y1 E) as [T1 _]. rewrite <- T1.
  apply (dr_step false true s two_squares 300 1000 0 (3/8) spot t1 y1 t1 y1 unit_K unit_F unit_law no_air); [|discriminate|lra| |exact E|apply dr_stop].
  - destruct s; cbn [laws_of_step]; split; intros; reflexivity.
  - apply (boxes_downhill false false two_squares unit_law no_air 1 1 (3/8) two_ok eq_refl two_boxes unit_isotropic); [lra|lra| |exact two_massive]. unfold even_factor. lra.
Qed.
(** A square with air on the right. *)
Definition right_side : hcell RNum := mkhc (N := RNum) [0; 1; 2; 3]%nat [mkhq (N := RNum) (1/2) [0; 3/4; 0; 1/4] (repeat (mkpt (N := RNum) 0 0 0) 4); mkhq (N := RNum) (1/2) [0; 1/4; 0; 3/4] (repeat (mkpt (N := RNum) 0 0 0) 4)].
Definition cooled_square : heat_mesh RNum := mkhm (N := RNum) 4 [] [rectangle ends 1 1 [0; 1; 2; 3]%nat] [rectangle ends 1 1 [0; 1; 2; 3]%nat] [mkhf (N := RNum) 0 7 right_side (mkhc (N := RNum) [] []) convective].
Definition cool_air : frozen_faces := fun _ _ => mkfl (N := RNum) 1 1 20 0 0.
Lemma cooled_ok : mesh_ok cooled_square.
Proof.
  split; [split; [apply NoDup_nil|apply Forall_nil]|].
  split; [|split]; [repeat (apply Forall_cons; [apply rectangle_shape; [reflexivity|repeat (apply Forall_cons; [cbn; lia|]); apply Forall_nil]|]); apply Forall_nil..|].
  apply Forall_cons; [|apply Forall_nil]. split; cbn [hf_inner hf_outer]; [shape|]. split; apply Forall_nil.
Qed.
Lemma cooled_massive : massive cooled_square.
Proof. intros j [L N]. cbn in L, N. unfold nodal_mass. do 4 (destruct j as [|j]; [calc|]). lia. Qed.
Lemma cooled_downhill : downhill false false cooled_square unit_law cool_air (1/6).
Proof.
  split; [|split].
  - intros i j [Li _] [Lj _] Ne. cbn in Li, Lj. do 4 (destruct i as [|i]; [do 4 (destruct j as [|j]; [try (exfalso; apply Ne; reflexivity); calc|]); lia|]). lia.
  - intros i [Li _]. cbn in Li. do 4 (destruct i as [|i]; [calc|]). lia.
  - intros _ i [Li _]. cbn in Li. do 4 (destruct i as [|i]; [calc|]). lia.
Qed.
Lemma cooled_aired : air_between false cooled_square cool_air 20 1000.
Proof.
  intros _. exists 20. split; [|lra]. intros j f I _. assert (T : In f (m_faces cooled_square)) by exact (in_indexed _ _ I). destruct T as [<-|[]]. split; [reflexivity|]. split.
  - repeat (apply Forall_cons; [calc|]); apply Forall_nil.
  - intros q. cbn. repeat split; lra.
Qed.
Lemma cooled_run s (y : list R) : exists y2, downhill_run false false s cooled_square 20 1000 0 y (0 + 1/6) y2.
Proof.
  destruct (evolve (N := RNum) s (fun _ _ v => evaluate (N := RNum) false false false cooled_square unit_K (fun i q _ => cool_air i q) v) 0 (1/6) y) as [t1 y1] eqn:E. exists y1.
  destruct (evolve_parts s _ 0 (1/6) y t1 y1 E) as [T1 _]. rewrite <- T1.
  apply (dr_step false false s cooled_square 20 1000 0 (1/6) y t1 y1 t1 y1 unit_K (fun i q _ => cool_air i q) unit_law cool_air); [|exact cooled_aired|lra|exact cooled_downhill|exact E|apply dr_stop].
  destruct s; cbn [laws_of_step]; split; intros; reflexivity.
Qed.
(** A hanging node. *)
Lemma hanging_witness : mesh_ok (plate adiabatic) /\ positive_weights (m_C (plate adiabatic)) /\ between (plate adiabatic) 300 400 [300; 400; 300; 300; 400; 0; 350; 300] /\
  nodal (m_C (plate adiabatic)) (entry [300; 400; 300; 300; 400; 0; 350; 300]) 5 = 350.
Proof.
  split; [apply plate_ok|]. split; [apply plate_weights|]. split.
  - intros j [L N]. cbn in L, N. unfold entry. do 5 (destruct j as [|j]; [cbn [nth]; lra|]). destruct j as [|j]; [exfalso; apply N; left; reflexivity|]. do 2 (destruct j as [|j]; [cbn [nth]; lra|]). lia.
  - unfold nodal. cbn [plate m_C half_weights find fst snd Nat.eqb]. rewrite !Sum_cons, Sum_nil. unfold entry. cbn [fst snd nth]. lra.
Qed.

(** A flat rectangle. *)
Definition flat : heat_mesh RNum := mkhm (N := RNum) 4 [] [rectangle gauss 1 2 [0; 1; 2; 3]%nat] [rectangle ends 1 2 [0; 1; 2; 3]%nat] [].
Definition corner : list R := [400; 300; 300; 300].
Lemma flat_ok : mesh_ok flat.
Proof.
  split; [split; [apply NoDup_nil|apply Forall_nil]|].
  split; [|split]; [repeat (apply Forall_cons; [apply rectangle_shape; [reflexivity|repeat (apply Forall_cons; [cbn; lia|]); apply Forall_nil]|]); apply Forall_nil..|apply Forall_nil].
Qed.
Lemma flat_mass j : (j < 4)%nat -> nodal_mass flat j = 1/2.
Proof. intros L. unfold nodal_mass, integral, flat. do 4 (destruct j as [|j]; [calc|]). lia. Qed.
Lemma flat_massive : massive flat.
Proof. intros j [L _]. rewrite flat_mass by exact L. lra. Qed.
Lemma flat_boxes : boxes false false 1 flat.
Proof. apply Forall2_cons; [|apply Forall2_nil]. exists 1, 2, [0; 1; 2; 3]%nat. repeat split; try lra; reflexivity. Qed.
Lemma flat_exchange u z : exchange false true flat unit_law no_air u z = / 2 * form2 1 (/ 4) (1/3) u z.
Proof.
  unfold exchange. rewrite Rplus_0_r, (conducted_cells false flat unit_law u z flat_ok). unfold flat, indexed. cbn [m_cells m_C List.length seq combine]. rewrite Sum_cons, Sum_nil, Rplus_0_r. cbn [fst snd]. rewrite gauss_pts.
  rewrite (conducted_iso false (unit_law 0%nat) 1 _ (1 * 2 / 4)).
  - rewrite four2_b. replace (4 * (/ (2 * sqrt 3) * / (2 * sqrt 3))) with (1/3) by (rewrite gauss_sq; lra). unfold form2, nX, nZ, nXZ, nodal. cbn [find rectangle c_dofs nth]. field.
  - intros q. cbn. repeat split; lra.
  - unfold rectangle, pts. cbn [c_quads flat_map map List.app]. repeat (apply Forall_cons; [split; [reflexivity|intros _; apply grad2_y]|]). apply Forall_nil.
Qed.
Lemma flat_overshoots t dt : 0 < dt -> entry (snd (evolve (N := RNum) ForwardEuler (fun _ _ v => evaluate (N := RNum) false false true flat unit_K unit_F v) t dt corner)) 2 = 300 - 100/3 * dt.
Proof.
  intros D. match goal with |- entry (snd ?e) _ = _ => change e with (evolveR ForwardEuler (fun _ _ v => evaluate (N := RNum) false false true flat unit_K unit_F v) t dt corner) end. rewrite evolve_step. cbn [snd step].
  assert (Lr : List.length (evaluate (N := RNum) false false true flat unit_K unit_F corner) = 4%nat) by apply (rate_length false false true flat unit_K unit_F corner).
  rewrite entry_sadd by exact (eq_sym Lr). assert (Fr : free flat 2) by (split; [cbn; lia|intros []]).
  assert (At : at_temperatures flat unit_K unit_law unit_F no_air corner) by (split; intros; reflexivity).
  rewrite (rate_at false true flat unit_K unit_law unit_F no_air 300 corner 2 flat_ok At ltac:(discriminate) Fr). unfold opA. rewrite flat_mass by lia. rewrite flat_exchange.
  unfold form2, nX, nZ, nXZ, hat, deviation, entry, corner. cbn [nth Nat.eqb]. field.
Qed.
Lemma corner_between : between flat 300 400 corner.
Proof. intros j [L _]. cbn in L. unfold entry, corner. do 4 (destruct j as [|j]; [cbn [nth]; lra|]). lia. Qed.
Lemma flat_refuted : mesh_ok flat /\ massive flat /\ boxes false false 1 flat /\ isotropic unit_law 1 /\ between flat 300 400 corner /\
  forall t dt, 0 < dt -> entry (snd (evolve (N := RNum) ForwardEuler (fun _ _ v => evaluate (N := RNum) false false true flat unit_K unit_F v) t dt corner)) 2 < 300.
Proof.
  repeat split; try apply flat_ok; [exact flat_massive|exact flat_boxes|exact unit_isotropic|apply corner_between; assumption..|]. intros t dt D. rewrite flat_overshoots by exact D. lra.
Qed.
Lemma three_eighths : 3/8 * (even_factor false false * 1 / (1 * 1)) <= 1. Proof. unfold even_factor. right. field. Qed.
