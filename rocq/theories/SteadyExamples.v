(** SteadyExamples.v -- a wall between two fluids, on a mesh with a hanging node. *)
From Coq Require Import Reals List Bool ZArith Lra Lia Permutation.
From Verif Require Import Base BaseFacts MaterialModel MaterialSpec InputModel HeatModel HeatSpec HeatExamples StabilitySpec RadiationSpec SteadySpec.
Import ListNotations.
Open Scope R_scope.

(** A square of edge one, two squares of edge one half at its right; node 5 hangs between 1 and 3. *)
Definition big : list nat := [0; 1; 2; 3]%nat.
Definition low : list nat := [1; 4; 5; 6]%nat.
Definition high : list nat := [5; 6; 3; 7]%nat.
Definition wall_cells : list (hcell RNum) := [rectangle ends 1 1 big; rectangle ends (1/2) (1/2) low; rectangle ends (1/2) (1/2) high].
Definition wall_side (dofs : list nat) (w : R) (corners : list nat) : hcell RNum :=
  mkhc (N := RNum) dofs (map (fun a => mkhq (N := RNum) w (map (fun k => if Nat.eqb k a then 1 else 0) (seq 0 4)) (repeat (mkpt (N := RNum) 0 0 0) 4)) corners).
Definition west dofs w := wall_side dofs w [0; 2]%nat.
Definition east dofs w := wall_side dofs w [1; 3]%nat.
Definition south dofs w := wall_side dofs w [0; 1]%nat.
Definition north dofs w := wall_side dofs w [2; 3]%nat.
Definition wface (c : hcell RNum) (ty : BinNums.N) : hface RNum := mkhf (N := RNum) 0 7 c (mkhc (N := RNum) [] []) ty.
(** Convection at the left and at the right, the rest is adiabatic; the last face is inside. *)
Definition wall_faces : list (hface RNum) :=
  [wface (west big (1/2)) convective; wface (east low (1/4)) convective; wface (east high (1/4)) convective;
   wface (south big (1/2)) adiabatic; wface (north big (1/2)) adiabatic; wface (south low (1/4)) adiabatic; wface (north high (1/4)) adiabatic;
   mkhf (N := RNum) 0 0 (north low (1/4)) (south high (1/4)) convective].
Definition wall : heat_mesh RNum := mkhm (N := RNum) 8 [(5%nat, [(1%nat, 1/2); (3%nat, 1/2)])] wall_cells wall_cells wall_faces.
Definition wall_pos (j : nat) : pt RNum :=
  let u (x z : R) := mkpt (N := RNum) x 0 z in nth j [u 0 0; u 1 0; u 0 1; u 1 1; u (3/2) 0; u 1 (1/2); u (3/2) (1/2); u (3/2) 1] (u 0 0).
Definition wall_normal (j : nat) : pt RNum :=
  let u (x z : R) := mkpt (N := RNum) x 0 z in nth j [u (-1) 0; u 1 0; u 1 0; u 0 (-1); u 0 1; u 0 (-1); u 0 1; u 0 0] (u 0 0).
Definition wall_law : point_law RNum := mkpl (N := RNum) 1 2 2 2 1 0 [].
(** Air at 0 degrees at the left (coefficient 1), at 45 degrees at the right (coefficient 2). *)
Definition wall_air : face_laws RNum := fun j q T => match j with O => mkfl (N := RNum) 1 1 0 0 0 | _ => mkfl (N := RNum) 1 2 45 0 0 end.
Definition slope10 : pt RNum := mkpt (N := RNum) 10 0 0.
Definition wall_temperatures : list R := [20; 30; 20; 30; 35; 999; 35; 35].

Lemma wall_ok : mesh_ok wall.
Proof.
  split; [|split; [|split]].
  - split; [cbn; repeat constructor; cbn; intuition lia|]. apply Forall_list; [|apply Forall_nil]. cbn [fst snd]. split; [cbn; lia|]. split; [|calc].
    repeat (apply Forall_list; [cbn; split; [lia|intuition lia]|]). apply Forall_nil.
  - repeat (apply Forall_list; [shape|]). apply Forall_nil.
  - repeat (apply Forall_list; [shape|]). apply Forall_nil.
  - repeat (apply Forall_list; [split; shape|]). apply Forall_nil.
Qed.
Lemma wall_massive : massive wall.
Proof.
  intros j [L N]. cbn in L, N. unfold nodal_mass. do 5 (destruct j as [|j]; [calc|]). destruct j as [|j]; [exfalso; apply N; auto|]. do 2 (destruct j as [|j]; [calc|]). lia.
Qed.
Lemma wall_side_is dofs w corners : side 4 dofs (w, corners) (wall_side dofs w corners).
Proof. split; [reflexivity|]. unfold wall_side. cbn [c_quads fst snd]. rewrite map_map. reflexivity. Qed.
Lemma at_place (x z x' z' : R) : x = x' -> z = z' -> mkpt (N := RNum) x 0 z = mkpt (N := RNum) x' 0 z'. Proof. intros -> ->. reflexivity. Qed.
Lemma wall_placed : Forall (placed false wall_pos) wall_cells.
Proof.
  repeat apply Forall_list; try apply Forall_nil; cbn [placed].
  - exists ends, 1, 1, big, (mkpt (N := RNum) 0 0 0). repeat split; try lra. unfold corners2, big. cbn [map wall_pos nth fst snd px py pz]. repeat (apply f_equal2; [apply at_place; lra|]). reflexivity.
  - exists ends, (1/2), (1/2), low, (mkpt (N := RNum) 1 0 0). repeat split; try lra. unfold corners2, low. cbn [map wall_pos nth fst snd px py pz]. repeat (apply f_equal2; [apply at_place; lra|]). reflexivity.
  - exists ends, (1/2), (1/2), high, (mkpt (N := RNum) 1 0 (1/2)). repeat split; try lra. unfold corners2, high. cbn [map wall_pos nth fst snd px py pz]. repeat (apply f_equal2; [apply at_place; lra|]). reflexivity.
Qed.
Definition wall_sides : list (list (hcell RNum)) :=
  [[west big (1/2); east big (1/2); south big (1/2); north big (1/2)]; [west low (1/4); east low (1/4); south low (1/4); north low (1/4)]; [west high (1/4); east high (1/4); south high (1/4); north high (1/4)]].
Definition dir (x z : R) : pt RNum := mkpt (N := RNum) x 0 z.
Definition wall_pairs : list (list (hcell RNum * pt RNum) * list (hcell RNum * pt RNum)) :=
  [([(east big (1/2), dir 1 0)], [(west low (1/4), dir (-1) 0); (west high (1/4), dir (-1) 0)]); ([(north low (1/4), dir 0 1)], [(south high (1/4), dir 0 (-1))])].
Lemma wall_box_sides : Forall2 (box_with_sides false (1/2)) wall_cells wall_sides.
Proof.
  assert (S : forall dx dz dofs w1 w2, w1 = dz / 2 -> w2 = dx / 2 -> Forall2 (side 4 dofs) (sides2 dx dz) [west dofs w1; east dofs w1; south dofs w2; north dofs w2]) by (intros; subst; repeat constructor; exact (proj2 (wall_side_is _ _ _))).
  unfold wall_cells, wall_sides. repeat apply Forall2_cons; try apply Forall2_nil; (split; [cbn; repeat constructor; cbn; intuition lia|]); cbn [box_with_sides].
  - exists 1, 1, big. repeat split; try lra. apply S; lra.
  - exists (1/2), (1/2), low. repeat split; try lra. apply S; lra.
  - exists (1/2), (1/2), high. repeat split; try lra. apply S; lra.
Qed.
Lemma wall_facing : Forall (fun AB => facing (m_C wall) (fst AB) (snd AB)) wall_pairs.
Proof.
  assert (E : forall x z x' z' : R, x' = - x -> z' = - z -> dir x' z' = mkpt (N := RNum) (- px (dir x z)) (- py (dir x z)) (- pz (dir x z))) by (intros; subst; unfold dir; cbn [px py pz]; f_equal; cbn [num RNum]; lra).
  unfold wall_pairs. repeat apply Forall_list; try apply Forall_nil; cbn [fst snd]; split.
  - exists (dir 1 0). split; repeat apply Forall_list; try apply Forall_nil; cbn [snd]; try reflexivity; apply E; lra.
  - intros z. calc.
  - exists (dir 0 1). split; repeat apply Forall_list; try apply Forall_nil; cbn [snd]; try reflexivity; apply E; lra.
  - intros z. calc.
Qed.
Lemma wall_grid : box_grid false (1/2) wall wall_pos wall_normal.
Proof.
  split; [reflexivity|]. split; [exact wall_placed|]. split.
  - intros e [<-|[]]. cbn [fst snd]. unfold Sum, sumR. cbn [map fold_right fst snd wall_pos nth px py pz num RNum]. repeat split; lra.
  - exists wall_sides, wall_pairs. split; [exact wall_box_sides|]. split; [exact wall_facing|].
    set (s1 := (west big (1/2), dir (-1) 0)). set (s2 := (east big (1/2), dir 1 0)). set (s3 := (south big (1/2), dir 0 (-1))). set (s4 := (north big (1/2), dir 0 1)).
    set (s5 := (west low (1/4), dir (-1) 0)). set (s6 := (east low (1/4), dir 1 0)). set (s7 := (south low (1/4), dir 0 (-1))). set (s8 := (north low (1/4), dir 0 1)).
    set (s9 := (west high (1/4), dir (-1) 0)). set (s10 := (east high (1/4), dir 1 0)). set (s11 := (south high (1/4), dir 0 (-1))). set (s12 := (north high (1/4), dir 0 1)).
    change (Permutation [s1; s2; s3; s4; s5; s6; s7; s8; s9; s10; s11; s12] [s1; s6; s10; s3; s4; s7; s12; s2; s5; s9; s8; s11]). clearbody s1 s2 s3 s4 s5 s6 s7 s8 s9 s10 s11 s12. clear.
    assert (T : forall (x : hcell RNum * pt RNum) l l1 l2, Permutation l (l1 ++ l2) -> Permutation (x :: l) (l1 ++ x :: l2)) by (intros; now apply Permutation_cons_app).
    apply perm_skip. apply (T s2 _ [s6; s10; s3; s4; s7; s12]). apply (T s3 _ [s6; s10]). apply (T s4 _ [s6; s10]). apply (T s5 _ [s6; s10; s7; s12]). apply perm_skip. apply (T s7 _ [s10]).
    apply (T s8 _ [s10; s12; s9]). apply (T s9 _ [s10; s12]). apply perm_skip. apply (T s11 _ [s12]). reflexivity.
Qed.
Lemma wall_profile : has_profile wall wall_pos 20 slope10 wall_temperatures.
Proof.
  split; [reflexivity|]. intros j [L N]. cbn in L, N. do 5 (destruct j as [|j]; [calc|]). destruct j as [|j]; [exfalso; apply N; auto|]. do 2 (destruct j as [|j]; [calc|]). lia.
Qed.
Lemma wall_balanced : balanced false false wall wall_pos wall_normal wall_air wall_law 20 slope10.
Proof.
  intros j f q x I Bf J. cbn [wall m_faces wall_faces indexed List.length seq combine] in I.
  repeat (destruct I as [E|I]; [injection E as <- <-; cbn [active_side hf_first hf_inner wface Nat.eqb west east south north wall_side c_quads map indexed List.length seq combine] in J;
    first [discriminate Bf|repeat (destruct J as [E|J]; [injection E as <- <-; unfold outflux; calc|]); destruct J]|]). destruct I.
Qed.
Lemma wall_homogeneous : homogeneous false (fun _ _ _ => wall_law) wall_law 0.
Proof. intros i q T. cbn. repeat split; reflexivity. Qed.
(** Uniform heating without losses. *)
Lemma wall_heated : homogeneous true (fun _ _ _ => mkpl (N := RNum) (1/2) 2 2 2 1 0 [3; 1]) (mkpl (N := RNum) (1/2) 2 2 2 1 0 []) 2.
Proof. intros i q T. cbv zeta. repeat split; try reflexivity. calc. Qed.
Lemma wall_insulated : forall u, balanced false true wall wall_pos wall_normal wall_air (mkpl (N := RNum) (1/2) 2 2 2 1 0 []) u (mkpt (N := RNum) 0 0 0).
Proof. intros u j f q x _ _ _. unfold heat_flux, dot. cbn [px py pz num RNum pl_inv pl_kx pl_kz]. ring. Qed.
