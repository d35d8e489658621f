(** SteadyProofs2.v -- boxes at their places: exact gradients, the divergence theorem. *)
From Coq Require Import Reals List Bool String ZArith Lra Lia Permutation.
From Verif Require Import Base MaterialModel MaterialSpec InputModel HeatModel HeatSpec MaterialProofs MaterialProofs2 HeatProofs HeatProofs2 HeatProofs3 HeatProofs4
  StabilitySpec StabilityProofs RadiationSpec RadiationProofs RadiationProofs2 ElasticProofs SteadySpec SteadyProofs.
Import ListNotations.
Open Scope R_scope.

(** A profile at a hanging node. *)
Lemma nodal_profile n C (pos : nat -> pt RNum) (a : R) (b : pt RNum) j : constraints_ok n C -> hanging_placed n C pos -> nodal C (profile pos a b) j = profile pos a b j.
Proof.
  intros [_ Cok] H. unfold nodal. destruct (find _ C) as [e|] eqn:E; [|reflexivity]. apply find_some in E. destruct E as [I E]. apply Nat.eqb_eq in E. subst j.
  destruct (H e I) as (Hx & Hy & Hz). rewrite Forall_forall in Cok. destruct (Cok e I) as (_ & _ & S1).
  unfold profile, dot. transitivity (a * Sum (snd e) (fun w => snd w) + (px b * Sum (snd e) (fun w => snd w * px (pos (fst w))) + py b * Sum (snd e) (fun w => snd w * py (pos (fst w))) + pz b * Sum (snd e) (fun w => snd w * pz (pos (fst w))))).
  - rewrite <- !Sum_scal, <- !Sum_plus. apply Sum_ext. intros w _. cbn [num RNum]. ring.
  - match goal with |- a * ?S + (_ * ?X + _ * ?Y + _ * ?Z) = _ => replace S with 1 by (symmetry; exact S1); replace X with (px (pos (fst e)) : R) by exact Hx; replace Y with (py (pos (fst e)) : R) by exact Hy; replace Z with (pz (pos (fst e)) : R) by exact Hz end.
    cbn [num RNum]. ring.
Qed.
Ltac positions E := cbn [map corners3 corners2 fst snd] in E; injection E; clear E; intros.
Ltac value_at := unfold profile, dot; repeat match goal with P : _ = _ |- _ => rewrite P; clear P end.
Lemma placed_gradient (C : constraints RNum) n dim3 (pos : nat -> pt RNum) c q (a : R) (b : pt RNum) : constraints_ok n C -> hanging_placed n C pos -> placed dim3 pos c -> In q (c_quads c) -> in_plane dim3 b ->
  gradient C c q (profile pos a b) = b.
Proof.
  intros Cok H Pc I P2. unfold gradient.
  assert (Z : forall (f : pt RNum -> R), Sum (combine (h_grads q) (c_dofs c)) (fun p => f (fst p) * nodal C (profile pos a b) (snd p)) = Sum (combine (h_grads q) (map pos (c_dofs c))) (fun p => f (fst p) * (a + dot b (snd p)))).
  { intros f. generalize (h_grads q : list (pt RNum)). generalize (c_dofs c). induction l as [|d l IH]; intros [|g gs]; try reflexivity. cbn [map combine]. rewrite !Sum_cons, IH. cbn [fst snd]. rewrite (nodal_profile n) by assumption. reflexivity. }
  rewrite (Z (fun g => px g)), (Z (fun g => py g)), (Z (fun g => pz g)). clear Z. destruct b as [bx by_ bz]. destruct dim3; cbn [placed] in Pc.
  - destruct Pc as (points & dx & dy & dz & dofs & o & Nx & Ny & Nz & -> & E). unfold brick in *. cbn [c_dofs c_quads] in *. rewrite E. clear E. destruct o as [ox oy oz].
    apply in_flat_map in I as (z & _ & I). apply in_flat_map in I as (y & _ & I). apply in_map_iff in I as (x & <- & _). unfold point3. cbn [h_grads].
    unfold Sum, sumR, corners3, dot. cbn [map combine fold_right fst snd px py pz lin slope num RNum]. f_equal; cbn [num RNum]; field; auto.
  - destruct Pc as (points & dx & dz & dofs & o & Nx & Nz & -> & E). unfold rectangle in *. cbn [c_dofs c_quads] in *. rewrite E. clear E. destruct o as [ox oy oz].
    apply in_flat_map in I as (z & _ & I). apply in_map_iff in I as (x & <- & _). unfold point2. cbn [h_grads]. specialize (P2 eq_refl). cbn [py num RNum] in P2. subst by_.
    unfold Sum, sumR, corners2, dot. cbn [map combine fold_right fst snd px py pz lin slope num RNum]. f_equal; cbn [num RNum]; field; auto.
Qed.
(** ** The divergence theorem on a box *)
Definition over_side (C : constraints RNum) (c : hcell RNum) (z : nat -> R) : R := Sum (c_quads c) (fun q : hquad RNum => h_jxw q * field C c q z).
Lemma side_sum (C : constraints RNum) n dofs wc c z : side n dofs wc c ->
  over_side C c z = fst wc * Sum (snd wc) (fun a => Sum (combine (map (fun k => if Nat.eqb k a then 1 else 0) (seq 0 n)) dofs) (fun p => fst p * nodal C z (snd p))).
Proof.
  intros [Dc E]. unfold over_side, field. rewrite Dc.
  transitivity (Sum (map (fun q : hquad RNum => ((h_jxw q : R), (h_values q : list R))) (c_quads c)) (fun jv => fst jv * Sum (combine (snd jv) dofs) (fun p => fst p * nodal C z (snd p)))).
  - rewrite Sum_map. reflexivity.
  - rewrite E, Sum_map, <- Sum_scal. reflexivity.
Qed.
Lemma box_divergence dim3 h (C : constraints RNum) c sides (v : pt RNum) z : 0 < h -> box_with_sides dim3 h c sides -> in_plane dim3 v ->
  Sum (c_quads c) (fun q : hquad RNum => h_jxw q * dot v (gradient C c q z)) = Sum (combine sides (normals dim3)) (fun sn => dot v (snd sn) * over_side C (fst sn) z).
Proof.
  intros H0 [_ B] P2. destruct dim3.
  - destruct B as (dx & dy & dz & dofs & Hx & Hy & Hz & L & -> & S). unfold sides3 in S.
    repeat match goal with S : Forall2 _ (_ :: _) _ |- _ => inversion S; clear S; subst | S : Forall2 _ [] _ |- _ => inversion S; clear S; subst end.
    unfold normals. cbn [combine]. rewrite !Sum_cons, Sum_nil. cbn [fst snd].
    repeat match goal with S : side _ _ _ _ |- _ => rewrite (side_sum C _ _ _ _ z S); clear S end. cbn [fst snd].
    do 8 (destruct dofs as [|? dofs]; [discriminate L|]). destruct dofs; [|discriminate L]. destruct v as [vx vy vz].
    unfold gradient, brick, point3, ends, corners3, Sum, sumR, dot. cbn [map combine fold_right fst snd px py pz lin slope flat_map List.app c_quads c_dofs h_jxw h_grads seq Nat.eqb num RNum].
    field. repeat split; lra.
  - destruct B as (dx & dz & dofs & Hx & Hz & L & -> & S). unfold sides2 in S.
    repeat match goal with S : Forall2 _ (_ :: _) _ |- _ => inversion S; clear S; subst | S : Forall2 _ [] _ |- _ => inversion S; clear S; subst end.
    unfold normals. cbn [combine]. rewrite !Sum_cons, Sum_nil. cbn [fst snd].
    repeat match goal with S : side _ _ _ _ |- _ => rewrite (side_sum C _ _ _ _ z S); clear S end. cbn [fst snd].
    do 4 (destruct dofs as [|? dofs]; [discriminate L|]). destruct dofs; [|discriminate L]. destruct v as [vx vy vz].
    unfold gradient, rectangle, point2, ends, corners2, Sum, sumR, dot. cbn [map combine fold_right fst snd px py pz lin slope flat_map List.app c_quads c_dofs h_jxw h_grads seq Nat.eqb num RNum].
    field. repeat split; lra.
Qed.
Lemma grid_gradients dim3 h m pos normal : mesh_ok m -> box_grid dim3 h m pos normal -> exact_gradients dim3 m pos.
Proof.
  intros Mok (_ & Pl & Hg & _) c q a b I J P2. apply (placed_gradient (m_C m) (m_n m) dim3); auto. - exact (m_C_ok m Mok). - exact (proj1 (Forall_forall _ _) Pl c I).
Qed.
Lemma grid_divergence dim3 h m pos normal : 0 < h -> box_grid dim3 h m pos normal -> divergence dim3 m normal.
Proof.
  intros H0 (_ & _ & _ & sides & pairs & Sd & Pr & Pm) j v Fr P2.
  transitivity (Sum (flat_map (fun ss => combine ss (normals dim3)) sides) (fun sn => dot v (snd sn) * over_side (m_C m) (fst sn) (hat j))).
  - rewrite Sum_flat_map. clear Pm Pr Fr. induction Sd as [|c ss cs sides B Sd IH]; [reflexivity|]. rewrite !Sum_cons. rewrite IH. f_equal. exact (box_divergence dim3 h (m_C m) c ss v (hat j) H0 B P2).
  - rewrite (Sum_perm _ _ _ Pm), Sum_app.
    replace (Sum (flat_map (fun AB => fst AB ++ snd AB) pairs) _) with 0.
    + rewrite Rplus_0_r, Sum_map. clear Pm. induction (indexed (m_faces m)) as [|jf l IH]; [reflexivity|]. cbn [filter]. rewrite (Sum_cons _ jf l). destruct (on_boundary (snd jf)).
      * rewrite Sum_cons, IH. f_equal. cbn [fst snd]. unfold over_side. rewrite <- Sum_scal. apply Sum_ext. intros q _. cbn [num RNum]. ring.
      * rewrite IH. ring.
    + symmetry. rewrite Sum_flat_map. apply Sum_zero. intros [A B] I. rewrite Forall_forall in Pr. destruct (Pr _ I) as [(u & UA & UB) E]. cbn [fst snd] in *. rewrite Forall_forall in UA, UB.
      rewrite Sum_app. rewrite (Sum_ext _ (fun sn => dot v u * over_side (m_C m) (fst sn) (hat j)) A) by (intros s Is; now rewrite (UA s Is)).
      rewrite (Sum_ext _ (fun sn => - dot v u * over_side (m_C m) (fst sn) (hat j)) B) by (intros s Is; rewrite (UB s Is); unfold dot; cbn [px py pz num RNum]; ring).
      rewrite !Sum_scal. specialize (E (hat j)). unfold side_integral in E. unfold over_side. etransitivity; [apply f_equal2; [apply Rmult_eq_compat_l; exact E|reflexivity]|]. ring.
Qed.
Lemma grid_volumes dim3 h m pos normal : box_grid dim3 h m pos normal -> same_volumes m.
Proof. intros (E & _) j _. unfold nodal_mass. now rewrite E. Qed.
