(** SupportProofs4.v -- a chain of boxes that starts at a clamped face is supported. *)
From Coq Require Import Reals Bool List Lia Lra.
From Verif Require Import Base BaseFacts CellModel InputModel AssimilationSpec AssimilationProofs ElementModel ElementSpec ElementProofs StressModel StressSpec
  HeatModel HeatSpec HeatProofs ElasticModel ElasticSpec ElasticProofs ElasticProofs3 ElasticProofs4 StabilitySpec RadiationSpec SupportSpec SupportProofs3.
Import ListNotations.
Local Open Scope R_scope.

Lemma strain_grads m comps (q w : quad RNum) u a b : q_grads q = q_grads w -> ElementSpec.strain m comps q u a b = ElementSpec.strain m comps w u a b.
Proof. intros E. unfold ElementSpec.strain, ElementSpec.gradient. now rewrite E. Qed.
Lemma at_point d (c : ecell RNum) (h : hcell RNum) (x : hquad RNum) : map q_grads (ec_quads c) = map (vector_gradients d) (c_quads h) -> In x (c_quads h) -> exists q, In q (ec_quads c) /\ q_grads q = vector_gradients d x.
Proof.
  intros E I. assert (J : In (vector_gradients d x) (map (vector_gradients d) (c_quads h))) by now apply in_map.
  assert (J' : In (vector_gradients d x) (map (fun q : quad RNum => q_grads q : list (list R)) (ec_quads c))) by exact (eq_ind_r (fun l => In (vector_gradients d x) l) J E).
  apply in_map_iff in J'. destruct J' as (q & Q & Iq). exists q. split; [exact Iq| exact Q].
Qed.
Section Held.
  Variables (d n : nat) (C : constraints RNum) (cells : list (ecell RNum)).
  Hypothesis Hd : d = 2%nat \/ d = 3%nat.
  Hypothesis Cok : closed_ok n C.
  Lemma box_still c side v : rigid d C cells v -> In c (solid cells) -> elastic_box d c -> In side (box_sides d) -> (forall k a, In k side -> (a < d)%nat -> nodal C v (nth (k * d + a) (ec_dofs c) O) = 0) ->
    forall j, In j (ec_dofs c) -> nodal C v j = 0.
  Proof.
    intros Rv Ic (Ec & Ld & points & dx & dy & dz & p & q & Nx & Ny & Nz & Ip & Iq & Npq & Eq) Is H j Ij. apply (In_nth _ _ O) in Ij. destruct Ij as (i & Li & <-). rewrite Ld in Li.
    change (local C v c i = 0). assert (Hp : forall x, x = p \/ x = q -> In x points) by (intros x [-> | ->]; assumption).
    destruct Hd as [D|D]; rewrite D in *; cbn [Nat.eqb box_corners] in *.
    - apply (box2_held (local C v c) dx dz p q Nx Nz Npq) with (side := side); [|exact Is|exact H|exact Li].
      intros x z a b w Hx Hz La Lb Ew. destruct (at_point 2 c (rectangle points dx dz []) (point2 dx dz x z) Eq) as (q0 & I0 & E0).
      { unfold rectangle. cbn [c_quads]. apply in_flat_map. exists z. split; [auto|]. apply in_map_iff. exists x. auto. }
      rewrite (strain_grads _ _ w q0) by (rewrite Ew, E0; reflexivity). pose proof (Rv c q0 a b Ic I0 La Lb) as Q. unfold cell_strain in Q. rewrite Ld, Ec in Q. exact Q.
    - apply (box3_held (local C v c) dx dy dz p q Nx Ny Nz Npq) with (side := side); [|exact Is|exact H|exact Li].
      intros x y z a b w Hx Hy Hz La Lb Ew. destruct (at_point 3 c (brick points dx dy dz []) (point3 dx dy dz x y z) Eq) as (q0 & I0 & E0).
      { unfold brick. cbn [c_quads]. apply in_flat_map. exists z. split; [auto|]. apply in_flat_map. exists y. split; [auto|]. apply in_map_iff. exists x. auto. }
      rewrite (strain_grads _ _ w q0) by (rewrite Ew, E0; reflexivity). pose proof (Rv c q0 a b Ic I0 La Lb) as Q. unfold cell_strain in Q. rewrite Ld, Ec in Q. exact Q.
  Qed.
  Lemma held_zero v j : rigid d C cells v -> held d C cells j -> nodal C v j = 0.
  Proof.
    intros Rv Hj. induction Hj as [j l L _ IH|c side j Ic Bx Is _ IH Ij].
    - rewrite <- targets_nodal. apply Sum_zero. intros w Iw. unfold targets in Iw. cbn [num RNum] in *. rewrite L in Iw. specialize (IH w Iw).
      rewrite (nodal_free n C v (fst w) Cok) in IH; [rewrite IH; ring|]. destruct Cok as [_ F]. rewrite Forall_forall in F. rewrite line_of_find in L. destruct (find _ C) as [e|] eqn:Ef; [|discriminate].
      cbn [option_map] in L. injection L as <-. apply find_some in Ef. destruct (F e (proj1 Ef)) as [_ G]. rewrite Forall_forall in G. exact (proj2 (G w Iw)).
    - exact (box_still c side v Rv Ic Bx Is IH j Ij).
  Qed.
  Lemma held_supported : (forall j, (j < n)%nat -> ~ In j (map fst C) -> held d C cells j) -> supported d n C cells.
  Proof. intros H v Rv j Lj Nj. rewrite <- (nodal_free n C v j Cok Nj). exact (held_zero v j Rv (H j Lj Nj)). Qed.
End Held.
