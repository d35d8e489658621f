(** SupportExamples.v -- two squares on the ground, clamped and free. *)
From Coq Require Import Reals Bool List Lia Lra.
From Verif Require Import Base BaseFacts CellModel InputModel AssimilationSpec AssimilationProofs ElementModel ElementSpec ElementProofs StressModel StressSpec
  HeatModel HeatSpec HeatProofs HeatExamples ElasticModel ElasticSpec ElasticProofs ElasticProofs3 ElasticProofs4 ElasticProofs9 ElasticProofs12 ElasticExamples StabilitySpec RadiationSpec SupportSpec SupportProofs SupportProofs2 SupportProofs3 SupportProofs4.
Import ListNotations.
Local Open Scope R_scope.

Definition vector_point (q : hquad RNum) : quad RNum := mkquad (N := RNum) (h_jxw q) (vector_gradients 2 q) (flat_map (fun x => [x; x]) (h_values q)) [1].
(** Unit squares with four points each; node 0 1 2 below, 3 4 5 above. *)
Definition square (dofs : list nat) : ecell RNum :=
  mkec (N := RNum) (mkjc true true true) 0 [0; 1; 0; 1; 0; 1; 0; 1]%nat dofs (map vector_point (c_quads (rectangle [1/4; 3/4] 1 1 []))) [0%nat] (mkplast (N := RNum) 3 1 1 1) (1/100) 1.
Definition squares : list (ecell RNum) := [square [0; 1; 2; 3; 6; 7; 8; 9]%nat; square [2; 3; 4; 5; 8; 9; 10; 11]%nat].
Definition ground : constraints RNum := [(0%nat, []); (1%nat, []); (2%nat, []); (3%nat, [])].
Definition cold : thermal_data RNum := mktd (N := RNum) [5] [false; false].
Definition own_weight : load RNum := mkload (N := RNum) (Some cold) [gravity (N := RNum) 2] (fun _ => repeat 0 12).
Definition up (j : nat) : R := if Nat.odd j then 1 else 0.

Lemma square_box dofs : List.length dofs = 8%nat -> elastic_box 2 (square dofs).
Proof.
  intros L. split; [reflexivity|]. split; [exact L|]. exists [1/4; 3/4], 1, 1, 1, (1/4), (3/4). repeat split; try lra; cbn [In]; auto.
Qed.
Lemma ground_ok : closed_ok 12 ground.
Proof. split; [cbn; repeat constructor; cbn; intuition lia|]. repeat (apply Forall_list; [cbn; split; [lia|apply Forall_nil]|]). apply Forall_nil. Qed.
Lemma free_ok : closed_ok 12 [].
Proof. split; [constructor| apply Forall_nil]. Qed.
Lemma ground_clamped : mechanical_constraints (N := RNum) [] [clamped] [mkbf true 0 [0; 1; 2; 3]%nat] = ground.
Proof. reflexivity. Qed.
Lemma squares_ok : Forall (cell_ok 2 12) squares.
Proof. repeat (apply Forall_list; [split; [split; [reflexivity|split; [repeat constructor| repeat constructor]]|cbn; repeat constructor; lia]|]). apply Forall_nil. Qed.
Lemma squares_elastic : elastic_ok 2 squares.
Proof.
  split; [lia|]. unfold solid, squares. cbn [filter takes_part square ec_joint j_owned j_mech andb]. 
  repeat (apply Forall_list; [cbn [ec_plast lame1 lame2 ec_quads square num RNum]; split; [lra|split; [cbn; lra|]]; unfold rectangle; cbn [c_quads flat_map map app]; repeat (apply Forall_list; [cbn; lra|]); apply Forall_nil|]). apply Forall_nil.
Qed.
Lemma squares_load : load_ok 2 12 [20; 5] squares own_weight.
Proof.
  split; [|split; [repeat constructor|intros k; reflexivity]]. exists cold. split; [reflexivity|]. split; [exists [20], 5; split; [reflexivity| repeat constructor]|]. split; [reflexivity|]. repeat constructor.
Qed.
Lemma squares_state C : state_ok 2 12 C squares (mkms (N := RNum) (repeat (repeat (mkpoint (N := RNum) (zero_tensor 2 1) (zero_tensor 2 1) 1) 4) 2) None).
Proof.
  split; [|exact I]. split; [reflexivity|]. split.
  - intros pos c row Ec T Er. destruct pos as [|[|pos]]; [| |destruct pos; discriminate]; cbn in Ec, Er; injection Ec as <-; injection Er as <-; reflexivity.
  - intros pos c k q row p Ec T Eq Er Ep. apply (repeat_nth _ 2 pos row) in Er. subst row. apply (repeat_nth _ 4 k p) in Ep. subst p. repeat split.
Qed.
Lemma squares_supported : supported 2 12 ground squares.
Proof.
  apply (held_supported 2 12 ground squares (or_introl eq_refl) ground_ok).
  assert (G : forall j, (j < 4)%nat -> held 2 ground squares j) by (intros j Lj; apply (held_line 2 ground squares j []); [do 4 (destruct j as [|j]; [reflexivity|]); lia| intros w []]).
  assert (A : forall j, In j [0; 1; 2; 3; 6; 7; 8; 9]%nat -> held 2 ground squares j).
  { intros j Ij. apply (held_box 2 ground squares (square [0; 1; 2; 3; 6; 7; 8; 9]%nat) [0; 1]%nat j); [cbn; auto| apply square_box; reflexivity| unfold box_sides, sides2; cbn [Nat.eqb map snd In]; auto| |exact Ij].
    intros k a [<-|[<-|[]]] La; (destruct a as [|[|a]]; [| |lia]); cbn; apply G; lia. }
  intros j Lj _. assert (Q : In j [0; 1; 2; 3; 6; 7; 8; 9]%nat \/ In j [2; 3; 4; 5; 8; 9; 10; 11]%nat) by (cbn [In]; lia). destruct Q as [Q|Q]; [exact (A j Q)|].
  apply (held_box 2 ground squares (square [2; 3; 4; 5; 8; 9; 10; 11]%nat) [0; 2]%nat j); [cbn; auto| apply square_box; reflexivity| unfold box_sides, sides2; cbn [Nat.eqb map snd In]; auto| |exact Q].
  intros k a [<-|[<-|[]]] La; (destruct a as [|[|a]]; [| |lia]); cbn; apply A; cbn [In]; auto 12.
Qed.
Lemma squares_work v : work_of 2 [20; 5] [] squares own_weight v = - (980665 / 100000) / 4 * (v 1%nat + 2 * v 3%nat + v 5%nat + v 7%nat + 2 * v 9%nat + v 11%nat).
Proof. cbv -[Rplus Rmult Rminus Rdiv Ropp Rinv IZR]. field. Qed.
Lemma squares_weight : total_weight squares = 2 * (980665 / 100000).
Proof. cbv -[Rplus Rmult Rminus Rdiv Ropp Rinv IZR]. field. Qed.
Lemma squares_lift : lift 2 [] squares up.
Proof.
  split.
  - intros c q a b Ic Iq La Lb. assert (Ia : a = 0%nat \/ a = 1%nat) by lia. assert (Ib : b = 0%nat \/ b = 1%nat) by lia. clear La Lb.
    destruct Ic as [<-|[<-|[]]]; destruct Iq as [<-|[<-|[<-|[<-|[]]]]]; destruct Ia as [-> | ->]; destruct Ib as [-> | ->]; cbv -[Rplus Rmult Rminus Rdiv Ropp Rinv IZR]; field.
  - intros c q Ic Iq. destruct Ic as [<-|[<-|[]]]; destruct Iq as [<-|[<-|[<-|[<-|[]]]]]; cbv -[Rplus Rmult Rminus Rdiv Ropp Rinv IZR]; field.
Qed.
Lemma squares_fall : accuracy * load_size 12 (work_of 2 [20; 5] [] squares own_weight) * size 12 up < total_weight squares.
Proof.
  rewrite squares_weight. unfold load_size, size. set (g := 980665 / 100000).
  assert (E : Sum (seq 0 12) (fun j => work_of 2 [20; 5] [] squares own_weight (hat j) * work_of 2 [20; 5] [] squares own_weight (hat j)) = 3 / 4 * (g * g)).
  { cbn [seq]. rewrite !Sum_cons, Sum_nil. rewrite !squares_work. unfold hat. cbn [Nat.eqb]. unfold g. field. }
  rewrite E. assert (U : Sum (seq 0 12) (fun j => up j * up j) = 6) by (cbn [seq]; rewrite !Sum_cons, Sum_nil; unfold up; cbn [Nat.odd Nat.even negb]; ring). rewrite U.
  assert (G : 0 < g) by (unfold g; lra). assert (A : sqrt (3 / 4 * (g * g)) <= g) by (apply Rle_trans with (sqrt (Rsqr g)); [apply sqrt_le_1_alt; unfold Rsqr; nra| rewrite sqrt_Rsqr; lra]).
  assert (B : sqrt 6 <= 3) by (apply Rle_trans with (sqrt (Rsqr 3)); [apply sqrt_le_1_alt; unfold Rsqr; lra| rewrite sqrt_Rsqr; lra]).
  pose proof (sqrt_pos (3 / 4 * (g * g))) as P. pose proof (sqrt_pos 6) as Q.
  assert (M : sqrt (3 / 4 * (g * g)) * sqrt 6 <= g * 3) by (apply Rmult_le_compat; assumption).
  assert (T : 0 < accuracy <= 1/10) by (unfold accuracy; assert (10 <= 10 ^ 12) by (replace (10 ^ 12) with 1000000000000 by ring; lra); split; [apply Rinv_0_lt_compat; lra| rewrite <- (Rinv_inv (1/10)); apply Rinv_le_contravar; [lra|]; replace (/ (1/10)) with 10 by field; assumption]).
  rewrite Rmult_assoc. apply Rle_lt_trans with (1/10 * (g * 3)); [apply Rmult_le_compat; [lra| apply Rmult_le_pos; assumption| lra| exact M]| lra].
Qed.
