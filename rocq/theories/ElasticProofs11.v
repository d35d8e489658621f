(** ElasticProofs11.v -- histories of solves from any state: with yielding, with residual stress, with cells that were added. *)
From Coq Require Import Reals ZArith Bool List Lia Lra.
From Verif Require Import Base BaseFacts CellModel InputModel AssimilationSpec AssimilationProofs AssimilationProofs3 MechProofs StressModel StressSpec StressProofs StressProofs2 ElementModel ElementSpec ElementProofs ElementProofs2
  HeatModel HeatSpec HeatProofs HeatProofs2 ElasticModel ElasticSpec ElasticProofs ElasticProofs2 ElasticProofs3 ElasticProofs4 ElasticProofs5 ElasticProofs6 ElasticProofs7 ElasticProofs8 ElasticProofs9.
Import ListNotations.
Local Open Scope R_scope.

Lemma contract_add_l d o (a b e : sym RNum) : shaped d o a -> shaped d o b -> shaped d o e -> contract (tadd a b) e = contract a e + contract b e.
Proof.
  intros A B E. rewrite !(contract_sum d o) by (try apply tadd_shaped; assumption).
  rewrite (Rsum_to_ext d _ (fun i => D a i * D e i + 1 * (D b i * D e i))) by (intros i L; rewrite (D_add d o) by auto; ring).
  rewrite (Rsum_to_ext o (fun i => O_ (tadd a b) i * O_ e i) (fun i => O_ a i * O_ e i + 1 * (O_ b i * O_ e i))) by (intros i L; rewrite (O_add d o) by auto; ring).
  rewrite (Rsum_to_lin d 1 (fun i => D a i * D e i)), (Rsum_to_lin o 1 (fun i => O_ a i * O_ e i)). ring.
Qed.
Lemma strain_tensor_ext d C c q (x y : nat -> R) : (forall a b, cell_strain C c q x a b = cell_strain C c q y a b) -> strain_tensor d C c q x = strain_tensor d C c q y.
Proof. intros E. unfold strain_tensor. f_equal; apply map_ext; intros a; apply E. Qed.
Lemma internal_minus d C cells v (u w : nat -> R) : internal_work d C cells v (fun j => u j - w j) = internal_work d C cells v u - internal_work d C cells v w.
Proof.
  transitivity (internal_work d C cells v (fun j => u j + (-1) * w j)); [|rewrite internal_lin; ring].
  rewrite (internal_sym d C cells v), (internal_sym d C cells v (fun j => u j + (-1) * w j)). unfold internal_work. apply Sum_ext. intros c _. apply Sum_ext. intros q _.
  assert (EL : forall i, local C (fun j => u j - w j) c i = local C (fun j => u j + (-1) * w j) c i) by (intros i; unfold local; rewrite <- !targets_nodal; apply Sum_ext; intros x _; ring).
  f_equal. f_equal.
  - f_equal. f_equal. unfold cell_divergence, divergence. apply Rsum_to_ext. intros a _. apply gradient_local_ext. intros i _. apply EL.
  - f_equal. apply Rsum_to_ext. intros a _. apply Rsum_to_ext. intros b _. f_equal. unfold cell_strain, ElementSpec.strain.
    rewrite (gradient_local_ext _ _ _ (local C (fun j => u j - w j) c) (local C (fun j => u j + (-1) * w j) c) a b) by (intros; apply EL).
    rewrite (gradient_local_ext _ _ _ (local C (fun j => u j - w j) c) (local C (fun j => u j + (-1) * w j) c) b a) by (intros; apply EL). reflexivity.
Qed.
Lemma cell_strain_minus C c q (u w : nat -> R) a b : cell_strain C c q (fun j => u j - w j) a b = cell_strain C c q u a b - cell_strain C c q w a b.
Proof.
  transitivity (cell_strain C c q (fun j => u j + (-1) * w j) a b); [|rewrite cell_strain_lin; ring]. unfold cell_strain, ElementSpec.strain.
  assert (EL : forall i, local C (fun j => u j - w j) c i = local C (fun j => u j + (-1) * w j) c i) by (intros i; unfold local; rewrite <- !targets_nodal; apply Sum_ext; intros x _; ring).
  rewrite (gradient_local_ext _ _ _ (local C (fun j => u j - w j) c) (local C (fun j => u j + (-1) * w j) c) a b) by (intros; apply EL).
  rewrite (gradient_local_ext _ _ _ (local C (fun j => u j - w j) c) (local C (fun j => u j + (-1) * w j) c) b a) by (intros; apply EL). reflexivity.
Qed.
Section History.
  Variables (d n : nat) (references : list R) (C : constraints RNum) (cells : list (ecell RNum)).
  Hypothesis Hd : d = 2%nat \/ d = 3%nat.
  Hypothesis Cok : closed_ok n C.
  Hypothesis H : Forall (cell_ok d n) cells.
  Local Notation solve_l := (solve_loadR d n C cells references).
  (** One solve, point by point. *)
  Lemma load_update l s s' : load_ok d n references cells l -> state_ok d n C cells s -> solve_l s l = Ok s' ->
    exists u, ms_old s' = Some u /\ conforms n C u /\ List.length (ms_points s') = List.length cells /\
      forall pos c row row', nth_error cells pos = Some c -> takes_part c = true -> nth_error (ms_points s) pos = Some row -> nth_error (ms_points s') pos = Some row' -> List.length row' = List.length row /\
        forall k q p, nth_error (ec_quads c) k = Some q -> nth_error row k = Some p -> nth_error row' k = Some (update_point (ec_plast c) p (strain_tensor d C c q (since s s'))).
  Proof.
    intros Lo So E. destruct (solve_load_solve d n C cells Cok H references l s Lo) as (b & _ & _ & Eb). rewrite Eb in E. pose proof Lo as (_ & _ & LI).
    pose proof (solve_points d n C cells b (ld_iterate l) s Hd Cok H So LI) as P. destruct (displacementR n C (assemble_matrix (N := RNum) C cells) b (ld_iterate l)) as [u| |] eqn:Ed; try congruence.
    destruct P as (Cu & s0 & E0 & O0 & L0 & U & K). rewrite E in E0. injection E0 as <-. exists u. split; [exact O0|]. split; [exact Cu|]. split; [exact L0|].
    intros pos c row row' Ec T Er Er'. destruct (U pos c row row' Ec T Er Er') as [Lr V]. split; [exact Lr|]. intros k q p Eq Ep. rewrite (V k q p Eq Ep). f_equal. f_equal. apply strain_tensor_ext. intros a b0.
    destruct So as [_ Po]. rewrite (strain_increment n C s u c q a b0 Po Cu). unfold since. rewrite (cell_strain_minus C c q (previous s') (previous s)). unfold previous at 2. rewrite O0. reflexivity.
  Qed.
  Lemma load_balance l s s' : load_ok d n references cells l -> state_ok d n C cells s -> solve_l s l = Ok s' ->
    forall v, stress_work d C cells (ms_points s') v = stress_work d C cells (ms_points s) v + internal_work d C cells v (since s s') - correction_since d C cells (ms_points s) (since s s') v.
  Proof.
    intros Lo So E v. pose proof (load_state d n C cells Hd Cok H references l s s' Lo So E) as [(LP' & RP' & _) _]. destruct (load_update l s s' Lo So E) as (u & Ou & Cu & L0 & U). destruct So as [(LP & RP & SP) Po].
    unfold stress_work, internal_work, correction_since, solid. rewrite Sum_filter.
    rewrite <- (Sum_combine (fun cp : ecell RNum * list (point RNum) => if takes_part (fst cp) then Sum (ec_quads (fst cp)) (fun q => (lame1 (ec_plast (fst cp)) * cell_divergence d C (fst cp) q v * cell_divergence d C (fst cp) q (since s s') +
      2 * lame2 (ec_plast (fst cp)) * Rsum_to d (fun a => Rsum_to d (fun b0 => cell_strain C (fst cp) q v a b0 * cell_strain C (fst cp) q (since s s') a b0))) * q_jxw q) else 0) _ cells (ms_points s) LP) by reflexivity.
    rewrite <- Sum_plus. rewrite <- Sum_minus. apply Sum_combine2; [exact LP'| exact LP|]. intros pos c row' row Ec Er' Er. cbn [fst snd]. destruct (takes_part c) eqn:T; [|lra].
    destruct (U pos c row row' Ec T Er Er') as [Lr V].
    rewrite <- (Sum_combine (fun qp : quad RNum * point RNum => (lame1 (ec_plast c) * cell_divergence d C c (fst qp) v * cell_divergence d C c (fst qp) (since s s') +
      2 * lame2 (ec_plast c) * Rsum_to d (fun a => Rsum_to d (fun b0 => cell_strain C c (fst qp) v a b0 * cell_strain C c (fst qp) (since s s') a b0))) * q_jxw (fst qp)) _ (ec_quads c) row (RP pos c row Ec T Er)) by reflexivity.
    rewrite <- Sum_plus. rewrite <- Sum_minus. apply Sum_combine2; [exact (RP' pos c row' Ec T Er')| exact (RP pos c row Ec T Er)|]. intros k q p' p Eq Ep' Ep. cbn [fst snd].
    rewrite (V k q p Eq Ep) in Ep'. injection Ep' as <-. destruct (SP pos c k q row p Ec T Eq Er Ep) as [S1 S2]. pose proof (strain_shaped_t d C c q) as SH. set (o := List.length (upper d)) in *.
    rewrite (update_stress d o _ _ _ S1 S2 (SH _)). fold (trial (ec_plast c) p (strain_tensor d C c q (since s s'))).
    assert (ST : shaped d o (trial (ec_plast c) p (strain_tensor d C c q (since s s')))) by (apply tadd_shaped; [exact S1| apply hooke_shaped, SH]).
    rewrite (contract_sub_l d o); [|exact ST| unfold plastic_correction; apply tscale_shaped, tsub_shaped; [apply dev_shaped; exact ST| exact S2]| apply SH].
    unfold trial at 1. rewrite (contract_add_l d o); [|exact S1| apply hooke_shaped, SH| apply SH]. rewrite contract_hooke by exact Hd. ring.
  Qed.
  Lemma load_imbalance l s s' : load_ok d n references cells l -> state_ok d n C cells s -> solve_l s l = Ok s' ->
    forall v, imbalance d C cells s' v = imbalance d C cells s v - correction_since d C cells (ms_points s) (since s s') v.
  Proof. intros Lo So E v. unfold imbalance. rewrite (load_balance l s s' Lo So E v). unfold since at 1. rewrite internal_minus. ring. Qed.
  Lemma loads_imbalance loads : forall s s', Forall (load_ok d n references cells) loads -> state_ok d n C cells s -> foldR solve_l loads s = Ok s' ->
    forall v, imbalance d C cells s' v = imbalance d C cells s v - corrections d n references C cells loads s v.
  Proof.
    induction loads as [|l loads IH]; intros s s' F So E v; [injection E as <-; cbn [corrections]; ring|]. rewrite foldR_bind in E. destruct (solve_l s l) as [s1| |] eqn:E1; cbn [bind] in E; try discriminate.
    inversion F as [|? ? Fl F']; subst. cbn [corrections]. unfold solve_loadR in E1. rewrite E1. rewrite (IH s1 s' F' (load_state d n C cells Hd Cok H references l s s1 Fl So E1) E v). rewrite (load_imbalance l s s1 Fl So E1 v). ring.
  Qed.
  Lemma loads_work loads l s s' : Forall (load_ok d n references cells) (loads ++ [l]) -> state_ok d n C cells s -> foldR solve_l (loads ++ [l]) s = Ok s' ->
    forall v, Rabs (stress_work d C cells (ms_points s') v - (work_of d references C cells l v + imbalance d C cells s v - corrections d n references C cells (loads ++ [l]) s v)) <= accuracy * load_size n (work_of d references C cells l) * size n v.
  Proof.
    intros F So E v. pose proof (loads_imbalance (loads ++ [l]) s s' F So E v) as I. destruct (loads_last d n C cells Hd Cok H references loads l s s' F So E) as (s1 & u & E1 & O1 & O').
    assert (Fl : load_ok d n references cells l) by (apply Forall_app in F; destruct F as [_ F]; now inversion F).
    destruct (load_solution d n references C cells Hd Cok H l s s1 Fl So E1) as (u1 & O2 & _ & B). assert (u1 = u) by congruence. subst u1. specialize (B v).
    unfold imbalance in I at 1. unfold previous in I at 1. rewrite O' in I.
    replace (stress_work d C cells (ms_points s') v - (work_of d references C cells l v + imbalance d C cells s v - corrections d n references C cells (loads ++ [l]) s v))
      with (internal_work d C cells v (HeatSpec.entry u) - work_of d references C cells l v) by lra. exact B.
  Qed.
  (** ** Without yielding *)
  Lemma added_none pts : points_ok d cells pts -> stress_added d C cells pts pts (fun j => 0).
  Proof.
    intros (_ & _ & SP) pos c k q row row' p p' Ec T Eq Er Er' Ep Ep'. assert (row' = row) by congruence. subst row'. assert (p' = p) by congruence. subst p'. destruct (SP pos c k q row p Ec T Eq Er Ep) as [S1 _].
    pose proof (strain_shaped_t d C c q (fun _ => 0)) as SH. set (o := List.length (upper d)) in *.
    assert (Z : strain_tensor d C c q (fun _ => 0) = zero_tensor d o).
    { assert (S0 : forall a b, cell_strain C c q (fun _ => 0) a b = 0) by (intros a b; pose proof (cell_strain_minus C c q (fun _ => 0) (fun _ => 0) a b) as Q; assert (Q2 : cell_strain C c q (fun j : nat => 0 - 0) a b = cell_strain C c q (fun _ => 0) a b) by (rewrite Rminus_0_r; reflexivity); lra).
      apply (sym_ext d o); [exact SH| split; apply repeat_length| |]; intros i Hi.
      - rewrite strain_D_t by exact Hi. rewrite S0. unfold D. cbn [dg zero_tensor]. now rewrite nth_repeat.
      - rewrite strain_O_t by exact Hi. rewrite S0. unfold O_. cbn [od zero_tensor]. now rewrite nth_repeat. }
    rewrite Z, (hooke_zero d o). apply (sym_ext d o); [exact S1| apply tadd_shaped; [exact S1| split; apply repeat_length]| |]; intros i Hi.
    - rewrite (D_add d o) by (auto; split; apply repeat_length). unfold D at 3. cbn [dg zero_tensor]. rewrite nth_repeat. ring.
    - rewrite (O_add d o) by (auto; split; apply repeat_length). unfold O_ at 3. cbn [od zero_tensor]. rewrite nth_repeat. ring.
  Qed.
  Lemma added_twice (c : ecell RNum) (q : quad RNum) (A : sym RNum) (x y z : nat -> R) : shaped d (List.length (upper d)) A -> (forall a b, cell_strain C c q z a b = cell_strain C c q x a b + cell_strain C c q y a b) ->
    tadd (tadd A (hooke (lame1 (ec_plast c)) (lame2 (ec_plast c)) (strain_tensor d C c q x))) (hooke (lame1 (ec_plast c)) (lame2 (ec_plast c)) (strain_tensor d C c q y)) =
    tadd A (hooke (lame1 (ec_plast c)) (lame2 (ec_plast c)) (strain_tensor d C c q z)).
  Proof.
    intros SA S0. pose proof (strain_shaped_t d C c q) as SH. set (o := List.length (upper d)) in *.
    assert (TR : tr (strain_tensor d C c q z) = tr (strain_tensor d C c q x) + tr (strain_tensor d C c q y)).
    { rewrite !(tr_sum d o) by apply SH. rewrite (Rsum_to_ext d (D (strain_tensor d C c q z)) (fun i => D (strain_tensor d C c q x) i + 1 * D (strain_tensor d C c q y) i)) by (intros i Li; rewrite !strain_D_t by exact Li; rewrite S0; ring). rewrite Rsum_to_lin. ring. }
    pose proof (fun w => hooke_shaped d o (lame1 (ec_plast c)) (lame2 (ec_plast c)) _ (SH w)) as HS.
    apply (sym_ext d o); [apply tadd_shaped; [apply tadd_shaped; [exact SA| apply HS]| apply HS]| apply tadd_shaped; [exact SA| apply HS]| |]; intros i Hi.
    - rewrite !(D_add d o) by (repeat (apply tadd_shaped || apply HS || assumption)). rewrite !(D_hooke d o) by auto. rewrite TR, !strain_D_t by exact Hi. rewrite S0. ring.
    - rewrite !(O_add d o) by (repeat (apply tadd_shaped || apply HS || assumption)). rewrite !(O_hooke d o) by auto. rewrite !strain_O_t by exact Hi. rewrite S0. ring.
  Qed.
  Lemma load_added l s s' : load_ok d n references cells l -> state_ok d n C cells s -> below_yield_after d C cells (ms_points s) (since s s') -> solve_l s l = Ok s' ->
    stress_added d C cells (ms_points s) (ms_points s') (since s s') /\ same_limits cells (ms_points s) (ms_points s').
  Proof.
    intros Lo So BY E. destruct (load_update l s s' Lo So E) as (u & Ou & Cu & L0 & U).
    assert (G : forall pos c k q row row' p p', nth_error cells pos = Some c -> takes_part c = true -> nth_error (ec_quads c) k = Some q -> nth_error (ms_points s) pos = Some row -> nth_error (ms_points s') pos = Some row' ->
      nth_error row k = Some p -> nth_error row' k = Some p' -> p' = mkpoint (N := RNum) (tadd (p_stress p) (hooke (lame1 (ec_plast c)) (lame2 (ec_plast c)) (strain_tensor d C c q (since s s')))) (p_back p) (p_yield p)).
    { intros pos c k q row row' p p' Ec T Eq Er Er' Ep Ep'. destruct (U pos c row row' Ec T Er Er') as [_ V]. rewrite (V k q p Eq Ep) in Ep'. injection Ep' as <-. exact (elastic_case (ec_plast c) p _ (BY pos c k q row p Ec T Eq Er Ep)). }
    split; intros pos c k q row row' p p' Ec T Eq Er Er' Ep Ep'; rewrite (G pos c k q row row' p p' Ec T Eq Er Er' Ep Ep'); [reflexivity| split; reflexivity].
  Qed.
  Lemma loads_added loads : forall s s', Forall (load_ok d n references cells) loads -> state_ok d n C cells s ->
    (forall l s1, In l loads -> solve_l s l = Ok s1 -> below_yield_after d C cells (ms_points s) (since s s1)) ->
    foldR solve_l loads s = Ok s' -> stress_added d C cells (ms_points s) (ms_points s') (since s s') /\ same_limits cells (ms_points s) (ms_points s').
  Proof.
    induction loads as [|l loads IH]; intros s s' F So BY E.
    - injection E as <-. split.
      + pose proof (added_none (ms_points s) (proj1 So)) as A0. intros pos c k q row row' p p' Ec T Eq Er Er' Ep Ep'. rewrite (A0 pos c k q row row' p p' Ec T Eq Er Er' Ep Ep'). f_equal. f_equal. apply strain_tensor_ext. intros a b.
        unfold since. rewrite (cell_strain_minus C c q (previous s) (previous s)). pose proof (cell_strain_minus C c q (fun _ => 0) (fun _ => 0) a b) as Q.
        assert (Q2 : cell_strain C c q (fun j : nat => 0 - 0) a b = cell_strain C c q (fun _ => 0) a b) by (rewrite Rminus_0_r; reflexivity). lra.
      + intros pos c k q row row' p p' _ _ _ Er Er' Ep Ep'. assert (row' = row) by congruence. subst row'. assert (p' = p) by congruence. subst p'. split; reflexivity.
    - rewrite foldR_bind in E. destruct (solve_l s l) as [s1| |] eqn:E1; cbn [bind] in E; try discriminate. inversion F as [|? ? Fl F']; subst.
      pose proof (load_state d n C cells Hd Cok H references l s s1 Fl So E1) as So1. destruct (load_added l s s1 Fl So (BY l s1 (or_introl eq_refl) E1) E1) as [A1 L1].
      assert (T : forall s2 pos c k q row row1 p p1, nth_error cells pos = Some c -> takes_part c = true -> nth_error (ec_quads c) k = Some q -> nth_error (ms_points s) pos = Some row -> nth_error (ms_points s1) pos = Some row1 ->
        nth_error row k = Some p -> nth_error row1 k = Some p1 ->
        tadd (p_stress p1) (hooke (lame1 (ec_plast c)) (lame2 (ec_plast c)) (strain_tensor d C c q (since s1 s2))) = tadd (p_stress p) (hooke (lame1 (ec_plast c)) (lame2 (ec_plast c)) (strain_tensor d C c q (since s s2)))).
      { intros s2 pos c k q row row1 p p1 Ec T Eq Er Er1 Ep Ep1. rewrite (A1 pos c k q row row1 p p1 Ec T Eq Er Er1 Ep Ep1). destruct So as [(_ & _ & SP) _]. destruct (SP pos c k q row p Ec T Eq Er Ep) as [S1 _].
        apply added_twice; [exact S1|]. intros a b. unfold since. rewrite !(cell_strain_minus C c q (previous _) (previous _)). ring. }
      destruct (IH s1 s' F' So1) as [A2 L2]; [|exact E|].
      + intros l2 s2 I2 E2. rewrite Forall_forall in F'. destruct (load_displacement d n C cells Hd Cok H references l2 s1 s2 s (F' l2 I2) So1 So E2) as (s3 & u3 & E3 & O3 & O3').
        pose proof (BY l2 s3 (or_intror I2) E3) as B3. intros pos c k q row1 p1 Ec Tc Eq Er1 Ep1. destruct (pos_row d cells Hd (ms_points s) pos c (proj1 So) Ec) as [row Er]. destruct (row_point d cells Hd (ms_points s) pos c row k q (proj1 So) Ec Tc Eq Er) as [p Ep].
        specialize (B3 pos c k q row p Ec Tc Eq Er Ep). destruct (L1 pos c k q row row1 p p1 Ec Tc Eq Er Er1 Ep Ep1) as [Q1 Q2].
        rewrite (T s2 pos c k q row row1 p p1 Ec Tc Eq Er Er1 Ep Ep1). assert (X : strain_tensor d C c q (since s s2) = strain_tensor d C c q (since s s3)) by (apply strain_tensor_ext; intros a b; unfold since; rewrite !(cell_strain_minus C c q (previous _) (previous _)); unfold previous at 1 3; rewrite O3, O3'; reflexivity).
        rewrite X. unfold effective in *. rewrite Q1, Q2. exact B3.
      + split; [|exact (same_limits_trans d cells Hd _ _ _ (proj1 So1) L1 L2)]. intros pos c k q row row' p p' Ec Tc Eq Er Er' Ep Ep'.
        destruct (pos_row d cells Hd (ms_points s1) pos c (proj1 So1) Ec) as [row1 Er1]. destruct (row_point d cells Hd (ms_points s1) pos c row1 k q (proj1 So1) Ec Tc Eq Er1) as [p1 Ep1].
        rewrite (A2 pos c k q row1 row' p1 p' Ec Tc Eq Er1 Er' Ep1 Ep'). exact (T s' pos c k q row row1 p p1 Ec Tc Eq Er Er1 Ep Ep1).
  Qed.
End History.
