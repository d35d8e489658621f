(** ElasticProofs7.v -- histories of solves; equilibrium of the stored stress. *)
From Coq Require Import Reals ZArith Bool List Lia Lra.
From Verif Require Import Base BaseFacts CellModel InputModel AssimilationSpec AssimilationProofs AssimilationProofs3 MechProofs StressModel StressSpec StressProofs StressProofs2 ElementModel ElementSpec ElementProofs ElementProofs2
  HeatModel HeatSpec HeatProofs HeatProofs2 ElasticModel ElasticSpec ElasticProofs ElasticProofs2 ElasticProofs3 ElasticProofs4 ElasticProofs5 ElasticProofs6.
Import ListNotations.
Local Open Scope R_scope.

Lemma foldR_bind {A B} (f : A -> B -> res A) x l a : foldR f (x :: l) a = bind (f a x) (fun a' => foldR f l a').
Proof.
  unfold foldR. cbn [fold_left bind]. destruct (f a x); cbn [bind]; [reflexivity| |]; (induction l as [|y l IH]; [reflexivity| exact IH]).
Qed.
Lemma update_shaped d o (m : plasticity RNum) (p : point RNum) e : shaped d o (p_stress p) -> shaped d o (p_back p) -> shaped d o e ->
  shaped d o (p_stress (update_point m p e)) /\ shaped d o (p_back (update_point m p e)).
Proof.
  intros A B E. assert (T : shaped d o (tadd (p_stress p) (hooke (lame1 m) (lame2 m) e))) by (apply tadd_shaped; [exact A| now apply hooke_shaped]).
  assert (X : shaped d o (tsub (deviator (tadd (p_stress p) (hooke (lame1 m) (lame2 m) e))) (p_back p))) by (apply tsub_shaped; [now apply dev_shaped| exact B]).
  unfold update_point. destruct (nltb RNum _ _); cbn [p_stress p_back]; [auto|]. split; [apply tsub_shaped; [exact T|]; apply tscale_shaped, tdiv_shaped, X| apply tadd_shaped; [exact B|]; apply tscale_shaped, tdiv_shaped, X].
Qed.
Section Solve.
  Variables (d n : nat) (C : constraints RNum) (cells : list (ecell RNum)).
  Hypothesis Hd : d = 2%nat \/ d = 3%nat.
  Hypothesis Cok : closed_ok n C.
  Hypothesis H : Forall (cell_ok d n) cells.

  (** Every row has its point. *)
  Lemma row_point pts pos c row k q : points_ok d cells pts -> nth_error cells pos = Some c -> takes_part c = true -> nth_error (ec_quads c) k = Some q -> nth_error pts pos = Some row -> exists p, nth_error row k = Some p.
  Proof.
    intros (LP & RP & _) Ec A Eq Er. specialize (RP pos c row Ec A Er). destruct (nth_error row k) as [p|] eqn:E; [eauto|]. apply nth_error_None in E.
    assert (X : (k < List.length (ec_quads c))%nat) by (apply nth_error_Some; congruence). lia.
  Qed.
  Lemma pos_row pts pos c : points_ok d cells pts -> nth_error cells pos = Some c -> exists row, nth_error pts pos = Some row.
  Proof. intros (LP & _) Ec. destruct (nth_error pts pos) eqn:E; [eauto|]. apply nth_error_None in E. assert (pos < List.length cells)%nat by (apply nth_error_Some; congruence). lia. Qed.

  Lemma solve_state b iterate s s' : state_ok d n C cells s -> (forall k, List.length (iterate k : list R) = n) -> solveR d n C cells b iterate s = Ok s' ->
    state_ok d n C cells s' /\ exists u, ms_old s' = Some u /\ displacementR n C (assemble_matrix (N := RNum) C cells) b iterate = Ok u.
  Proof.
    intros So LI E. pose proof (solve_points d n C cells b iterate s Hd Cok H So LI) as P. destruct (displacementR n C (assemble_matrix (N := RNum) C cells) b iterate) as [u| |] eqn:Ed; try congruence.
    destruct P as (Cu & s0 & E0 & O0 & L0 & U & K). rewrite E in E0. injection E0 as <-. destruct So as [Pk Po]. pose proof Pk as (LP & RP & SP). split; [|exists u; auto]. split; [|rewrite O0; exact Cu]. split; [exact L0|]. split.
    - intros pos c row' Ec A Er'. destruct (pos_row (ms_points s) pos c Pk Ec) as [row Er]. destruct (U pos c row row' Ec A Er Er') as [Lr _]. rewrite Lr. exact (RP pos c row Ec A Er).
    - intros pos c k q row' p' Ec A Eq Er' Ep'. destruct (pos_row (ms_points s) pos c Pk Ec) as [row Er]. destruct (U pos c row row' Ec A Er Er') as [_ V]. destruct (row_point _ pos c row k q Pk Ec A Eq Er) as [p Ep].
      rewrite (V k q p Eq Ep) in Ep'. injection Ep' as <-. destruct (SP pos c k q row p Ec A Eq Er Ep) as [S1 S2]. apply update_shaped; [exact S1| exact S2| apply strain_shaped_t].
  Qed.
  (** Below the yield limit the stress follows the displacement. *)
  Lemma solve_elastic b iterate s s' u : state_ok d n C cells s -> (forall k, List.length (iterate k : list R) = n) -> solveR d n C cells b iterate s = Ok s' -> ms_old s' = Some u ->
    elastic_stress d C cells (ms_points s) (previous s) -> below_yield d C cells (ms_points s) (HeatSpec.entry u) ->
    elastic_stress d C cells (ms_points s') (HeatSpec.entry u) /\ same_limits cells (ms_points s) (ms_points s').
  Proof.
    intros So LI E Ou ES BY. pose proof (solve_points d n C cells b iterate s Hd Cok H So LI) as P. destruct (displacementR n C (assemble_matrix (N := RNum) C cells) b iterate) as [u0| |] eqn:Ed; try congruence.
    destruct P as (Cu & s0 & E0 & O0 & L0 & U & K). rewrite E in E0. injection E0 as <-. assert (u0 = u) by congruence. subst u0. destruct So as [Pk Po]. pose proof Pk as (LP & RP & SP).
    assert (G : forall pos c k q row row' p p', nth_error cells pos = Some c -> takes_part c = true -> nth_error (ec_quads c) k = Some q -> nth_error (ms_points s) pos = Some row -> nth_error (ms_points s') pos = Some row' ->
      nth_error row k = Some p -> nth_error row' k = Some p' -> p' = mkpoint (N := RNum) (hooke (lame1 (ec_plast c)) (lame2 (ec_plast c)) (strain_tensor d C c q (HeatSpec.entry u))) (p_back p) (p_yield p)).
    { intros pos c k q row row' p p' Ec A Eq Er Er' Ep Ep'. destruct (U pos c row row' Ec A Er Er') as [_ V]. rewrite (V k q p Eq Ep) in Ep'. injection Ep' as <-.
      assert (T : trial (ec_plast c) p (strain_tensor d C c q (HeatSpec.entry (incrementR s u))) = hooke (lame1 (ec_plast c)) (lame2 (ec_plast c)) (strain_tensor d C c q (HeatSpec.entry u))).
      { unfold trial. rewrite (ES pos c k q row p Ec A Eq Er Ep). apply hooke_increment.
        - intros a b0. exact (strain_increment n C s u c q a b0 Po Cu).
        - rewrite <- !tr_strain. rewrite !(tr_sum d _ _ (strain_shaped_t d C c q _)).
          rewrite (Rsum_to_ext d (D (strain_tensor d C c q (HeatSpec.entry (incrementR s u)))) (fun i => D (strain_tensor d C c q (HeatSpec.entry u)) i + (-1) * D (strain_tensor d C c q (previous s)) i)).
          + rewrite Rsum_to_lin. ring.
          + intros i Li. rewrite !strain_D_t by exact Li. rewrite (strain_increment n C s u c q i i Po Cu). ring. }
      assert (Y : magnitude (effective p (trial (ec_plast c) p (strain_tensor d C c q (HeatSpec.entry (incrementR s u))))) < p_yield p) by (rewrite T; exact (BY pos c k q row p Ec A Eq Er Ep)).
      rewrite (elastic_case (ec_plast c) p _ Y). rewrite T. reflexivity. }
    split.
    - intros pos c k q row' p' Ec A Eq Er' Ep'. destruct (pos_row (ms_points s) pos c Pk Ec) as [row Er]. destruct (row_point _ pos c row k q Pk Ec A Eq Er) as [p Ep]. rewrite (G pos c k q row row' p p' Ec A Eq Er Er' Ep Ep'). reflexivity.
    - intros pos c k q row row' p p' Ec A Eq Er Er' Ep Ep'. rewrite (G pos c k q row row' p p' Ec A Eq Er Er' Ep Ep'). split; reflexivity.
  Qed.

  (** ** Histories *)
  Variables (references : list R).
  Definition solve_loadR (s : mstate RNum) (l : load RNum) : res (mstate RNum) := solve_load (N := RNum) d n references C cells s l.
  Lemma load_rhs l : load_ok d n references cells l -> exists b : list R, assemble_rhs (N := RNum) d n references (ld_thermal l) (ld_forces l) C cells = Ok b /\ List.length b = n /\ forall z, ip z b = work_of d references C cells l z.
  Proof.
    intros ((t & Et & TH) & FO & _). destruct (rhs_work d n references t (ld_forces l) C cells Cok H TH FO) as (b & E & L & P). exists b. unfold work_of. rewrite Et. repeat split; auto.
  Qed.
  Lemma solve_load_solve l s : load_ok d n references cells l -> exists b : list R, List.length b = n /\ (forall z, ip z b = work_of d references C cells l z) /\ solve_loadR s l = solveR d n C cells b (ld_iterate l) s.
  Proof. intros Lo. destruct (load_rhs l Lo) as (b & E & L & P). exists b. repeat split; auto. unfold solve_loadR, solve_load. cbn [num RNum] in *. rewrite E. reflexivity. Qed.
  Lemma solve_load_solve2 l s s2 : load_ok d n references cells l -> exists b : list R, List.length b = n /\ (forall z, ip z b = work_of d references C cells l z) /\ solve_loadR s l = solveR d n C cells b (ld_iterate l) s /\ solve_loadR s2 l = solveR d n C cells b (ld_iterate l) s2.
  Proof. intros Lo. destruct (load_rhs l Lo) as (b & E & L & P). exists b. repeat split; auto; unfold solve_loadR, solve_load; cbn [num RNum] in *; rewrite E; reflexivity. Qed.
  (** The displacement does not depend on the state. *)
  Lemma load_displacement l s s' s2 : load_ok d n references cells l -> state_ok d n C cells s -> state_ok d n C cells s2 -> solve_loadR s l = Ok s' ->
    exists s2' u, solve_loadR s2 l = Ok s2' /\ ms_old s' = Some u /\ ms_old s2' = Some u.
  Proof.
    intros Lo So So2 E. destruct (solve_load_solve2 l s s2 Lo) as (b & _ & _ & E1 & E2). rewrite E1 in E. destruct Lo as (_ & _ & LI).
    destruct (solve_state b (ld_iterate l) s s' So LI E) as (_ & u & Ou & Du). pose proof (solve_points d n C cells b (ld_iterate l) s2 Hd Cok H So2 LI) as P. rewrite Du in P. destruct P as (_ & s2' & E2' & O2 & _).
    exists s2', u. rewrite E2. auto.
  Qed.
  Lemma load_state l s s' : load_ok d n references cells l -> state_ok d n C cells s -> solve_loadR s l = Ok s' -> state_ok d n C cells s'.
  Proof. intros Lo So E. destruct (solve_load_solve l s Lo) as (b & _ & _ & E1). rewrite E1 in E. destruct Lo as (_ & _ & LI). exact (proj1 (solve_state b (ld_iterate l) s s' So LI E)). Qed.
  Lemma loads_state loads : forall s s', Forall (load_ok d n references cells) loads -> state_ok d n C cells s -> foldR solve_loadR loads s = Ok s' -> state_ok d n C cells s'.
  Proof.
    induction loads as [|l loads IH]; intros s s' F So E; [injection E as <-; exact So|]. rewrite foldR_bind in E. destruct (solve_loadR s l) as [s1| |] eqn:E1; cbn [bind] in E; try discriminate.
    inversion F as [|? ? Fl F']; subst. apply (IH s1); auto. exact (load_state l s s1 Fl So E1).
  Qed.
  Lemma same_limits_trans pts1 pts2 pts3 : points_ok d cells pts2 -> same_limits cells pts1 pts2 -> same_limits cells pts2 pts3 -> same_limits cells pts1 pts3.
  Proof.
    intros P2 A B pos c k q row row' p p' Ec T Eq Er Er' Ep Ep'. destruct (pos_row pts2 pos c P2 Ec) as [row2 Er2]. destruct (row_point pts2 pos c row2 k q P2 Ec T Eq Er2) as [p2 Ep2].
    destruct (A pos c k q row row2 p p2 Ec T Eq Er Er2 Ep Ep2) as [A1 A2]. destruct (B pos c k q row2 row' p2 p' Ec T Eq Er2 Er' Ep2 Ep') as [B1 B2]. split; congruence.
  Qed.
  Lemma below_same pts1 pts2 u : points_ok d cells pts1 -> same_limits cells pts1 pts2 -> below_yield d C cells pts1 u -> below_yield d C cells pts2 u.
  Proof.
    intros P1 A B pos c k q row p Ec T Eq Er Ep. destruct (pos_row pts1 pos c P1 Ec) as [row1 Er1]. destruct (row_point pts1 pos c row1 k q P1 Ec T Eq Er1) as [p1 Ep1].
    destruct (A pos c k q row1 row p1 p Ec T Eq Er1 Er Ep1 Ep) as [A1 A2]. pose proof (B pos c k q row1 p1 Ec T Eq Er1 Ep1) as Y. unfold effective in *. rewrite A1, A2. exact Y.
  Qed.
  Lemma loads_elastic loads : forall s s', Forall (load_ok d n references cells) loads -> state_ok d n C cells s -> elastic_stress d C cells (ms_points s) (previous s) ->
    (forall l s1 u, In l loads -> solve_loadR s l = Ok s1 -> ms_old s1 = Some u -> below_yield d C cells (ms_points s) (HeatSpec.entry u)) ->
    foldR solve_loadR loads s = Ok s' -> elastic_stress d C cells (ms_points s') (previous s') /\ same_limits cells (ms_points s) (ms_points s').
  Proof.
    induction loads as [|l loads IH]; intros s s' F So ES BY E.
    - injection E as <-. split; [exact ES|]. intros pos c k q row row' p p' _ _ _ Er Er' Ep Ep'. assert (row' = row) by congruence. subst row'. assert (p' = p) by congruence. subst p'. split; reflexivity.
    - rewrite foldR_bind in E. destruct (solve_loadR s l) as [s1| |] eqn:E1; cbn [bind] in E; try discriminate. inversion F as [|? ? Fl F']; subst. pose proof (load_state l s s1 Fl So E1) as So1.
      destruct (solve_load_solve l s Fl) as (b & _ & _ & Eb). rewrite Eb in E1. pose proof Fl as (_ & _ & LI). destruct (solve_state b (ld_iterate l) s s1 So LI E1) as (_ & u & Ou & _).
      assert (BYu : below_yield d C cells (ms_points s) (HeatSpec.entry u)) by (apply (BY l s1 u); [cbn; auto| rewrite Eb; exact E1| exact Ou]).
      destruct (solve_elastic b (ld_iterate l) s s1 u So LI E1 Ou ES BYu) as [ES1 SL1].
      destruct (IH s1 s' F' So1) as [ES2 SL2].
      + unfold previous. rewrite Ou. exact ES1.
      + intros l2 s2 u2 I2 E2 O2. inversion F; subst. rewrite Forall_forall in F'. destruct (load_displacement l2 s1 s2 s (F' l2 I2) So1 So E2) as (s3 & u3 & E3 & O3 & O3').
        assert (u3 = u2) by congruence. subst u3. apply (below_same (ms_points s)); [exact (proj1 So)| exact SL1|]. apply (BY l2 s3 u2); [cbn; auto| exact E3| exact O3'].
      + exact E.
      + split; [exact ES2|]. exact (same_limits_trans _ _ _ (proj1 So1) SL1 SL2).
  Qed.
  Lemma loads_last loads l s s' : Forall (load_ok d n references cells) (loads ++ [l]) -> state_ok d n C cells s -> foldR solve_loadR (loads ++ [l]) s = Ok s' ->
    exists s1 u, solve_loadR s l = Ok s1 /\ ms_old s1 = Some u /\ ms_old s' = Some u.
  Proof.
    intros F So. revert s So F. induction loads as [|l0 loads IH]; intros s So F E.
    - cbn [app] in E, F. rewrite foldR_bind in E. destruct (solve_loadR s l) as [s1| |] eqn:E1; cbn [bind] in E; try discriminate. injection E as <-. inversion F; subst.
      destruct (load_displacement l s s1 s) as (s2 & u & E2 & O1 & O2); auto. exists s2, u. rewrite E1 in E2. injection E2 as <-. auto.
    - cbn [app] in E, F. rewrite foldR_bind in E. destruct (solve_loadR s l0) as [s1| |] eqn:E1; cbn [bind] in E; try discriminate. inversion F as [|? ? F0 F']; subst. pose proof (load_state l0 s s1 F0 So E1) as So1.
      destruct (IH s1 So1 F' E) as (s2 & u & E2 & O2 & O'). assert (Fl : load_ok d n references cells l) by (rewrite Forall_forall in F'; apply F', in_or_app; cbn; auto).
      destruct (load_displacement l s1 s2 s Fl So1 So E2) as (s3 & u3 & E3 & O3 & O3'). exists s3, u3. assert (u3 = u) by congruence. subst. auto.
  Qed.
End Solve.
