(** ElasticProofs9.v -- the theorems about a load: balance of the displacement, equilibrium of the stress, repeated solves. *)
From Coq Require Import Reals ZArith Bool List Lia Lra.
From Verif Require Import Base BaseFacts CellModel InputModel AssimilationSpec AssimilationProofs AssimilationProofs3 MechProofs StressModel StressSpec StressProofs StressProofs2 ElementModel ElementSpec ElementProofs ElementProofs2
  HeatModel HeatSpec HeatProofs HeatProofs2 ElasticModel ElasticSpec ElasticProofs ElasticProofs2 ElasticProofs3 ElasticProofs4 ElasticProofs5 ElasticProofs6 ElasticProofs7 ElasticProofs8.
Import ListNotations.
Local Open Scope R_scope.

(** ** An update without strain *)
Lemma hooke_zero d o (lambda mu : R) : hooke (N := RNum) lambda mu (zero_tensor d o) = zero_tensor d o.
Proof. change (zero_tensor d o) with (isotropic d o 0). rewrite hooke_isotropic. f_equal. ring. Qed.
Lemma add_zero d o a : shaped d o a -> tadd (N := RNum) a (zero_tensor d o) = a.
Proof.
  intros A. assert (Z : shaped d o (zero_tensor d o)) by (split; apply repeat_length). apply (sym_ext d o); [now apply tadd_shaped| exact A| |]; intros i Hi.
  - rewrite (D_add d o) by auto. unfold D at 2. cbn [dg zero_tensor]. rewrite nth_repeat. ring.
  - rewrite (O_add d o) by auto. unfold O_ at 2. cbn [od zero_tensor]. rewrite nth_repeat. ring.
Qed.
Lemma update_zero d o (m : plasticity RNum) (p : point RNum) : physical m -> iso_hardening m = 1 -> regular d o p -> admissible p -> update_point m p (zero_tensor d o) = p.
Proof.
  intros PH I1 (A & B & TB & Y) Ad. assert (T : trial m p (zero_tensor d o) = p_stress p) by (unfold trial; rewrite hooke_zero; now apply add_zero).
  unfold admissible in Ad. destruct (Rlt_dec (magnitude (effective p (p_stress p))) (p_yield p)) as [L|L].
  - assert (L' : magnitude (effective p (trial m p (zero_tensor d o))) < p_yield p) by (rewrite T; exact L). rewrite (elastic_case m p _ L'), T. now destruct p.
  - assert (X : magnitude (effective p (p_stress p)) = p_yield p) by lra.
    assert (XE : shaped d o (effective p (p_stress p))) by (apply tsub_shaped; [now apply dev_shaped| exact B]).
    unfold update_point. fold (trial m p (zero_tensor d o)). rewrite T. fold (effective p (p_stress p)). cbv zeta. rewrite norm_R, X. cbn [nltb RNum]. unfold Rltb. destruct (Rlt_dec (p_yield p) (p_yield p)) as [W|_]; [exfalso; lra|].
    change (nofZ RNum 1) with 1. change (nofZ RNum 2) with 2. cbn [nmul ndiv nsub nadd RNum]. destruct p as [st bk y]. cbn [p_stress p_back p_yield] in *.
    assert (FS : shaped d o (tdiv (N := RNum) (effective (mkpoint (N := RNum) st bk y) st) y)) by (now apply tdiv_shaped).
    f_equal.
    + apply (sym_ext d o); [apply tsub_shaped; [exact A| now apply tscale_shaped]| exact A| |]; intros i Hi.
      * rewrite (D_sub d o) by (auto; now apply tscale_shaped). rewrite (D_scale d o) by auto. unfold Rdiv. ring.
      * rewrite (O_sub d o) by (auto; now apply tscale_shaped). rewrite (O_scale d o) by auto. unfold Rdiv. ring.
    + rewrite I1. apply (sym_ext d o); [apply tadd_shaped; [exact B| now apply tscale_shaped]| exact B| |]; intros i Hi.
      * rewrite (D_add d o) by (auto; now apply tscale_shaped). rewrite (D_scale d o) by auto. ring.
      * rewrite (O_add d o) by (auto; now apply tscale_shaped). rewrite (O_scale d o) by auto. ring.
    + unfold Rdiv. ring.
Qed.
Section Loads.
  Variables (d n : nat) (references : list R) (C : constraints RNum) (cells : list (ecell RNum)).
  Hypothesis Hd : d = 2%nat \/ d = 3%nat.
  Hypothesis Cok : closed_ok n C.
  Hypothesis H : Forall (cell_ok d n) cells.
  Local Notation solve_l := (solve_loadR d n C cells references).
  Lemma work_of_ext l z z' : load_ok d n references cells l -> (forall k, (k < n)%nat -> ~ In k (map fst C) -> z k = z' k) -> work_of d references C cells l z = work_of d references C cells l z'.
  Proof. intros ((t & Et & _) & _) E. unfold work_of. rewrite Et. exact (load_work_ext n d references t (ld_forces l) C cells z z' Cok H E). Qed.
  Lemma load_solution l s s' : load_ok d n references cells l -> state_ok d n C cells s -> solve_l s l = Ok s' ->
    exists u, ms_old s' = Some u /\ conforms n C u /\
      forall v, Rabs (internal_work d C cells v (HeatSpec.entry u) - work_of d references C cells l v) <= accuracy * load_size n (work_of d references C cells l) * size n v.
  Proof.
    intros Lo So E. destruct (solve_load_solve d n C cells Cok H references l s Lo) as (b & Lb & Wb & Eb). rewrite Eb in E. pose proof Lo as (_ & _ & LI).
    destruct (solve_state d n C cells Hd Cok H b (ld_iterate l) s s' So LI E) as (_ & u & Ou & Du). exists u. split; [exact Ou|]. split; [exact (displacement_conforms n C _ b (ld_iterate l) u Cok LI Du)|].
    destruct (solution_work n d C cells (work_of d references C cells l) b (ld_iterate l) u Cok H Lb Wb (fun z z' => work_of_ext l z z' Lo) LI Du) as (_ & _ & P).
    intros v. rewrite <- (load_size_rhs n _ b Lb Wb), l2_size, Lb. apply P.
  Qed.
  Lemma load_outcome l s : load_ok d n references cells l -> state_ok d n C cells s -> solve_l s l <> UB.
  Proof.
    intros Lo So E. destruct (solve_load_solve d n C cells Cok H references l s Lo) as (b & Lb & Wb & Eb). rewrite Eb in E. pose proof Lo as (_ & _ & LI).
    pose proof (solve_points d n C cells b (ld_iterate l) s Hd Cok H So LI) as P. destruct (displacementR n C (assemble_matrix (N := RNum) C cells) b (ld_iterate l)) as [u| |] eqn:Ed; [destruct P as (_ & s0 & E0 & _); congruence| congruence|].
    clear - Ed. unfold displacementR, displacement in Ed. assert (G : forall tol it left k x, cgR n (assemble_matrix (N := RNum) C cells) b tol it left k x <> UB).
    { intros tol it left. induction left as [|left IH]; intros k x; unfold cgR; cbn [cg]; match goal with |- (if ?c then _ else _) <> _ => destruct c end; try discriminate. apply IH. }
    match type of Ed with bind ?e _ = _ => destruct e as [x| |] eqn:Ex; cbn [bind] in Ed; try discriminate end. exact (G _ _ _ _ _ Ex).
  Qed.
  Lemma load_none l s : load_ok d n references cells l -> state_ok d n C cells s -> (forall v, work_of d references C cells l v = 0) ->
    exists s', solve_l s l = Ok s' /\ ms_old s' = Some (repeat 0 n).
  Proof.
    intros Lo So Z. destruct (solve_load_solve d n C cells Cok H references l s Lo) as (b & Lb & Wb & Eb). pose proof Lo as (_ & _ & LI).
    pose proof (solve_points d n C cells b (ld_iterate l) s Hd Cok H So LI) as P.
    rewrite (no_load n C _ b (ld_iterate l) (assembled_entries n d C cells Cok H) Lb) in P.
    - destruct P as (_ & s' & E & O & _). exists s'. rewrite Eb. auto.
    - rewrite (load_size_rhs n _ b Lb Wb). unfold load_size, size. rewrite (Sum_zero (fun j => work_of d references C cells l (hat j) * work_of d references C cells l (hat j))); [apply sqrt_0|]. intros j _. rewrite Z. ring.
  Qed.
  Lemma load_small l s : load_ok d n references cells l -> state_ok d n C cells s -> (n < 10)%nat -> 0 < load_size n (work_of d references C cells l) -> solve_l s l = Throw.
  Proof.
    intros Lo So Sm P. destruct (solve_load_solve d n C cells Cok H references l s Lo) as (b & Lb & Wb & Eb). pose proof Lo as (_ & _ & LI). rewrite <- (load_size_rhs n _ b Lb Wb) in P.
    pose proof (solve_points d n C cells b (ld_iterate l) s Hd Cok H So LI) as Q. rewrite (small_system n C _ b (ld_iterate l) (assembled_entries n d C cells Cok H) Lb Sm P) in Q. rewrite Eb. exact Q.
  Qed.
  (** ** Equilibrium *)
  Lemma loads_equilibrium loads l s s' : Forall (load_ok d n references cells) (loads ++ [l]) -> state_ok d n C cells s -> elastic_stress d C cells (ms_points s) (previous s) ->
    (forall l' s1 u, In l' (loads ++ [l]) -> solve_l s l' = Ok s1 -> ms_old s1 = Some u -> below_yield d C cells (ms_points s) (HeatSpec.entry u)) ->
    foldR solve_l (loads ++ [l]) s = Ok s' ->
    forall v, Rabs (stress_work d C cells (ms_points s') v - work_of d references C cells l v) <= accuracy * load_size n (work_of d references C cells l) * size n v.
  Proof.
    intros F So ES BY E v. destruct (loads_elastic d n C cells Hd Cok H references (loads ++ [l]) s s' F So ES BY E) as [ES' _]. destruct (loads_last d n C cells Hd Cok H references loads l s s' F So E) as (s1 & u & E1 & O1 & O').
    pose proof (loads_state d n C cells Hd Cok H references (loads ++ [l]) s s' F So E) as [Pk _].
    rewrite (elastic_work d C cells (ms_points s') (previous s') v Hd Pk ES'). unfold previous. rewrite O'. assert (Lo : load_ok d n references cells l) by (rewrite Forall_forall in F; apply F, in_or_app; cbn; auto).
    destruct (load_solution l s s1 Lo So E1) as (u' & O1' & _ & P). assert (u' = u) by congruence. subst u'. apply P.
  Qed.
  Lemma loads_mechanical loads l t s s' : ld_thermal l = Some t -> Forall (load_ok d n references cells) (loads ++ [l]) -> state_ok d n C cells s -> elastic_stress d C cells (ms_points s) (previous s) ->
    (forall l' s1 u, In l' (loads ++ [l]) -> solve_l s l' = Ok s1 -> ms_old s1 = Some u -> below_yield d C cells (ms_points s) (HeatSpec.entry u)) ->
    foldR solve_l (loads ++ [l]) s = Ok s' ->
    forall v, Rabs (mechanical_work d references t C cells (ms_points s') v - force_work d (ld_forces l) C cells v) <= accuracy * load_size n (work_of d references C cells l) * size n v.
  Proof.
    intros Et F So ES BY E v. pose proof (loads_equilibrium loads l s s' F So ES BY E v) as P. pose proof (loads_state d n C cells Hd Cok H references (loads ++ [l]) s s' F So E) as [Pk _].
    rewrite (mechanical_part d n references t C cells (ms_points s') v H Pk). unfold work_of at 1 in P. rewrite Et in P. unfold load_work in P.
    replace (stress_work d C cells (ms_points s') v - thermal_work d references t C cells v - force_work d (ld_forces l) C cells v) with (stress_work d C cells (ms_points s') v - (thermal_work d references t C cells v + force_work d (ld_forces l) C cells v)) by ring. exact P.
  Qed.
  Lemma load_defect l s s' u : load_ok d n references cells l -> state_ok d n C cells s -> elastic_stress d C cells (ms_points s) (previous s) -> solve_l s l = Ok s' -> ms_old s' = Some u ->
    forall v, stress_work d C cells (ms_points s') v = internal_work d C cells v (HeatSpec.entry u) - correction_work d C cells (ms_points s) (HeatSpec.entry u) v.
  Proof.
    intros Lo So ES E Ou v. destruct (solve_load_solve d n C cells Cok H references l s Lo) as (b & Lb & Wb & Eb). rewrite Eb in E. pose proof Lo as (_ & _ & LI). exact (solve_defect d n C cells Hd Cok H b (ld_iterate l) s s' u v So LI E Ou ES).
  Qed.
  (** ** Repeated solves *)
  Lemma load_repeat l s s' : load_ok d n references cells l -> state_ok d n C cells s -> isotropic_ok d cells (ms_points s) -> solve_l s l = Ok s' -> solve_l s' l = Ok s'.
  Proof.
    intros Lo So [PH RG] E. pose proof (load_state d n C cells Hd Cok H references l s s' Lo So E) as So'. destruct (load_displacement d n C cells Hd Cok H references l s s' s' Lo So So' E) as (s2 & u & E2 & O1 & O2).
    destruct (solve_load_solve2 d n C cells Cok H references l s s' Lo) as (b & _ & _ & Eb & Eb'). rewrite Eb in E. rewrite Eb' in E2 |- *. pose proof Lo as (_ & _ & LI). rewrite E2. f_equal.
    pose proof (solve_points d n C cells b (ld_iterate l) s Hd Cok H So LI) as P. pose proof (solve_points d n C cells b (ld_iterate l) s' Hd Cok H So' LI) as P'.
    destruct (displacementR n C (assemble_matrix (N := RNum) C cells) b (ld_iterate l)) as [u0| |] eqn:Ed; try congruence.
    destruct P as (Cu & s0 & E0 & O0 & L0 & U & _). rewrite E in E0. injection E0 as <-. assert (u0 = u) by congruence. subst u0.
    destruct P' as (_ & s3 & E3 & O3 & L3 & U' & K'). rewrite E2 in E3. injection E3 as <-.
    assert (Q : ms_points s2 = ms_points s').
    2:{ destruct s2 as [p2 o2], s' as [p' o']. cbn in *. congruence. }
    assert (X : forall (A : Type) (a b0 : list A), List.length a = List.length b0 -> (forall i x, nth_error b0 i = Some x -> nth_error a i = Some x) -> a = b0).
    { clear. intros A a. induction a as [|x a IH]; intros [|y b0] L G; try discriminate; [reflexivity|]. pose proof (G O y eq_refl) as Y. cbn in Y. injection Y as <-. f_equal. apply IH; [cbn in L; lia|]. intros i. exact (G (S i)). }
    destruct So as [Pk Po]. pose proof Pk as (LP & RP & SP). destruct So' as [Pk' Po']. pose proof Pk' as (LP' & RP' & SP').
    apply X; [lia|]. intros pos row' Er'. assert (Hc : exists c, nth_error cells pos = Some c).
    { destruct (nth_error cells pos) eqn:Ec; [eauto|]. apply nth_error_None in Ec. assert (pos < List.length (ms_points s'))%nat by (apply nth_error_Some; congruence). lia. }
    destruct Hc as [c Ec]. destruct (takes_part c) eqn:T; [|rewrite (K' pos c Ec T); exact Er'].
    destruct (nth_error (ms_points s2) pos) as [row2|] eqn:Er2; [|apply nth_error_None in Er2; assert (pos < List.length (ms_points s'))%nat by (apply nth_error_Some; congruence); lia].
    f_equal. destruct (U' pos c row' row2 Ec T Er' Er2) as [L2 V']. apply X; [exact L2|]. intros k p' Ep'.
    assert (Hq : exists q, nth_error (ec_quads c) k = Some q).
    { destruct (nth_error (ec_quads c) k) eqn:Eq; [eauto|]. apply nth_error_None in Eq. assert (k < List.length row')%nat by (apply nth_error_Some; congruence). rewrite (RP' pos c row' Ec T Er') in *. lia. }
    destruct Hq as [q Eq]. rewrite (V' k q p' Eq Ep'). f_equal.
    destruct (pos_row d cells Hd (ms_points s) pos c Pk Ec) as [row Er]. destruct (row_point d cells Hd (ms_points s) pos c row k q Pk Ec T Eq Er) as [p Ep]. destruct (U pos c row row' Ec T Er Er') as [_ V].
    pose proof (V k q p Eq Ep) as Ep2. rewrite Ep' in Ep2. injection Ep2 as ->.
    assert (Ic : In c (solid cells)) by (apply filter_In; split; [eapply nth_error_In; eauto| exact T]). rewrite Forall_forall in PH. destruct (PH c Ic) as [Ph I1].
    pose proof (RG pos c k q row p Ec T Eq Er Ep) as Rp. assert (D0 : (0 < d)%nat) by (destruct Hd; lia). pose proof (strain_shaped_t d C c q (HeatSpec.entry (incrementR s u))) as SH.
    assert (Z : strain_tensor d C c q (HeatSpec.entry (incrementR s' u)) = zero_tensor d (List.length (upper d))).
    { assert (S0 : forall a b0, cell_strain C c q (HeatSpec.entry (incrementR s' u)) a b0 = 0) by (intros a b0; rewrite (strain_increment n C s' u c q a b0 Po' Cu); unfold previous; rewrite O1; ring).
      apply (sym_ext d (List.length (upper d))); [apply strain_shaped_t| split; apply repeat_length| |]; intros i Hi.
      - rewrite strain_D_t by exact Hi. rewrite S0. unfold D. cbn [dg zero_tensor]. now rewrite nth_repeat.
      - rewrite strain_O_t by exact Hi. rewrite S0. unfold O_. cbn [od zero_tensor]. now rewrite nth_repeat. }
    rewrite Z. apply update_zero; [exact Ph| exact I1| now apply new_regular| now apply (isotropic_admissible d (List.length (upper d)))].
  Qed.
End Loads.
