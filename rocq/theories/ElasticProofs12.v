(** ElasticProofs12.v -- a cell that solidifies between two solves: its stress starts from zero at a displacement that is not zero. *)
From Coq Require Import Reals ZArith Bool List Lia Lra.
From Verif Require Import Base BaseFacts CellModel InputModel AssimilationSpec AssimilationProofs AssimilationProofs3 MechProofs StressModel StressSpec StressProofs StressProofs2 ElementModel ElementSpec ElementProofs ElementProofs2
  HeatModel HeatSpec HeatProofs HeatProofs2 HeatExamples ElasticModel ElasticSpec ElasticProofs ElasticProofs2 ElasticProofs3 ElasticProofs4 ElasticProofs5 ElasticProofs6 ElasticProofs7 ElasticProofs8 ElasticProofs9 ElasticExamples ElasticProofs11.
Import ListNotations.
Local Open Scope R_scope.

(** Below the yield limit nothing is taken. *)
Lemma zero_scale d o (a e : sym RNum) : shaped d o a -> shaped d o e -> contract (tscale (N := RNum) 0 a) e = 0.
Proof.
  intros A E. rewrite (contract_sum d o) by (try apply tscale_shaped; assumption). rewrite (Rsum_to_ext d _ (fun _ => 0)) by (intros i L; rewrite (D_scale d o) by auto; ring). rewrite (Rsum_to_ext o _ (fun _ => 0)) by (intros i L; rewrite (O_scale d o) by auto; ring).
  rewrite !Rsum_to_zero. ring.
Qed.
Lemma no_correction d C cells pts u v : points_ok d cells pts -> below_yield_after d C cells pts u -> correction_since d C cells pts u v = 0.
Proof.
  intros (LP & RP & SP) BY. unfold correction_since. rewrite (Sum_combine _ (fun _ => 0) cells pts LP); [apply Sum_zero; reflexivity|]. intros pos c row Ec Er. cbn [fst snd]. destruct (takes_part c) eqn:T; [|reflexivity].
  rewrite (Sum_combine _ (fun _ => 0) (ec_quads c) row (RP pos c row Ec T Er)); [apply Sum_zero; reflexivity|]. intros k q p Eq Ep. cbn [fst snd]. unfold plastic_correction. cbv zeta.
  specialize (BY pos c k q row p Ec T Eq Er Ep). cbv beta in BY. destruct (Rlt_dec _ (p_yield p)) as [_|L]; [|contradiction]. unfold Rdiv at 1. rewrite Rmult_0_l.
  destruct (SP pos c k q row p Ec T Eq Er Ep) as [S1 S2]. pose proof (strain_shaped_t d C c q) as SH. rewrite (zero_scale d (List.length (upper d))); [ring| | apply SH]. apply tsub_shaped; [apply dev_shaped, tadd_shaped; [exact S1| apply hooke_shaped, SH]| exact S2].
Qed.

(** ** One more cell at the first degree of freedom: powder, then solid *)
Definition powder (H iso : R) : ecell RNum := mkec (N := RNum) (mkjc true true false) 0 [] [] [mkquad (N := RNum) 1 [] [] [1]] [0%nat] (steel H iso) (1/100) 1.
Definition before (H iso : R) : list (ecell RNum) := powder H iso :: body H iso.
Definition after (H iso : R) : list (ecell RNum) := shear_cell H iso 0 :: body H iso.
Definition warm13 : thermal_data RNum := mktd (N := RNum) [5] (repeat false 13).
Definition pull13 (f : R) : load RNum := mkload (N := RNum) (Some warm13) [fun _ => [f; 0; 0]] (fun _ => found f).
Definition start13 (Y : R) : mstate RNum := mkms (N := RNum) (repeat [fresh Y] 13) None.
Lemma before_ok H iso : Forall (cell_ok 3 12) (before H iso).
Proof. apply Forall_list; [split; [repeat split; cbn; repeat constructor| constructor]| apply body_ok]. Qed.
Lemma after_ok H iso : Forall (cell_ok 3 12) (after H iso).
Proof. apply Forall_list; [split; [repeat split; cbn; repeat constructor| cbn; constructor; [lia| constructor]]| apply body_ok]. Qed.
Lemma body_thermal H iso : Forall (fun c : ecell RNum => (ec_material c < 1)%nat) (body H iso) /\ Forall (fun c : ecell RNum => takes_part c = true -> j_thermal (ec_joint c) = true) (body H iso).
Proof.
  split; (apply Forall_app; split; [apply Forall_forall; intros c I; apply in_map_iff in I; destruct I as (k & <- & _); cbn; auto; lia|]; repeat (apply Forall_list; [cbn; auto; lia|]); apply Forall_nil).
Qed.
Lemma pull13_before H iso f : load_ok 3 12 temps (before H iso) (pull13 f).
Proof.
  destruct (body_thermal H iso) as [A B]. split; [|split; [apply Forall_list; [reflexivity| apply Forall_nil]| reflexivity]]. exists warm13. split; [reflexivity|]. split; [|split; [reflexivity|]].
  - exists [20], 0. split; [reflexivity|]. apply Forall_list; [cbn; lia| exact A].
  - apply Forall_list; [reflexivity| exact B].
Qed.
Lemma pull13_after H iso f : load_ok 3 12 temps (after H iso) (pull13 f).
Proof.
  destruct (body_thermal H iso) as [A B]. split; [|split; [apply Forall_list; [reflexivity| apply Forall_nil]| reflexivity]]. exists warm13. split; [reflexivity|]. split; [|split; [reflexivity|]].
  - exists [20], 0. split; [reflexivity|]. apply Forall_list; [cbn; lia| exact A].
  - apply Forall_list; [reflexivity| exact B].
Qed.
Definition weight2 (f : R) : list R := (2 * f) :: repeat f 9 ++ [0; 0].
Lemma rhs_before H iso f : assemble_rhs (N := RNum) 3 12 temps (Some warm13) [fun _ => [f; 0; 0]] bonds (before H iso) = Ok (weight f).
Proof.
  assert (G : exists b : list R, assemble_rhs (N := RNum) 3 12 temps (Some warm13) [fun _ => [f; 0; 0]] bonds (before H iso) = Ok b /\ b = weight f); [|destruct G as (b & E & ->); exact E].
  eexists. split; [cbv -[Rplus Rmult Rminus Rdiv Ropp Rinv IZR Rlt Rle]; reflexivity|]. unfold weight. cbn [repeat app]. repeat (apply f_equal2; [lra|]). reflexivity.
Qed.
Lemma rhs_after H iso f : assemble_rhs (N := RNum) 3 12 temps (Some warm13) [fun _ => [f; 0; 0]] bonds (after H iso) = Ok (weight2 f).
Proof.
  assert (G : exists b : list R, assemble_rhs (N := RNum) 3 12 temps (Some warm13) [fun _ => [f; 0; 0]] bonds (after H iso) = Ok b /\ b = weight2 f); [|destruct G as (b & E & ->); exact E].
  eexists. split; [cbv -[Rplus Rmult Rminus Rdiv Ropp Rinv IZR Rlt Rle]; reflexivity|]. unfold weight2. cbn [repeat app]. repeat (apply f_equal2; [lra|]). reflexivity.
Qed.
Lemma after_internal H iso (z x : nat -> R) : internal_work 3 bonds (after H iso) z x = 2 * (z 0%nat * x 0%nat) + Sum (seq 0 10) (fun k => 2 * (z k * x k)).
Proof. cbv -[Rplus Rmult Rminus Rdiv Ropp Rinv IZR]. field. Qed.
Lemma before_internal H iso (z x : nat -> R) : internal_work 3 bonds (before H iso) z x = Sum (seq 0 10) (fun k => 2 * (z k * x k)).
Proof. exact (body_internal H iso z x). Qed.
Lemma after_residual H iso f : residualR 12 (assemble_matrix (N := RNum) bonds (after H iso)) (weight2 f) (found f) = repeat 0 12.
Proof.
  apply nth_ext with (d := 0) (d' := 0); [now rewrite residual_length|]. intros j _. rewrite nth_repeat. rewrite <- ip_hat, ip_residual by reflexivity.
  rewrite (matrix_form 12 3) by (try apply bonds_ok; apply after_ok). rewrite after_internal.
  rewrite (Sum_zero (fun c => extra bonds c (hat j) (HeatSpec.entry (found f)))).
  - rewrite ip_nth. change (List.length (weight2 f)) with 12%nat. generalize (hat j). intros z. cbv -[Rplus Rmult Rminus Rdiv Ropp Rinv IZR]. field.
  - intros c I. apply filter_In in I. destruct I as [I _]. destruct I as [<-|I].
    { unfold extra. apply Sum_zero. intros [i g] Ig. cbn in Ig. destruct Ig as [Ig|[]]. injection Ig as <- <-. reflexivity. }
    apply in_app_or in I. destruct I as [I|I].
    + apply in_map_iff in I. destruct I as (k & <- & I). apply in_seq in I. unfold extra. apply Sum_zero. intros [i g] Ig. cbn in Ig. destruct Ig as [Ig|[]]. injection Ig as <- <-. cbn [fst snd]. destruct (line_of bonds k) as [l|] eqn:E; [|reflexivity].
      exfalso. do 10 (destruct k as [|k]; [cbn in E; discriminate|]). lia.
    + destruct I as [<-|[<-|[]]]; unfold extra; apply Sum_zero; intros [i g] Ig; cbn in Ig; [destruct Ig|]. destruct Ig as [Ig|[Ig|[]]]; injection Ig as <- <-; cbn [fst snd]; (destruct (line_of bonds _); [|reflexivity]); unfold HeatSpec.entry, found; cbn [nth repeat app]; ring.
Qed.
Lemma weight2_norm f : 0 < f -> 0 < l2R (weight2 f).
Proof.
  intros P. rewrite l2_size. apply sqrt_lt_R0. change (List.length (weight2 f)) with 12%nat. unfold HeatSpec.entry, weight2. cbn [seq]. rewrite !Sum_cons, Sum_nil. cbn [nth repeat app]. nra.
Qed.
Lemma distributed f : distributeR bonds (found f) = moved f.
Proof.
  assert (G : exists r : list R, distributeR bonds (found f) = r /\ r = moved f); [|destruct G as (r & E & ->); exact E].
  eexists. split; [cbv -[Rplus Rmult Rminus Rdiv Ropp Rinv IZR Rlt Rle]; reflexivity|]. unfold moved. cbn [repeat app]. repeat (apply f_equal2; [lra|]). reflexivity.
Qed.
Lemma after_displacement H iso f : 0 < f -> displacementR 12 bonds (assemble_matrix (N := RNum) bonds (after H iso)) (weight2 f) (ld_iterate (pull13 f)) = Ok (moved f).
Proof.
  intros P. rewrite (displacement_exact 12 bonds _ (weight2 f)); [|eapply assembled_entries; [apply bonds_ok| apply (after_ok H iso)]| reflexivity| lia| now apply weight2_norm| apply after_residual]. f_equal. apply distributed.
Qed.
Lemma solved_before H iso f s : state_ok 3 12 bonds (before H iso) s -> 0 < f -> exists s', solve_loadR 3 12 bonds (before H iso) temps s (pull13 f) = Ok s' /\ ms_old s' = Some (moved f).
Proof.
  intros So P. assert (E : solve_loadR 3 12 bonds (before H iso) temps s (pull13 f) = solveR 3 12 bonds (before H iso) (weight f) (ld_iterate (pull13 f)) s).
  { unfold solve_loadR, solve_load. cbn [ld_thermal ld_forces pull13]. pose proof (rhs_before H iso f) as E. cbn [num RNum] in *. rewrite E. reflexivity. }
  rewrite E. pose proof (solve_points 3 12 bonds (before H iso) (weight f) (ld_iterate (pull13 f)) s (or_intror eq_refl) bonds_ok (before_ok H iso) So (fun _ => eq_refl)) as S0.
  change (assemble_matrix (N := RNum) bonds (before H iso)) with (assemble_matrix (N := RNum) bonds (body H iso)) in S0. change (ld_iterate (pull13 f)) with (ld_iterate (pull f)) in S0. rewrite (pull_displacement H iso f P) in S0. destruct S0 as (_ & s' & E' & O & _). exists s'. split; [exact E'| exact O].
Qed.
Lemma solved_after H iso f s : state_ok 3 12 bonds (after H iso) s -> 0 < f -> exists s', solve_loadR 3 12 bonds (after H iso) temps s (pull13 f) = Ok s' /\ ms_old s' = Some (moved f).
Proof.
  intros So P. assert (E : solve_loadR 3 12 bonds (after H iso) temps s (pull13 f) = solveR 3 12 bonds (after H iso) (weight2 f) (ld_iterate (pull13 f)) s).
  { unfold solve_loadR, solve_load. cbn [ld_thermal ld_forces pull13]. pose proof (rhs_after H iso f) as E. cbn [num RNum] in *. rewrite E. reflexivity. }
  rewrite E. pose proof (solve_points 3 12 bonds (after H iso) (weight2 f) (ld_iterate (pull13 f)) s (or_intror eq_refl) bonds_ok (after_ok H iso) So (fun _ => eq_refl)) as S0.
  rewrite (after_displacement H iso f P) in S0. destruct S0 as (_ & s' & E' & O & _). exists s'. split; [exact E'| exact O].
Qed.

(** ** The solve before, the new cell, the solve after *)
Lemma each_list (c0 : ecell RNum) cells (r0 : list (point RNum)) rows (P : ecell RNum -> quad RNum -> point RNum -> Prop) :
  (takes_part c0 = true -> forall k q p, nth_error (ec_quads c0) k = Some q -> nth_error r0 k = Some p -> P c0 q p) -> each_point cells rows P -> each_point (c0 :: cells) (r0 :: rows) P.
Proof. intros A B pos c k q row p Ec T Eq Er Ep. destruct pos as [|pos]; cbn [nth_error] in Ec, Er; [injection Ec as <-; injection Er as <-; eauto| exact (B pos c k q row p Ec T Eq Er Ep)]. Qed.
Lemma each_tail (c0 : ecell RNum) cells (r0 : list (point RNum)) rows (P : ecell RNum -> quad RNum -> point RNum -> Prop) : each_point (c0 :: cells) (r0 :: rows) P -> each_point cells rows P.
Proof. intros A pos c k q row p Ec T Eq Er Ep. exact (A (S pos) c k q row p Ec T Eq Er Ep). Qed.
Lemma start13_ok H iso Y : state_ok 3 12 bonds (before H iso) (start13 Y).
Proof.
  split; [|exact I]. split; [reflexivity|]. split.
  - intros pos c row Ec T Er. destruct pos as [|pos]; [cbn in Ec; injection Ec as <-; discriminate|]. cbn [nth_error before] in Ec. apply (repeat_nth [fresh Y] 13) in Er. subst row. now rewrite (body_quads H iso pos c Ec T).
  - change (ms_points (start13 Y)) with ([fresh Y] :: ms_points (start Y)). apply each_list; [intros T; discriminate|]. apply fresh_at. intros c q _ _ _. repeat split.
Qed.
Lemma start13_elastic H iso Y : elastic_stress 3 bonds (before H iso) (ms_points (start13 Y)) (previous (start13 Y)).
Proof. change (ms_points (start13 Y)) with ([fresh Y] :: ms_points (start Y)). apply each_list; [intros T; discriminate|]. exact (start_elastic H iso Y). Qed.
Lemma start13_below H iso f Y : 0 < f < Y -> below_yield 3 bonds (before H iso) (ms_points (start13 Y)) (HeatSpec.entry (moved f)).
Proof. intros P. change (ms_points (start13 Y)) with ([fresh Y] :: ms_points (start Y)). apply each_list; [intros T; discriminate|]. now apply pull_below. Qed.
(** What the mechanical problem makes of the state when the first cell becomes solid. *)
Definition grown (Y : R) (s : mstate RNum) : mstate RNum := mkms (N := RNum) ([fresh Y] :: tl (ms_points s)) (ms_old s).
Lemma first_solve H iso f Y : 0 < f < Y -> exists s1, solve_loadR 3 12 bonds (before H iso) temps (start13 Y) (pull13 f) = Ok s1 /\ ms_old s1 = Some (moved f) /\ state_ok 3 12 bonds (before H iso) s1 /\
  elastic_stress 3 bonds (before H iso) (ms_points s1) (HeatSpec.entry (moved f)) /\ same_limits (before H iso) (ms_points (start13 Y)) (ms_points s1).
Proof.
  intros P. destruct (solved_before H iso f (start13 Y) (start13_ok H iso Y) ltac:(lra)) as (s1 & E & O). exists s1. split; [exact E|]. split; [exact O|].
  split; [exact (load_state 3 12 bonds (before H iso) (or_intror eq_refl) bonds_ok (before_ok H iso) temps (pull13 f) _ s1 (pull13_before H iso f) (start13_ok H iso Y) E)|].
  destruct (loads_elastic 3 12 bonds (before H iso) (or_intror eq_refl) bonds_ok (before_ok H iso) temps [pull13 f] (start13 Y) s1) as [A B].
  - apply Forall_list; [apply pull13_before| apply Forall_nil].
  - apply start13_ok.
  - apply start13_elastic.
  - intros l s2 u [<-|[]] E2 O2. rewrite E in E2. injection E2 as <-. rewrite O in O2. injection O2 as <-. now apply start13_below.
  - rewrite foldR_bind, E. reflexivity.
  - unfold previous in A. rewrite O in A. split; [exact A| exact B].
Qed.
Lemma grown_ok H iso f Y (s1 : mstate RNum) : 0 < f < Y -> ms_old s1 = Some (moved f) -> state_ok 3 12 bonds (before H iso) s1 -> state_ok 3 12 bonds (after H iso) (grown Y s1).
Proof.
  intros P O [(L & RP & SP) Po]. destruct (ms_points s1) as [|r0 rows] eqn:Es; [discriminate|]. split; [|exact Po]. unfold grown. cbn [ms_points]. rewrite Es. cbn [tl]. split; [cbn in L |- *; lia|]. split.
  - intros pos c row Ec T Er. destruct pos as [|pos]; cbn [nth_error after] in Ec, Er; [injection Ec as <-; injection Er as <-; reflexivity|]. exact (RP (S pos) c row Ec T Er).
  - apply each_list; [|exact (each_tail _ _ _ _ _ SP)]. intros _ k q p Eq Ep. destruct k as [|k]; [|destruct k; discriminate]. cbn in Ep. injection Ep as <-. repeat split.
Qed.
Lemma grown_below H iso f Y (s1 : mstate RNum) : 0 < f < Y -> ms_old s1 = Some (moved f) -> state_ok 3 12 bonds (before H iso) s1 -> elastic_stress 3 bonds (before H iso) (ms_points s1) (HeatSpec.entry (moved f)) ->
  same_limits (before H iso) (ms_points (start13 Y)) (ms_points s1) -> below_yield_after 3 bonds (after H iso) (ms_points (grown Y s1)) (fun _ => 0).
Proof.
  intros P Od So ES SL. pose proof (grown_ok H iso f Y s1 P Od So) as Go. pose proof (added_none 3 bonds (after H iso) _ (proj1 Go)) as A0.
  intros pos c k q row p Ec T Eq Er Ep. pose proof (A0 pos c k q row row p p Ec T Eq Er Er Ep Ep) as A1. rewrite <- A1. clear A0 A1.
  destruct (ms_points s1) as [|r0 rows] eqn:Es; [destruct So as [(L & _) _]; rewrite Es in L; discriminate|]. unfold grown in Er. cbn [ms_points] in Er. rewrite Es in Er. cbn [tl] in Er.
  destruct pos as [|pos]; cbn [nth_error after] in Ec, Er.
  - injection Er as <-. injection Ec as <-. destruct k as [|k]; [|destruct k; discriminate]. cbn in Ep. injection Ep as <-. cbn [p_stress fresh]. rewrite fresh_sh. change (zero_tensor 3 3) with (sh 0). rewrite sh_effective, sh_magnitude by lra. cbn [p_yield]. lra.
  - assert (Er0 : nth_error (ms_points (start13 Y)) (S pos) = Some [fresh Y]).
    { cbn [ms_points start13]. rewrite nth_error_repeat; [reflexivity|]. assert (pos < List.length (body H iso))%nat by (apply nth_error_Some; congruence). cbn in H0. lia. }
    assert (Lk : k = O) by (assert (k < List.length (ec_quads c))%nat by (apply nth_error_Some; congruence); pose proof (body_quads H iso pos c Ec T); lia). subst k.
    pose proof (ES (S pos) c O q row p Ec T Eq Er Ep) as S1. cbv beta in S1. destruct (SL (S pos) c O q [fresh Y] row (fresh Y) p Ec T Eq Er0 Er eq_refl Ep) as [B1 B2].
    pose proof (start13_below H iso f Y P (S pos) c O q [fresh Y] (fresh Y) Ec T Eq Er0 eq_refl) as BY. cbv beta in BY. rewrite <- S1 in BY. unfold effective in *. rewrite B1, B2. exact BY.
Qed.
Lemma grown_work H iso Y (s1 : mstate RNum) v : ms_points s1 <> [] -> stress_work 3 bonds (after H iso) (ms_points (grown Y s1)) v = stress_work 3 bonds (before H iso) (ms_points s1) v.
Proof.
  intros NE. destruct (ms_points s1) as [|r0 rows] eqn:Es; [congruence|]. unfold grown. cbn [ms_points]. rewrite Es. cbn [tl]. unfold stress_work, after, before. cbn [combine]. rewrite !Sum_cons. cbn [fst snd].
  f_equal. change (takes_part (shear_cell H iso 0)) with true. change (takes_part (powder H iso)) with false. cbv iota. change (ec_quads (shear_cell H iso 0)) with [mkquad (N := RNum) 1 [[0; 1; 1]] [1] [1]]. cbn [combine]. rewrite Sum_cons, Sum_nil. cbn [fst snd p_stress fresh].
  assert (Z : contract (zero_tensor 3 3) (strain_tensor 3 bonds (shear_cell H iso 0) (mkquad (N := RNum) 1 [[0; 1; 1]] [1] [1]) v) = 0); [|rewrite Z; ring].
  rewrite (contract_sum 3 3); [|split; reflexivity| apply strain_shaped_t]. rewrite (Rsum_to_ext 3 (fun i => D (zero_tensor 3 3) i * _) (fun _ => 0)), (Rsum_to_ext 3 (fun i => O_ (zero_tensor 3 3) i * _) (fun _ => 0)), !Rsum_to_zero; [ring| |]; intros i _; unfold D, O_; cbn [dg od zero_tensor]; rewrite nth_repeat; ring.
Qed.
Lemma after_work H iso f v : work_of 3 temps bonds (after H iso) (pull13 f) v = f * v 0%nat + Sum (seq 0 10) (fun k => f * v k).
Proof. cbv -[Rplus Rmult Rminus Rdiv Ropp Rinv IZR]. field. Qed.
Lemma after_elastic H iso : elastic_ok 3 (after H iso).
Proof.
  destruct (body_elastic H iso) as [A B]. split; [exact A|]. change (solid (after H iso)) with (shear_cell H iso 0 :: solid (body H iso)). apply Forall_list; [|exact B]. cbn [ec_plast shear_cell steel lame1 lame2 ec_quads].
  split; [lra|]. split; [cbn; lra|]. apply Forall_list; [cbn; lra| apply Forall_nil].
Qed.
Lemma solidified H iso f Y : 0 < f < Y -> exists s1 s3, solve_loadR 3 12 bonds (before H iso) temps (start13 Y) (pull13 f) = Ok s1 /\ ms_old s1 = Some (moved f) /\ state_ok 3 12 bonds (after H iso) (grown Y s1) /\
  solve_loadR 3 12 bonds (after H iso) temps (grown Y s1) (pull13 f) = Ok s3 /\ below_yield_after 3 bonds (after H iso) (ms_points (grown Y s1)) (since (grown Y s1) s3) /\
  work_of 3 temps bonds (after H iso) (pull13 f) (hat 0) = 2 * f /\ stress_work 3 bonds (after H iso) (ms_points s3) (hat 0) = f.
Proof.
  intros P. destruct (first_solve H iso f Y P) as (s1 & E1 & O1 & So1 & ES & SL). pose proof (grown_ok H iso f Y s1 P O1 So1) as Go. destruct (solved_after H iso f (grown Y s1) Go ltac:(lra)) as (s3 & E3 & O3).
  exists s1, s3. split; [exact E1|]. split; [exact O1|]. split; [exact Go|]. split; [exact E3|].
  assert (Z : forall j, since (grown Y s1) s3 j = 0) by (intros j; unfold since, previous, grown; cbn [ms_old]; rewrite O1, O3; ring).
  assert (ST : forall c q, strain_tensor 3 bonds c q (since (grown Y s1) s3) = strain_tensor 3 bonds c q (fun _ => 0)).
  { intros c q. apply strain_tensor_ext. intros a b. transitivity (cell_strain bonds c q (fun j => previous s3 j - previous (grown Y s1) j) a b); [reflexivity|]. rewrite cell_strain_minus. unfold previous, grown. cbn [ms_old]. rewrite O1, O3.
    pose proof (cell_strain_minus bonds c q (fun _ => 0) (fun _ => 0) a b) as Q. assert (Q2 : cell_strain bonds c q (fun j : nat => 0 - 0) a b = cell_strain bonds c q (fun _ => 0) a b) by (rewrite Rminus_0_r; reflexivity). lra. }
  assert (BY : below_yield_after 3 bonds (after H iso) (ms_points (grown Y s1)) (since (grown Y s1) s3)).
  { intros pos c k q row p Ec T Eq Er Ep. cbv beta. rewrite ST. exact (grown_below H iso f Y s1 P O1 So1 ES SL pos c k q row p Ec T Eq Er Ep). }
  split; [exact BY|]. split.
  - rewrite after_work. cbn [seq]. rewrite !Sum_cons, Sum_nil. unfold hat. cbn [Nat.eqb]. ring.
  - rewrite (load_balance 3 12 temps bonds (after H iso) (or_intror eq_refl) bonds_ok (after_ok H iso) (pull13 f) _ s3 (pull13_after H iso f) Go E3). rewrite (no_correction 3 bonds (after H iso) _ _ _ (proj1 Go) BY).
    rewrite grown_work by (destruct So1 as [(L & _) _]; destruct (ms_points s1); [discriminate| congruence]). rewrite (elastic_work 3 bonds (before H iso) _ _ _ (or_intror eq_refl) (proj1 So1) ES). rewrite before_internal, after_internal.
    rewrite (Sum_ext (fun k => 2 * (hat 0 k * since (grown Y s1) s3 k)) (fun _ => 0) (seq 0 10)) by (intros k _; rewrite Z; ring). rewrite Z. rewrite (Sum_zero (fun _ => 0)) by reflexivity.
    cbn [seq]. rewrite !Sum_cons, Sum_nil, !moved_at by lia. unfold hat. cbn [Nat.eqb]. field.
Qed.
Lemma solidified_refuted : exists (n : nat) (references : list R) (C : constraints RNum) (c0 c1 : ecell RNum) (cells : list (ecell RNum)) (l : load RNum) (Y : R) (s s1 s2 s3 : mstate RNum) (v : nat -> R),
  takes_part c0 = false /\ takes_part c1 = true /\ closed_ok n C /\ Forall (cell_ok 3 n) (c0 :: cells) /\ Forall (cell_ok 3 n) (c1 :: cells) /\ elastic_ok 3 (c1 :: cells) /\
  load_ok 3 n references (c0 :: cells) l /\ load_ok 3 n references (c1 :: cells) l /\ state_ok 3 n C (c0 :: cells) s /\ elastic_stress 3 C (c0 :: cells) (ms_points s) (previous s) /\
  solve_load (N := RNum) 3 n references C (c0 :: cells) s l = Ok s1 /\
  s2 = mkms (N := RNum) ([mkpoint (N := RNum) (zero_tensor 3 3) (zero_tensor 3 3) Y] :: tl (ms_points s1)) (ms_old s1) /\ state_ok 3 n C (c1 :: cells) s2 /\
  solve_load (N := RNum) 3 n references C (c1 :: cells) s2 l = Ok s3 /\ below_yield_after 3 C (c1 :: cells) (ms_points s2) (since s2 s3) /\
  work_of 3 references C (c1 :: cells) l v = 2 /\ stress_work 3 C (c1 :: cells) (ms_points s3) v = 1.
Proof.
  destruct (solidified 2 1 1 2 ltac:(lra)) as (s1 & s3 & E1 & _ & Go & E3 & BY & W1 & W2). exists 12%nat, temps, bonds, (powder 2 1), (shear_cell 2 1 0), (body 2 1), (pull13 1), 2, (start13 2), s1, (grown 2 s1), s3, (hat 0).
  repeat (split; [first [exact bonds_ok | exact (before_ok 2 1) | exact (after_ok 2 1) | exact (after_elastic 2 1) | exact (pull13_before 2 1 1) | exact (pull13_after 2 1 1) | exact (start13_ok 2 1 2) | exact (start13_elastic 2 1 2) | exact E1 | exact Go | exact E3 | exact BY | reflexivity]|]).
  split; [etransitivity; [exact W1| ring]| exact W2].
Qed.
Lemma witness_history : Forall (load_ok 3 12 temps (body 2 1)) [pull 4; pull 4] /\ state_ok 3 12 bonds (body 2 1) (start 2) /\ (exists s', solve_loads (N := RNum) 3 12 temps bonds (body 2 1) [pull 4] (start 2) = Ok s') /\
  corrections 3 12 temps bonds (body 2 1) [pull 4] (start 2) even = 10.
Proof.
  split; [repeat (apply Forall_list; [apply pull_ok|]); apply Forall_nil|]. split; [apply start_ok|]. destruct (yield_solves 4 2 2 1 ltac:(lra)) as (s' & E). split.
  - exists s'. unfold solve_loads. change (foldR (solve_loadR 3 12 bonds (body 2 1) temps) [pull 4] (start 2) = Ok s'). rewrite foldR_bind, E. reflexivity.
  - cbn [corrections]. unfold solve_loadR in E. rewrite E. rewrite Rplus_0_r. pose proof (half_points 2 1 4 2 s' ltac:(lra) E) as O.
    pose proof (load_balance 3 12 temps bonds (body 2 1) (or_intror eq_refl) bonds_ok (body_ok 2 1) (pull 4) (start 2) s' (pull_ok 2 1 4) (start_ok 2 1 2) E even) as B.
    rewrite (yield_work 2 1 4 2 s') in B by (lra || exact E). rewrite (elastic_work 3 bonds (body 2 1) _ _ _ (or_intror eq_refl) (proj1 (start_ok 2 1 2)) (start_elastic 2 1 2)) in B. rewrite !body_internal in B.
    assert (S1 : Sum (seq 0 10) (fun k => 2 * (even k * previous (start 2) k)) = 0) by (apply Sum_zero; intros k _; cbn [previous ms_old start]; ring).
    assert (S2 : Sum (seq 0 10) (fun k => 2 * (even k * since (start 2) s' k)) = 40).
    { rewrite (Sum_ext _ (fun _ => 4)); [cbn [seq]; rewrite !Sum_cons, Sum_nil; ring|]. intros k I. apply in_seq in I. unfold since, previous. rewrite O. cbn [ms_old start]. rewrite moved_at by lia. unfold even. field. }
    rewrite S1, S2 in B. lra.
Qed.

(** ** Gravity *)
Lemma gravity_work (d : nat) (C : constraints RNum) (cells : list (ecell RNum)) (v : nat -> R) : d = 2%nat \/ d = 3%nat ->
  force_work d [gravity (N := RNum) d] C cells v = Sum (solid cells) (fun c => Sum (ec_quads c) (fun q : quad RNum => - (ec_density c * (980665 / 100000)) * cell_value C c q v (d - 1) * q_jxw q)).
Proof.
  intros D. unfold force_work. apply Sum_ext. intros c _. apply Sum_ext. intros q _. f_equal.
  destruct D as [-> | ->]; unfold Rsum_to, Sum, gravity, gravity_force; cbn; ring.
Qed.
