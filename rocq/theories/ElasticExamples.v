(** ElasticExamples.v -- a body of eleven solid cells in simple shear (each with one quadrature point), one empty cell, one clamped and one hanging degree
    of freedom; twelve degrees of freedom, a body force. *)
From Coq Require Import Reals ZArith Bool List Lia Lra.
From Verif Require Import Base BaseFacts CellModel InputModel AssimilationSpec AssimilationProofs AssimilationProofs3 MechProofs StressModel StressSpec StressProofs StressProofs2 ElementModel ElementSpec ElementProofs ElementProofs2
  HeatModel HeatSpec HeatProofs HeatProofs2 HeatExamples ElasticModel ElasticSpec ElasticProofs ElasticProofs2 ElasticProofs3 ElasticProofs4 ElasticProofs5 ElasticProofs6 ElasticProofs7 ElasticProofs8 ElasticProofs9.
Import ListNotations.
Local Open Scope R_scope.

Definition steel (H iso : R) : plasticity RNum := mkplast (N := RNum) 1 1 H iso.
Definition shear_cell (H iso : R) (k : nat) : ecell RNum :=
  mkec (N := RNum) (mkjc true true true) 0 [0%nat] [k] [mkquad (N := RNum) 1 [[0; 1; 1]] [1] [1]] [0%nat] (steel H iso) (1/100) 1.
Definition body (H iso : R) : list (ecell RNum) :=
  map (shear_cell H iso) (seq 0 10) ++
  [mkec (N := RNum) (mkjc true true false) 0 [] [] [mkquad (N := RNum) 1 [] [] [1]] [0%nat] (steel H iso) (1/100) 1;
   mkec (N := RNum) (mkjc true true true) 0 [0; 0]%nat [10; 11]%nat [mkquad (N := RNum) 1 [[0; 1; 1]; [0; 0; 0]] [1; 0] [1]] [0%nat] (steel H iso) (1/100) 1].
Definition bonds : constraints RNum := [(10%nat, []); (11%nat, [(0%nat, 1/2); (1%nat, 1/2)])].
Definition temps : list R := [20; 0].
Definition warm : thermal_data RNum := mktd (N := RNum) [5] (repeat false 12).
Definition found (f : R) : list R := repeat (f / 2) 10 ++ [0; 0].
Definition pull (f : R) : load RNum := mkload (N := RNum) (Some warm) [fun _ => [f; 0; 0]] (fun _ => found f).
Definition fresh (Y : R) : point RNum := mkpoint (N := RNum) (zero_tensor 3 3) (zero_tensor 3 3) Y.
Definition start (Y : R) : mstate RNum := mkms (N := RNum) (repeat [fresh Y] 12) None.

Lemma bonds_ok : closed_ok 12 bonds.
Proof.
  split; [cbn; repeat constructor; cbn; intuition lia|]. apply Forall_list; [cbn; split; [lia| constructor]|]. apply Forall_list; [|constructor]. cbn [fst snd]. split; [lia|].
  repeat (apply Forall_list; [cbn; split; [lia|intuition lia]|]). apply Forall_nil.
Qed.
Lemma body_ok H iso : Forall (cell_ok 3 12) (body H iso).
Proof.
  apply Forall_app. split.
  - apply Forall_forall. intros c I. apply in_map_iff in I. destruct I as (k & <- & I). apply in_seq in I. split; [|cbn; constructor; [lia| constructor]]. repeat split; cbn; repeat constructor.
  - repeat (apply Forall_list; [split; [repeat split; cbn; repeat constructor| cbn; repeat constructor; lia]|]). apply Forall_nil.
Qed.
Lemma warm_ok H iso : thermal_ok temps warm (body H iso).
Proof.
  split; [|split; [reflexivity|]].
  - exists [20], 0. split; [reflexivity|]. apply Forall_app. split; [apply Forall_forall; intros c I; apply in_map_iff in I; destruct I as (k & <- & _); cbn; lia|]. repeat (apply Forall_list; [cbn; lia|]). apply Forall_nil.
  - apply Forall_app. split; [apply Forall_forall; intros c I; apply in_map_iff in I; destruct I as (k & <- & _); reflexivity|]. repeat (apply Forall_list; [reflexivity|]). apply Forall_nil.
Qed.
Lemma pull_ok H iso f : load_ok 3 12 temps (body H iso) (pull f).
Proof. split; [exists warm; split; [reflexivity| apply warm_ok]|]. split; [|reflexivity]. apply Forall_list; [reflexivity| apply Forall_nil]. Qed.
Lemma repeat_nth {A} (x : A) m i y : nth_error (repeat x m) i = Some y -> y = x.
Proof. revert i. induction m as [|m IH]; intros [|i] E; cbn in E; try discriminate; [congruence| eauto]. Qed.
Lemma body_quads H iso pos c : nth_error (body H iso) pos = Some c -> takes_part c = true -> List.length (ec_quads c) = 1%nat.
Proof.
  intros E T. assert (F : Forall (fun c : ecell RNum => List.length (ec_quads c) = 1%nat) (body H iso)); [|rewrite Forall_forall in F; apply F; eapply nth_error_In; eauto].
  apply Forall_app. split; [apply Forall_forall; intros c' I; apply in_map_iff in I; destruct I as (k & <- & _); reflexivity|]. repeat (apply Forall_list; [reflexivity|]). apply Forall_nil.
Qed.
Lemma fresh_at H iso Y (P : ecell RNum -> quad RNum -> point RNum -> Prop) : (forall c q, In c (body H iso) -> takes_part c = true -> In q (ec_quads c) -> P c q (fresh Y)) -> each_point (body H iso) (ms_points (start Y)) P.
Proof.
  intros HP pos c k q row p Ec T Eq Er Ep. apply (repeat_nth [fresh Y] 12 pos row) in Er. subst row. destruct k as [|k]; [|destruct k; discriminate]. cbn in Ep. injection Ep as <-. apply HP; [eapply nth_error_In; eauto| exact T| eapply nth_error_In; eauto].
Qed.
Lemma start_ok H iso Y : state_ok 3 12 bonds (body H iso) (start Y).
Proof.
  split; [|exact I]. split; [reflexivity|]. split.
  - intros pos c row Ec T Er. apply (repeat_nth [fresh Y] 12 pos row) in Er. subst row. now rewrite (body_quads H iso pos c Ec T).
  - apply fresh_at. intros c q _ _ _. repeat split.
Qed.
Lemma start_elastic H iso Y : elastic_stress 3 bonds (body H iso) (ms_points (start Y)) (previous (start Y)).
Proof.
  apply fresh_at. intros c q _ _ _. cbn [p_stress fresh]. assert (Z : strain_tensor 3 bonds c q (previous (start Y)) = zero_tensor 3 3).
  { assert (S0 : forall a b, cell_strain bonds c q (previous (start Y)) a b = 0).
    { intros a b. assert (G : forall a b, ElementSpec.gradient (List.length (ec_dofs c)) (ec_comps c) q (local bonds (previous (start Y)) c) a b = 0); [|unfold cell_strain, ElementSpec.strain; rewrite !G; lra].
      intros a0 b0. unfold ElementSpec.gradient. rewrite (Rsum_to_ext _ _ (fun _ => 0)); [apply Rsum_to_zero|]. intros i _. destruct (Nat.eqb _ a0); [|reflexivity].
      assert (L0 : local bonds (previous (start Y)) c i = 0) by (unfold local; rewrite <- targets_nodal; apply Sum_zero; intros w _; cbn [previous ms_old start]; apply Rmult_0_r). rewrite L0. ring. }
    unfold strain_tensor. cbn [seq map upper flat_map app Nat.sub fst snd]. rewrite !S0. reflexivity. }
  rewrite Z. symmetry. apply (hooke_zero 3 3).
Qed.
Lemma body_elastic H iso : elastic_ok 3 (body H iso).
Proof.
  split; [lia|]. apply Forall_forall. intros c I. apply filter_In in I. destruct I as [I _].
  assert (F : Forall (fun c : ecell RNum => 0 < lame2 (ec_plast c) /\ 0 < INR 3 * lame1 (ec_plast c) + 2 * lame2 (ec_plast c) /\ Forall (fun q : quad RNum => 0 < q_jxw q) (ec_quads c)) (body H iso)); [|rewrite Forall_forall in F; auto].
  assert (X : 0 < INR 3 * 1 + 2 * 1) by (cbn; lra).
  apply Forall_app. split; [apply Forall_forall; intros c' I'; apply in_map_iff in I'; destruct I' as (k & <- & _)|]; [|repeat (apply Forall_list; [|])]; try apply Forall_nil;
    (cbn [ec_plast ec_quads shear_cell steel lame1 lame2]; split; [lra|split; [exact X|apply Forall_list; [cbn; lra| apply Forall_nil]]]).
Qed.
(** The displacement the solver accepts. *)
Lemma displacement_exact n C A (b : list R) iterate : entries_ok n A -> List.length b = n -> (10 <= n)%nat -> 0 < l2R b -> residualR n A b (iterate O) = repeat 0 n -> displacementR n C A b iterate = Ok (distributeR C (iterate O)).
Proof.
  intros HA L Hn P Z. rewrite displacement_step by auto. destruct accuracy_small as [A0 A1]. replace (Rleb (l2R b) (accuracy * l2R b)) with false by (symmetry; apply Rleb_false; nra).
  assert (M : (1 <= max_iter n)%nat) by (unfold max_iter; apply Nat.div_le_lower_bound; lia). destruct (max_iter n) as [|k]; [lia|].
  assert (N0 : l2R (residualR n A b (iterate O)) = 0).
  { rewrite Z, l2_size. unfold size. rewrite repeat_length. rewrite (Sum_zero (fun j => HeatSpec.entry (repeat 0 n) j * HeatSpec.entry (repeat 0 n) j)); [apply sqrt_0|]. intros j _. unfold HeatSpec.entry. rewrite nth_repeat. ring. }
  assert (X : cgR n A b (accuracy * l2R b) iterate k 1 (iterate O) = Ok (iterate O)).
  { assert (T : Rleb (l2R (residualR n A b (iterate O))) (accuracy * l2R b) = true) by (apply Rleb_true; rewrite N0; nra). destruct k; unfold cgR; cbn [cg]; match goal with |- (if ?c then _ else _) = _ => change c with (Rleb (l2R (residualR n A b (iterate O))) (accuracy * l2R b)) end; rewrite T; reflexivity. }
  rewrite X. reflexivity.
Qed.
Definition weight (f : R) : list R := repeat f 10 ++ [0; 0].
Lemma weight_rhs H iso f : assemble_rhs (N := RNum) 3 12 temps (Some warm) [fun _ => [f; 0; 0]] bonds (body H iso) = Ok (weight f).
Proof.
  assert (G : exists b : list R, assemble_rhs (N := RNum) 3 12 temps (Some warm) [fun _ => [f; 0; 0]] bonds (body H iso) = Ok b /\ b = weight f); [|destruct G as (b & E & ->); exact E].
  eexists. split; [cbv -[Rplus Rmult Rminus Rdiv Ropp Rinv IZR Rlt Rle]; reflexivity|]. unfold weight. cbn [repeat app]. repeat (apply f_equal2; [lra|]). reflexivity.
Qed.
Lemma body_internal H iso (z x : nat -> R) : internal_work 3 bonds (body H iso) z x = Sum (seq 0 10) (fun k => 2 * (z k * x k)).
Proof. cbv -[Rplus Rmult Rminus Rdiv Ropp Rinv IZR]. field. Qed.
Lemma weight_residual H iso f : residualR 12 (assemble_matrix (N := RNum) bonds (body H iso)) (weight f) (found f) = repeat 0 12.
Proof.
  apply nth_ext with (d := 0) (d' := 0); [now rewrite residual_length|]. intros j _. rewrite nth_repeat. rewrite <- ip_hat, ip_residual by reflexivity.
  rewrite (matrix_form 12 3) by (try apply bonds_ok; apply body_ok). rewrite body_internal.
  rewrite (Sum_zero (fun c => extra bonds c (hat j) (HeatSpec.entry (found f)))).
  - rewrite ip_nth. change (List.length (weight f)) with 12%nat. generalize (hat j). intros z. cbv -[Rplus Rmult Rminus Rdiv Ropp Rinv IZR]. field.
  - intros c I. apply filter_In in I. destruct I as [I _]. apply in_app_or in I. destruct I as [I|I].
    + apply in_map_iff in I. destruct I as (k & <- & I). apply in_seq in I. unfold extra. apply Sum_zero. intros [i g] Ig. cbn in Ig. destruct Ig as [Ig|[]]. injection Ig as <- <-. cbn [fst snd]. destruct (line_of bonds k) as [l|] eqn:E; [|reflexivity].
      exfalso. do 10 (destruct k as [|k]; [cbn in E; discriminate|]). lia.
    + destruct I as [<-|[<-|[]]]; unfold extra; apply Sum_zero; intros [i g] Ig; cbn in Ig; [destruct Ig|]. destruct Ig as [Ig|[Ig|[]]]; injection Ig as <- <-; cbn [fst snd]; (destruct (line_of bonds _); [|reflexivity]); unfold HeatSpec.entry, found; cbn [nth repeat app]; ring.
Qed.
Lemma weight_norm f : 0 < f -> 0 < l2R (weight f).
Proof.
  intros P. rewrite l2_size. apply sqrt_lt_R0. change (List.length (weight f)) with 12%nat. unfold HeatSpec.entry, weight. cbn [seq]. rewrite !Sum_cons, Sum_nil. cbn [nth repeat app]. nra.
Qed.
(** The solution, hanging node included. *)
Definition moved (f : R) : list R := repeat (f / 2) 10 ++ [0; f / 2].
Lemma pull_displacement H iso f : 0 < f -> displacementR 12 bonds (assemble_matrix (N := RNum) bonds (body H iso)) (weight f) (ld_iterate (pull f)) = Ok (moved f).
Proof.
  intros P. rewrite (displacement_exact 12 bonds _ (weight f)); [|eapply assembled_entries; [apply bonds_ok| apply (body_ok H iso)]| reflexivity| lia| now apply weight_norm| apply weight_residual].
  f_equal. assert (G : exists r : list R, distributeR bonds (found f) = r /\ r = moved f); [|destruct G as (r & E & ->); exact E].
  eexists. split; [cbv -[Rplus Rmult Rminus Rdiv Ropp Rinv IZR Rlt Rle]; reflexivity|]. unfold moved. cbn [repeat app]. repeat (apply f_equal2; [lra|]). reflexivity.
Qed.
Lemma pull_solve H iso f s : 0 < f -> solve_loadR 3 12 bonds (body H iso) temps s (pull f) = solveR 3 12 bonds (body H iso) (weight f) (ld_iterate (pull f)) s.
Proof. intros _. unfold solve_loadR, solve_load. cbn [ld_thermal ld_forces pull]. pose proof (weight_rhs H iso f) as E. cbn [num RNum] in *. rewrite E. reflexivity. Qed.
Lemma pull_points H iso f Y : 0 < f -> exists s', solve_loadR 3 12 bonds (body H iso) temps (start Y) (pull f) = Ok s' /\ ms_old s' = Some (moved f) /\ List.length (ms_points s') = 12%nat /\
  (forall pos c row', nth_error (body H iso) pos = Some c -> takes_part c = true -> nth_error (ms_points s') pos = Some row' ->
    exists q, nth_error (ec_quads c) 0 = Some q /\ row' = [update_point (steel H iso) (fresh Y) (strain_tensor 3 bonds c q (HeatSpec.entry (moved f)))]).
Proof.
  intros P. rewrite pull_solve by exact P. pose proof (solve_points 3 12 bonds (body H iso) (weight f) (ld_iterate (pull f)) (start Y) (or_intror eq_refl) bonds_ok (body_ok H iso) (start_ok H iso Y) (fun _ => eq_refl)) as S0.
  rewrite (pull_displacement H iso f P) in S0. destruct S0 as (_ & s' & E & O & L & U & _). exists s'. split; [exact E|]. split; [exact O|]. split; [exact L|].
  intros pos c row' Ec T Er'. assert (Er : nth_error (ms_points (start Y)) pos = Some [fresh Y]).
  { cbn [ms_points start]. destruct (nth_error (repeat [fresh Y] 12) pos) as [row|] eqn:Er; [now rewrite (repeat_nth _ _ _ _ Er)|]. apply nth_error_None in Er. rewrite repeat_length in Er.
    assert (pos < List.length (body H iso))%nat by (apply nth_error_Some; congruence). change (List.length (body H iso)) with 12%nat in *. lia. }
  destruct (U pos c [fresh Y] row' Ec T Er Er') as [Lr V]. pose proof (body_quads H iso pos c Ec T) as Lq. destruct (ec_quads c) as [|q qs] eqn:Eq; [discriminate|]. exists q. split; [reflexivity|].
  specialize (V 0%nat q (fresh Y) eq_refl eq_refl). destruct row' as [|p' [|]]; try discriminate. cbn in V. injection V as ->. f_equal.
  assert (Ep : ec_plast c = steel H iso).
  { assert (F : Forall (fun c : ecell RNum => ec_plast c = steel H iso) (body H iso)); [|rewrite Forall_forall in F; apply F; eapply nth_error_In; eauto].
    apply Forall_app. split; [apply Forall_forall; intros c' I; apply in_map_iff in I; destruct I as (k & <- & _); reflexivity|]. repeat (apply Forall_list; [reflexivity|]). apply Forall_nil. }
  rewrite Ep. reflexivity.
Qed.

(** ** Simple shear in the xy and xz planes *)
Definition sh (a : R) : sym RNum := mksym (N := RNum) [0; 0; 0] [a; a; 0].
Lemma sh_eq (a b : R) (x : sym RNum) : dg x = [0; 0; 0] -> od x = [a; b; 0] -> a = b -> x = sh a.
Proof. destruct x as [p q]. cbn. intros -> -> ->. reflexivity. Qed.
Lemma list3 (a b c a' b' c' : R) : a = a' -> b = b' -> c = c' -> [a; b; c] = [a'; b'; c']. Proof. now intros -> -> ->. Qed.
Ltac tensor := match goal with |- _ = sh ?a => apply (sh_eq a a); [| |reflexivity]; cbv -[Rplus Rmult Rminus Rdiv Ropp Rinv IZR Rlt Rle]; apply list3; try lra; try (field; lra) end.
Lemma sh_magnitude a : 0 <= a -> magnitude (sh a) = 2 * a.
Proof.
  intros P. unfold magnitude. replace (contract (sh a) (sh a)) with ((2 * a) * (2 * a)) by (cbv -[Rplus Rmult Rminus Rdiv Ropp Rinv IZR]; ring). apply sqrt_square. lra.
Qed.
Lemma sh_hooke e : hooke (N := RNum) 1 1 (sh e) = sh (2 * e). Proof. tensor. Qed.
Lemma sh_trial H iso s b Y e : trial (steel H iso) (mkpoint (N := RNum) (sh s) (sh b) Y) (sh e) = sh (s + 2 * e). Proof. unfold trial. cbn [lame1 lame2 steel p_stress]. rewrite sh_hooke. tensor. Qed.
Lemma sh_effective s b Y a : effective (mkpoint (N := RNum) s (sh b) Y) (sh a) = sh (a - b).
Proof. unfold effective. cbn [p_back]. assert (Dv : deviator (N := RNum) (sh a) = sh a) by tensor. rewrite Dv. tensor. Qed.
Lemma sh_flow a : 0 < a -> tdiv (N := RNum) (sh a) (2 * a) = sh (1/2). Proof. intros A. tensor. Qed.
Lemma sh_yields H iso s b Y e : 0 < Y -> Y <= 2 * (s + 2 * e - b) -> 0 <= H ->
  update_point (steel H iso) (mkpoint (N := RNum) (sh s) (sh b) Y) (sh e) =
  mkpoint (N := RNum) (sh (s + 2 * e - (2 * (s + 2 * e - b) - Y) / (2 + H))) (sh (b + (1 - iso) * H * H / 2)) (Y + iso * H * ((2 * (s + 2 * e - b) - Y) / (2 + H))).
Proof.
  intros PY P PH. set (a := s + 2 * e - b) in *. assert (A : 0 < a) by lra.
  unfold update_point. fold (trial (steel H iso) (mkpoint (N := RNum) (sh s) (sh b) Y) (sh e)). rewrite sh_trial. fold (effective (mkpoint (N := RNum) (sh s) (sh b) Y) (sh (s + 2 * e))). rewrite sh_effective. fold a.
  cbv zeta. rewrite norm_R, sh_magnitude by lra. cbn [nltb RNum p_yield]. unfold Rltb. destruct (Rlt_dec (2 * a) Y) as [L|_]; [exfalso; lra|].
  change (nofZ RNum 1) with 1. change (nofZ RNum 2) with 2. cbn [lame2 plastic_modulus iso_hardening steel p_back nmul ndiv nsub nadd RNum].
  pose proof (sh_flow a A) as FL. cbn [num RNum] in *. rewrite FL. clearbody a. f_equal.
  - replace (2 * 1 + H) with (2 + H) by ring. generalize ((2 * a - Y) / (2 + H)). intros g. tensor.
  - tensor.
  - replace (2 * 1 + H) with (2 + H) by ring. reflexivity.
Qed.
Lemma shear_strain H iso k q (z : nat -> R) : (k < 10)%nat -> In q (ec_quads (shear_cell H iso k)) -> strain_tensor 3 bonds (shear_cell H iso k) q z = sh (z k / 2).
Proof.
  intros L [<-|[]]. assert (E : nodal bonds z k = z k) by (do 10 (destruct k as [|k]; [reflexivity|]); lia).
  assert (G : forall a b, ElementSpec.gradient 1 [0%nat] (mkquad (N := RNum) 1 [[0; 1; 1]] [1] [1]) (local bonds z (shear_cell H iso k)) a b = if Nat.eqb 0 a then z k * nth b [0; 1; 1] 0 else 0).
  { intros a b. unfold ElementSpec.gradient, Rsum_to, Rsum. cbn [seq map fold_right]. unfold local. cbn [ec_dofs shear_cell nth]. rewrite E. cbn [q_grads nth]. destruct (Nat.eqb 0 a); [|apply Rplus_0_r]. rewrite Rplus_0_r. reflexivity. }
  unfold strain_tensor, sh. cbn [seq map upper flat_map app Nat.sub fst snd]. unfold cell_strain, ElementSpec.strain. cbn [ec_dofs ec_comps shear_cell List.length]. rewrite !G. cbn [Nat.eqb nth]. apply f_equal2; apply list3; lra.
Qed.
Lemma anchored_strain H iso c q (z : nat -> R) : nth_error (body H iso) 11 = Some c -> In q (ec_quads c) -> strain_tensor 3 bonds c q z = sh 0.
Proof.
  intros Ec Iq. cbn in Ec. injection Ec as <-. destruct Iq as [<-|[]]. unfold strain_tensor, sh. cbn [seq map upper flat_map app Nat.sub fst snd]. unfold cell_strain, ElementSpec.strain, ElementSpec.gradient, Rsum_to, Rsum.
  cbn [ec_dofs ec_comps List.length seq map fold_right]. unfold local. cbn [ec_dofs nth q_grads]. assert (E : nodal bonds z 10 = 0) by (unfold nodal, Sum, sumR; reflexivity). rewrite E. cbn [Nat.eqb]. apply f_equal2; apply list3; lra.
Qed.
Lemma in_body H iso c : In c (body H iso) -> takes_part c = true -> (exists k, (k < 10)%nat /\ c = shear_cell H iso k) \/ nth_error (body H iso) 11 = Some c.
Proof.
  intros I T. apply in_app_or in I. destruct I as [I|I]; [left; apply in_map_iff in I; destruct I as (k & <- & I); apply in_seq in I; exists k; split; [lia| reflexivity]|]. destruct I as [<-|[<-|[]]]; [discriminate|]. right. reflexivity.
Qed.
Lemma moved_at f k : (k < 10)%nat -> HeatSpec.entry (moved f) k = f / 2.
Proof. intros L. do 10 (destruct k as [|k]; [reflexivity|]). lia. Qed.
Lemma fresh_sh Y : fresh Y = mkpoint (N := RNum) (sh 0) (sh 0) Y. Proof. reflexivity. Qed.
(** Below the limit. *)
Lemma pull_below H iso f Y : 0 < f < Y -> below_yield 3 bonds (body H iso) (ms_points (start Y)) (HeatSpec.entry (moved f)).
Proof.
  intros P. apply fresh_at. intros c q I T Iq. assert (Ep : ec_plast c = steel H iso).
  { assert (F : Forall (fun c : ecell RNum => ec_plast c = steel H iso) (body H iso)); [|rewrite Forall_forall in F; auto].
    apply Forall_app. split; [apply Forall_forall; intros c' I'; apply in_map_iff in I'; destruct I' as (k & <- & _); reflexivity|]. repeat (apply Forall_list; [reflexivity|]). apply Forall_nil. }
  rewrite Ep. cbn [lame1 lame2 steel]. rewrite fresh_sh. destruct (in_body H iso c I T) as [(k & L & ->)|E].
  - rewrite (shear_strain H iso k q _ L Iq), (moved_at f k L), sh_hooke, sh_effective, sh_magnitude by lra. cbn [p_yield]. lra.
  - rewrite (anchored_strain H iso c q _ E Iq), sh_hooke, sh_effective, sh_magnitude by lra. cbn [p_yield]. lra.
Qed.
(** Beyond it. *)
Definition even : nat -> R := fun _ => 1.
Lemma pull_work H iso f : work_of 3 temps bonds (body H iso) (pull f) even = 10 * f.
Proof. cbv -[Rplus Rmult Rminus Rdiv Ropp Rinv IZR]. field. Qed.
Lemma correction_term H iso f Y k q : 0 < Y <= f -> 0 <= H -> (k < 10)%nat -> In q (ec_quads (shear_cell H iso k)) ->
  contract (plastic_correction (steel H iso) (fresh Y) (hooke (N := RNum) 1 1 (strain_tensor 3 bonds (shear_cell H iso k) q (HeatSpec.entry (moved f))))) (strain_tensor 3 bonds (shear_cell H iso k) q even) = 2 * ((f - Y) / (2 + H)).
Proof.
  intros P PH L Iq. rewrite !(shear_strain H iso k q _ L Iq), (moved_at f k L), sh_hooke. unfold plastic_correction. rewrite fresh_sh, sh_effective. rewrite sh_magnitude by lra. cbn [p_yield lame2 plastic_modulus steel].
  destruct (Rlt_dec (2 * (2 * (f / 2 / 2) - 0)) Y) as [X|_]; [exfalso; lra|]. replace (2 * (2 * (f / 2 / 2) - 0)) with f by field. replace (2 * (f / 2 / 2) - 0) with (f / 2) by field. replace (2 * 1 + H) with (2 + H) by ring.
  unfold even. generalize ((f - Y) / (2 + H)). intros g. cbv -[Rplus Rmult Rminus Rdiv Ropp Rinv IZR]. field. lra.
Qed.
Lemma correction_total H iso f Y : 0 < Y <= f -> 0 <= H -> correction_work 3 bonds (body H iso) (ms_points (start Y)) (HeatSpec.entry (moved f)) even = 20 * ((f - Y) / (2 + H)).
Proof.
  intros P PH. unfold correction_work.
  rewrite (Sum_combine _ (fun c : ecell RNum => match ec_dofs c with [_] => 2 * ((f - Y) / (2 + H)) | _ => 0 end) (body H iso) (ms_points (start Y)) eq_refl).
  - unfold body. cbn [seq map app]. rewrite !Sum_cons, Sum_nil. cbn [ec_dofs shear_cell]. lra.
  - intros pos c row Ec Er. apply (repeat_nth [fresh Y] 12 pos row) in Er. subst row. cbn [fst snd]. pose proof (nth_error_In _ _ Ec) as I. destruct (takes_part c) eqn:T.
    + destruct (in_body H iso c I T) as [(k & L & ->)|E].
      * cbn [ec_dofs shear_cell ec_quads combine]. rewrite Sum_cons, Sum_nil. cbn [fst snd]. cbn [ec_plast shear_cell lame1 lame2 steel].
        rewrite (correction_term H iso f Y k (mkquad (N := RNum) 1 [[0; 1; 1]] [1] [1]) P PH L) by (left; reflexivity). cbn [q_jxw]. lra.
      * pose proof (anchored_strain H iso c) as AS. pose proof E as E'. cbn in E'. injection E' as Ecc. subst c. cbn [ec_dofs ec_quads combine]. rewrite Sum_cons, Sum_nil. cbn [fst snd]. rewrite (AS _ even E) by (left; reflexivity).
        match goal with |- contract ?x _ * _ + 0 = 0 => generalize x end. intros x. unfold contract, sh. cbn [dg od]. destruct x as [xd xo]. cbn [dg od q_jxw].
        assert (G : forall l : list R, Rsum (map (fun xy : R * R => fst xy * snd xy) (combine l [0; 0; 0])) = 0).
        { intros [|a [|b [|e l]]]; unfold Rsum; cbn [combine map fold_right fst snd]; rewrite ?combine_nil; cbn [map fold_right]; lra. }
        rewrite !G. lra.
    + apply in_app_or in I. destruct I as [I|[<-|[<-|[]]]]; [|reflexivity| discriminate]. apply in_map_iff in I. destruct I as (k & <- & _). discriminate.
Qed.

(** ** Twice the yield limit: the stress no longer balances the load *)
Lemma half_points H iso f Y s' : 0 < f -> solve_loadR 3 12 bonds (body H iso) temps (start Y) (pull f) = Ok s' -> ms_old s' = Some (moved f).
Proof. intros P E. destruct (pull_points H iso f Y P) as (s0 & E0 & O & _). rewrite E in E0. injection E0 as <-. exact O. Qed.
Lemma yield_work H iso f Y s' : 0 < Y <= f -> 0 <= H -> solve_loadR 3 12 bonds (body H iso) temps (start Y) (pull f) = Ok s' ->
  stress_work 3 bonds (body H iso) (ms_points s') even = 10 * f - 20 * ((f - Y) / (2 + H)).
Proof.
  intros P PH E. assert (P0 : 0 < f) by lra. pose proof (half_points H iso f Y s' P0 E) as O.
  rewrite (load_defect 3 12 temps bonds (body H iso) (or_intror eq_refl) bonds_ok (body_ok H iso) (pull f) (start Y) s' (moved f) (pull_ok H iso f) (start_ok H iso Y) (start_elastic H iso Y) E O even).
  rewrite (correction_total H iso f Y P PH), body_internal. f_equal. cbn [seq]. rewrite !Sum_cons, Sum_nil, !moved_at by lia. unfold even. field.
Qed.
Lemma even_size : size 12 even <= 4.
Proof.
  unfold size, even. cbn [seq]. rewrite !Sum_cons, Sum_nil. replace 4 with (sqrt (4 * 4)) by (apply sqrt_square; lra). apply sqrt_le_1; lra.
Qed.
Lemma pull_size H iso : load_size 12 (work_of 3 temps bonds (body H iso) (pull 4)) <= 13.
Proof.
  assert (W : forall k, (k < 12)%nat -> work_of 3 temps bonds (body H iso) (pull 4) (hat k) = if Nat.ltb k 10 then 4 else 0).
  { intros k L. do 12 (destruct k as [|k]; [cbv -[Rplus Rmult Rminus Rdiv Ropp Rinv IZR]; field|]). lia. }
  unfold load_size, size. replace 13 with (sqrt (13 * 13)) by (apply sqrt_square; lra).
  rewrite (Sum_ext _ (fun j => if Nat.ltb j 10 then 16 else 0)).
  - apply sqrt_le_1; cbn [seq]; rewrite ?Sum_cons, ?Sum_nil; cbn [Nat.ltb Nat.leb]; lra.
  - intros j I. apply in_seq in I. rewrite W by lia. destruct (Nat.ltb j 10); ring.
Qed.
Lemma yield_unbalanced s' : solve_loadR 3 12 bonds (body 2 1) temps (start 2) (pull 4) = Ok s' ->
  accuracy * load_size 12 (work_of 3 temps bonds (body 2 1) (pull 4)) * size 12 even < Rabs (stress_work 3 bonds (body 2 1) (ms_points s') even - work_of 3 temps bonds (body 2 1) (pull 4) even).
Proof.
  intros E. rewrite (yield_work 2 1 4 2 s') by (lra || exact E). rewrite pull_work. replace (10 * 4 - 20 * ((4 - 2) / (2 + 2)) - 10 * 4) with (- (10)) by field. rewrite Rabs_Ropp, Rabs_right by lra.
  pose proof even_size as A. pose proof (pull_size 2 1) as B. assert (A0 : 0 <= size 12 even) by apply sqrt_pos. assert (B0 : 0 <= load_size 12 (work_of 3 temps bonds (body 2 1) (pull 4))) by apply sqrt_pos.
  destruct accuracy_small as [C0 C1]. assert (C2 : accuracy <= / 100).
  { unfold accuracy. apply Rinv_le_contravar; [lra|]. apply Rle_trans with (10 ^ 2); [lra|]. apply Rle_pow; [lra| lia]. }
  set (x := size 12 even) in *. set (y := load_size 12 _) in *. clearbody x y.
  assert (M : y * x <= 13 * 4) by (apply Rmult_le_compat; lra). assert (M0 : 0 <= y * x) by (apply Rmult_le_pos; lra). nra.
Qed.
Lemma body_physical H iso : 0 <= H -> 0 <= iso <= 1 -> Forall (fun c : ecell RNum => physical (ec_plast c)) (solid (body H iso)).
Proof.
  intros PH PI. apply Forall_forall. intros c I. apply filter_In in I. destruct I as [I _].
  assert (F : Forall (fun c : ecell RNum => ec_plast c = steel H iso) (body H iso)).
  { apply Forall_app. split; [apply Forall_forall; intros c' I'; apply in_map_iff in I'; destruct I' as (k & <- & _); reflexivity|]. repeat (apply Forall_list; [reflexivity|]). apply Forall_nil. }
  rewrite Forall_forall in F. rewrite (F c I). repeat split; cbn; lra.
Qed.
Lemma start_regular H iso Y : 0 < Y -> each_point (body H iso) (ms_points (start Y)) (fun _ _ p => regular 3 (List.length (upper 3)) p).
Proof. intros P. apply fresh_at. intros c q _ _ _. repeat split; [cbv -[Rplus IZR]; lra| exact P]. Qed.
Lemma yield_solves f Y H iso : 0 < f -> exists s', solve_loadR 3 12 bonds (body H iso) temps (start Y) (pull f) = Ok s'.
Proof. intros P. destruct (pull_points H iso f Y P) as (s' & E & _). eauto. Qed.
(** ** Kinematic hardening: the same solve again *)
Lemma again_differs s' : solve_loadR 3 12 bonds (body 1 0) temps (start 3) (pull 12) = Ok s' -> solve_loadR 3 12 bonds (body 1 0) temps s' (pull 12) <> Ok s'.
Proof.
  intros E E2. destruct (pull_points 1 0 12 3 ltac:(lra)) as (s0 & E0 & O & L & V). rewrite E in E0. injection E0 as <-.
  pose proof (load_state 3 12 bonds (body 1 0) (or_intror eq_refl) bonds_ok (body_ok 1 0) temps (pull 12) (start 3) s' (pull_ok 1 0 12) (start_ok 1 0 3) E) as So'.
  rewrite pull_solve in E2 by lra. pose proof (solve_points 3 12 bonds (body 1 0) (weight 12) (ld_iterate (pull 12)) s' (or_intror eq_refl) bonds_ok (body_ok 1 0) So' (fun _ => eq_refl)) as P.
  rewrite (pull_displacement 1 0 12) in P by lra. destruct P as (Cu & s3 & E3 & O3 & L3 & U & _). rewrite E2 in E3. injection E3 as <-.
  destruct (nth_error (ms_points s') 0) as [row|] eqn:Er; [|apply nth_error_None in Er; lia].
  destruct (V 0%nat (shear_cell 1 0 0) row eq_refl eq_refl Er) as (q & Eq & ->). cbn in Eq. injection Eq as Eq.
  assert (Iq : In q (ec_quads (shear_cell 1 0 0))) by (rewrite <- Eq; left; reflexivity).
  destruct (U 0%nat (shear_cell 1 0 0) _ _ eq_refl eq_refl Er Er) as [_ W]. specialize (W 0%nat q _ (f_equal (@Some _) Eq) eq_refl). cbn [nth_error] in W.
  assert (Z : strain_tensor 3 bonds (shear_cell 1 0 0) q (HeatSpec.entry (incrementR s' (moved 12))) = sh 0).
  { rewrite (shear_strain 1 0 0 q _ ltac:(lia) Iq). unfold incrementR. rewrite O. f_equal. unfold HeatSpec.entry, moved. cbn [repeat app]. cbn. lra. }
  rewrite Z in W. rewrite (shear_strain 1 0 0 q _ ltac:(lia) Iq), moved_at, fresh_sh in W by lia. cbn [ec_plast shear_cell] in W.
  rewrite (sh_yields 1 0 0 0 3 (12 / 2 / 2)) in W by lra. rewrite sh_yields in W by lra. injection W as W _ _ _ _. lra.
Qed.
