(** ElasticProofs10.v -- free expansion in two and three dimensions, clamped displacements, runs without a temperature. *)
From Coq Require Import Reals List Bool Lia Lra.
From Verif Require Import Base BaseFacts AssimilationSpec AssimilationProofs InputModel HeatModel HeatSpec HeatProofs HeatProofs2 HeatExamples ElementModel ElementSpec ElementProofs StressModel StressSpec CellModel ElasticModel ElasticSpec
  ElasticProofs ElasticProofs2 ElasticProofs3 ElasticProofs4 ElasticProofs5 ElasticProofs6 ElasticProofs7 ElasticProofs9 ElasticExamples.
Import ListNotations.
Local Open Scope R_scope.

Lemma Rsum_to_2 f : Rsum_to 2 f = f 0%nat + f 1%nat.
Proof. unfold Rsum_to, Rsum. cbn [seq map fold_right]. ring. Qed.
Lemma free_expansion d references (t : thermal_data RNum) C cells (u : nat -> R) : d = 2%nat \/ d = 3%nat -> elastic_ok d cells ->
  (forall pos c q a b, nth_error cells pos = Some c -> takes_part c = true -> In q (ec_quads c) -> (a < d)%nat -> (b < d)%nat ->
     ElementSpec.gradient (List.length (ec_dofs c)) (ec_comps c) q (local C u c) a b =
     if Nat.eqb a b then (3 * lame1 (ec_plast c) + 2 * lame2 (ec_plast c)) / (INR d * lame1 (ec_plast c) + 2 * lame2 (ec_plast c)) *
                         (ec_alpha c * excess (reference references (td_melted t) cells pos c) (cell_temperature t c) q) else 0) ->
  balances d C cells (thermal_work d references t C cells) u.
Proof.
  intros Hd [_ EO] G v. unfold thermal_work, internal_work, solid. rewrite Sum_filter.
  match goal with |- Sum cells ?f = _ => rewrite <- (Sum_indexed_snd f cells) end. apply Sum_ext. intros [pos c] I. cbn [fst snd]. destruct (takes_part c) eqn:T; [|reflexivity].
  assert (Ec : nth_error cells pos = Some c) by (exact (in_numbered cells (pos, c) I)). rewrite Forall_forall in EO. assert (Ic : In c (solid cells)) by (apply filter_In; split; [eapply nth_error_In; eauto| exact T]).
  destruct (EO c Ic) as (_ & NZ & _). clear EO. apply Sum_ext. intros q Iq. f_equal.
  pose proof (fun a b => G pos c q a b Ec T Iq) as Gq. clear G. set (be := ec_alpha c * excess (reference references (td_melted t) cells pos c) (cell_temperature t c) q) in *.
  replace ((3 * lame1 (ec_plast c) + 2 * lame2 (ec_plast c)) * ec_alpha c * excess (reference references (td_melted t) cells pos c) (cell_temperature t c) q) with ((3 * lame1 (ec_plast c) + 2 * lame2 (ec_plast c)) * be) by (unfold be; ring).
  clearbody be. unfold cell_divergence, divergence, cell_strain, ElementSpec.strain. generalize (ElementSpec.gradient (List.length (ec_dofs c)) (ec_comps c) q (local C v c)). intros g.
  generalize dependent (lame2 (ec_plast c) : R). generalize (lame1 (ec_plast c) : R). intros la mu NZ Gq. destruct Hd as [-> | ->].
  - rewrite !Rsum_to_2. rewrite (Gq 0%nat 0%nat), (Gq 0%nat 1%nat), (Gq 1%nat 0%nat), (Gq 1%nat 1%nat) by lia. cbn [Nat.eqb]. replace (INR 2) with 2 in * by (cbn; ring). field. lra.
  - rewrite !Rsum_to_3. rewrite (Gq 0%nat 0%nat), (Gq 0%nat 1%nat), (Gq 0%nat 2%nat), (Gq 1%nat 0%nat), (Gq 1%nat 1%nat), (Gq 1%nat 2%nat), (Gq 2%nat 0%nat), (Gq 2%nat 1%nat), (Gq 2%nat 2%nat) by lia. cbn [Nat.eqb].
    replace (INR 3) with 3 in * by (cbn; ring). field. lra.
Qed.

(** A block with free faces, [T] degrees above the initial temperature. *)
Definition warm_block (d : nat) : list (ecell RNum) :=
  [mkec (N := RNum) (mkjc true true true) 0 (seq 0 d) (seq 0 d) [mkquad (N := RNum) 1 (map (fun i => map (fun a => if Nat.eqb i a then 1 else 0) (seq 0 d)) (seq 0 d)) (repeat 0 d) [1]] [0%nat] (mkplast (N := RNum) 3 1 1 1) (1/100) 1].
Definition warmth : thermal_data RNum := mktd (N := RNum) [50] [false].
Lemma warm_ok3 d : d = 2%nat \/ d = 3%nat -> elastic_ok d (warm_block d) /\ Forall (cell_ok d d) (warm_block d) /\ thermal_ok [20; 10] warmth (warm_block d) /\
  (forall pos c q a b, nth_error (warm_block d) pos = Some c -> takes_part c = true -> In q (ec_quads c) -> (a < d)%nat -> (b < d)%nat ->
     ElementSpec.gradient (List.length (ec_dofs c)) (ec_comps c) q (local [] (fun _ => if Nat.eqb d 2 then 11/8 * (2/5) else 2/5) c) a b =
     if Nat.eqb a b then (3 * lame1 (ec_plast c) + 2 * lame2 (ec_plast c)) / (INR d * lame1 (ec_plast c) + 2 * lame2 (ec_plast c)) *
                         (ec_alpha c * excess (reference [20; 10] (td_melted warmth) (warm_block d) pos c) (cell_temperature warmth c) q) else 0).
Proof.
  intros Hd. split; [|split; [|split]].
  - split; [lia|]. unfold warm_block, solid. cbn [filter takes_part ec_joint j_owned j_mech andb]. apply Forall_list; [|apply Forall_nil]. cbn [ec_plast lame1 lame2 ec_quads]. split; [lra|]. split; [destruct Hd as [-> | ->]; cbn; lra|]. apply Forall_list; [cbn; lra| apply Forall_nil].
  - destruct Hd as [-> | ->]; (apply Forall_list; [split; [repeat split; cbn; repeat constructor| cbn; repeat constructor; lia]| apply Forall_nil]).
  - split; [exists [20], 10; split; [reflexivity| apply Forall_list; [cbn; lia| apply Forall_nil]]|]. split; [reflexivity|]. apply Forall_list; [reflexivity| apply Forall_nil].
  - intros pos c q a b Ec T Iq La Lb. destruct pos as [|pos]; [|destruct pos; discriminate]. unfold warm_block in Ec. cbn [nth_error] in Ec. injection Ec as <-. destruct Iq as [<-|[]].
    destruct Hd as [-> | ->].
    + destruct a as [|[|a]]; [| |lia]; (destruct b as [|[|b]]; [| |lia]); cbv -[Rplus Rmult Rminus Rdiv Ropp Rinv IZR]; field.
    + destruct a as [|[|[|a]]]; [| | |lia]; (destruct b as [|[|[|b]]]; [| | |lia]); cbv -[Rplus Rmult Rminus Rdiv Ropp Rinv IZR]; field.
Qed.

(** ** Clamped and hanging displacements *)
Lemma existsb_in k js : existsb (Nat.eqb k) js = true <-> In k js.
Proof. rewrite existsb_exists. split; [intros (x & I & E); apply Nat.eqb_eq in E; now subst| intros I; exists k; split; [exact I| apply Nat.eqb_refl]]. Qed.
Lemma clamped_values n (hanging : constraints RNum) types faces (u : list R) : closed_ok n hanging -> Forall (fun f => Forall (fun j => (j < n)%nat) (bf_dofs f)) faces ->
  conforms n (mechanical_constraints (N := RNum) hanging types faces) u ->
  (forall k, on_clamped types faces k -> ~ In k (map fst hanging) -> HeatSpec.entry u k = 0) /\
  (forall j, (j < n)%nat -> HeatSpec.entry u j = nodal hanging (HeatSpec.entry u) j).
Proof.
  intros HO FO [L CF]. assert (A : forall k, on_clamped types faces k -> ~ In k (map fst hanging) -> HeatSpec.entry u k = 0).
  { intros k K NH. apply clamped_spec in K. pose proof (js_bound n types faces FO k K) as B. rewrite (CF k B). unfold mechanical_constraints. rewrite (closed_nodal n hanging types faces HO).
    rewrite <- targets_nodal. unfold targets. assert (E : line_of hanging k = None) by (now apply line_in). rewrite E. rewrite Sum_cons, Sum_nil. cbn [fst snd]. assert (X : existsb (Nat.eqb k) (clamped_dofs types faces) = true) by (now apply existsb_in). rewrite X. ring. }
  split; [exact A|]. intros j Lj. rewrite (CF j Lj) at 1. unfold mechanical_constraints. rewrite (closed_nodal n hanging types faces HO). destruct HO as [ND T]. rewrite <- !targets_nodal. apply Sum_ext. intros w Iw.
  destruct (existsb (Nat.eqb (fst w)) (clamped_dofs types faces)) eqn:X; [|reflexivity]. apply existsb_in in X. apply clamped_spec in X.
  destruct (in_dec PeanoNat.Nat.eq_dec (fst w) (map fst hanging)) as [IH|NH]; [|rewrite (A _ X NH); reflexivity].
  exfalso. unfold targets in Iw. destruct (line_of hanging j) as [l|] eqn:E.
  - unfold line_of in E. destruct (find _ hanging) as [e|] eqn:Q; [|discriminate]. injection E as <-. apply find_some in Q. destruct Q as [Ie _]. rewrite Forall_forall in T. destruct (T e Ie) as [_ T0]. rewrite Forall_forall in T0. destruct (T0 w Iw) as [_ NH]. contradiction.
  - destruct Iw as [<-|[]]. cbn [fst] in IH. apply line_in in E. contradiction.
Qed.
(** ** No temperature: undefined behaviour *)
Lemma mechanical_only d n references C cells s (l : load RNum) : references <> [] -> ld_thermal l = None -> solve_load (N := RNum) d n references C cells s l = UB.
Proof. intros NE E. unfold solve_load, assemble_rhs. rewrite E. destruct references as [|r rs]; [congruence|]. reflexivity. Qed.
(** ** Fewer than ten degrees of freedom *)
Definition tiny : list (ecell RNum) := [shear_cell 1 1 0].
Definition tug : load RNum := mkload (N := RNum) (Some (mktd (N := RNum) [5] [false])) [fun _ => [2; 0; 0]] (fun _ => [1]).
Lemma tiny_throws : load_ok 3 1 temps tiny tug /\ state_ok 3 1 [] tiny (mkms (N := RNum) [[fresh 3]] None) /\ elastic_ok 3 tiny /\ balances 3 [] tiny (work_of 3 temps [] tiny tug) (HeatSpec.entry [1]) /\
  0 < load_size 1 (work_of 3 temps [] tiny tug) /\ solve_load (N := RNum) 3 1 temps [] tiny (mkms (N := RNum) [[fresh 3]] None) tug = Throw.
Proof.
  assert (CO : closed_ok 1 []) by (split; [constructor| apply Forall_nil]).
  assert (CC : Forall (cell_ok 3 1) tiny) by (apply Forall_list; [split; [repeat split; cbn; repeat constructor| cbn; repeat constructor; lia]| apply Forall_nil]).
  assert (A : load_ok 3 1 temps tiny tug).
  { split; [|split; [apply Forall_list; [reflexivity| apply Forall_nil]| reflexivity]]. eexists. split; [reflexivity|]. split; [exists [20], 0; split; [reflexivity| apply Forall_list; [cbn; lia| apply Forall_nil]]|]. split; [reflexivity|]. apply Forall_list; [reflexivity| apply Forall_nil]. }
  assert (B : state_ok 3 1 [] tiny (mkms (N := RNum) [[fresh 3]] None)).
  { split; [|exact I]. split; [reflexivity|]. split.
    - intros pos c row Ec T Er. destruct pos as [|pos]; [|destruct pos; discriminate]. cbn in Ec, Er. injection Ec as <-. injection Er as <-. reflexivity.
    - intros pos c k q row p Ec T Eq Er Ep. destruct pos as [|pos]; [|destruct pos; discriminate]. cbn [nth_error ms_points] in Er. injection Er as <-. destruct k as [|k]; [|destruct k; discriminate]. cbn [nth_error] in Ep. injection Ep as <-. repeat split. }
  assert (W : forall v, work_of 3 temps [] tiny tug v = 2 * v 0%nat) by (intros v; cbv -[Rplus Rmult Rminus Rdiv Ropp Rinv IZR]; field).
  assert (D : 0 < load_size 1 (work_of 3 temps [] tiny tug)).
  { unfold load_size, size. apply sqrt_lt_R0. cbn [seq]. rewrite Sum_cons, Sum_nil, W. unfold hat. cbn. lra. }
  split; [exact A|]. split; [exact B|]. split; [|split; [|split; [exact D|]]].
  - split; [lia|]. apply Forall_list; [|apply Forall_nil]. cbn [ec_plast shear_cell steel lame1 lame2 ec_quads]. split; [lra|]. split; [cbn; lra|]. apply Forall_list; [cbn; lra| apply Forall_nil].
  - intros v. rewrite W. cbv -[Rplus Rmult Rminus Rdiv Ropp Rinv IZR]. field.
  - exact (load_small 3 1 temps [] tiny (or_intror eq_refl) CO CC tug _ A B ltac:(lia) D).
Qed.
(** ** Clamps of a mesh *)
Lemma clamp_case : mechanical_constraints (N := RNum) [(2%nat, [(0%nat, 1/2); (1%nat, 1/2)])] [clamped; 0%N] [mkbf true 0 [0; 2]%nat; mkbf false 0 [3]%nat; mkbf true 1 [4]%nat] = [(2%nat, [(1%nat, 1/2)]); (0%nat, [])].
Proof. reflexivity. Qed.
(** ** For the statements *)
Lemma energy_error (d n : nat) (references : list R) (C : constraints RNum) (cells : list (ecell RNum)) (l : load RNum) (s s' : mstate RNum) (w : nat -> R) : d = 2%nat \/ d = 3%nat -> closed_ok n C -> Forall (cell_ok d n) cells ->
  load_ok d n references cells l -> state_ok d n C cells s -> solve_load (N := RNum) d n references C cells s l = Ok s' -> balances d C cells (work_of d references C cells l) w ->
  exists u, ms_old s' = Some u /\
    internal_work d C cells (fun j => HeatSpec.entry u j - w j) (fun j => HeatSpec.entry u j - w j) <= accuracy * load_size n (work_of d references C cells l) * size n (fun j => HeatSpec.entry u j - w j).
Proof.
  intros Hd Cok H Lo So E Bw. destruct (load_solution d n references C cells Hd Cok H l s s' Lo So E) as (u & Ou & _ & B). exists u. split; [exact Ou|].
  exact (balance_error d C cells (work_of d references C cells l) (HeatSpec.entry u) w (fun v => accuracy * load_size n (work_of d references C cells l) * size n v) Bw B).
Qed.
Lemma witness_solve : closed_ok 12 bonds /\ Forall (cell_ok 3 12) (body 2 1) /\ elastic_ok 3 (body 2 1) /\ load_ok 3 12 temps (body 2 1) (pull 1) /\ state_ok 3 12 bonds (body 2 1) (start 2) /\
  exists s', solve_load (N := RNum) 3 12 temps bonds (body 2 1) (start 2) (pull 1) = Ok s' /\ ms_old s' = Some (moved 1).
Proof.
  split; [exact bonds_ok|]. split; [apply body_ok|]. split; [apply body_elastic|]. split; [apply pull_ok|]. split; [apply start_ok|]. destruct (pull_points 2 1 1 2 ltac:(lra)) as (s' & E & O & _). exists s'. split; [exact E| exact O].
Qed.
Lemma witness_expansion : elastic_ok 2 (warm_block 2) /\ balances 2 [] (warm_block 2) (thermal_work 2 [20; 10] warmth [] (warm_block 2)) (fun _ => 11/8 * (2/5)) /\
  elastic_ok 3 (warm_block 3) /\ balances 3 [] (warm_block 3) (thermal_work 3 [20; 10] warmth [] (warm_block 3)) (fun _ => 2/5).
Proof.
  destruct (warm_ok3 2 (or_introl eq_refl)) as (A & _ & _ & B). destruct (warm_ok3 3 (or_intror eq_refl)) as (A' & _ & _ & B'). split; [exact A|]. split; [|split; [exact A'|]].
  - exact (free_expansion 2 [20; 10] warmth [] (warm_block 2) _ (or_introl eq_refl) A B).
  - exact (free_expansion 3 [20; 10] warmth [] (warm_block 3) _ (or_intror eq_refl) A' B').
Qed.
Lemma plastic_refuted : exists (n : nat) (references : list R) (C : constraints RNum) (cells : list (ecell RNum)) (l : load RNum) (s s' : mstate RNum) (v : nat -> R), closed_ok n C /\ Forall (cell_ok 3 n) cells /\ elastic_ok 3 cells /\
  Forall (fun c : ecell RNum => physical (ec_plast c)) (solid cells) /\ load_ok 3 n references cells l /\ state_ok 3 n C cells s /\ elastic_stress 3 C cells (ms_points s) (previous s) /\
  solve_load (N := RNum) 3 n references C cells s l = Ok s' /\ work_of 3 references C cells l v = 40 /\ stress_work 3 C cells (ms_points s') v = 30.
Proof.
  destruct (yield_solves 4 2 2 1 ltac:(lra)) as (s' & E). exists 12%nat, temps, bonds, (body 2 1), (pull 4), (start 2), s', even.
  split; [exact bonds_ok|]. split; [apply body_ok|]. split; [apply body_elastic|]. split; [apply body_physical; lra|]. split; [apply pull_ok|]. split; [apply start_ok|]. split; [apply start_elastic|]. split; [exact E|].
  split; [rewrite pull_work; ring|]. rewrite (yield_work 2 1 4 2 s') by (lra || exact E). field.
Qed.
Lemma kinematic_refuted : exists (n : nat) (references : list R) (C : constraints RNum) (cells : list (ecell RNum)) (l : load RNum) (s s' : mstate RNum), closed_ok n C /\ Forall (cell_ok 3 n) cells /\
  Forall (fun c : ecell RNum => physical (ec_plast c)) (solid cells) /\ each_point cells (ms_points s) (fun _ _ p => regular 3 3 p) /\ load_ok 3 n references cells l /\ state_ok 3 n C cells s /\
  solve_load (N := RNum) 3 n references C cells s l = Ok s' /\ solve_load (N := RNum) 3 n references C cells s' l <> Ok s'.
Proof.
  destruct (yield_solves 12 3 1 0 ltac:(lra)) as (s' & E). exists 12%nat, temps, bonds, (body 1 0), (pull 12), (start 3), s'.
  split; [exact bonds_ok|]. split; [apply body_ok|]. split; [apply body_physical; lra|]. split; [apply start_regular; lra|]. split; [apply pull_ok|]. split; [apply start_ok|]. split; [exact E|]. exact (again_differs s' E).
Qed.
Lemma witness_stress : Forall (load_ok 3 12 temps (body 2 1)) [pull 1; pull 1] /\ state_ok 3 12 bonds (body 2 1) (start 2) /\ elastic_stress 3 bonds (body 2 1) (ms_points (start 2)) (previous (start 2)) /\
  below_yield 3 bonds (body 2 1) (ms_points (start 2)) (HeatSpec.entry (moved 1)) /\ isotropic_ok 3 (body 2 1) (ms_points (start 2)) /\ ld_thermal (pull 1) = Some warm.
Proof.
  split; [repeat (apply Forall_list; [apply pull_ok|]); apply Forall_nil|]. split; [apply start_ok|]. split; [apply start_elastic|]. split; [apply pull_below; lra|]. split; [|reflexivity].
  split; [|apply start_regular; lra]. pose proof (body_physical 2 1 ltac:(lra) ltac:(lra)) as P. rewrite Forall_forall in P. apply Forall_forall. intros c I. split; [apply P; exact I|]. apply filter_In in I. destruct I as [I _].
  assert (F : Forall (fun c : ecell RNum => ec_plast c = steel 2 1) (body 2 1)).
  { apply Forall_app. split; [apply Forall_forall; intros c' I'; apply in_map_iff in I'; destruct I' as (k & <- & _); reflexivity|]. repeat (apply Forall_list; [reflexivity|]). apply Forall_nil. }
  rewrite Forall_forall in F. rewrite (F c I). reflexivity.
Qed.
