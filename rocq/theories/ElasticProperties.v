(** ElasticProperties.v -- C72 and C73: the mechanical problem and its stress. *)
From Coq Require Import Reals List Bool Lia Lra.
From Verif Require Import Base AssimilationSpec InputModel CellModel HeatModel HeatSpec HeatProofs StressModel StressSpec ElementModel ElementSpec ElasticModel ElasticSpec ElasticProofs4 ElasticProofs5 ElasticProofs7 ElasticProofs9 ElasticExamples ElasticProofs10 ElasticProofs11 ElasticProofs12.
Import ListNotations.
Local Open Scope R_scope.

(** * C72: the displacement *)
(** A displacement that is returned satisfies the principle of virtual work for every virtual displacement, up to 1e-12 of the load, and obeys the constraints. *)
Theorem C72_solve : forall (d n : nat) (references : list R) (C : constraints RNum) (cells : list (ecell RNum)) (l : load RNum) (s s' : mstate RNum), d = 2%nat \/ d = 3%nat -> closed_ok n C -> Forall (cell_ok d n) cells ->
  load_ok d n references cells l -> state_ok d n C cells s -> solve_load (N := RNum) d n references C cells s l = Ok s' ->
  exists u, ms_old s' = Some u /\ conforms n C u /\
    forall v, Rabs (internal_work d C cells v (HeatSpec.entry u) - work_of d references C cells l v) <= accuracy * load_size n (work_of d references C cells l) * size n v.
Proof. exact (fun d n references C cells l s s' Hd Cok H => load_solution d n references C cells Hd Cok H l s s'). Qed.
Print Assumptions C72_solve.
(** Never undefined behaviour. *)
Theorem C72_outcome : forall (d n : nat) (references : list R) (C : constraints RNum) (cells : list (ecell RNum)) (l : load RNum) (s : mstate RNum), d = 2%nat \/ d = 3%nat -> closed_ok n C -> Forall (cell_ok d n) cells ->
  load_ok d n references cells l -> state_ok d n C cells s -> solve_load (N := RNum) d n references C cells s l <> UB.
Proof. exact (fun d n references C cells l s Hd Cok H => load_outcome d n references C cells Hd Cok H l s). Qed.
Print Assumptions C72_outcome.
(** Constraints: hanging nodes and the clamped faces of solid cells, in a form every solve accepts. *)
Theorem C72_constraints : forall (n : nat) (hanging : constraints RNum) (types : list BinNums.N) (faces : list bface), closed_ok n hanging -> Forall (fun f => Forall (fun j => (j < n)%nat) (bf_dofs f)) faces ->
  closed_ok n (mechanical_constraints (N := RNum) hanging types faces) /\
  forall k, In k (map fst (mechanical_constraints (N := RNum) hanging types faces)) <-> In k (map fst hanging) \/ on_clamped types faces k.
Proof. exact (fun n hanging types faces HO FO => conj (closed_result n hanging types faces HO FO) (fun k => iff_trans (closed_keys n hanging types faces HO k) (or_iff_compat_l _ (clamped_spec types faces k)))). Qed.
Print Assumptions C72_constraints.
(** The clamped faces do not move and the displacement is continuous at hanging nodes. *)
Theorem C72_clamped : forall (n : nat) (hanging : constraints RNum) (types : list BinNums.N) (faces : list bface) (u : list R), closed_ok n hanging -> Forall (fun f => Forall (fun j => (j < n)%nat) (bf_dofs f)) faces ->
  conforms n (mechanical_constraints (N := RNum) hanging types faces) u ->
  (forall k, on_clamped types faces k -> ~ In k (map fst hanging) -> HeatSpec.entry u k = 0) /\ (forall j, (j < n)%nat -> HeatSpec.entry u j = nodal hanging (HeatSpec.entry u) j).
Proof. exact clamped_values. Qed.
Print Assumptions C72_clamped.
(** The system matrix is symmetric and positive semi-definite: its kernel are rigid displacements that are zero in constrained rows. *)
Theorem C72_symmetric : forall (n d : nat) (C : constraints RNum) (cells : list (ecell RNum)) (z x : list R), closed_ok n C -> Forall (cell_ok d n) cells ->
  ip (HeatSpec.entry z) (mvmult (N := RNum) n (assemble_matrix (N := RNum) C cells) x) = ip (HeatSpec.entry x) (mvmult (N := RNum) n (assemble_matrix (N := RNum) C cells) z).
Proof. exact matrix_symmetric. Qed.
Print Assumptions C72_symmetric.
Theorem C72_semidefinite : forall (n d : nat) (C : constraints RNum) (cells : list (ecell RNum)) (z : list R), closed_ok n C -> Forall (cell_ok d n) cells -> elastic_ok d cells ->
  0 <= ip (HeatSpec.entry z) (mvmult (N := RNum) n (assemble_matrix (N := RNum) C cells) z).
Proof. exact matrix_nonneg. Qed.
Print Assumptions C72_semidefinite.
Theorem C72_kernel : forall (n d : nat) (C : constraints RNum) (cells : list (ecell RNum)) (z : list R), closed_ok n C -> Forall (cell_ok d n) cells -> elastic_ok d cells ->
  ip (HeatSpec.entry z) (mvmult (N := RNum) n (assemble_matrix (N := RNum) C cells) z) = 0 ->
  (forall c q a b, In c (solid cells) -> In q (ec_quads c) -> (a < d)%nat -> (b < d)%nat -> cell_strain C c q (HeatSpec.entry z) a b = 0) /\
  (forall c i k, In c (solid cells) -> (i < List.length (ec_dofs c))%nat -> (k < List.length (ec_dofs c))%nat -> local_entry (N := RNum) c k k <> 0 -> In (nth i (ec_dofs c) O) (map fst C) -> HeatSpec.entry z (nth i (ec_dofs c) O) = 0).
Proof. exact matrix_definite. Qed.
Print Assumptions C72_kernel.
(** Exact solutions have the same strain, and the computed one is close to them in energy. *)
Theorem C72_unique : forall (d n : nat) (C : constraints RNum) (cells : list (ecell RNum)) (work : (nat -> R) -> R) (u w : nat -> R), Forall (cell_ok d n) cells -> elastic_ok d cells ->
  balances d C cells work u -> balances d C cells work w ->
  forall c q a b, In c (solid cells) -> In q (ec_quads c) -> (a < d)%nat -> (b < d)%nat -> cell_strain C c q u a b = cell_strain C c q w a b.
Proof. exact balance_unique. Qed.
Print Assumptions C72_unique.
Theorem C72_error : forall (d n : nat) (references : list R) (C : constraints RNum) (cells : list (ecell RNum)) (l : load RNum) (s s' : mstate RNum) (w : nat -> R), d = 2%nat \/ d = 3%nat -> closed_ok n C -> Forall (cell_ok d n) cells ->
  load_ok d n references cells l -> state_ok d n C cells s -> solve_load (N := RNum) d n references C cells s l = Ok s' -> balances d C cells (work_of d references C cells l) w ->
  exists u, ms_old s' = Some u /\
    internal_work d C cells (fun j => HeatSpec.entry u j - w j) (fun j => HeatSpec.entry u j - w j) <= accuracy * load_size n (work_of d references C cells l) * size n (fun j => HeatSpec.entry u j - w j).
Proof. exact energy_error. Qed.
Print Assumptions C72_error.
(** Free thermal expansion: alpha times the excess temperature in three dimensions, the plane strain value in two. *)
Theorem C72_expansion : forall (d : nat) (references : list R) (t : thermal_data RNum) (C : constraints RNum) (cells : list (ecell RNum)) (u : nat -> R), d = 2%nat \/ d = 3%nat -> elastic_ok d cells ->
  (forall pos c q a b, nth_error cells pos = Some c -> takes_part c = true -> In q (ec_quads c) -> (a < d)%nat -> (b < d)%nat ->
     ElementSpec.gradient (List.length (ec_dofs c)) (ec_comps c) q (local C u c) a b =
     if Nat.eqb a b then (3 * lame1 (ec_plast c) + 2 * lame2 (ec_plast c)) / (INR d * lame1 (ec_plast c) + 2 * lame2 (ec_plast c)) *
                         (ec_alpha c * excess (reference references (td_melted t) cells pos c) (cell_temperature t c) q) else 0) ->
  balances d C cells (thermal_work d references t C cells) u.
Proof. exact free_expansion. Qed.
Print Assumptions C72_expansion.
(** No load, no displacement. *)
Theorem C72_no_load : forall (d n : nat) (references : list R) (C : constraints RNum) (cells : list (ecell RNum)) (l : load RNum) (s : mstate RNum), d = 2%nat \/ d = 3%nat -> closed_ok n C -> Forall (cell_ok d n) cells ->
  load_ok d n references cells l -> state_ok d n C cells s -> (forall v, work_of d references C cells l v = 0) ->
  exists s', solve_load (N := RNum) d n references C cells s l = Ok s' /\ ms_old s' = Some (repeat 0 n).
Proof. exact (fun d n references C cells l s Hd Cok H => load_none d n references C cells Hd Cok H l s). Qed.
Print Assumptions C72_no_load.
(** A tenth of the number of unknowns is the limit of the iterations: with fewer than ten unknowns every load makes the solve fail, even one with an exact solution. *)
Theorem C72_small : forall (d n : nat) (references : list R) (C : constraints RNum) (cells : list (ecell RNum)) (l : load RNum) (s : mstate RNum), d = 2%nat \/ d = 3%nat -> closed_ok n C -> Forall (cell_ok d n) cells ->
  load_ok d n references cells l -> state_ok d n C cells s -> (n < 10)%nat -> 0 < load_size n (work_of d references C cells l) -> solve_load (N := RNum) d n references C cells s l = Throw.
Proof. exact (fun d n references C cells l s Hd Cok H => load_small d n references C cells Hd Cok H l s). Qed.
Print Assumptions C72_small.
(** Gravity: on a virtual displacement each solid cell works with its weight, downwards along the last axis. *)
Theorem C72_gravity : forall (d : nat) (C : constraints RNum) (cells : list (ecell RNum)) (v : nat -> R), d = 2%nat \/ d = 3%nat ->
  force_work d [gravity (N := RNum) d] C cells v = Sum (solid cells) (fun c => Sum (ec_quads c) (fun q : quad RNum => - (ec_density c * (980665 / 100000)) * cell_value C c q v (d - 1) * q_jxw q)).
Proof. exact gravity_work. Qed.
Print Assumptions C72_gravity.
Theorem C72_solvable_refuted : exists (cells : list (ecell RNum)) (l : load RNum) (s : mstate RNum) (w : list R), load_ok 3 1 temps cells l /\ state_ok 3 1 [] cells s /\ elastic_ok 3 cells /\
  balances 3 [] cells (work_of 3 temps [] cells l) (HeatSpec.entry w) /\ solve_load (N := RNum) 3 1 temps [] cells s l = Throw.
Proof. exact (let '(conj a (conj b (conj c (conj e (conj _ f))))) := tiny_throws in ex_intro _ tiny (ex_intro _ tug (ex_intro _ _ (ex_intro _ [1] (conj a (conj b (conj c (conj e f)))))))). Qed.
Print Assumptions C72_solvable_refuted.
(** The application gives reference temperatures in every run; without a thermal problem there is no temperature to compare them with. *)
Theorem C72_mechanical_only_refuted : forall (d n : nat) (solidus : list R) (initial : R) (C : constraints RNum) (cells : list (ecell RNum)) (s : mstate RNum) (l : load RNum), ld_thermal l = None ->
  solve_load (N := RNum) d n (solidus ++ [initial]) C cells s l = UB.
Proof. exact (fun d n solidus initial C cells s l => mechanical_only d n (solidus ++ [initial]) C cells s l (fun E => app_cons_not_nil solidus [] initial (eq_sym E))). Qed.
Print Assumptions C72_mechanical_only_refuted.
Example C72_witness : closed_ok 12 bonds /\ Forall (cell_ok 3 12) (body 2 1) /\ elastic_ok 3 (body 2 1) /\ load_ok 3 12 temps (body 2 1) (pull 1) /\ state_ok 3 12 bonds (body 2 1) (start 2) /\
  exists s', solve_load (N := RNum) 3 12 temps bonds (body 2 1) (start 2) (pull 1) = Ok s' /\ ms_old s' = Some (moved 1).
Proof. exact witness_solve. Qed.
Example C72_witness_constraints : mechanical_constraints (N := RNum) [(2%nat, [(0%nat, 1/2); (1%nat, 1/2)])] [clamped; 0%N] [mkbf true 0 [0; 2]%nat; mkbf false 0 [3]%nat; mkbf true 1 [4]%nat] = [(2%nat, [(1%nat, 1/2)]); (0%nat, [])].
Proof. exact clamp_case. Qed.
Example C72_witness_expansion : elastic_ok 2 (warm_block 2) /\ balances 2 [] (warm_block 2) (thermal_work 2 [20; 10] warmth [] (warm_block 2)) (fun _ => 11/8 * (2/5)) /\
  elastic_ok 3 (warm_block 3) /\ balances 3 [] (warm_block 3) (thermal_work 3 [20; 10] warmth [] (warm_block 3)) (fun _ => 2/5).
Proof. exact witness_expansion. Qed.

(** * C73: the stress *)
(** The displacement depends on the last load only, whatever happened before. *)
Theorem C73_last_load : forall (d n : nat) (references : list R) (C : constraints RNum) (cells : list (ecell RNum)) (loads : list (load RNum)) (l : load RNum) (s s' : mstate RNum), d = 2%nat \/ d = 3%nat -> closed_ok n C -> Forall (cell_ok d n) cells ->
  Forall (load_ok d n references cells) (loads ++ [l]) -> state_ok d n C cells s -> solve_loads (N := RNum) d n references C cells (loads ++ [l]) s = Ok s' ->
  exists s1 u, solve_load (N := RNum) d n references C cells s l = Ok s1 /\ ms_old s1 = Some u /\ ms_old s' = Some u.
Proof. exact (fun d n references C cells loads l s s' Hd Cok H => loads_last d n C cells Hd Cok H references loads l s s'). Qed.
Print Assumptions C73_last_load.
(** As long as no displacement reaches the yield limit the stress is the elastic stress of the present displacement, after any number of solves, and the yield
    surface stays where it is. *)
Theorem C73_elastic : forall (d n : nat) (references : list R) (C : constraints RNum) (cells : list (ecell RNum)) (loads : list (load RNum)) (s s' : mstate RNum), d = 2%nat \/ d = 3%nat -> closed_ok n C -> Forall (cell_ok d n) cells ->
  Forall (load_ok d n references cells) loads -> state_ok d n C cells s -> elastic_stress d C cells (ms_points s) (previous s) ->
  (forall l s1 u, In l loads -> solve_load (N := RNum) d n references C cells s l = Ok s1 -> ms_old s1 = Some u -> below_yield d C cells (ms_points s) (HeatSpec.entry u)) ->
  solve_loads (N := RNum) d n references C cells loads s = Ok s' -> elastic_stress d C cells (ms_points s') (previous s') /\ same_limits cells (ms_points s) (ms_points s').
Proof. exact (fun d n references C cells loads s s' Hd Cok H => loads_elastic d n C cells Hd Cok H references loads s s'). Qed.
Print Assumptions C73_elastic.
(** Then the stress balances the last load. *)
Theorem C73_equilibrium : forall (d n : nat) (references : list R) (C : constraints RNum) (cells : list (ecell RNum)) (loads : list (load RNum)) (l : load RNum) (s s' : mstate RNum), d = 2%nat \/ d = 3%nat -> closed_ok n C -> Forall (cell_ok d n) cells ->
  Forall (load_ok d n references cells) (loads ++ [l]) -> state_ok d n C cells s -> elastic_stress d C cells (ms_points s) (previous s) ->
  (forall l' s1 u, In l' (loads ++ [l]) -> solve_load (N := RNum) d n references C cells s l' = Ok s1 -> ms_old s1 = Some u -> below_yield d C cells (ms_points s) (HeatSpec.entry u)) ->
  solve_loads (N := RNum) d n references C cells (loads ++ [l]) s = Ok s' ->
  forall v, Rabs (stress_work d C cells (ms_points s') v - work_of d references C cells l v) <= accuracy * load_size n (work_of d references C cells l) * size n v.
Proof. exact (fun d n references C cells loads l s s' Hd Cok H => loads_equilibrium d n references C cells Hd Cok H loads l s s'). Qed.
Print Assumptions C73_equilibrium.
(** The stress without its thermal part balances the body forces. *)
Theorem C73_mechanical : forall (d n : nat) (references : list R) (C : constraints RNum) (cells : list (ecell RNum)) (loads : list (load RNum)) (l : load RNum) (t : thermal_data RNum) (s s' : mstate RNum), d = 2%nat \/ d = 3%nat -> closed_ok n C -> Forall (cell_ok d n) cells ->
  ld_thermal l = Some t -> Forall (load_ok d n references cells) (loads ++ [l]) -> state_ok d n C cells s -> elastic_stress d C cells (ms_points s) (previous s) ->
  (forall l' s1 u, In l' (loads ++ [l]) -> solve_load (N := RNum) d n references C cells s l' = Ok s1 -> ms_old s1 = Some u -> below_yield d C cells (ms_points s) (HeatSpec.entry u)) ->
  solve_loads (N := RNum) d n references C cells (loads ++ [l]) s = Ok s' ->
  forall v, Rabs (mechanical_work d references t C cells (ms_points s') v - force_work d (ld_forces l) C cells v) <= accuracy * load_size n (work_of d references C cells l) * size n v.
Proof. exact (fun d n references C cells loads l t s s' Hd Cok H => loads_mechanical d n references C cells Hd Cok H loads l t s s'). Qed.
Print Assumptions C73_mechanical.
(** In general the stress misses the load by the work of the plastic correction: there is no second solve. *)
Theorem C73_defect : forall (d n : nat) (references : list R) (C : constraints RNum) (cells : list (ecell RNum)) (l : load RNum) (s s' : mstate RNum) (u : list R), d = 2%nat \/ d = 3%nat -> closed_ok n C -> Forall (cell_ok d n) cells ->
  load_ok d n references cells l -> state_ok d n C cells s -> elastic_stress d C cells (ms_points s) (previous s) -> solve_load (N := RNum) d n references C cells s l = Ok s' -> ms_old s' = Some u ->
  forall v, stress_work d C cells (ms_points s') v = internal_work d C cells v (HeatSpec.entry u) - correction_work d C cells (ms_points s) (HeatSpec.entry u) v.
Proof. exact (fun d n references C cells l s s' u Hd Cok H => load_defect d n references C cells Hd Cok H l s s' u). Qed.
Print Assumptions C73_defect.
Theorem C73_plastic_refuted : exists (n : nat) (references : list R) (C : constraints RNum) (cells : list (ecell RNum)) (l : load RNum) (s s' : mstate RNum) (v : nat -> R), closed_ok n C /\ Forall (cell_ok 3 n) cells /\ elastic_ok 3 cells /\
  Forall (fun c : ecell RNum => physical (ec_plast c)) (solid cells) /\ load_ok 3 n references cells l /\ state_ok 3 n C cells s /\ elastic_stress 3 C cells (ms_points s) (previous s) /\
  solve_load (N := RNum) 3 n references C cells s l = Ok s' /\ work_of 3 references C cells l v = 40 /\ stress_work 3 C cells (ms_points s') v = 30.
Proof. exact plastic_refuted. Qed.
Print Assumptions C73_plastic_refuted.
(** The same load again: nothing changes if hardening is isotropic, *)
Theorem C73_repeat : forall (d n : nat) (references : list R) (C : constraints RNum) (cells : list (ecell RNum)) (l : load RNum) (s s' : mstate RNum), d = 2%nat \/ d = 3%nat -> closed_ok n C -> Forall (cell_ok d n) cells ->
  load_ok d n references cells l -> state_ok d n C cells s -> isotropic_ok d cells (ms_points s) -> solve_load (N := RNum) d n references C cells s l = Ok s' -> solve_load (N := RNum) d n references C cells s' l = Ok s'.
Proof. exact (fun d n references C cells l s s' Hd Cok H => load_repeat d n references C cells Hd Cok H l s s'). Qed.
Print Assumptions C73_repeat.
(** but the stress goes on changing if it is kinematic. *)
Theorem C73_kinematic_refuted : exists (n : nat) (references : list R) (C : constraints RNum) (cells : list (ecell RNum)) (l : load RNum) (s s' : mstate RNum), closed_ok n C /\ Forall (cell_ok 3 n) cells /\
  Forall (fun c : ecell RNum => physical (ec_plast c)) (solid cells) /\ each_point cells (ms_points s) (fun _ _ p => regular 3 3 p) /\ load_ok 3 n references cells l /\ state_ok 3 n C cells s /\
  solve_load (N := RNum) 3 n references C cells s l = Ok s' /\ solve_load (N := RNum) 3 n references C cells s' l <> Ok s'.
Proof. exact kinematic_refuted. Qed.
Print Assumptions C73_kinematic_refuted.
(** Any history of solves, from any state: what the stress misses is what it missed at the start and what the return mapping took since; nothing of it is ever given back. *)
Theorem C73_imbalance : forall (d n : nat) (references : list R) (C : constraints RNum) (cells : list (ecell RNum)) (loads : list (load RNum)) (s s' : mstate RNum), d = 2%nat \/ d = 3%nat -> closed_ok n C -> Forall (cell_ok d n) cells ->
  Forall (load_ok d n references cells) loads -> state_ok d n C cells s -> solve_loads (N := RNum) d n references C cells loads s = Ok s' ->
  forall v, stress_work d C cells (ms_points s') v - internal_work d C cells v (previous s') =
            stress_work d C cells (ms_points s) v - internal_work d C cells v (previous s) - corrections d n references C cells loads s v.
Proof. exact (fun d n references C cells loads s s' Hd Cok H => loads_imbalance d n references C cells Hd Cok H loads s s'). Qed.
Print Assumptions C73_imbalance.
Theorem C73_history : forall (d n : nat) (references : list R) (C : constraints RNum) (cells : list (ecell RNum)) (loads : list (load RNum)) (l : load RNum) (s s' : mstate RNum), d = 2%nat \/ d = 3%nat -> closed_ok n C -> Forall (cell_ok d n) cells ->
  Forall (load_ok d n references cells) (loads ++ [l]) -> state_ok d n C cells s -> solve_loads (N := RNum) d n references C cells (loads ++ [l]) s = Ok s' ->
  forall v, Rabs (stress_work d C cells (ms_points s') v - (work_of d references C cells l v + imbalance d C cells s v - corrections d n references C cells (loads ++ [l]) s v)) <= accuracy * load_size n (work_of d references C cells l) * size n v.
Proof. exact (fun d n references C cells loads l s s' Hd Cok H => loads_work d n references C cells Hd Cok H loads l s s'). Qed.
Print Assumptions C73_history.
(** From any state, while no displacement reaches the yield limit, the stress at a point changes by the elastic stress of the change of the displacement. *)
Theorem C73_added : forall (d n : nat) (references : list R) (C : constraints RNum) (cells : list (ecell RNum)) (loads : list (load RNum)) (s s' : mstate RNum), d = 2%nat \/ d = 3%nat -> closed_ok n C -> Forall (cell_ok d n) cells ->
  Forall (load_ok d n references cells) loads -> state_ok d n C cells s ->
  (forall l s1, In l loads -> solve_load (N := RNum) d n references C cells s l = Ok s1 -> below_yield_after d C cells (ms_points s) (since s s1)) ->
  solve_loads (N := RNum) d n references C cells loads s = Ok s' -> stress_added d C cells (ms_points s) (ms_points s') (since s s') /\ same_limits cells (ms_points s) (ms_points s').
Proof. exact (fun d n references C cells loads s s' Hd Cok H => loads_added d n references C cells Hd Cok H loads s s'). Qed.
Print Assumptions C73_added.
(** A cell that solidifies next to solid ones gets stress zero at a displacement that is not zero: below the yield limit everywhere the stress misses half of the load. *)
Theorem C73_solidified_refuted : exists (n : nat) (references : list R) (C : constraints RNum) (c0 c1 : ecell RNum) (cells : list (ecell RNum)) (l : load RNum) (Y : R) (s s1 s2 s3 : mstate RNum) (v : nat -> R),
  takes_part c0 = false /\ takes_part c1 = true /\ closed_ok n C /\ Forall (cell_ok 3 n) (c0 :: cells) /\ Forall (cell_ok 3 n) (c1 :: cells) /\ elastic_ok 3 (c1 :: cells) /\
  load_ok 3 n references (c0 :: cells) l /\ load_ok 3 n references (c1 :: cells) l /\ state_ok 3 n C (c0 :: cells) s /\ elastic_stress 3 C (c0 :: cells) (ms_points s) (previous s) /\
  solve_load (N := RNum) 3 n references C (c0 :: cells) s l = Ok s1 /\
  s2 = mkms (N := RNum) ([mkpoint (N := RNum) (zero_tensor 3 3) (zero_tensor 3 3) Y] :: tl (ms_points s1)) (ms_old s1) /\ state_ok 3 n C (c1 :: cells) s2 /\
  solve_load (N := RNum) 3 n references C (c1 :: cells) s2 l = Ok s3 /\ below_yield_after 3 C (c1 :: cells) (ms_points s2) (since s2 s3) /\
  work_of 3 references C (c1 :: cells) l v = 2 /\ stress_work 3 C (c1 :: cells) (ms_points s3) v = 1.
Proof. exact solidified_refuted. Qed.
Print Assumptions C73_solidified_refuted.
Example C73_witness_history : Forall (load_ok 3 12 temps (body 2 1)) [pull 4; pull 4] /\ state_ok 3 12 bonds (body 2 1) (start 2) /\ (exists s', solve_loads (N := RNum) 3 12 temps bonds (body 2 1) [pull 4] (start 2) = Ok s') /\
  corrections 3 12 temps bonds (body 2 1) [pull 4] (start 2) even = 10.
Proof. exact witness_history. Qed.
Example C73_witness : Forall (load_ok 3 12 temps (body 2 1)) [pull 1; pull 1] /\ state_ok 3 12 bonds (body 2 1) (start 2) /\ elastic_stress 3 bonds (body 2 1) (ms_points (start 2)) (previous (start 2)) /\
  below_yield 3 bonds (body 2 1) (ms_points (start 2)) (HeatSpec.entry (moved 1)) /\ isotropic_ok 3 (body 2 1) (ms_points (start 2)) /\ ld_thermal (pull 1) = Some warm.
Proof. exact witness_stress. Qed.
