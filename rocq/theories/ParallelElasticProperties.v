(** ParallelElasticProperties.v -- C92.  Only statements, witnesses and assumptions. *)
From Coq Require Import Reals List Bool.
From Verif Require Import Base AssimilationSpec InputModel HeatModel HeatSpec ElementModel ElementSpec StressModel ElasticModel ElasticSpec ElasticExamples ParallelElasticModel ParallelElasticSpec ParallelElasticProofs ParallelElasticProofs2 ParallelElasticExamples.
Import ListNotations.
Local Open Scope R_scope.

(** The matrix that the processes assemble together acts like that of one process. *)
Theorem C92_matrix : forall d n (C : constraints RNum) (cells : list (ecell RNum)) (owns : list (nat -> bool)), closed_ok n C -> Forall (cell_ok d n) cells -> one_process cells -> shared cells owns ->
  forall x : list R, mvmult (N := RNum) n (shared_matrix C cells owns) x = mvmult (N := RNum) n (assemble_matrix C cells) x.
Proof. exact shared_vmult. Qed.
Print Assumptions C92_matrix.

(** So does the right hand side: each process has the flags of its own cells only, and temperatures at the nodes of its own cells. *)
Theorem C92_rhs : forall d n (C : constraints RNum) (cells : list (ecell RNum)) (owns : list (nat -> bool)), closed_ok n C -> Forall (cell_ok d n) cells -> one_process cells -> shared cells owns ->
  forall (references : list R) (t : thermal_data RNum) (forces : list (ecell RNum -> list R)) (ts : list (thermal_data RNum)), thermal_ok references t cells -> forces_ok d forces -> Forall2 (has_thermal cells t) owns ts ->
  shared_rhs (N := RNum) d n references forces C cells (combine owns ts) = assemble_rhs (N := RNum) d n references (Some t) forces C cells.
Proof. exact rhs_shared. Qed.
Print Assumptions C92_rhs.

(** Whole histories: for the same iterates of the linear solver, the processes together end in the state of one process, or throw with it. *)
Theorem C92_history : forall d n (C : constraints RNum) (cells : list (ecell RNum)) (owns : list (nat -> bool)) (references : list R), d = 2%nat \/ d = 3%nat -> closed_ok n C -> Forall (cell_ok d n) cells ->
  one_process cells -> shared cells owns ->
  forall (loads : list (load RNum)) (pls : list (pload RNum)) (s : mstate RNum) (ps : pstate RNum), Forall (load_ok d n references cells) loads -> Forall2 (has_load cells owns) loads pls ->
  state_ok d n C cells s -> together cells owns s ps ->
  same_result cells owns (solve_loads (N := RNum) d n references C cells loads s) (shared_solve_loads (N := RNum) d n references C cells owns pls ps).
Proof. exact shared_loads. Qed.
Print Assumptions C92_history.

(** Whatever the iterates: the displacement of the processes balances the last load. *)
Theorem C92_balance : forall d n references (C : constraints RNum) (cells : list (ecell RNum)) owns loads l pls pl s ps ps', d = 2%nat \/ d = 3%nat -> closed_ok n C -> Forall (cell_ok d n) cells ->
  one_process cells -> shared cells owns -> Forall (load_ok d n references cells) (loads ++ [l]) -> Forall2 (has_load cells owns) (loads ++ [l]) (pls ++ [pl]) -> state_ok d n C cells s -> together cells owns s ps ->
  shared_solve_loads (N := RNum) d n references C cells owns (pls ++ [pl]) ps = Ok ps' ->
  exists u, ps_old ps' = Some u /\ conforms n C u /\
    forall v, Rabs (internal_work d C cells v (HeatSpec.entry u) - work_of d references C cells l v) <= accuracy * load_size n (work_of d references C cells l) * size n v.
Proof. exact shared_balance. Qed.
Print Assumptions C92_balance.

(** Twelve cells shared by two processes, loaded until they yield. *)
Theorem C92_case : closed_ok 12 bonds /\ Forall (cell_ok 3 12) (body 1 1) /\ one_process (body 1 1) /\ shared (body 1 1) halves /\ load_ok 3 12 temps (body 1 1) (pull 4) /\ state_ok 3 12 bonds (body 1 1) (start 2) /\
  has_load (body 1 1) halves (pull 4) (pull_together 4) /\ together (body 1 1) halves (start 2) (start_together 2) /\
  exists s1 s2, solve_loads (N := RNum) 3 12 temps bonds (body 1 1) [pull 4] (start 2) = Ok s1 /\ shared_solve_loads (N := RNum) 3 12 temps bonds (body 1 1) halves [pull_together 4] (start_together 2) = Ok s2.
Proof. exact shared_case. Qed.
Print Assumptions C92_case.
