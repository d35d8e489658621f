(** ParallelElasticModel.v -- the mechanical problem on several processes.

    Modelled: source/MechanicalOperator.cc (assemble_matrix:175-285, assemble_rhs:290-487) and source/MechanicalPhysics.cc (solve:472-541,
    compute_stress:545-629) run by every process on the cells it owns; compress(VectorOperation::add), which adds what the processes assembled (283, 486);
    has_melted flags per process (313-342); the stress variables of a process (112-127), indexed by its cells, of which it updates those it owns.

    Simplifications: a process sees all cells of the mesh with the flag of those it owns (the artificial cells of deal.II are left out by the code as those
    are that others own); vectors are global lists (the ghost values of the displacement are up to date after update_ghost_values, 531); norms and products of
    the linear solver are those of the global vectors.  The order of additions is not modelled. *)
From Coq Require Import ZArith NArith Bool List.
From Verif Require Import Base CellModel InputModel HeatModel ElementModel StressModel ElasticModel.
Import ListNotations.

Section ParallelElastic.
  Context {N : Num}.
  Local Open Scope num_scope.

  (** The cells as seen by a process that owns the cells at the positions [own]. *)
  Definition owned_by (own : nat -> bool) (pc : nat * ecell N) : ecell N :=
    let c := snd pc in
    mkec (mkjc (own (fst pc)) (j_thermal (ec_joint c)) (j_mech (ec_joint c))) (ec_material c) (ec_comps c) (ec_dofs c) (ec_quads c) (ec_tdofs c) (ec_plast c) (ec_alpha c) (ec_density c).
  Definition seen_by (own : nat -> bool) (cells : list (ecell N)) : list (ecell N) := map (owned_by own) (numbered cells).

  (** MechanicalOperator.cc:273-283: every process adds the entries of its cells *)
  Definition shared_matrix (C : constraints N) (cells : list (ecell N)) (owns : list (nat -> bool)) : matrix N :=
    flat_map (fun own => assemble_matrix C (seen_by own cells)) owns.
  (** 290-487; [ts]: temperatures and flags of the processes *)
  Definition add_rhs (dim n : nat) (references : list N) (forces : list (ecell N -> list N)) (C : constraints N) (cells : list (ecell N)) (rhs : list N) (ot : (nat -> bool) * thermal_data N) : res (list N) :=
    do b <- assemble_rhs dim n references (Some (snd ot)) forces C (seen_by (fst ot) cells);
    Ok (map2 (fun x y => x + y) rhs b).
  Definition shared_rhs (dim n : nat) (references : list N) (forces : list (ecell N -> list N)) (C : constraints N) (cells : list (ecell N)) (ots : list ((nat -> bool) * thermal_data N)) : res (list N) :=
    foldR (add_rhs dim n references forces C cells) ots (repeat (nZ 0) n).

  (** Stress variables of the processes; displacement of the previous solve. *)
  Record pstate := mkps { ps_points : list (list (list (point N))); ps_old : option (list N) }.
  (** MechanicalPhysics.cc:472-541 *)
  Definition shared_solve (dim n : nat) (C : constraints N) (cells : list (ecell N)) (owns : list (nat -> bool)) (b : list N) (iterate : nat -> list N) (s : pstate) : res pstate :=
    do u <- displacement n C (shared_matrix C cells owns) b iterate;
    let increment := match ps_old s with None => u | Some v => map2 (fun p q => p - q) u v end in
    do pts <- mapR (fun op => compute_stress (map (stress_cell dim increment) (seen_by (fst op) cells)) (snd op)) (combine owns (ps_points s));
    Ok (mkps pts (Some u)).
  (** A load, with the temperatures and flags of each process. *)
  Record pload := mkpload { pl_thermal : list (thermal_data N); pl_forces : list (ecell N -> list N); pl_iterate : nat -> list N }.
  Definition shared_solve_load (dim n : nat) (references : list N) (C : constraints N) (cells : list (ecell N)) (owns : list (nat -> bool)) (s : pstate) (l : pload) : res pstate :=
    do b <- shared_rhs dim n references (pl_forces l) C cells (combine owns (pl_thermal l));
    shared_solve dim n C cells owns b (pl_iterate l) s.
  Definition shared_solve_loads (dim n : nat) (references : list N) (C : constraints N) (cells : list (ecell N)) (owns : list (nat -> bool)) (loads : list pload) (s : pstate) : res pstate :=
    foldR (shared_solve_load dim n references C cells owns) loads s.
End ParallelElastic.
Arguments pstate : clear implicits.
Arguments pload : clear implicits.
