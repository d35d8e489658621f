(** ElasticModel.v -- the mechanical problem as a whole: constraints, system matrix, right hand side, solution, strain increments and stress.

    Modelled: source/MechanicalPhysics.cc (setup_dofs:100-128, update_rhs:132-154, solve:472-541, compute_stress:545-629),
    source/MechanicalOperator.cc (assemble_matrix:175-285, assemble_rhs:290-487), application/adamantine.hh:940-955, 1289-1343 (how it is called).

    From deal.II: degrees of freedom, shape functions, JxW and hanging node constraints (arguments); interpolate_boundary_values, AffineConstraints (close,
    distribute_local_to_global, distribute) and SolverControl as documented.  The iterates of the conjugate gradient method are an argument; the residual it
    checks is taken to be the residual of the iterate.  One process; the order of the additions is not modelled.  Element matrices, loads and the
    update of the stress at a point are those of ElementModel and StressModel. *)
From Coq Require Import ZArith NArith Bool List.
From Verif Require Import Base CellModel InputModel HeatModel ElementModel StressModel.
Import ListNotations.

Section Elastic.
  Context {N : Num}.
  Local Open Scope num_scope.

  (** A cell: where it is active, material id, component and global number of its degrees of freedom, quadrature points, degrees of freedom of the
      temperature, Lame and plastic parameters, thermal expansion coefficient, density. *)
  Record ecell := mkec { ec_joint : joint_cell; ec_material : nat; ec_comps : list nat; ec_dofs : list nat; ec_quads : list (quad N); ec_tdofs : list nat;
                         ec_plast : plasticity N; ec_alpha : N; ec_density : N }.
  (** ActiveFEIndexEqualTo(0, locally owned) *)
  Definition takes_part (c : ecell) : bool := j_owned (ec_joint c) && j_mech (ec_joint c).

  (** ** Constraints (MechanicalPhysics.cc:104-124) *)
  (** A face at the boundary of the mesh: its cell is mechanically active, boundary id, degrees of freedom. *)
  Record bface := mkbf { bf_active : bool; bf_id : nat; bf_dofs : list nat }.
  (** interpolate_boundary_values with the zero function: lines without entries, for degrees of freedom that are not constrained yet. *)
  Definition clamp (C : constraints N) (j : nat) : constraints N := match line_of C j with None => C ++ [(j, [])] | Some _ => C end.
  Definition clamped_face (types : list BinNums.N) (f : bface) : bool := bf_active f && existsb (Nat.eqb (bf_id f)) (get_boundary_ids types clamped).
  Definition clamped_dofs (types : list BinNums.N) (faces : list bface) : list nat := flat_map bf_dofs (filter (clamped_face types) faces).
  (** AffineConstraints::close: entries that are constrained themselves are replaced.  Simplification: one round, because hanging nodes do not depend on
      hanging nodes. *)
  Definition close (C : constraints N) : constraints N :=
    map (fun e => (fst e, flat_map (fun w => match line_of C (fst w) with None => [w] | Some l => map (fun v => (fst v, snd w * snd v)) l end) (snd e))) C.
  Definition mechanical_constraints (hanging : constraints N) (types : list BinNums.N) (faces : list bface) : constraints N :=
    close (fold_left clamp (clamped_dofs types faces) hanging).

  (** ** Matrix (MechanicalOperator.cc:175-273): entries to be added (compress(add)) *)
  Definition matrix := list (nat * nat * N).
  Definition local_entry (c : ecell) (i j : nat) : N := matrix_entry (lame1 (ec_plast c)) (lame2 (ec_plast c)) (ec_comps c) (ec_quads c) i j.
  Definition targets (C : constraints N) (j : nat) : list (nat * N) := match line_of C j with None => [(j, nZ 1)] | Some l => l end.
  (** What distribute_local_to_global puts on the diagonal of a constrained row: the diagonal entry of the element matrix or, if that is zero, the average. *)
  Definition average_diagonal (c : ecell) : N :=
    fold_left (fun s i => s + nabs (local_entry c i i)) (seq 0 (List.length (ec_dofs c))) (nZ 0) / nofZ N (Z.of_nat (List.length (ec_dofs c))).
  Definition constrained_diagonal (c : ecell) (i : nat) : N :=
    let a := nabs (local_entry c i i) in if a =? nZ 0 then average_diagonal c else a.
  Definition distribute_matrix (C : constraints N) (c : ecell) : matrix :=
    flat_map (fun ig => flat_map (fun jg => flat_map (fun wi => map (fun wj => (fst wi, fst wj, snd wi * local_entry c (fst ig) (fst jg) * snd wj))
      (targets C (snd jg))) (targets C (snd ig))) (numbered (ec_dofs c))) (numbered (ec_dofs c)) ++
    flat_map (fun ig => match line_of C (snd ig) with None => [] | Some _ => [(snd ig, snd ig, constrained_diagonal c (fst ig))] end) (numbered (ec_dofs c)).
  Definition assemble_matrix (C : constraints N) (cells : list ecell) : matrix := flat_map (distribute_matrix C) (filter takes_part cells).
  (** vmult *)
  Definition mvmult (n : nat) (A : matrix) (x : list N) : list N :=
    fold_left (fun d e => vadd d (fst (fst e)) (snd e * vget x (snd (fst e)))) A (repeat (nZ 0) n).

  (** ** Right hand side (MechanicalOperator.cc:290-487) *)
  Definition distribute_vector (C : constraints N) (c : ecell) (f : nat -> N) (rhs : list N) : list N :=
    fold_left (fun r ig => write_dof C r (snd ig, f (fst ig))) (numbered (ec_dofs c)) rhs.
  (** Temperature and melted flags (update_temperature:159-170). *)
  Record thermal_data := mktd { td_temperature : list N; td_melted : list bool }.
  (** 303-430, of the cell at a position *)
  Definition thermal_cell_rhs (references : list N) (t : thermal_data) (C : constraints N) (joint : list joint_cell) (rhs : list N) (pc : nat * ecell) : res (list N) :=
    let c := snd pc in
    if takes_part c then
      do reference <- reference_temperature references (td_melted t) joint (fst pc) (ec_material c);
      Ok (distribute_vector C c (thermal_load (lame1 (ec_plast c)) (lame2 (ec_plast c)) (ec_alpha c) reference (map (vget (td_temperature t)) (ec_tdofs c)) (ec_comps c) (ec_quads c)) rhs)
    else Ok rhs.
  (** 432-478: the body forces of a cell are added; [forces]: BodyForce::eval *)
  Definition body_cell_rhs (dim : nat) (forces : list (ecell -> list N)) (C : constraints N) (rhs : list N) (c : ecell) : list N :=
    distribute_vector C c (body_load (total_force dim (map (fun f => f c) forces)) (ec_comps c) (ec_quads c)) rhs.
  (** Without update_temperature _thermal_dof_handler is null: dereferenced as soon as there are reference temperatures. *)
  Definition assemble_rhs (dim n : nat) (references : list N) (t : option thermal_data) (forces : list (ecell -> list N)) (C : constraints N) (cells : list ecell) : res (list N) :=
    do rhs <- (if Nat.ltb 0 (List.length references) then
                 match t with None => UB | Some t => foldR (thermal_cell_rhs references t C (map ec_joint cells)) (numbered cells) (repeat (nZ 0) n) end
               else Ok (repeat (nZ 0) n));
    Ok (if Nat.ltb 0 (List.length forces) then fold_left (body_cell_rhs dim forces C) (filter takes_part cells) rhs else rhs).
  (** GravityForce::eval (BodyForce.cc:22-34) *)
  Definition gravity (dim : nat) (c : ecell) : list N := gravity_force dim (ec_density c).

  (** ** solve (MechanicalPhysics.cc:472-541) *)
  Definition l2_norm (v : list N) : N := nsqrt N (fold_left (fun s x => s + x * x) v (nZ 0)).
  Definition residual (n : nat) (A : matrix) (b x : list N) : list N := map2 (fun p q => p - q) b (mvmult n A x).
  (** SolverControl::check before the first iteration and after each of them; [iterate k] is what iteration k+1 gives *)
  Fixpoint cg (n : nat) (A : matrix) (b : list N) (tol : N) (iterate : nat -> list N) (left k : nat) (x : list N) : res (list N) :=
    if l2_norm (residual n A b x) <=? tol then Ok x else
    match left with O => Throw | S left' => cg n A b tol iterate left' (S k) (iterate k) end.
  (** 501-506 *)
  Definition max_iter (n : nat) : nat := Nat.div n 10.
  Definition tolerance (b : list N) : N := nZ 1 / nZ 1000000000000 * l2_norm b.
  (** AffineConstraints::distribute *)
  Definition distribute_constraints (C : constraints N) (x : list N) : list N := map (read_dof C x) (seq 0 (List.length x)).
  Definition displacement (n : nat) (C : constraints N) (A : matrix) (b : list N) (iterate : nat -> list N) : res (list N) :=
    do x <- cg n A b (tolerance b) iterate (max_iter n) 0 (repeat (nZ 0) n);
    Ok (distribute_constraints C x).

  (** get_function_symmetric_gradients at a quadrature point (567-568) *)
  Definition grad_entry (comps : list nat) (q : quad N) (u : list N) (a b : nat) : N :=
    fold_left (fun s ix => if Nat.eqb (comp comps (fst ix)) a then s + snd ix * sgrad q (fst ix) b else s) (numbered u) (nZ 0).
  Definition pairs (dim : nat) : list (nat * nat) := if Nat.eqb dim 2 then [(0, 1)]%nat else if Nat.eqb dim 3 then [(0, 1); (0, 2); (1, 2)]%nat else [].
  Definition sym_gradient (dim : nat) (comps : list nat) (q : quad N) (u : list N) : sym N :=
    mksym (map (fun a => grad_entry comps q u a a) (seq 0 dim))
          (map (fun ab => (grad_entry comps q u (fst ab) (snd ab) + grad_entry comps q u (snd ab) (fst ab)) / nZ 2) (pairs dim)).
  Definition stress_cell (dim : nat) (u : list N) (c : ecell) : mech_cell N :=
    mkmc (takes_part c) (ec_plast c) (map (fun q => sym_gradient dim (ec_comps c) q (map (vget u) (ec_dofs c))) (ec_quads c)).

  (** Plastic variable, stress and back stress at the quadrature points; displacement of the previous solve. *)
  Record mstate := mkms { ms_points : list (list (point N)); ms_old : option (list N) }.
  Definition solve (dim n : nat) (C : constraints N) (cells : list ecell) (b : list N) (iterate : nat -> list N) (s : mstate) : res mstate :=
    do u <- displacement n C (assemble_matrix C cells) b iterate;
    let increment := match ms_old s with None => u | Some v => map2 (fun p q => p - q) u v end in
    do pts <- compute_stress (map (stress_cell dim increment) cells) (ms_points s);
    Ok (mkms pts (Some u)).

  (** ** Solves with the same active cells (adamantine.hh:1296-1343): update_rhs and solve *)
  Record load := mkload { ld_thermal : option thermal_data; ld_forces : list (ecell -> list N); ld_iterate : nat -> list N }.
  Definition solve_load (dim n : nat) (references : list N) (C : constraints N) (cells : list ecell) (s : mstate) (l : load) : res mstate :=
    do b <- assemble_rhs dim n references (ld_thermal l) (ld_forces l) C cells;
    solve dim n C cells b (ld_iterate l) s.
  Definition solve_loads (dim n : nat) (references : list N) (C : constraints N) (cells : list ecell) (loads : list load) (s : mstate) : res mstate :=
    foldR (solve_load dim n references C cells) loads s.
End Elastic.
Arguments ecell : clear implicits.
Arguments matrix : clear implicits.
Arguments thermal_data : clear implicits.
Arguments mstate : clear implicits.
Arguments load : clear implicits.
