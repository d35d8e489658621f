(** StressModel.v -- the update of the stress and the von Mises output.
    Models source/MechanicalPhysics.cc (compute_stress) and source/PostProcessor.cc (get_von_mises_stress).

    A symmetric tensor (dealii::SymmetricTensor<2, dim>) is its dim diagonal entries and its dim*(dim-1)/2 entries above the
    diagonal, in the order of deal.II: xy in two dimensions, xy, xz, yz in three. *)
From Coq Require Import ZArith Bool List.
From Verif Require Import Base CellModel.
Import ListNotations.

Section Stress.
  Context {N : Num}.
  Local Open Scope num_scope.

  Record sym := mksym { dg : list N; od : list N }.
  Definition map2 (f : N -> N -> N) (a b : list N) : list N := map (fun xy => f (fst xy) (snd xy)) (combine a b).
  (** operators +, -, * of SymmetricTensor *)
  Definition tadd (a b : sym) : sym := mksym (map2 (fun x y => x + y) (dg a) (dg b)) (map2 (fun x y => x + y) (od a) (od b)).
  Definition tsub (a b : sym) : sym := mksym (map2 (fun x y => x - y) (dg a) (dg b)) (map2 (fun x y => x - y) (od a) (od b)).
  Definition tscale (c : N) (a : sym) : sym := mksym (map (fun x => c * x) (dg a)) (map (fun x => c * x) (od a)).
  Definition tdiv (a : sym) (c : N) : sym := mksym (map (fun x => x / c) (dg a)) (map (fun x => x / c) (od a)).
  Definition lsum (l : list N) : N := fold_left (fun s x => s + x) l (nZ 0).
  Definition trace (a : sym) : N := lsum (dg a).
  (** dealii::deviator *)
  Definition deviator (a : sym) : sym := let t := trace a / nZ (Z.of_nat (List.length (dg a))) in mksym (map (fun x => x - t) (dg a)) (od a).
  (** SymmetricTensor::norm (Frobenius) *)
  Definition norm2 (a : sym) : N := lsum (map (fun x => x * x) (dg a)) + nZ 2 * lsum (map (fun x => x * x) (od a)).
  Definition norm (a : sym) : N := nsqrt N (norm2 a).
  (** MechanicalPhysics.cc:582-585, 591: stiffness_tensor * strain.  Simplification: deal.II stores the fourth order tensor and
      contracts it; the result is lambda tr(strain) I + 2 mu strain up to rounding. *)
  Definition hooke (lambda mu : N) (e : sym) : sym :=
    let t := lambda * trace e in mksym (map (fun x => t + nZ 2 * mu * x) (dg e)) (map (fun x => nZ 2 * mu * x) (od e)).

  (** Parameters of a cell (570-581) and the variables of a quadrature point. *)
  Record plasticity := mkplast { lame1 : N; lame2 : N; plastic_modulus : N; iso_hardening : N }.
  Record point := mkpoint { p_stress : sym; p_back : sym; p_yield : N }.

  (** MechanicalPhysics.cc:589-624 at one quadrature point *)
  Definition update_point (m : plasticity) (s : point) (strain : sym) : point :=
    let elastic_stress := tadd (p_stress s) (hooke (lame1 m) (lame2 m) strain) in
    let stress_deviator := deviator elastic_stress in
    let effective_stress := tsub stress_deviator (p_back s) in
    let effective_stress_norm := norm effective_stress in
    if effective_stress_norm <? p_yield s then mkpoint elastic_stress (p_back s) (p_yield s)
    else
      let increment := (effective_stress_norm - p_yield s) / (nZ 2 * lame2 m + plastic_modulus m) in
      let flow := tdiv effective_stress effective_stress_norm in
      mkpoint (tsub elastic_stress (tscale (nZ 2 * lame2 m * increment) flow))
              (tadd (p_back s) (tscale ((nZ 1 - iso_hardening m) * plastic_modulus m * plastic_modulus m) flow))
              (p_yield s + iso_hardening m * plastic_modulus m * increment).

  (** 554-628: all cells of a process; a cell is (locally owned and active_fe_index() == 0, parameters, strains at its quadrature
      points); the variables are indexed by cell_id, so every cell advances the index. *)
  Record mech_cell := mkmc { mc_active : bool; mc_param : plasticity; mc_strain : list sym }.
  Fixpoint update_points (m : plasticity) (pts : list point) (strains : list sym) : res (list point) :=
    match strains with
    | [] => Ok pts
    | e :: es => match pts with [] => UB | p :: ps => do r <- update_points m ps es; Ok (update_point m p e :: r) end
    end.
  Fixpoint compute_stress (cells : list mech_cell) (vars : list (list point)) : res (list (list point)) :=
    match cells with
    | [] => Ok vars
    | c :: cs =>
        match vars with
        | [] => if existsb mc_active cells then UB else Ok []
        | v :: vs =>
            do v' <- (if mc_active c then update_points (mc_param c) v (mc_strain c) else Ok v);
            do r <- compute_stress cs vs;
            Ok (v' :: r)
        end
    end.

  (** A strain path at one point: one stress update per mechanical solve. *)
  Definition strain_path (m : plasticity) (s : point) (path : list sym) : point := fold_left (update_point m) path s.

  (** MechanicalPhysics.cc:520-533 (solve) and 562-567: the strain of a displacement at a quadrature point is linear in the values
      of the degrees of freedom of the cell ([grads]: the symmetric gradients of the shape functions); the increment is taken with
      respect to the displacement of the previous solve, if there was one. *)
  Definition strain_of (zero : sym) (grads : list sym) (u : list N) : sym :=
    fold_left (fun acc ug => tadd acc (tscale (fst ug) (snd ug))) (combine u grads) zero.
  Definition solve_point (zero : sym) (grads : list sym) (m : plasticity) (old : option (list N)) (s : point) (u : list N) : point :=
    update_point m s (strain_of zero grads (match old with None => u | Some v => map2 (fun x y => x - y) u v end)).
  (** the displacements found by successive solves without a change of the mesh or of the active cells *)
  Fixpoint solve_path (zero : sym) (grads : list sym) (m : plasticity) (old : option (list N)) (s : point) (us : list (list N)) : point :=
    match us with
    | [] => s
    | u :: us' => solve_path zero grads m (Some u) (solve_point zero grads m old s u) us'
    end.

  (** ** get_von_mises_stress (PostProcessor.cc:93-136), three dimensions *)
  Definition entry (a : sym) (i j : nat) : N :=
    match i, j with
    | 0, 0 => nth 0 (dg a) (nZ 0) | 1, 1 => nth 1 (dg a) (nZ 0) | 2, 2 => nth 2 (dg a) (nZ 0)
    | 0, 1 | 1, 0 => nth 0 (od a) (nZ 0) | 0, 2 | 2, 0 => nth 1 (od a) (nZ 0) | 1, 2 | 2, 1 => nth 2 (od a) (nZ 0)
    | _, _ => nZ 0
    end%nat.
  Definition sq (x : N) : N := x * x.
  Definition von_mises (a : sym) : N :=
    nsqrt N (nZ 1 / nZ 2 * (sq (entry a 0 0 - entry a 1 1) + sq (entry a 1 1 - entry a 2 2) + sq (entry a 2 2 - entry a 0 0) +
                            nZ 6 * (sq (entry a 0 1) + sq (entry a 1 2) + sq (entry a 2 1)))).
  (** The value of a cell: the average over its quadrature points; 0 for cells that are not locally owned or not active.
      [n_quad] is the number of points of the first cell (112-113). *)
  Definition cell_von_mises (n_quad : nat) (active : bool) (stress : list sym) : res N :=
    if active then
      do s <- fold_left (fun acc q => do a <- acc; do t <- at_ stress q; Ok (a + von_mises t)) (seq 0 n_quad) (Ok (nZ 0));
      Ok (s / nZ (Z.of_nat n_quad))
    else Ok (nZ 0).
  (** 104-106: in two dimensions the vector keeps its zeros. *)
  Definition get_von_mises_stress (dim : nat) (active : list bool) (stress : list (list sym)) : res (list N) :=
    let n_quad := match stress with [] => O | s :: _ => List.length s end in
    if negb (Nat.eqb dim 3) then Ok (map (fun _ => nZ 0) active) else
    mapR (fun '(i, a) => if a : bool then do s <- at_ stress i; cell_von_mises n_quad a s else Ok (nZ 0)) (combine (seq 0 (List.length active)) active).
End Stress.
Arguments sym : clear implicits.
Arguments point : clear implicits.
Arguments plasticity : clear implicits.
Arguments mech_cell : clear implicits.
