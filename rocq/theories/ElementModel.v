(** ElementModel.v -- element matrix and right hand side of the mechanical problem.
    Models source/MechanicalOperator.cc (assemble_matrix, assemble_rhs) and source/BodyForce.cc.

    A cell is given by the vector component of each of its degrees of freedom (system_to_component_index) and, for every quadrature
    point, by the JxW value, the gradients and values of the scalar shape functions and the values of the temperature shape
    functions.  These come from deal.II and are arguments; distribute_local_to_global and the solver are not modelled. *)
From Coq Require Import ZArith Bool List.
From Verif Require Import Base CellModel.
Import ListNotations.

Section Element.
  Context {N : Num}.
  Local Open Scope num_scope.
  Record quad := mkquad { q_jxw : N; q_grads : list (list N); q_values : list N; q_tshape : list N }.
  Definition comp (comps : list nat) (i : nat) : nat := nth i comps O.
  Definition sgrad (q : quad) (i a : nat) : N := nth a (nth i (q_grads q) []) (nZ 0).
  Definition dot (a b : list N) : N := fold_left (fun s xy => s + fst xy * snd xy) (combine a b) (nZ 0).
  (** MechanicalOperator.cc:222-254 *)
  Definition matrix_entry (lambda mu : N) (comps : list nat) (qs : list quad) (i j : nat) : N :=
    let component_i := comp comps i in
    let component_j := comp comps j in
    fold_left (fun m q => m +
      (sgrad q i component_i * sgrad q j component_j * lambda +
       sgrad q i component_j * sgrad q j component_i * mu +
       (if Nat.eqb component_i component_j then dot (map (fun x => mu * x) (nth i (q_grads q) [])) (nth j (q_grads q) []) else nZ 0)) *
      q_jxw q) qs (nZ 0).
  (** 381-394 *)
  Definition delta_T (reference : N) (q : quad) (temperature : list N) : N :=
    fold_left (fun s xy => s + fst xy * snd xy) (combine (q_tshape q) temperature) (- reference).
  Definition thermal_load (lambda mu alpha reference : N) (temperature : list N) (comps : list nat) (qs : list quad) (i : nat) : N :=
    fold_left (fun r q => r + sgrad q i (comp comps i) * ((nZ 3 * lambda + nZ 2 * mu) * alpha * delta_T reference q temperature) * q_jxw q) qs (nZ 0).
  (** 444-480: body_force . value(i, q) JxW *)
  Definition body_load (force : list N) (comps : list nat) (qs : list quad) (i : nat) : N :=
    fold_left (fun r q => r + nth (comp comps i) force (nZ 0) * nth i (q_values q) (nZ 0) * q_jxw q) qs (nZ 0).
  (** BodyForce.cc:22-34, BodyForce.hh:53, types.hh:171-187 *)
  Definition axis_z (dim : nat) : nat := if Nat.eqb dim 2 then 1 else 2.
  Definition gravity_force (dim : nat) (density : N) : list N :=
    map (fun a => if Nat.eqb a (axis_z dim) then - density * (nZ 980665 / nZ 100000) else nZ 0) (seq 0 dim).
  (** 454-458: the sum of the body forces; they start from zero *)
  Definition total_force (dim : nat) (forces : list (list N)) : list N :=
    fold_left (fun acc f => map (fun xy => fst xy + snd xy) (combine acc f)) forces (repeat (nZ 0) dim).

  (** 315-341: the translation of the indices of has_melted; a cell is (locally owned, active thermally, active mechanically) *)
  Record joint_cell := mkjc { j_owned : bool; j_thermal : bool; j_mech : bool }.
  Fixpoint cell_indices (cells : list joint_cell) (cell_index : nat) : list nat :=
    match cells with
    | [] => []
    | c :: cs =>
        if j_owned c && j_thermal c then (if j_mech c then cell_index else O) :: cell_indices cs (S cell_index)
        else O :: cell_indices cs cell_index
    end.
  (** 344, 356-359 *)
  Definition reference_temperature (references : list N) (has_melted : list bool) (cells : list joint_cell) (pos material_id : nat) : res N :=
    do initial_temperature <- back references;
    do k <- at_ (cell_indices cells 0) pos;
    do melted <- at_ has_melted k;
    if melted : bool then at_ references material_id else Ok initial_temperature.
End Element.
Arguments quad : clear implicits.
