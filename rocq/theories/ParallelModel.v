(** ParallelModel.v -- one evaluation of the thermal problem on several processes.

    Modelled: how MatrixFree::cell_loop and MatrixFree::loop are used by source/ThermalOperator.templates.hh (compute_inverse_mass_matrix:120-169,
    vmult_add:191-224) and evaluate_thermal_physics_impl (ThermalPhysics.templates.hh:44-125) when the cells are distributed.

    From deal.II, as documented: every process works on its own cells and faces; the source vector is read after update_ghost_values, so a process
    sees the entries it owns and its ghosts; the destination is completed by compress(add); get_constrained_dofs lists the locally owned ones.
    Vectors are given as a whole, in the global numbering; [other] is what an entry holds that a process does not store (in deal.II it has no
    storage: reading or writing it is an error). *)
From Coq Require Import ZArith NArith Bool List.
From Verif Require Import Base MaterialModel InputModel HeatModel.
Import ListNotations.

Section Parallel.
  Context {N : Num}.
  Local Open Scope num_scope.

  (** What a process has: its cells and faces (with their number, for the laws), the degrees of freedom it owns and the ghosts. *)
  Record share := mkshare { sh_cells : list (nat * hcell N); sh_faces : list (nat * hface N); sh_mass : list (hcell N); sh_owned : list nat; sh_ghosts : list nat }.
  Definition owns (s : share) (j : nat) : bool := existsb (Nat.eqb j) (sh_owned s).
  Definition stores (s : share) (j : nat) : bool := owns s j || existsb (Nat.eqb j) (sh_ghosts s).
  (** update_ghost_values *)
  Definition local_view (s : share) (other y : list N) : list N :=
    map (fun j => if stores s j then vget y j else vget other j) (seq 0 (List.length y)).
  (** compress(add): the owner adds what the other processes have in their ghosts. *)
  Definition compress (n : nat) (parts : list (share * list N)) : list N :=
    map (fun j => fold_left (fun t p => if stores (fst p) j then t + vget (snd p) j else t) parts (nZ 0)) (seq 0 n).
  Definition owned_constrained (C : constraints N) (s : share) : list nat := filter (owns s) (map fst C).

  (** vmult_add (191-224): the loops, then the constrained degrees of freedom. *)
  Definition rank_loop (dim3 on adiabatic : bool) (n : nat) (C : constraints N) (K : laws N) (F : face_laws N) (other : share -> list N) (y : list N) (s : share) : list N :=
    let src := local_view s (other s) y in
    let d := fold_left (local_apply dim3 on C K src) (sh_cells s) (repeat (nZ 0) n) in
    if adiabatic then d else fold_left (face_apply C F src) (sh_faces s) d.
  Definition parallel_vmult (dim3 on adiabatic : bool) (n : nat) (C : constraints N) (K : laws N) (F : face_laws N) (other : share -> list N) (ss : list share) (y : list N) : list N :=
    fold_left (fun v s => fold_left (fun v j => vadd v j (nZ 1 * vget y j)) (owned_constrained C s) v) ss
      (compress n (map (fun s => (s, rank_loop dim3 on adiabatic n C K F other y s)) ss)).
  (** compute_inverse_mass_matrix (146-168) *)
  Definition rank_mass (n : nat) (C : constraints N) (other : share -> list N) (s : share) : list N :=
    fold_left (local_mass C (local_view s (other s) (repeat (nZ 1) n))) (sh_mass s) (repeat (nZ 0) n).
  Definition parallel_mass (n : nat) (C : constraints N) (other : share -> list N) (ss : list share) : list N :=
    fold_left (fun v s => fold_left (fun v j => vadd v j (nZ 1)) (owned_constrained C s) v) ss (compress n (map (fun s => (s, rank_mass n C other s)) ss)).
  Definition parallel_inverse_mass (n : nat) (C : constraints N) (other : share -> list N) (ss : list share) : list N := map (fun m => nZ 1 / m) (parallel_mass n C other ss).
  (** evaluate_thermal_physics_impl (58-66, 119-120); [other'] is for the loop of the mass matrix *)
  Definition parallel_evaluate (dim3 on adiabatic : bool) (n : nat) (C : constraints N) (K : laws N) (F : face_laws N) (other other' : share -> list N) (ss : list share) (y : list N) : list N :=
    scale (parallel_vmult dim3 on adiabatic n C K F other ss y) (parallel_inverse_mass n C other' ss).
  (** 81-109: the heat of the own cells, then Utilities::MPI::sum *)
  Definition rank_heat (power : nat -> nat -> N) (s : share) : N :=
    fold_left (fun h ic => fold_left (fun h i => fold_left (fun h iq => h + power (fst ic) (fst iq) * nth i (h_values (snd iq)) (nZ 0) * h_jxw (snd iq))
      (numbered (c_quads (snd ic))) h) (seq 0 (List.length (c_dofs (snd ic)))) h) (sh_cells s) (nZ 0).
  Definition parallel_heat (power : nat -> nat -> N) (ss : list share) : N := fold_left (fun t s => t + rank_heat power s) ss (nZ 0).
End Parallel.
Arguments share : clear implicits.
