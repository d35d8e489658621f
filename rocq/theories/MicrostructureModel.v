(** MicrostructureModel.v -- source/Microstructure.hh, Microstructure.cc and their use in the time loop (application/adamantine.hh:1233-1287). *)
From Coq Require Import ZArith Bool List String.
From Verif Require Import Base InputModel.
Import ListNotations.
Local Open Scope string_scope.

Section Microstructure.
  Context {N : Num}.
  Local Open Scope num_scope.

  (** A cell as seen by dealii::FEValues on the Gauss-Lobatto points: locally owned with active FE index 0; liquidus of its material;
      global numbers of its degrees of freedom; quadrature points; value and gradient of shape function i at point q.
      Simplification: the finite element library is a parameter; 2D is 3D with zero third components. *)
  Record cell := mkcell { c_selected : bool; c_liquidus : N; c_dofs : list nat; c_points : list (pt N); c_value : nat -> nat -> N; c_grad : nat -> nat -> pt N }.
  (** A line of the file (Microstructure.hh:199-204).  Simplification: numbers, not their 9 digits. *)
  Record line := mkline { l_point : pt N; l_G : N; l_rate : N; l_R : N }.

  Definition crosses (liquidus old new : N) : bool := (liquidus <? old) && (new <=? liquidus).
  (** Microstructure.hh:144 *)
  Definition cooling_rate (old new dt : N) : N := old - new / dt.
  (** 179-182; [prev] is the value left by the previous cell. *)
  Definition support_point (c : cell) (prev q : nat) : nat :=
    fold_left (fun acc i => if (- (nZ 1 / nZ 1000000000000)) <? (c_value c i q - nZ 1) then i else acc) (seq 0 (List.length (c_dofs c))) prev.
  (** 166-173 *)
  Definition gradient (new : nat -> N) (c : cell) (q : nat) : pt N :=
    fold_left (fun g '(i, dof) => mkpt (px g + new dof * px (c_grad c i q)) (py g + new dof * py (c_grad c i q)) (pz g + new dof * pz (c_grad c i q)))
      (combine (seq 0 (List.length (c_dofs c))) (c_dofs c)) (mkpt (nZ 0) (nZ 0) (nZ 0)).
  (** 163, 186-190; std::pow(x, 2) is x * x. *)
  Definition norm_G (g : pt N) : N := nsqrt N (nZ 0 + px g * px g + py g * py g + pz g * pz g).
  (** One cell (127-207).  State: quad_to_support_pts.  cooling_rate[fe_index] is only read where relevant_indices[fe_index] holds, that is where it was just set. *)
  Definition one_cell (old new : nat -> N) (dt : N) (q2s : list nat) (c : cell) : list nat * list line :=
    if negb (c_selected c) then (q2s, [])
    else if negb (existsb (fun dof => crosses (c_liquidus c) (old dof) (new dof)) (c_dofs c)) then (q2s, [])
    else
      let q2s' := map (fun '(q, prev) => support_point c prev q) (combine (seq 0 (List.length (c_points c))) q2s) in
      (q2s',
       List.concat (map (fun '(q, x, s) =>
         match nth_error (c_dofs c) s with
         | Some dof =>
             if crosses (c_liquidus c) (old dof) (new dof) then
               let G := norm_G (gradient new c q) in
               let rate := cooling_rate (old dof) (new dof) dt in
               [mkline x G rate (rate / G)]
             else []
         | None => []
         end) (combine (combine (seq 0 (List.length (c_points c))) (c_points c)) q2s'))).
  Fixpoint all_cells (old new : nat -> N) (dt : N) (q2s : list nat) (cs : list cell) : list line :=
    match cs with
    | [] => []
    | c :: rest => let '(q2s', ls) := one_cell old new dt q2s c in (ls ++ all_cells old new dt q2s' rest)%list
    end.
  (** compute_G_and_R: n_dofs_per_cell entries, initially 0. *)
  Definition compute_G_and_R (n_dofs_per_cell : nat) (old new : nat -> N) (dt : N) (cs : list cell) : list line :=
    all_cells old new dt (repeat 0%nat n_dofs_per_cell) cs.

  (** Time loop: the temperature is saved right before the thermal step and used right after it, with the time step of the pass. *)
  Record pass := mkpass { p_cells : list cell; p_before : nat -> N; p_after : nat -> N; p_dt : N }.
  Definition rank_file (n_dofs_per_cell : nat) (ps : list pass) : list line :=
    List.concat (map (fun p => compute_G_and_R n_dofs_per_cell (p_before p) (p_after p) (p_dt p) (p_cells p)) ps).
End Microstructure.
Arguments cell : clear implicits.
Arguments line : clear implicits.
Arguments pass : clear implicits.

(** ** Files: constructor and destructor (Microstructure.cc:13-53).  A file system maps names to contents. *)
Section Files.
  Context {L : Type}.
  Definition fs := string -> option (list L).
  Definition write_file (f : fs) (name : string) (c : option (list L)) : fs := fun s => if String.eqb s name then c else f s.
  Definition local_name (prefix : string) (rank : nat) : string := prefix ++ "_" ++ to_string rank ++ ".txt".
  Definition global_name (prefix : string) : string := prefix ++ ".txt".
  Definition read_or_empty (f : fs) (name : string) : list L := match f name with Some c => c | None => [] end.
  (** Destructor of rank 0 after the barrier. *)
  Definition concatenate_one (prefix : string) (f : fs) (rank : nat) : fs :=
    let g := global_name prefix in
    let l := local_name prefix rank in
    write_file (write_file f g (Some (read_or_empty f g ++ read_or_empty f l)%list)) l None.
  Definition concatenate (prefix : string) (n_procs : nat) (f : fs) : fs :=
    fold_left (concatenate_one prefix) (seq 0 n_procs) (write_file f (global_name prefix) None).
End Files.
