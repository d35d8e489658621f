(** MechModel.v -- data of the mechanical problem attached to the cells: plastic variable, stress and back stress at the
    quadrature points, active cells, displacement of the previous solve.
    Models source/MechanicalPhysics.cc (constructor, prepare_transfer_mpi, complete_transfer_mpi, setup_dofs).

    Doubles are binary64 floats: the code only copies and compares them here.  As in CellModel.v all processes iterate over the same
    list of active cells and degrees of freedom are named by support point and component ([c_nodes]); [c_active] is
    active_fe_index() == 0 in the mechanical DoFHandler.  Here every process keeps one entry per cell, its own or not. *)
From Coq Require Import ZArith Bool List Floats.
From Verif Require Import Base CellModel.
Import ListNotations.

(** _plastic_internal_variable[cell], _stress[cell], _back_stress[cell]: per quadrature point a number and the independent
    entries (access_raw_entry) of two symmetric tensors. *)
Record mdata := mkmdata { md_plastic : list float; md_stress : list (list float); md_back : list (list float) }.
Record mworld := mkmworld { mw_cells : list cell; mw_data : list (list mdata) (* per process *); mw_u : nat -> float (* _old_displacement *) }.

(** n_quad_pts points with the given plastic variable and zero tensors (SymmetricTensor is zero initialized); [nc]:
    n_independent_components *)
Definition fresh_data (nq nc : nat) (plastic : float) : mdata := mkmdata (repeat plastic nq) (repeat (repeat 0%float nc) nq) (repeat (repeat 0%float nc) nq).

(** ** Constructor (MechanicalPhysics.cc:54-98) *)
Definition solid_threshold : float := 0x1.fae147ae147aep-1%float. (* 0.99 *)
Definition construct (nq nc n_ranks : nat) (cells : list (list nat * nat)) (solid limit : list float) : res mworld :=
  do cs <- mapR (fun '(i, c) => do s <- at_ solid i; Ok (mkcell (fst c) (snd c) (PrimFloat.ltb solid_threshold s))) (combine (seq 0 (List.length cells)) cells);
  do ds <- mapR (fun r => mapR (fun '(i, c) => if Nat.eqb (snd c) r then do l <- at_ limit i; Ok (fresh_data nq nc l) else Ok (fresh_data nq nc nan))
                               (combine (seq 0 (List.length cells)) cells)) (seq 0 n_ranks);
  Ok (mkmworld cs ds (fun _ => 0%float)).

(** ** prepare_transfer_mpi (159-208): the data of one locally owned cell *)
Definition n_doubles_per_quad (nc : nat) : nat := 1 + nc * 2.
Definition stress_offset (nq : nat) : nat := nq * 1.
Definition back_stress_offset (nq nc : nat) : nat := nq * (1 + nc).
(** std::copy into a vector *)
Fixpoint copy_to (data : list float) (pos : nat) (values : list float) : res (list float) :=
  match values with
  | [] => Ok data
  | v :: vs => do d <- update data pos v; copy_to d (S pos) vs
  end.
(** 186-196 *)
Definition pack_entry (nq nc q i : nat) (m : mdata) (data : list float) : res (list float) :=
  do s <- at_ (md_stress m) q;
  do si <- at_ s i;
  do d <- update data (stress_offset nq + q * nc + i) si;
  do b <- at_ (md_back m) q;
  do bi <- at_ b i;
  update d (back_stress_offset nq nc + q * nc + i) bi.
Definition pack_mech (nq nc : nat) (m : mdata) : res (list float) :=
  do d <- copy_to (repeat 0%float (nq * n_doubles_per_quad nc)) 0 (md_plastic m);
  foldR (fun d q => foldR (fun d i => pack_entry nq nc q i m d) (seq 0 nc) d) (seq 0 nq) d.
(** ** complete_transfer_mpi (213-278): one locally owned cell.  Simplification: the vectors were resized to n_quad_pts entries before
    (232-237) and all of them are overwritten, so that the result is built directly. *)
Definition unpack_mech (nq nc : nat) (data : list float) : res mdata :=
  do p <- mapR (fun q => at_ data q) (seq 0 (stress_offset nq));
  do s <- mapR (fun q => mapR (fun i => at_ data (stress_offset nq + q * nc + i)) (seq 0 nc)) (seq 0 nq);
  do b <- mapR (fun q => mapR (fun i => at_ data (back_stress_offset nq nc + q * nc + i)) (seq 0 nc)) (seq 0 nq);
  Ok (mkmdata p s b).
Definition prepare_transfer (nq nc r : nat) (cells : list cell) (data : list mdata) : res (list (list float)) :=
  mapR (fun '(i, c) => if Nat.eqb (c_owner c) r then do m <- at_ data i; pack_mech nq nc m
                       else Ok (repeat inf (nq * n_doubles_per_quad nc)))
       (combine (seq 0 (List.length cells)) cells).
(** [sent]: what every process packed; a cell that the process does not own keeps what the resized vectors hold. *)
Definition complete_transfer (nq nc r : nat) (old : list cell) (sent : list (list (list float))) (mesh : list (origin * cell)) (data : list mdata) : res (list mdata) :=
  mapR (fun '(i, (o, c)) =>
          if Nat.eqb (c_owner c) r then
            do src <- at_ old (source o);
            do d <- at_ sent (c_owner src);
            do x <- at_ d (source o);
            unpack_mech nq nc x
          else Ok (nth i data (fresh_data nq nc 0)))
       (combine (seq 0 (List.length mesh)) mesh).
(** The displacement is interpolated by deal.II's SolutionTransfer (argument [u]). *)
Definition transfer (nq nc : nat) (w : mworld) (mesh : list (origin * cell)) (u : nat -> float) : res mworld :=
  do sent <- mapR (fun '(r, data) => prepare_transfer nq nc r (mw_cells w) data) (combine (seq 0 (List.length (mw_data w))) (mw_data w));
  do datas <- mapR (fun '(r, data) => complete_transfer nq nc r (mw_cells w) sent mesh data) (combine (seq 0 (List.length (mw_data w))) (mw_data w));
  Ok (mkmworld (map snd mesh) datas u).

(** ** setup_dofs with a temperature (284-470) *)
(** What the other physics provide for every cell: solid ratio, active in the thermal problem, elastic limit. *)
Record thermal_cell := mkth { th_solid : float; th_active : bool; th_limit : float }.
(** 348-421 for one cell on process [r]: new variables, active afterwards, rebuild_matrix = true *)
Definition setup_cell (nq nc r : nat) (c : cell) (t : thermal_cell) (m : mdata) : mdata * bool * bool :=
  if Nat.eqb (c_owner c) r then
    if PrimFloat.ltb solid_threshold (th_solid t) then
      if Bool.eqb (c_active c) (th_active t) then (m, c_active c, false)
      else (fresh_data nq nc (th_limit t), th_active t, true)
    else (fresh_data nq nc nan, false, c_active c)
  else (fresh_data nq nc nan, c_active c, false).
Definition setup_rank (nq nc r : nat) (cells : list cell) (ths : list thermal_cell) (data : list mdata) : res (list (mdata * bool * bool)) :=
  mapR (fun '(i, c) => do t <- at_ ths i; do m <- at_ data i; Ok (setup_cell nq nc r c t m)) (combine (seq 0 (List.length cells)) cells).
(** The activity of a cell is decided by its owner and sent to the others by deal.II when the dofs are distributed. *)
Definition new_cells (cells : list cell) (results : list (list (mdata * bool * bool))) : res (list cell) :=
  mapR (fun '(i, c) => do rs <- at_ results (c_owner c); do x <- at_ rs i; Ok (mkcell (c_nodes c) (c_owner c) (snd (fst x)))) (combine (seq 0 (List.length cells)) cells).
(** 307-345: the displacement of the active cells is saved, zeros otherwise *)
Definition save_displacement (n_dofs r : nat) (cells : list cell) (u : nat -> float) : list (list float) :=
  map (fun c => if Nat.eqb (c_owner c) r && c_active c then map u (c_nodes c) else repeat 0%float n_dofs) cells.
(** 436-470 on process [r]; the vector starts with zeros (reinit) *)
Fixpoint restore_displacement (r : nat) (owns : nat -> bool) (cells : list cell) (saved : list (list float)) (u : nat -> float) : nat -> float :=
  match cells, saved with
  | c :: cs, s :: ss => restore_displacement r owns cs ss (if Nat.eqb (c_owner c) r && c_active c then write_values owns (c_nodes c) s u else u)
  | _, _ => u
  end.
(** [dof_owner]: the process that owns a degree of freedom after the dofs were distributed; [have_u]: _old_displacement.size() > 0 *)
Definition mech_setup (nq nc n_dofs : nat) (w : mworld) (ths : list thermal_cell) (rebuild have_u : bool) (dof_owner : nat -> nat) : res mworld :=
  do results <- mapR (fun '(r, data) => setup_rank nq nc r (mw_cells w) ths data) (combine (seq 0 (List.length (mw_data w))) (mw_data w));
  do cells <- new_cells (mw_cells w) results;
  if rebuild || existsb (existsb snd) results then
    Ok (mkmworld cells (map (map (fun x => fst (fst x))) results)
          (if have_u then fun n => restore_displacement (dof_owner n) (fun k => Nat.eqb (dof_owner k) (dof_owner n)) cells
                                     (save_displacement n_dofs (dof_owner n) (mw_cells w) (mw_u w)) (fun _ => 0%float) n
           else fun _ => 0%float))
  else Ok (mkmworld cells (mw_data w) (mw_u w)).

(** ** Histories: setups, stress updates and mesh changes in any order.  A stress update (solve, 488-541) replaces the variables of
    every locally owned active cell by [f] of them and the displacement. *)
Inductive mech_step :=
| Setup (ths : list thermal_cell) (rebuild have_u : bool) (dof_owner : nat -> nat)
| Stress (f : nat -> mdata -> mdata) (u : nat -> float)
| Mesh (mesh : list (origin * cell)) (u : nat -> float).
Definition stress_rank (r : nat) (f : nat -> mdata -> mdata) (cells : list cell) (data : list mdata) : res (list mdata) :=
  mapR (fun '(i, c) => do m <- at_ data i; Ok (if Nat.eqb (c_owner c) r && c_active c then f i m else m)) (combine (seq 0 (List.length cells)) cells).
Definition run_step (nq nc n_dofs : nat) (w : mworld) (s : mech_step) : res mworld :=
  match s with
  | Setup ths rebuild have_u dof_owner => mech_setup nq nc n_dofs w ths rebuild have_u dof_owner
  | Stress f u =>
      do datas <- mapR (fun '(r, data) => stress_rank r f (mw_cells w) data) (combine (seq 0 (List.length (mw_data w))) (mw_data w));
      Ok (mkmworld (mw_cells w) datas u)
  | Mesh mesh u => transfer nq nc w mesh u
  end.
Definition mech_run (nq nc n_dofs : nat) (steps : list mech_step) (w : mworld) : res mworld := foldR (run_step nq nc n_dofs) steps w.
