(** CellModel.v -- data attached to the cells of the mesh: activation of material, mesh adaptation, checkpoints, melted flags.
    Models source/ThermalPhysics.templates.hh (add_material_start, add_material_end, mark_has_melted, save_checkpoint,
    load_checkpoint) and application/adamantine.hh (refine_and_transfer).

    Doubles are binary64 floats: the code only copies and compares them here (except in mark_has_melted).  Simplifications: all
    processes iterate over the same list of active cells (deal.II's differ only in cells without any data); degrees of freedom are
    named by their support points ("nodes"), the owner of a node is an argument; the behaviour of deal.II's CellDataTransfer
    (every cell's data goes from the process that owns it before to the process that owns it after) is that of its documentation. *)
From Coq Require Import ZArith Bool List Floats.
From Verif Require Import Base.
Import ListNotations.

Definition inf : float := infinity.
Definition half : float := 0x1p-1%float.
Definition b2f (b : bool) : float := if b then 1%float else 0%float.

(** An active cell of the triangulation: nodes, owning process, active_fe_index() == 0. *)
Record cell := mkcell { c_nodes : list nat; c_owner : nat; c_active : bool }.
(** The per process arrays: _deposition_cos, _deposition_sin, _has_melted (one entry per locally owned cell with material) and
    the state view (one column per locally owned cell). *)
Record arrays := mkarrays { a_cos : list float; a_sin : list float; a_melted : list bool; a_state : list (list float) }.

Fixpoint update {A} (l : list A) (i : nat) (v : A) : res (list A) :=
  match l, i with
  | [], _ => UB
  | _ :: l', O => Ok (v :: l')
  | x :: l', S i' => do r <- update l' i' v; Ok (x :: r)
  end.
Fixpoint mapR {A B} (f : A -> res B) (l : list A) : res (list B) :=
  match l with [] => Ok [] | x :: l' => do y <- f x; do ys <- mapR f l'; Ok (y :: ys) end.

(** ** add_material_start (ThermalPhysics.templates.hh:600-727) *)
(** 616-631 *)
Definition direction_data_size : nat := 2.
Definition phase_history_data_size : nat := 1.
Definition dummy (n_dofs n_states : nat) : list float := repeat inf (n_dofs + direction_data_size + phase_history_data_size + n_states).
(** 651-699: loop over the cells on process [r]; [i_active], [i_owned]: activated_cell_id, locally_owned_cell_id. *)
Fixpoint pack (n_dofs n_states r : nat) (a : arrays) (sol : nat -> float) (i_active i_owned : nat) (cells : list cell) : res (list (list float)) :=
  match cells with
  | [] => Ok []
  | c :: rest =>
      if Nat.eqb (c_owner c) r then
        if c_active c then
          do cs <- at_ (a_cos a) i_active;
          do sn <- at_ (a_sin a) i_active;
          do ml <- at_ (a_melted a) i_active;
          do st <- at_ (a_state a) i_owned;
          do d <- pack n_dofs n_states r a sol (S i_active) (S i_owned) rest;
          Ok ((map sol (c_nodes c) ++ [cs; sn; b2f ml] ++ st) :: d)
        else
          do st <- at_ (a_state a) i_owned;
          do d <- pack n_dofs n_states r a sol i_active (S i_owned) rest;
          Ok ((repeat inf (n_dofs + direction_data_size + phase_history_data_size) ++ st) :: d)
      else
        do d <- pack n_dofs n_states r a sol i_active i_owned rest;
        Ok (dummy n_dofs n_states :: d)
  end.

(** 701-722: data, future fe indices, new_has_melted. *)
Record activation := mkact { act_data : list (list float); act_future : list bool; act_melted : list bool }.
Definition activate_cell (n_dofs : nat) (cells : list cell) (cs sn : list float) (i : nat) (s : activation) (pos : nat) : res activation :=
  do c <- at_ cells pos;
  if c_active c then Ok s
  else
    do fut <- update (act_future s) pos true;
    do ci <- at_ cs i;
    do si <- at_ sn i;
    do d <- at_ (act_data s) pos;
    do d1 <- update d n_dofs ci;
    do d2 <- update d1 (n_dofs + 1) si;
    do m <- at_ d2 (n_dofs + direction_data_size);
    do data <- update (act_data s) pos d2;
    do ml <- update (act_melted s) i (PrimFloat.ltb half m);
    Ok (mkact data fut ml).
Definition foldR {A B} (f : A -> B -> res A) (l : list B) (a : A) : res A := fold_left (fun acc b => do x <- acc; f x b) l (Ok a).
Definition activate_box (n_dofs : nat) (cells : list cell) (elements : list (list nat)) (cs sn : list float) (s : activation) (i : nat) : res activation :=
  do l <- at_ elements i;
  foldR (activate_cell n_dofs cells cs sn i) l s.
Definition add_material_start (n_dofs n_states r : nat) (cells : list cell) (a : arrays) (sol : nat -> float) (elements : list (list nat))
           (cs sn : list float) (melted : list bool) (first last : nat) : res activation :=
  do d <- pack n_dofs n_states r a sol 0 0 cells;
  foldR (activate_box n_dofs cells elements cs sn) (seq first (last - first)) (mkact d (map c_active cells) melted).

(** CellDataTransfer: the data process [r] finds for the cell in position [pos] after the mesh was (re)distributed; the vector
    starts with zeros (763-764, 471-474). *)
Definition received (size : nat) (old new : list cell) (sent : list (list (list float))) (r pos : nat) : res (list float) :=
  do c <- at_ old pos;
  do c' <- at_ new pos;
  if Nat.eqb (c_owner c') r then do d <- at_ sent (c_owner c); at_ d pos else Ok (repeat 0%float size).

(** ** add_material_end (ThermalPhysics.templates.hh:731-824) on process [r] *)
(** 782-795: writes the values of a cell into the entries of the solution that the process owns. *)
Fixpoint write_values (owns : nat -> bool) (nodes : list nat) (values : list float) (rw : nat -> float) : nat -> float :=
  match nodes, values with
  | n :: nodes', v :: values' => write_values owns nodes' values' (if owns n then fun m => if Nat.eqb m n then v else rw m else rw)
  | _, _ => rw
  end.
(** 776-816 *)
Fixpoint unpack (n_dofs n_states r : nat) (owns : nat -> bool) (cells : list cell) (data : nat -> res (list float)) (pos : nat)
         (s : arrays * (nat -> float)) : res (arrays * (nat -> float)) :=
  match cells with
  | [] => Ok s
  | c :: rest =>
      if Nat.eqb (c_owner c) r then
        do d <- data pos;
        do d0 <- at_ d 0;
        let rw := if PrimFloat.eqb d0 inf then snd s else write_values owns (c_nodes c) (firstn n_dofs d) (snd s) in
        do dirs <- (if c_active c then
                      do cs <- at_ d n_dofs;
                      do sn <- at_ d (n_dofs + 1);
                      do ml <- at_ d (n_dofs + direction_data_size);
                      Ok ((a_cos (fst s) ++ [cs])%list, (a_sin (fst s) ++ [sn])%list, (a_melted (fst s) ++ [PrimFloat.ltb half ml])%list)
                    else Ok (a_cos (fst s), a_sin (fst s), a_melted (fst s)));
        let '(c1, s1, m1) := dirs in
        do st <- mapR (fun i => at_ d (n_dofs + direction_data_size + phase_history_data_size + i)) (seq 0 n_states);
        unpack n_dofs n_states r owns rest data (S pos) (mkarrays c1 s1 m1 (a_state (fst s) ++ [st]), rw)
      else unpack n_dofs n_states r owns rest data (S pos) s
  end.
Definition add_material_end (n_dofs n_states r : nat) (owns : nat -> bool) (cells : list cell) (data : nat -> res (list float)) (temperature : float)
  : res (arrays * (nat -> float)) :=
  unpack n_dofs n_states r owns cells data 0 (mkarrays [] [] [] [], fun _ => temperature).

(** The whole operation (adamantine.hh:1150-1200): all processes, then the redistributed mesh [new_owner], [node_owner]. *)
Record world := mkworld { w_cells : list cell; w_arrays : list arrays; w_sol : nat -> float }.
Definition redistribute (cells : list cell) (new_owner : nat -> nat) (future : list (list bool)) : res (list cell) :=
  mapR (fun '(pos, c) => do f <- at_ future (c_owner c); do act <- at_ f pos; Ok (mkcell (c_nodes c) (new_owner pos) act))
       (combine (seq 0 (List.length cells)) cells).
(** [elements]: for every process its list of elements_to_activate. *)
Definition add_material (n_dofs n_states : nat) (w : world) (elements : list (list (list nat))) (cs sn : list float) (first last : nat)
           (new_owner node_owner : nat -> nat) (temperature : float) : res (world * list (list bool)) :=
  do acts <- mapR (fun '(r, a) => do el <- at_ elements r; add_material_start n_dofs n_states r (w_cells w) a (w_sol w) el cs sn (repeat false (List.length cs)) first last)
                  (combine (seq 0 (List.length (w_arrays w))) (w_arrays w));
  do cells <- redistribute (w_cells w) new_owner (map act_future acts);
  let size := n_dofs + direction_data_size + phase_history_data_size + n_states in
  do results <- mapR (fun r => add_material_end n_dofs n_states r (fun n => Nat.eqb (node_owner n) r) cells
                                 (received size (w_cells w) cells (map act_data acts) r) temperature)
                     (seq 0 (List.length (w_arrays w)));
  Ok (mkworld cells (map fst results)
        (fun n => match nth_error results (node_owner n) with Some res => snd res n | None => temperature end),
      map act_melted acts).

(** ** save_checkpoint and load_checkpoint (ThermalPhysics.templates.hh:979-1185) *)
(** 1110-1157 on process [r]: states, direction, melted flag, fe index. *)
Fixpoint save (n_states r : nat) (a : arrays) (i_active i_owned : nat) (cells : list cell) : res (list (list float)) :=
  match cells with
  | [] => Ok []
  | c :: rest =>
      if Nat.eqb (c_owner c) r then
        do st <- at_ (a_state a) i_owned;
        if c_active c then
          do cs <- at_ (a_cos a) i_active;
          do sn <- at_ (a_sin a) i_active;
          do ml <- at_ (a_melted a) i_active;
          do d <- save n_states r a (S i_active) (S i_owned) rest;
          Ok ((st ++ [cs; sn; b2f ml; 0%float]) :: d)
        else
          do d <- save n_states r a i_active (S i_owned) rest;
          Ok ((st ++ [10%float; 10%float; 10%float; 1%float]) :: d)
      else
        do d <- save n_states r a i_active i_owned rest;
        Ok (repeat 0%float (n_states + direction_data_size + 1 + 1) :: d)
  end.
(** static_cast<unsigned int> of the stored fe index, then set_active_fe_index: there are two finite elements. *)
Definition fe_of (x : float) : res bool :=
  if PrimFloat.ltb (-1) x && PrimFloat.ltb x 1 then Ok true else if PrimFloat.leb 1 x && PrimFloat.ltb x 2 then Ok false else UB.
(** static_cast<bool> *)
Definition bool_of (x : float) : bool := negb (PrimFloat.eqb x 0).
(** 1000-1047 on process [r]; result: arrays and fe indices of its cells (false for the others). *)
Fixpoint load (n_states r : nat) (owner : nat -> nat) (nodes : list (list nat)) (data : nat -> res (list float)) (pos : nat) (s : arrays * list bool) : res (arrays * list bool) :=
  match nodes with
  | [] => Ok s
  | _ :: rest =>
      if Nat.eqb (owner pos) r then
        do d <- data pos;
        do st <- mapR (fun i => at_ d i) (seq 0 n_states);
        do x <- at_ d (n_states + direction_data_size + 1);
        do act <- fe_of x;
        do dirs <- (if act : bool then
                      do cs <- at_ d n_states;
                      do sn <- at_ d (n_states + 1);
                      do ml <- at_ d (n_states + direction_data_size);
                      Ok ((a_cos (fst s) ++ [cs])%list, (a_sin (fst s) ++ [sn])%list, (a_melted (fst s) ++ [bool_of ml])%list)
                    else Ok (a_cos (fst s), a_sin (fst s), a_melted (fst s)));
        let '(c1, s1, m1) := dirs in
        load n_states r owner rest data (S pos) (mkarrays c1 s1 m1 (a_state (fst s) ++ [st]), (snd s ++ [act])%list)
      else load n_states r owner rest data (S pos) (fst s, (snd s ++ [false])%list)
  end.
(** The checkpoint: the nodes of the mesh, the data of every cell from its owner, the temperature. *)
Record checkpoint := mkcheckpoint { cp_nodes : list (list nat); cp_data : list (list float); cp_sol : nat -> float }.
Definition save_checkpoint (n_states : nat) (w : world) : res checkpoint :=
  do sent <- mapR (fun '(r, a) => save n_states r a 0 0 (w_cells w)) (combine (seq 0 (List.length (w_arrays w))) (w_arrays w));
  do data <- mapR (fun '(pos, c) => do d <- at_ sent (c_owner c); at_ d pos) (combine (seq 0 (List.length (w_cells w))) (w_cells w));
  Ok (mkcheckpoint (map c_nodes (w_cells w)) data (w_sol w)).
(** Loading on [n_ranks] processes, the cells being distributed by [owner]. *)
Definition load_checkpoint (n_states n_ranks : nat) (owner : nat -> nat) (cp : checkpoint) : res world :=
  do results <- mapR (fun r => load n_states r owner (cp_nodes cp) (fun pos => at_ (cp_data cp) pos) 0 (mkarrays [] [] [] [], [])) (seq 0 n_ranks);
  do cells <- mapR (fun '(pos, nd) => do res <- at_ results (owner pos); do act <- at_ (snd res) pos; Ok (mkcell nd (owner pos) act))
                   (combine (seq 0 (List.length (cp_nodes cp))) (cp_nodes cp));
  Ok (mkworld cells (map fst results) (cp_sol cp)).

(** ** refine_and_transfer (adamantine.hh:325-531) *)
(** 363-404 on process [r] *)
Fixpoint pack_refine (n_states r : nat) (a : arrays) (i_active i_owned : nat) (cells : list cell) : res (list (list float)) :=
  match cells with
  | [] => Ok []
  | c :: rest =>
      if Nat.eqb (c_owner c) r then
        do st <- at_ (a_state a) i_owned;
        if c_active c then
          do cs <- at_ (a_cos a) i_active;
          do sn <- at_ (a_sin a) i_active;
          do ml <- at_ (a_melted a) i_active;
          do d <- pack_refine n_states r a (S i_active) (S i_owned) rest;
          Ok ((st ++ [cs; sn; b2f ml]) :: d)
        else
          do d <- pack_refine n_states r a i_active (S i_owned) rest;
          Ok ((st ++ [inf; inf; inf]) :: d)
      else
        do d <- pack_refine n_states r a i_active i_owned rest;
        Ok (repeat inf (n_states + direction_data_size + phase_history_data_size) :: d)
  end.
(** Where a cell of the new mesh comes from: an old cell that is kept, its parent that was refined, or its children (first one first)
    that were coarsened.  CellDataTransfer gives a child the data of its parent and a parent the data of its first child (its
    default strategy checks in debug mode that the children agree). *)
Inductive origin := Kept (p : nat) | Refined (parent : nat) | Coarsened (first : nat) (others : list nat).
Definition source (o : origin) : nat := match o with Kept p => p | Refined p => p | Coarsened p _ => p end.
(** 477-506 on process [r] *)
Fixpoint unpack_refine (n_states r : nat) (cells : list cell) (data : nat -> res (list float)) (pos : nat) (s : arrays) : res arrays :=
  match cells with
  | [] => Ok s
  | c :: rest =>
      if Nat.eqb (c_owner c) r then
        do d <- data pos;
        do st <- mapR (fun i => at_ d i) (seq 0 n_states);
        do dirs <- (if c_active c then
                      do cs <- at_ d n_states;
                      do sn <- at_ d (n_states + 1);
                      do ml <- at_ d (n_states + direction_data_size);
                      Ok ((a_cos s ++ [cs])%list, (a_sin s ++ [sn])%list, (a_melted s ++ [PrimFloat.ltb half ml])%list)
                    else Ok (a_cos s, a_sin s, a_melted s));
        let '(c1, s1, m1) := dirs in
        unpack_refine n_states r rest data (S pos) (mkarrays c1 s1 m1 (a_state s ++ [st]))
      else unpack_refine n_states r rest data (S pos) s
  end.
(** [mesh]: the new cells with their origin; whether a new cell has material is decided by deal.II (argument).  The temperature is
    interpolated by deal.II's SolutionTransfer (not modelled: argument). *)
Definition refine_and_transfer (n_states : nat) (w : world) (mesh : list (origin * cell)) (sol : nat -> float) : res world :=
  do sent <- mapR (fun '(r, a) => pack_refine n_states r a 0 0 (w_cells w)) (combine (seq 0 (List.length (w_arrays w))) (w_arrays w));
  do arrs <- mapR (fun r => unpack_refine n_states r (map snd mesh)
                              (fun pos => do oc <- at_ mesh pos; do c <- at_ (w_cells w) (source (fst oc)); do d <- at_ sent (c_owner c); at_ d (source (fst oc)))
                              0 (mkarrays [] [] [] []))
                  (seq 0 (List.length (w_arrays w)));
  Ok (mkworld (map snd mesh) arrs sol).

(** ** mark_has_melted (ThermalPhysics.templates.hh:542-593) *)
Section Melted.
  Context {N : Num}.
  Local Open Scope num_scope.
  (** shape.(i).(q), JxW.(q), nodal values *)
  Definition cell_average (shape : list (list N)) (jxw : list N) (values : list N) : N :=
    let '(t, v) :=
      fold_left (fun acc (sv : list N * N) =>
        fold_left (fun (tv : N * N) (sq : N * N) => (fst tv + fst sq * snd sv * snd sq, snd tv + fst sq * snd sq)) (combine (fst sv) jxw) acc)
        (combine shape values) (nZ 0, nZ 0) in
    t / v.
  (** The cells of the process with material, with their average temperature in the field; flags in the same order. *)
  Fixpoint mark_melted (threshold : N) (averages : list N) (flags : list bool) : res (list bool) :=
    match averages with
    | [] => Ok flags
    | t :: rest =>
        match flags with
        | [] => UB
        | b :: flags' =>
            do r <- mark_melted threshold rest flags';
            Ok ((if b : bool then true else threshold <? t) :: r)
        end
    end.
End Melted.

(** ** When the stored material state is brought up to date (adamantine.hh:1104-1107, 1173, 1293-1300, 1350-1372, 1390-1394)
    The thermal operator's state changes in every step; the state of MaterialProperty, which is what checkpoints and output use, is
    only a copy of it made by set_state_to_material_properties. *)
Section Synchronisation.
  Context {St : Type}.
  Record sync_config := mksync { sy_output : nat; sy_checkpoint : nat; sy_mechanical : option nat }.
  Record sync_state := mkss { op_state : St; mp_state : St; saved : list (nat * St) }.
  Definition divides (d n : nat) : bool := Nat.eqb (n mod d) 0.
  (** One time step: [refined], [activated] tell whether the mesh was refined or material was added; [next] is the operator's state after
      the evolution. *)
  Definition sync_step (cfg : sync_config) (n : nat) (refined activated : bool) (next : St) (s : sync_state) : sync_state :=
    let m0 := if refined || activated then op_state s else mp_state s in
    let m1 := match sy_mechanical cfg with
              | Some factor => if divides factor n || divides (sy_output cfg) n then next else m0
              | None => m0
              end in
    let sv := if divides (sy_checkpoint cfg) n then (saved s ++ [(n, m1)])%list else saved s in
    let m2 := if divides (sy_output cfg) n then next else m1 in
    mkss next m2 sv.
  Fixpoint sync_run (cfg : sync_config) (n : nat) (steps : list (bool * bool * St)) (s : sync_state) : sync_state :=
    match steps with
    | [] => s
    | (r, a, next) :: rest => sync_run cfg (S n) rest (sync_step cfg n r a next s)
    end.
End Synchronisation.
Arguments sync_state : clear implicits.

(** adamantine.hh:826-841, 1224-1228: the threshold of the run is the first entry of the list of the solidi of the materials followed
    by the initial temperature, whatever the material of the cell. *)
Section RunMelted.
  Context {N : Num}.
  Definition reference_temperatures (solidus : list N) (initial : N) : list N := (solidus ++ [initial])%list.
  Definition run_mark_melted (references : list N) (averages : list N) (flags : list bool) : res (list bool) :=
    do t <- at_ references 0; mark_melted t averages flags.
  (** adamantine.hh: one call per time step. *)
  Fixpoint mark_history (threshold : N) (fields : list (list N)) (flags : list bool) : res (list bool) :=
    match fields with [] => Ok flags | f :: rest => do fl <- mark_melted threshold f flags; mark_history threshold rest fl end.
End RunMelted.
