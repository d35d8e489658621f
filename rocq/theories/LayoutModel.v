(** LayoutModel.v -- the data of the cells at the quadrature points of the thermal operators.
    Models source/ThermalOperator.templates.hh (reinit: _cell_it_to_mf_cell_map, get_state_from_material_properties, set_material_deposition_orientation) and
    source/ThermalOperatorDevice.templates.hh (reinit: _cell_it_to_mf_pos, get_state_from_material_properties, set_material_deposition_orientation, update_inv_rho_cp_cell).

    Arguments from deal.II: the batches of cells and faces of MatrixFree (one list of lanes for each batch: n_active_entries_per_cell_batch, get_cell_iterator,
    get_face_iterator), the colours of the device (get_colored_graph).  Cells are named by their position in active_cell_iterators().
    Simplifications: a table has an entry for every batch, point and lane (those never written keep what reinit leaves, [t0]); the tables of the three kinds of
    materials are filled always (the code fills those that the kind of material has). *)
From Coq Require Import ZArith Bool List.
From Verif Require Import Base CellModel MaterialModel.
Import ListNotations.

(** What a process knows of an active cell: is_locally_owned(), active_fe_index() == 0, material_id(). *)
Record lcell := mklc { lc_owned : bool; lc_active : bool; lc_material : nat }.
Definition lget (cells : list lcell) (c : nat) : res lcell := at_ cells c.

(** Counter loops "for (i = 0; i < n; ++i)" over the elements of a list. *)
Definition numb {A} (l : list A) : list (nat * A) := combine (seq 0 (List.length l)) l.
(** The loops over batches (numbered from [first]), points and lanes, in the order in which they are run. *)
Definition visits {L} (first : nat) (batches : list (list L)) (n_q : nat) : list (nat * nat * nat * L) :=
  flat_map (fun bl => flat_map (fun q => map (fun il => (first + fst bl, q, fst il, snd il)) (numb (snd bl))) (seq 0 n_q)) (numb batches).

(** ** Host *)
Definition tab (A : Type) := nat -> nat -> nat -> A.
Definition put {A} (t : tab A) (b q i : nat) (v : A) : tab A := fun b' q' i' => if Nat.eqb b' b && Nat.eqb q' q && Nat.eqb i' i then v else t b' q' i'.
(** reinit (ThermalOperator.templates.hh:66-78): _cell_it_to_mf_cell_map *)
Definition host_map (batches : list (list nat)) : nat -> option (nat * nat) :=
  fold_left (fun m (v : nat * nat * nat * nat) => let '(b, _, i, c) := v in fun d => if Nat.eqb d c then Some (b, i) else m d) (visits 0 batches 1) (fun _ => None).
(** get_state_from_material_properties (759-799): one table; [value] is get_state_ratio(cell, liquid), get_state_ratio(cell, powder) or material_id() *)
Definition host_cells {A} (batches : list (list nat)) (n_q : nat) (value : nat -> A) (t0 : tab A) : tab A :=
  fold_left (fun t (v : nat * nat * nat * nat) => let '(b, q, i, c) := v in put t b q i (value c)) (visits 0 batches n_q) t0.
(** get_state_from_material_properties, faces (804-883): a lane of an inner face is the two cells, one of a boundary face is its cell.
    836-839: the side with material, if there is just one; 864-868. *)
Definition inner_side (cells : list lcell) (l : nat * nat) : res (option nat) :=
  do c1 <- lget cells (fst l);
  do c2 <- lget cells (snd l);
  if Bool.eqb (lc_active c1) (lc_active c2) then Ok None
  else Ok (Some (if lc_active c1 then fst l else snd l)).
Definition boundary_side (cells : list lcell) (c : nat) : res (option nat) :=
  do x <- lget cells c;
  if lc_active x then Ok (Some c) else Ok None.
Definition face_visit {A L} (cells : list lcell) (side : L -> res (option nat)) (value : nat -> A) (t : tab A) (v : nat * nat * nat * L) : res (tab A) :=
  let '(f, q, i, l) := v in
  do s <- side l;
  match s with
  | None => Ok t
  | Some c => do x <- lget cells c; Ok (if lc_owned x then put t f q i (value c) else t)
  end.
Definition host_faces {A} (cells : list lcell) (inner : list (list (nat * nat))) (boundary : list (list nat)) (n_q : nat) (value : nat -> A) (t0 : tab A) : res (tab A) :=
  do t <- foldR (face_visit cells (inner_side cells) value) (visits 0 inner n_q) t0;
  foldR (face_visit cells (boundary_side cells) value) (visits (List.length inner) boundary n_q) t.
(** set_material_deposition_orientation (910-923): cell_mapping, the number of a cell among those owned with material *)
Definition with_material (cells : list lcell) : list nat :=
  map fst (filter (fun ic => lc_owned (snd ic) && lc_active (snd ic)) (numb cells)).
Definition cell_mapping (cells : list lcell) : nat -> option nat :=
  fold_left (fun m pc => fun d => if Nat.eqb d (snd pc) then Some (fst pc) else m d) (numb (with_material cells)) (fun _ => None).
(** 927-940: operator[] gives 0 for a cell that is not in the map *)
Definition host_orientation {A} (cells : list lcell) (batches : list (list nat)) (n_q : nat) (angles : list A) (t0 : tab A) : res (tab A) :=
  foldR (fun t (v : nat * nat * nat * nat) => let '(b, q, i, c) := v in
    do x <- lget cells c;
    if lc_active x then
      do a <- at_ angles (match cell_mapping cells c with Some j => j | None => 0 end);
      Ok (put t b q i a)
    else Ok t) (visits 0 batches n_q) t0.

(** ** Device *)
(** reinit (ThermalOperatorDevice.templates.hh:548-573): local_q_point_id of deal.II: the number of the cell, counted through the colours, times the number of points
    plus the point; _cell_it_to_mf_pos *)
Fixpoint device_entries (start : nat) (colours : list (list nat)) : list (nat * nat) :=
  match colours with
  | [] => []
  | cl :: rest => map (fun ic => (snd ic, start + fst ic)) (numb cl) ++ device_entries (start + List.length cl) rest
  end.
Definition q_positions (n_q k : nat) : list nat := map (fun i => k * n_q + i) (seq 0 n_q).
(** A missing cell gets an empty vector from operator[]. *)
Definition device_map (n_q : nat) (colours : list (list nat)) : nat -> list nat :=
  fold_left (fun m e => fun d => if Nat.eqb d (fst e) then q_positions n_q (snd e) else m d) (device_entries 0 colours) (fun _ => []).
(** get_state_from_material_properties (676-777), set_material_deposition_orientation (815-860): one view, of n_q entries for every owned cell and not initialised ([None]);
    [value n c] is the value for the cell [c], the [n]-th of those owned with material.  Simplification: the value is read again for every point. *)
Definition device_view {A} (cells : list lcell) (n_q : nat) (positions : nat -> list nat) (value : nat -> nat -> res A) : res (list (option A)) :=
  let n_coefs := n_q * List.length (filter lc_owned cells) in
  foldR (fun a (v : (nat * nat) * nat) => let '((n, c), i) := v in
    do x <- value n c;
    do pos <- at_ (positions c) i;
    update a pos (Some x)) (flat_map (fun nc => map (fun i => (nc, i)) (seq 0 n_q)) (numb (with_material cells))) (repeat None n_coefs).
Definition device_cells {A} (cells : list lcell) (n_q : nat) (colours : list (list nat)) (value : nat -> A) : res (list (option A)) :=
  device_view cells n_q (device_map n_q colours) (fun _ c => Ok (value c)).
Definition device_orientation {A} (cells : list lcell) (n_q : nat) (colours : list (list nat)) (angles : list A) : res (list (option A)) :=
  device_view cells n_q (device_map n_q colours) (fun n _ => at_ angles n).
(** update_inv_rho_cp_cell (867-897): the mean over the points of a cell; [old] is the map before *)
Definition inv_rho_cp_cells {N : Num} (n_q : nat) (colours : list (list nat)) (inv : nat -> N) (old : nat -> option N) : nat -> option N :=
  fold_left (fun m e => fun d => if Nat.eqb d (fst e)
    then Some (ndiv N (sum_list (map inv (device_map n_q colours (fst e)))) (nofnat n_q)) else m d) (device_entries 0 colours) old.
