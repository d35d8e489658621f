(** CellSpec.v -- what a process stores about a cell, independently of how the program moves it around. *)
From Coq Require Import Bool List Floats.
From Verif Require Import Base CellModel.
Import ListNotations.

(** Cells of process [r], cells of process [r] with material. *)
Definition owned_by (r : nat) (c : cell) : bool := Nat.eqb (c_owner c) r.
Definition material_of (r : nat) (c : cell) : bool := Nat.eqb (c_owner c) r && c_active c.
Definition count (p : cell -> bool) (cells : list cell) : nat := List.length (filter p cells).

(** Every process has one column of states for each of its cells and one direction and melted flag for each of its cells with
    material; every cell has n_dofs nodes and an existing owner. *)
Record well_formed (n_dofs n_states : nat) (w : world) : Prop := {
  wf_nodes : forall c, In c (w_cells w) -> List.length (c_nodes c) = n_dofs;
  wf_owner : forall c, In c (w_cells w) -> c_owner c < List.length (w_arrays w);
  wf_cos : forall r a, nth_error (w_arrays w) r = Some a -> List.length (a_cos a) = count (material_of r) (w_cells w);
  wf_sin : forall r a, nth_error (w_arrays w) r = Some a -> List.length (a_sin a) = count (material_of r) (w_cells w);
  wf_melted : forall r a, nth_error (w_arrays w) r = Some a -> List.length (a_melted a) = count (material_of r) (w_cells w);
  wf_state : forall r a, nth_error (w_arrays w) r = Some a -> List.length (a_state a) = count (owned_by r) (w_cells w);
  wf_states : forall r a st, nth_error (w_arrays w) r = Some a -> In st (a_state a) -> List.length st = n_states }.

(** The data of the cell in position [pos]: the owner stores it after those of the earlier cells. *)
Definition cell_state (w : world) (pos : nat) : option (list float) :=
  match nth_error (w_cells w) pos with
  | Some c => match nth_error (w_arrays w) (c_owner c) with
              | Some a => nth_error (a_state a) (count (owned_by (c_owner c)) (firstn pos (w_cells w)))
              | None => None
              end
  | None => None
  end.
Definition stored {A} (get : arrays -> list A) (w : world) (pos : nat) : option A :=
  match nth_error (w_cells w) pos with
  | Some c => match nth_error (w_arrays w) (c_owner c) with
              | Some a => nth_error (get a) (count (material_of (c_owner c)) (firstn pos (w_cells w)))
              | None => None
              end
  | None => None
  end.
Definition cell_cos := stored a_cos.
Definition cell_sin := stored a_sin.
Definition cell_melted := stored a_melted.
Definition has_material (w : world) (pos : nat) : Prop := exists c, nth_error (w_cells w) pos = Some c /\ c_active c = true.
Definition node_of (w : world) (pos n : nat) : Prop := exists c, nth_error (w_cells w) pos = Some c /\ In n (c_nodes c).
Definition n_ranks (w : world) : nat := List.length (w_arrays w).

(** The lists of cells to activate: one per process, for every box, containing only cells of the process. *)
Record candidates (w : world) (elements : list (list (list nat))) (n_boxes : nat) : Prop := {
  cd_ranks : List.length elements = n_ranks w;
  cd_boxes : forall el, In el elements -> List.length el = n_boxes;
  cd_owned : forall r el l pos, nth_error elements r = Some el -> In l el -> In pos l -> exists c, nth_error (w_cells w) pos = Some c /\ c_owner c = r }.
(** Box [i] meets the cell. *)
Definition box_has (w : world) (elements : list (list (list nat))) (i pos : nat) : Prop :=
  exists c el l, nth_error (w_cells w) pos = Some c /\ nth_error elements (c_owner c) = Some el /\ nth_error el i = Some l /\ In pos l.
(** [i] is the last box of the window that meets the cell. *)
Definition last_box (w : world) (elements : list (list (list nat))) (first last i pos : nat) : Prop :=
  first <= i < last /\ box_has w elements i pos /\ forall j, i < j < last -> ~ box_has w elements j pos.
(** What the caller provides (adamantine.hh:1160-1200): lists of candidates per process and box, one direction per box, and where
    deal.II puts the cells and the nodes. *)
Record activation_input (n_dofs n_states : nat) (w : world) (elements : list (list (list nat))) (cs sn : list float) (last : nat) (new_owner node_owner : nat -> nat) : Prop := {
  ai_wf : well_formed n_dofs n_states w;
  ai_dofs : 0 < n_dofs;
  ai_candidates : candidates w elements (List.length cs);
  ai_sin : List.length sn = List.length cs;
  ai_last : last <= List.length cs;
  ai_owner : forall pos, pos < List.length (w_cells w) -> new_owner pos < n_ranks w;
  ai_node_owner : forall m, node_owner m < n_ranks w }.
(** No temperature of a cell with material is infinite. *)
Definition finite_temperature (w : world) : Prop := forall pos m, has_material w pos -> node_of w pos m -> PrimFloat.eqb (w_sol w m) infinity = false.
(** deal.II: a node on the boundary between processes belongs to the lowest of the processes with a cell with material there. *)
Definition lowest_owner (w : world) (node_owner : nat -> nat) : Prop :=
  forall pos m c, nth_error (w_cells w) pos = Some c -> c_active c = true -> In m (c_nodes c) ->
    node_owner m <= c_owner c /\ exists pos' c', nth_error (w_cells w) pos' = Some c' /\ c_active c' = true /\ In m (c_nodes c') /\ c_owner c' = node_owner m.
