(** MechSpec.v -- the mechanical history of one cell, without processes, arrays or packing. *)
From Coq Require Import Bool List Floats.
From Verif Require Import Base CellModel MechModel.
Import ListNotations.

(** n_q points and n_c independent tensor entries per point. *)
Definition shaped_data (nq nc : nat) (m : mdata) : Prop :=
  List.length (md_plastic m) = nq /\ List.length (md_stress m) = nq /\ List.length (md_back m) = nq /\
  Forall (fun t => List.length t = nc) (md_stress m) /\ Forall (fun t => List.length t = nc) (md_back m).
(** The variables of the cell in position [pos]: those of its owner. *)
Definition data_of (w : mworld) (pos : nat) : option mdata :=
  match nth_error (mw_cells w) pos with
  | Some c => match nth_error (mw_data w) (c_owner c) with Some d => nth_error d pos | None => None end
  | None => None
  end.
Definition active_at (w : mworld) (pos : nat) : Prop := exists c, nth_error (mw_cells w) pos = Some c /\ c_active c = true.
Record well_formed (nq nc n_dofs : nat) (w : mworld) : Prop := {
  mf_nodes : forall c, In c (mw_cells w) -> List.length (c_nodes c) = n_dofs;
  mf_owner : forall c, In c (mw_cells w) -> c_owner c < List.length (mw_data w);
  mf_length : forall d, In d (mw_data w) -> List.length d = List.length (mw_cells w);
  mf_shaped : forall pos m, data_of w pos = Some m -> shaped_data nq nc m }.

(** A cell is solid for the mechanical problem: more than 0.99 solid material and active in the thermal problem. *)
Definition solid (t : thermal_cell) : bool := PrimFloat.ltb 0x1.fae147ae147aep-1 (th_solid t) && th_active t.
(** Without stress and with the given yield limit at each of [nq] points. *)
Definition stress_free (nq nc : nat) (limit : float) : mdata :=
  {| md_plastic := repeat limit nq; md_stress := repeat (repeat 0%float nc) nq; md_back := repeat (repeat 0%float nc) nq |}.
(** The set of active cells changes, or the caller asks for it. *)
Definition rebuilt (w : mworld) (ths : list thermal_cell) (rebuild : bool) : Prop :=
  rebuild = true \/ exists pos c t, nth_error (mw_cells w) pos = Some c /\ nth_error ths pos = Some t /\ c_active c <> solid t.
(** ** Histories *)
(** The view of a cell: nothing if it takes no part in the mechanical problem, its variables otherwise. *)
Definition view (w : mworld) (pos : nat) : option mdata :=
  match nth_error (mw_cells w) pos with Some c => if c_active c then data_of w pos else None | None => None end.
Definition views (w : mworld) : list (option mdata) := map (view w) (seq 0 (List.length (mw_cells w))).
(** One step: solid cells keep their variables, newly solid ones start from the elastic limit without stress, the others are
    dropped; a stress update changes the active cells; on a new mesh a cell takes over the variables of the cell it comes from. *)
Definition step_views (nq nc : nat) (s : mech_step) (vs : list (option mdata)) : list (option mdata) :=
  match s with
  | Setup ths _ _ _ => map (fun tv => if solid (fst tv) then match snd tv with Some m => Some m | None => Some (stress_free nq nc (th_limit (fst tv))) end else None) (combine ths vs)
  | Stress f _ => map (fun iv => option_map (f (fst iv)) (snd iv)) (combine (seq 0 (List.length vs)) vs)
  | Mesh mesh _ => map (fun oc => nth (source (fst oc)) vs None) mesh
  end.
(** What every step needs from its environment: one thermal cell per cell, updates that keep the number of points, a mesh whose
    cells come from old cells, with the same activity. *)
Fixpoint good_history (nq nc n_dofs n_ranks : nat) (vs : list (option mdata)) (steps : list mech_step) : Prop :=
  match steps with
  | [] => True
  | s :: rest =>
      match s with
      | Setup ths _ _ _ => List.length ths = List.length vs
      | Stress f _ => forall pos m, shaped_data nq nc m -> shaped_data nq nc (f pos m)
      | Mesh mesh _ => forall o c, In (o, c) mesh -> source o < List.length vs /\ c_owner c < n_ranks /\ List.length (c_nodes c) = n_dofs /\
                                    (c_active c = true <-> nth (source o) vs None <> None)
      end /\ good_history nq nc n_dofs n_ranks (step_views nq nc s vs) rest
  end.

(** ** Displacement of the previous solve *)
(** The cell in position [pos] is active, belongs to process [r] and has the degree of freedom [n]; it is the last such cell. *)
Definition touches (w : mworld) (r n pos : nat) : Prop := exists c, nth_error (mw_cells w) pos = Some c /\ c_owner c = r /\ c_active c = true /\ In n (c_nodes c).
Definition last_touch (w : mworld) (r n pos : nat) : Prop := touches w r n pos /\ forall q, pos < q -> ~ touches w r n q.
