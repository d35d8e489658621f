(** LayoutSpec.v -- which cell a lane, a face or an entry of a device view belongs to. *)
From Coq Require Import Bool List.
From Verif Require Import LayoutModel.
Import ListNotations.

(** Lane [i] of the batch [b]. *)
Definition lane {L} (batches : list (list L)) (b i : nat) (l : L) : Prop := exists lanes, nth_error batches b = Some lanes /\ nth_error lanes i = Some l.
(** The cells of the process that have material, in the order of the mesh. *)
Definition owned_active (cells : list lcell) (c : nat) : Prop := exists x, nth_error cells c = Some x /\ lc_owned x = true /\ lc_active x = true.
Definition in_order (cells : list lcell) (l : list nat) : Prop := (forall c, In c l <-> owned_active cells c) /\ NoDup l /\
  forall i j a b, nth_error l i = Some a -> nth_error l j = Some b -> (i < j <-> a < b).
(** Entry [p] of a device view is the one of the point [q] of the cell [c]: [c] is in some colour, and its number counted through the colours gives the place. *)
Definition place (colours : list (list nat)) (n_q c q p : nat) : Prop := q < n_q /\ exists k, nth_error (List.concat colours) k = Some c /\ p = k * n_q + q.
(** The colours contain every cell of the process with material once. *)
Definition coloured (cells : list lcell) (colours : list (list nat)) : Prop := NoDup (List.concat colours) /\ forall c, In c (List.concat colours) <-> owned_active cells c.
(** A face of the boundary of the active material, and its side with material. *)
Definition inner_boundary (cells : list lcell) (l : nat * nat) (c : nat) : Prop :=
  exists a b, nth_error cells (fst l) = Some a /\ nth_error cells (snd l) = Some b /\
    (lc_active a = true /\ lc_active b = false /\ c = fst l \/ lc_active a = false /\ lc_active b = true /\ c = snd l).
Definition active_cell (cells : list lcell) (c : nat) : Prop := exists x, nth_error cells c = Some x /\ lc_active x = true.
Definition owned_cell (cells : list lcell) (c : nat) : Prop := exists x, nth_error cells c = Some x /\ lc_owned x = true.
Definition on_mesh (cells : list lcell) (c : nat) : Prop := c < List.length cells.
