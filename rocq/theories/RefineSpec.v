(** RefineSpec.v -- when a cell meets a heat source during the coming time steps. *)
From Coq Require Import Reals List.
From Verif Require Import Base RefineModel.
Import ListNotations.
Local Open Scope R_scope.

(** At one of the [n] sampled times the box of one of the sources, scaled by two, intersects the cell. *)
Definition meets (d : bool) (sources : list heat_source) (time next : R) (n : nat) (c : tria_cell) : Prop :=
  exists i s b, (i < n)%nat /\ In s sources /\ source_box d s (sample_time time next n i) 2 = Ok (Some b) /\ intersects d (fst c) b = true.
