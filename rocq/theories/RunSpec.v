(** RunSpec.v -- what C15 and C37-C40 mean. *)
From Coq Require Import Reals ZArith Bool List String Sorted.
From Verif Require Import Base RunModel.
Import ListNotations.
Local Open Scope R_scope.

(** A thermal run with a given duration and no zero period. *)
Definition regular {N : Num} (cfg : config N) : Prop :=
  c_thermal cfg = true /\ c_scan_duration cfg = false /\ c_refine cfg <> 0%nat /\ c_output cfg <> 0%nat /\ c_mech_factor cfg <> 0%nat /\ c_checkpoint cfg <> Some 0%nat.

(** Step number [n] is scheduled with period [p]. *)
Definition scheduled (n p : nat) : Prop := exists k, n = (k * p)%nat.

(** The deposition box number [j] lies in the activation window of a pass. *)
Definition activates {N : Num} (e : event N) (j : nat) : Prop := exists a b, e_window e = Some (a, b) /\ (a <= j < b)%nat.

(** Two passes that do the same, activation windows apart. *)
Definition same_pass {N : Num} (e e' : event N) : Prop :=
  e_n e = e_n e' /\ e_from e = e_from e' /\ e_dt e = e_dt e' /\ e_to e = e_to e' /\ e_refine e = e_refine e' /\ e_mark e = e_mark e' /\
  e_mech e = e_mech e' /\ e_checkpoint e = e_checkpoint e' /\ e_output e = e_output e'.

(** [d] is the least of the end times of the last segments. *)
Definition earliest_end (ps : list (path RNum)) (d : R) : Prop :=
  (exists p l, In p ps /\ p_ends p = (l ++ [d])%list) /\ forall p l e, In p ps -> p_ends p = (l ++ [e])%list -> d <= e.
Definition latest_end (ps : list (path RNum)) (d : R) : Prop :=
  (exists p l, In p ps /\ p_ends p = (l ++ [d])%list) /\ forall p l e, In p ps -> p_ends p = (l ++ [e])%list -> e <= d.
