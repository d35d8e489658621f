(** ConvergenceSpec.v -- what C91 means: the differential equations that the time stepping solves. *)
From Coq Require Import Reals List Bool.
From Coquelicot Require Import Coquelicot.
From Verif Require Import Base ScanPathModel HeatSourceModel MaterialModel InputModel HeatModel HeatSpec SuperpositionSpec.
Import ListNotations.
Local Open Scope R_scope.

(** The temperatures [Y t] at all times have the rates of change [r]. *)
Definition solves (n : nat) (r : list R -> list R) (Y : R -> list R) : Prop :=
  forall t, List.length (Y t) = n /\ forall j, (j < n)%nat -> is_derive (fun u => entry (Y u) j) t (entry (r (Y t)) j).
(** Laws and beams that do not depend on the temperature. *)
Definition independent (K : laws RNum) (F : face_laws RNum) : Prop :=
  (forall c q T T', K c q T = K c q T') /\ (forall j q T T', F j q T = F j q T').
(** The scenario in which nothing changes with time. *)
Definition constant_run (on : bool) (K : laws RNum) (F : face_laws RNum) (y0 : list R) : scenario := mksc (fun _ _ => on) (fun _ _ => K) (fun _ _ => F) y0.
(** Time steps of at most [h]. *)
Definition steps_of (h : R) (dts : list R) : Prop := List.Forall (fun dt => 0 <= dt <= h) dts.
