(** ParallelElasticSpec.v -- sharing the mechanical problem among processes. *)
From Coq Require Import Reals List Bool.
From Verif Require Import Base HeatModel HeatSpec ElementModel ElementSpec StressModel ElasticModel ElasticSpec ParallelElasticModel.
Import ListNotations.
Local Open Scope R_scope.

(** One process that owns all cells. *)
Definition one_process (cells : list (ecell RNum)) : Prop := Forall (fun c : ecell RNum => j_owned (ec_joint c) = true) cells.
(** Every cell has one owner. *)
Definition shared (cells : list (ecell RNum)) (owns : list (nat -> bool)) : Prop :=
  forall pos, (pos < List.length cells)%nat -> List.length (filter (fun own : nat -> bool => own pos) owns) = 1%nat.
(** What a process has of the temperatures and of the flags: one flag for each of its own cells that take part in the thermal problem, in the order of the
    cells; the temperatures at the nodes of its own cells. *)
Definition has_thermal (cells : list (ecell RNum)) (t : thermal_data RNum) (own : nat -> bool) (tp : thermal_data RNum) : Prop :=
  td_melted tp = map snd (filter (fun pf : nat * bool => own (fst pf)) (combine (map fst (filter (fun pc : nat * ecell RNum => j_thermal (ec_joint (snd pc))) (indexed cells))) (td_melted t))) /\
  (forall pos c j, nth_error cells pos = Some c -> own pos = true -> In j (ec_tdofs c) -> nth j (td_temperature tp) 0 = nth j (td_temperature t) 0).
Definition has_load (cells : list (ecell RNum)) (owns : list (nat -> bool)) (l : load RNum) (pl : pload RNum) : Prop :=
  (exists t, ld_thermal l = Some t /\ Forall2 (has_thermal cells t) owns (pl_thermal pl)) /\ pl_forces pl = ld_forces l /\ pl_iterate pl = ld_iterate l.
(** The processes together are in the state [s]: same displacement; each has the stress variables of its own cells (and whatever for those of others). *)
Definition has_points (cells : list (ecell RNum)) (pts : list (list (point RNum))) (own : nat -> bool) (mine : list (list (point RNum))) : Prop :=
  List.length mine = List.length cells /\ forall pos, own pos = true -> nth_error mine pos = nth_error pts pos.
Definition together (cells : list (ecell RNum)) (owns : list (nat -> bool)) (s : mstate RNum) (ps : pstate RNum) : Prop :=
  ps_old ps = ms_old s /\ Forall2 (has_points cells (ms_points s)) owns (ps_points ps).
Definition same_result (cells : list (ecell RNum)) (owns : list (nat -> bool)) (r : res (mstate RNum)) (rp : res (pstate RNum)) : Prop :=
  match r, rp with Ok s, Ok ps => together cells owns s ps | Throw, Throw => True | UB, UB => True | _, _ => False end.
