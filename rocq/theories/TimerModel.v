(** TimerModel.v -- source/Timer.cc, and the timer calls of the ensemble driver (application/adamantine.hh). *)
From Coq Require Import ZArith Bool List.
Import ListNotations.
Local Open Scope Z_scope.

(** boost::chrono::process_cpu_clock durations: wall-clock, user and system time in nanoseconds (boost::chrono::process_times).  Overflow of
    the 64-bit counts (after 292 years) is not modelled. *)
Record cpu := mkcpu { wall : Z; user : Z; system : Z }.
Definition cadd (a b : cpu) : cpu := mkcpu (wall a + wall b) (user a + user b) (system a + system b).
Definition csub (a b : cpu) : cpu := mkcpu (wall a - wall b) (user a - user b) (system a - system b).
Definition czero : cpu := mkcpu 0 0 0.

(** Timer.hh:61-69: _t_start and _elapsed_time (_communicator and _section are passed to [print_timer]). *)
Record timer := mktimer { t_start : cpu; elapsed : cpu }.
(** Timer.cc:11-15: both zero; a default-constructed time_point is the epoch of the clock. *)
Definition new_timer : timer := mktimer czero czero.
(** Timer.cc:17 *)
Definition start (now : cpu) (t : timer) : timer := mktimer now (elapsed t).
(** Timer.cc:19 *)
Definition stop (now : cpu) (t : timer) : timer := mktimer (t_start t) (cadd (elapsed t) (csub now (t_start t))).
(** Timer.cc:21 *)
Definition reset (t : timer) : timer := mktimer (t_start t) czero.
(** Timer.cc:36-39 *)
Definition get_elapsed_time (t : timer) : cpu := elapsed t.
(** Timer.cc:23-34: what is printed, as a number of milliseconds: duration_cast truncates; a process_times converts to its wall-clock part.
    Only rank 0 of the communicator prints. *)
Definition print_timer (rank : Z) (t : timer) : option Z := if Z.eqb rank 0 then Some (Z.quot (wall (elapsed t)) 1000000) else None.

(** The calls made on one timer, with the clock reading where there is one. *)
Inductive call := Start (now : cpu) | Stop (now : cpu) | Reset.
Definition do_call (t : timer) (c : call) : timer :=
  match c with Start now => start now t | Stop now => stop now t | Reset => reset t end.
Definition history (h : list call) : timer := fold_left do_call h new_timer.

(** types.hh:132-148: the timers of the application. *)
Inductive timing := Main | Refine | Search | Activate | Exp_data | Dof_mapping | Cov_sparsity | Obs_cov | Update_ens | Evol | Eval_th_ph | Bound_mat | Output.
Definition timing_eqb (a b : timing) : bool :=
  match a, b with
  | Main, Main | Refine, Refine | Search, Search | Activate, Activate | Exp_data, Exp_data | Dof_mapping, Dof_mapping | Cov_sparsity, Cov_sparsity
  | Obs_cov, Obs_cov | Update_ens, Update_ens | Evol, Evol | Eval_th_ph, Eval_th_ph | Bound_mat, Bound_mat | Output, Output => true
  | _, _ => false
  end.

(** A call on one of the timers; the clock is read when the call happens. *)
Inductive op := On | Off.
Definition trace := list (timing * op).
Definition section (k : timing) (body : trace) : trace := (k, On) :: body ++ [(k, Off)].

(** ThermalPhysics.templates.hh:157-325 (host): one evaluation of the right-hand side. *)
Definition evaluation : trace := section Bound_mat [] ++ section Eval_th_ph [].

(** What one time step of the ensemble does: whether the mesh is refined, whether material is added, the number of members of this process,
    the evaluations each of them makes, whether a frame is assimilated and whether any observation is mapped, whether output is written. *)
Record ens_step := mkstep { refines : bool; adds : bool; members : nat; evaluations : list nat; assimilates : bool; mapped : bool; writes : bool }.

Definition many (n : nat) (t : trace) : trace := concat (repeat t n).
Definition when (b : bool) (t : trace) : trace := if b then t else [].

(** adamantine.hh:2191-2304: the timer calls of one assimilation.  Lines 2252 and 2262 both call start(). *)
Definition assimilation_trace (mapped : bool) : trace :=
  section Exp_data [] ++
  when mapped (section Dof_mapping [] ++ [(Cov_sparsity, On); (Cov_sparsity, On)] ++ section Obs_cov [] ++ section Update_ens []).

(** adamantine.hh:2022-2430: the timer calls of one time step. *)
Definition step_trace (s : ens_step) : trace :=
  when (refines s) (section Refine []) ++
  section Activate (when (adds s) (many (members s) (section Search []))) ++
  section Evol (concat (map (fun n => many n evaluation) (evaluations s))) ++
  when (assimilates s) (assimilation_trace (mapped s)) ++
  when (writes s) (many (members s) (section Output [])).

(** adamantine.hh:1881-1885 (output of the initial state by every member) and the time loop, inside adamantine.cc:266 and 517. *)
Definition run_trace (n0 : nat) (steps : list ens_step) : trace :=
  section Main (many n0 (section Output []) ++ concat (map step_trace steps)).

(** The calls received by timer [k] when call number i of the trace happens at clock reading [clock i]. *)
Fixpoint calls_of (k : timing) (clock : nat -> cpu) (i : nat) (t : trace) : list call :=
  match t with
  | [] => []
  | (k', o) :: r => (if timing_eqb k k' then [match o with On => Start (clock i) | Off => Stop (clock i) end] else []) ++ calls_of k clock (S i) r
  end.
Definition run_timer (k : timing) (clock : nat -> cpu) (t : trace) : timer := history (calls_of k clock 0 t).
