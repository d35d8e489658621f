(** RunModel.v -- the time loop of run (application/adamantine.hh:756-1437): time stepping, schedule of refinement,
    activation, mechanical solves, checkpoints and outputs, restart.

    Simplifications: the physics is not modelled, only when it is invoked and with which times; the unsigned step counter does not
    wrap around (fewer than 2^32 steps); without a checkpoint section the checkpoint period is 2^32-1 in the code and [None] here. *)
From Coq Require Import ZArith Bool List String Lia.
From Verif Require Import Base.
Import ListNotations.

Section Run.
  Context {N : Num}.
  Local Open Scope num_scope.

  (** std::lower_bound (libstdc++ binary search) with operator<: position of the first element not less than x. *)
  Fixpoint lower_bound_go (fuel : nat) (l : list N) (x : N) (first len : nat) : nat :=
    match fuel with
    | O => first
    | S fuel' =>
        if Nat.eqb len 0 then first
        else
          let half := Nat.div len 2 in
          match nth_error l (first + half) with
          | Some v => if v <? x then lower_bound_go fuel' l x (first + half + 1) (len - half - 1) else lower_bound_go fuel' l x first half
          | None => first
          end
    end.
  Definition lower_bound (l : list N) (x : N) : nat := lower_bound_go (S (List.length l)) l x 0 (List.length l).

  (** Options of the run (adamantine.hh:776-779, 885-900, 976-978, 993-1014). *)
  Record config := mkcfg {
    c_thermal : bool; c_mech : bool;
    c_refine : nat;               (* refinement.time_steps_between_refinement *)
    c_output : nat;               (* post_processor.time_steps_between_output *)
    c_mech_factor : nat;          (* time_stepping.mechanical_time_step_factor *)
    c_checkpoint : option nat;    (* checkpoint.time_steps_between_checkpoint *)
    c_activation : N;             (* geometry.deposition_time *)
    c_scan_duration : bool;       (* time_stepping.scan_path_for_duration *)
    c_time_step : N; c_duration : N }.

  (** What the loop knows of the scan path of a heat source: the end times of its segments, and is_finished(). *)
  Record path := mkpath { p_ends : list N; p_finished : bool }.
  Record state := mkst {
    s_time : N; s_dt : N; s_duration : N; s_n : nat;
    s_act_end : N;                (* activation_time_end *)
    s_scan_end : N;               (* current_scan_path_end *)
    s_paths : list path; s_dep : list N (* deposition_times *) }.

  (** What one pass of the loop does. *)
  Record event := mkev {
    e_n : nat; e_from : N; e_dt : N; e_to : N;
    e_refine : option (N * N);        (* refine_mesh(time, next_refinement_time) *)
    e_window : option (nat * nat);    (* activation_start, activation_end *)
    e_mark : bool;                    (* mark_has_melted *)
    e_mech : bool; e_checkpoint : bool; e_output : bool }.

  (** a % b on unsigned integers. *)
  Definition umod (a b : nat) : res nat := if Nat.eqb b 0 then UB else Ok (Nat.modulo a b).
  Definition divides (a b : nat) : res bool := do m <- umod a b; Ok (Nat.eqb m 0).

  (** Start-up (1038-1058): minimum of the end times, and whether all the paths are finished. *)
  Fixpoint scan_startup (ps : list path) (e : N) (fin : bool) : res (N * bool) :=
    match ps with
    | [] => Ok (e, fin)
    | p :: rest =>
        do t <- back (p_ends p);
        scan_startup rest (if t <? e then t else e) (if p_finished p then fin else false)
    end.
  Definition startup_duration (cfg : config) (ps : list path) : res (N * N) :=
    let d := if c_scan_duration cfg then nmax N else c_duration cfg in
    if c_scan_duration cfg then
      do '(e, fin) <- scan_startup ps (nmax N) true;
      Ok (e, if (fin : bool) then e else d)
    else Ok (nZ 0, d).
  (** Initial state of the loop (955-986, 1043-1060); [restart] is the content of the time file. *)
  Definition start (cfg : config) (restart : option (N * nat)) (ps : list path) (dep : list N) : res state :=
    do '(e, d) <- startup_duration cfg ps;
    let '(t, n) := match restart with Some (t, n) => (t, n) | None => (nZ 0, 0%nat) end in
    Ok (mkst t (c_time_step cfg) d (n + 1) (nZ (-1)) e ps dep).

  (** In the loop (1084-1107): every unfinished path is re-read, [reread i] is what the file of source i then contains. *)
  Fixpoint scan_reread (reread : nat -> path) (i : nat) (ps : list path) (e : N) (fin : bool) : res (list path * N * bool) :=
    match ps with
    | [] => Ok ([], e, fin)
    | p :: rest =>
        if p_finished p then do '(ps', e', fin') <- scan_reread reread (S i) rest e fin; Ok (p :: ps', e', fin')
        else
          do t <- back (p_ends (reread i));
          do '(ps', e', fin') <- scan_reread reread (S i) rest (if t <? e then t else e) false;
          Ok (reread i :: ps', e', fin')
    end.

  (** One pass of the loop (1063-1399).  [reread n i], [redep n]: the scan path files and the deposition times re-created at step n. *)
  Definition step (cfg : config) (reread : nat -> nat -> path) (redep : nat -> list N) (st : state) : res (event * state) :=
    let n := s_n st in
    let time := s_time st in
    let tol := s_dt st * (nZ 1 / nZ 1000000) in
    do '(ps, scan_end, duration, dep) <-
      (if c_scan_duration cfg && ((- tol) <? (time - s_scan_end st)) then
         do '(ps', e', fin) <- scan_reread (reread n) 0 (s_paths st) (nmax N) true;
         Ok (ps', e', (if (fin : bool) && negb (e' =? nmax N) then e' else s_duration st), redep n)
       else Ok (s_paths st, s_scan_end st, s_duration st, s_dep st));
    let dt := if duration <? (time + s_dt st) then duration - time else s_dt st in
    do ref <- (if Nat.eqb n 1 then Ok true else divides n (c_refine cfg));
    let refine := if ref && c_thermal cfg then Some (time, time + nofZ N (Z.of_nat (c_refine cfg)) * dt) else None in
    let '(window, act_end) :=
      (if (- tol) <? (time - s_act_end st) then
         let first := lower_bound dep (time - tol) in
         let act_end := nmin (time + nmaxi (c_activation cfg) dt) duration in
         let last := lower_bound dep act_end in
         (if Nat.ltb first last && c_thermal cfg then Some (first, last) else None, act_end)
       else (None, s_act_end st)) in
    let after := if c_thermal cfg then time + dt else time in
    do mech <- (if c_mech cfg then do a <- divides n (c_mech_factor cfg); if (a : bool) then Ok true else divides n (c_output cfg) else Ok false);
    do ckpt <- match c_checkpoint cfg with
               | Some p => do c <- divides n p; if (c : bool) && negb (c_thermal cfg) then UB else Ok c
               | None => Ok false
               end;
    do out <- divides n (c_output cfg);
    Ok (mkev n time dt after refine window (c_thermal cfg && c_mech cfg) mech ckpt out,
        mkst after dt duration (n + 1) act_end scan_end ps dep).

  (** The loop: at most [fuel] passes; the flag tells whether the loop has ended. *)
  Fixpoint run (cfg : config) (reread : nat -> nat -> path) (redep : nat -> list N) (fuel : nat) (st : state) : res (list event * state * bool) :=
    if s_time st <? s_duration st then
      match fuel with
      | O => Ok ([], st, false)
      | S fuel' =>
          do '(e, st') <- step cfg reread redep st;
          do '(es, st'', fin) <- run cfg reread redep fuel' st';
          Ok (e :: es, st'', fin)
      end
    else Ok ([], st, true).

  (** The outputs (cycle, time): the initial one (980-983, written before ++n_time_step) and those of the loop (1390-1399). *)
  Definition outputs (st : state) (es : list event) : list (nat * N) := ((s_n st - 1)%nat, s_time st) :: map (fun e => (e_n e, e_to e)) (filter e_output es).

  (** Content of a checkpoint: time and n_time_step at the end of the pass (1349-1373; written before ++n_time_step). *)
  Definition checkpoint_content (e : event) : N * nat := (e_to e, e_n e).
End Run.
Arguments config : clear implicits.
Arguments path : clear implicits.
Arguments state : clear implicits.
Arguments event : clear implicits.

(** Files of a checkpoint (1349-1373; ThermalPhysics.templates.hh: save_checkpoint / load_checkpoint use the prefix alone):
    names written with the prefix of the checkpoint section, and names read with the prefix of the restart section (932-936, 968-975). *)
Local Open Scope string_scope.
Definition checkpoint_prefix (overwrite : bool) (prefix : string) (n_str : string) : string := if overwrite then prefix else prefix ++ "_" ++ n_str.
Definition written_mesh (output_dir prefix : string) : string := prefix.
Definition written_time (output_dir prefix : string) : string := output_dir ++ prefix ++ "_time.txt".
Definition read_mesh (restart_prefix : string) : string := restart_prefix.
Definition read_time (restart_prefix : string) : string := restart_prefix ++ "_time.txt".
