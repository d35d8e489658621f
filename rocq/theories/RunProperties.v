(** RunProperties.v -- C15, C37-C40.  Only statements, witnesses and assumptions. *)
From Coq Require Import Reals ZArith QArith Bool List String Sorted Floats.
From Flocq Require Import Core IEEE754.PrimFloat IEEE754.BinarySingleNaN.
From Verif Require Import Base BaseFacts ScanPathModel MaterialFloat RunModel RunSpec RunProofs RunProofs2 RunProofs3 RunFloat RunExamples.
Import ListNotations.
Local Open Scope R_scope.

(** * C15 *)
(** An activation period that is at most a time step (m = 1) or a multiple of it: every box with a time in [0, duration) is activated. *)
Theorem C15_every_box : forall (cfg : config RNum) reread redep ps dep fuel (st st' : state RNum) es (m : nat),
  regular cfg -> 0 < (c_time_step cfg : R) -> (1 <= m)%nat -> Rmax (c_activation cfg) (c_time_step cfg) = INR m * c_time_step cfg -> StronglySorted Rle dep ->
  start cfg None ps dep = Ok st -> run cfg reread redep fuel st = Ok (es, st', true) ->
  forall j (tau : R), nth_error dep j = Some tau -> 0 <= tau < c_duration cfg -> Exists (fun e => activates e j) es.
Proof. exact cover_fresh. Qed.
Print Assumptions C15_every_box.
(** No box is activated by a pass that its time does not belong to. *)
Theorem C15_window : forall (cfg : config RNum) reread redep (st st' : state RNum) (e : event RNum) j (tau : R), regular cfg -> step cfg reread redep st = Ok (e, st') ->
  StronglySorted Rle (s_dep st) -> nth_error (s_dep st) j = Some tau -> activates e j ->
  e_from e - s_dt st / 1000000 <= tau /\ tau < e_from e + Rmax (c_activation cfg) (e_dt e) /\ tau < s_duration st.
Proof. exact window_bounds. Qed.
Print Assumptions C15_window.
(** Two passes with windows, in order: the second starts no earlier than the end of the first window, up to a millionth of a time step. *)
Theorem C15_windows_in_turn : forall (cfg : config RNum) reread redep, regular cfg -> forall pre mid fuel (st : state RNum) e e' post st' fin, 0 < s_dt st ->
  run cfg reread redep fuel st = Ok ((pre ++ e :: mid ++ e' :: post)%list, st', fin) -> e_window e <> None -> e_window e' <> None ->
  Rmin (e_from e + Rmax (c_activation cfg) (e_dt e)) (s_duration st) - s_dt st / 1000000 < e_from e'.
Proof. exact windows_in_turn. Qed.
Print Assumptions C15_windows_in_turn.
(** Activation period 1.5 time steps. *)
Theorem C15_any_period_refuted : exists (cfg : config QNum) reread redep dep st es st' j (tau : Q), regular cfg /\ start cfg None [] dep = Ok st /\ run cfg reread redep 10 st = Ok (es, st', true) /\
  nth_error dep j = Some tau /\ (0 <= tau /\ tau < c_duration cfg)%Q /\ ~ Exists (fun e => activates e j) es.
Proof. exact ex_any_period. Qed.
Print Assumptions C15_any_period_refuted.

(** * C37 *)
Theorem C37_ends_at_duration : forall (cfg : config RNum) reread redep, regular cfg -> forall st : state RNum, 0 < s_dt st -> s_time st < s_duration st ->
  exists (m : nat) es st', (INR m - 1) * s_dt st < s_duration st - s_time st <= INR m * s_dt st /\
  (forall k, run cfg reread redep (m + k) st = Ok (es, st', true)) /\ List.length es = m /\ s_time st' = s_duration st /\
  forall i e, nth_error es i = Some e -> e_n e = (s_n st + i)%nat /\ e_from e = s_time st + INR i * s_dt st /\ e_to e = Rmin (s_time st + INR (S i) * s_dt st) (s_duration st) /\
    e_dt e = e_to e - e_from e /\ 0 < e_dt e /\ ((S i < m)%nat -> e_dt e = s_dt st).
Proof. exact run_ends. Qed.
Print Assumptions C37_ends_at_duration.
Example C37_example : exists st', run ex_cfg no_reread no_redep 10 ex_start = Ok (ex_run, st', true) /\ s_time st' = (7 # 2)%Q. Proof. exact ex_run_ok. Qed.
Theorem C37_zero_step_never_ends : forall (cfg : config RNum) reread redep, regular cfg -> forall fuel (st : state RNum), s_dt st = 0 -> s_time st < s_duration st ->
  exists es st', run cfg reread redep fuel st = Ok (es, st', false) /\ s_time st' = s_time st.
Proof. exact zero_step. Qed.
Print Assumptions C37_zero_step_never_ends.
Theorem C37_mechanical_never_ends : forall (N : Num) (cfg : config N) reread redep fuel, neqb N (nmax N) (nmax N) = true -> c_thermal cfg = false ->
  forall st es st' fin, nltb N (s_time st) (s_duration st) = true -> run cfg reread redep fuel st = Ok (es, st', fin) -> fin = false /\ s_time st' = s_time st /\ List.length es = fuel.
Proof. exact @mechanical_never_ends. Qed.
Print Assumptions C37_mechanical_never_ends.
Example C37_mechanical_checkpoint : step (mkcfg (N := QNum) false true 2 1 1 (Some 1%nat) 0%Q false 1%Q 2%Q) no_reread no_redep ex_start = UB. Proof. exact mech_checkpoint. Qed.
(** In binary64 arithmetic, from time 0: the times never decrease and never pass the duration, a run that ends does so exactly at the duration,
    and it ends if the time step is at least the spacing of the numbers near the duration. *)
Theorem C37_binary64 : forall (cfg : config FNum) reread redep ps dep st fuel, regular cfg ->
  Ffinite (c_time_step cfg) -> 0 < Fval (c_time_step cfg) -> Ffinite (c_duration cfg) -> 0 <= Fval (c_duration cfg) ->
  Rabs (rnd64 (Fval (c_duration cfg) + Fval (c_time_step cfg))) < bpow radix2 FloatOps.emax -> start cfg None ps dep = Ok st ->
  exists es st' fin, run cfg reread redep fuel st = Ok (es, st', fin) /\ nondec (c_duration cfg) es zero /\ (fin = true -> Fval (s_time st') = Fval (c_duration cfg)) /\
  (ulp radix2 fexp64 (Fval (c_duration cfg)) <= Fval (c_time_step cfg) -> 2 * Fval (c_duration cfg) <= INR fuel * Fval (c_time_step cfg) -> fin = true).
Proof. exact Frun_fresh. Qed.
Print Assumptions C37_binary64.
(** Smaller steps: the time stands still. *)
Theorem C37_binary64_always_ends_refuted : forall reread redep fuel, exists es st', run stuck_cfg reread redep fuel stuck_state = Ok (es, st', false).
Proof. exact stuck. Qed.
Print Assumptions C37_binary64_always_ends_refuted.

(** * C38 *)
Theorem C38_output_steps : forall (N : Num) (cfg : config N) reread redep ps dep fuel st es st' fin,
  start cfg None ps dep = Ok st -> run cfg reread redep fuel st = Ok (es, st', fin) -> c_output cfg <> 0%nat ->
  map fst (outputs st es) = filter (fun n => Nat.eqb (Nat.modulo n (c_output cfg)) 0) (seq 0 (List.length es + 1)).
Proof. exact @outputs_fresh. Qed.
Print Assumptions C38_output_steps.
Theorem C38_schedule : forall (N : Num) (cfg : config N) reread redep fuel st es st' fin, run cfg reread redep fuel st = Ok (es, st', fin) ->
  s_n st' = (s_n st + List.length es)%nat /\
  forall i e, nth_error es i = Some e -> e_n e = (s_n st + i)%nat /\
  (e_output e = true <-> scheduled (e_n e) (c_output cfg)) /\
  ((exists w, e_refine e = Some w) <-> c_thermal cfg = true /\ (e_n e = 1%nat \/ scheduled (e_n e) (c_refine cfg))) /\
  (e_mech e = true <-> c_mech cfg = true /\ (scheduled (e_n e) (c_mech_factor cfg) \/ scheduled (e_n e) (c_output cfg))) /\
  (e_checkpoint e = true <-> exists p, c_checkpoint cfg = Some p /\ scheduled (e_n e) p).
Proof. exact @run_schedule. Qed.
Print Assumptions C38_schedule.
(** Output number n is written at time n * time step, or at the duration. *)
Theorem C38_output_times : forall (cfg : config RNum) reread redep, regular cfg -> forall ps dep fuel (st st' : state RNum) es fin, 0 < (c_time_step cfg : R) -> 0 <= (c_duration cfg : R) ->
  start cfg None ps dep = Ok st -> run cfg reread redep fuel st = Ok (es, st', fin) -> forall n (t : R), In (n, t) (outputs st es) -> t = Rmin (INR n * c_time_step cfg) (c_duration cfg).
Proof. exact output_times. Qed.
Print Assumptions C38_output_times.
(** A refinement looks from the start of its pass one refinement period ahead. *)
Theorem C38_refinement_interval : forall (N : Num) (cfg : config N) reread redep fuel st es st' fin, run cfg reread redep fuel st = Ok (es, st', fin) -> forall e w, In e es -> e_refine e = Some w ->
  w = (e_from e, nadd N (e_from e) (nmul N (nofZ N (Z.of_nat (c_refine cfg))) (e_dt e))).
Proof. exact @run_refine. Qed.
Print Assumptions C38_refinement_interval.
Theorem C38_no_zero_period : forall (N : Num) (cfg : config N) reread redep fuel st es st' fin, run cfg reread redep fuel st = Ok (es, st', fin) -> es <> [] ->
  c_output cfg <> 0%nat /\ c_checkpoint cfg <> Some 0%nat /\ (c_mech cfg = true -> c_mech_factor cfg <> 0%nat) /\
  ((2 <= s_n st \/ 2 <= List.length es)%nat -> s_n st <> 0%nat -> c_refine cfg <> 0%nat).
Proof. exact @run_zero. Qed.
Print Assumptions C38_no_zero_period.
Example C38_example : exists st', run ex_cfg no_reread no_redep 10 ex_start = Ok (ex_run, st', true) /\ s_time st' = (7 # 2)%Q. Proof. exact ex_run_ok. Qed.
Example C38_zero_output : step (mkcfg (N := QNum) true false 2 0 1 None 0%Q false 1%Q 2%Q) no_reread no_redep ex_start = UB. Proof. exact zero_output. Qed.

(** * C39 *)
(** Restart from the checkpoint of any pass [e]: the same passes follow, activation windows apart. *)
Theorem C39_same_passes : forall (cfg : config RNum) reread redep, regular cfg -> forall ps dep (st0 : state RNum) fuel pre e post st' fin,
  start cfg None ps dep = Ok st0 -> run cfg reread redep fuel st0 = Ok ((pre ++ e :: post)%list, st', fin) ->
  exists (st1 : state RNum) es' st2 f, start cfg (Some (checkpoint_content e)) ps dep = Ok st1 /\ run cfg reread redep f st1 = Ok (es', st2, fin) /\ Forall2 same_pass post es'.
Proof. exact restart_same. Qed.
Print Assumptions C39_same_passes.
Theorem C39_same_windows_refuted : exists st es st', start rs_cfg None [] rs_dep = Ok st /\ run rs_cfg no_reread no_redep 9 st = Ok (es, st', true) /\
  exists e r esr st'', nth_error es 0 = Some e /\ e_checkpoint e = true /\ start rs_cfg (Some (checkpoint_content e)) [] rs_dep = Ok r /\ run rs_cfg no_reread no_redep 9 r = Ok (esr, st'', true) /\
  exists e1 e2, nth_error es 1 = Some e1 /\ nth_error esr 0 = Some e2 /\ e_n e1 = e_n e2 /\ e_window e1 = None /\ activates e2 0.
Proof. exact rs_shifted. Qed.
Print Assumptions C39_same_windows_refuted.
(** The output written at the checkpoint step is written again. *)
Theorem C39_first_output : forall (N : Num) (cfg : config N) t n ps dep st es, start cfg (Some (t, n)) ps dep = Ok st -> exists l, outputs st es = (n, t) :: l.
Proof. exact @outputs_restart. Qed.
Print Assumptions C39_first_output.
(** The files of a checkpoint are found exactly when the restart prefix is that of the checkpoint and there is no output directory. *)
Theorem C39_files_found : forall overwrite prefix n output_dir restart_prefix, let p := checkpoint_prefix overwrite prefix n in
  (read_mesh restart_prefix = written_mesh output_dir p /\ read_time restart_prefix = written_time output_dir p) <-> (restart_prefix = p /\ output_dir = ""%string).
Proof. exact files_found. Qed.
Print Assumptions C39_files_found.
(** The names: the prefix when checkpoints overwrite each other, else the prefix with the number of the step. *)
Theorem C39_file_names : forall prefix n output_dir, let p := (prefix ++ "_" ++ n)%string in
  written_mesh output_dir (checkpoint_prefix true prefix n) = prefix /\ written_mesh output_dir (checkpoint_prefix false prefix n) = p /\
  written_time output_dir (checkpoint_prefix true prefix n) = (output_dir ++ prefix ++ "_time.txt")%string /\ written_time output_dir (checkpoint_prefix false prefix n) = (output_dir ++ p ++ "_time.txt")%string /\
  read_mesh p = p /\ read_time p = (p ++ "_time.txt")%string.
Proof. repeat split. Qed.
Print Assumptions C39_file_names.

(** * C40 *)
Theorem C40_duration_fixed : forall (N : Num) (cfg : config N) reread redep fuel, neqb N (nmax N) (nmax N) = true ->
  forall st es st' fin, run cfg reread redep fuel st = Ok (es, st', fin) -> s_duration st' = s_duration st.
Proof. exact @run_duration. Qed.
Print Assumptions C40_duration_fixed.
Example C40_max_reflexive : neqb FNum (nmax FNum) (nmax FNum) = true. Proof. reflexivity. Qed.
(** A path not finished at start-up, whatever the files say later: no time below the largest number ends the run. *)
Theorem C40_unfinished_never_ends : forall (N : Num) (cfg : config N) reread redep restart ps dep st fuel es st' fin, neqb N (nmax N) (nmax N) = true -> c_scan_duration cfg = true ->
  (exists p, In p ps /\ p_finished p = false) -> start cfg restart ps dep = Ok st -> run cfg reread redep fuel st = Ok (es, st', fin) ->
  s_duration st' = nmax N /\ (fin = true -> nltb N (s_time st') (nmax N) = false).
Proof. exact @unfinished_never_ends. Qed.
Print Assumptions C40_unfinished_never_ends.
Example C40_goes_on : exists st es st', start sc_cfg None [gr_path false] [] = Ok st /\ run sc_cfg gr_reread no_redep 40 st = Ok (es, st', false) /\
  s_time st' = 10%Q /\ s_paths st' = [gr_path true]. Proof. exact gr_goes_on. Qed.
Theorem C40_finished_earliest : forall (cfg : config RNum) restart (ps : list (path RNum)) dep (st : state RNum), c_scan_duration cfg = true -> ps <> [] -> (forall p, In p ps -> p_finished p = true) ->
  (forall p x, In p ps -> In x (p_ends p) -> (x : R) <= IZR dblmaxZ) -> start cfg restart ps dep = Ok st -> earliest_end ps (s_duration st).
Proof. exact startup_min. Qed.
Print Assumptions C40_finished_earliest.
Theorem C40_ends_with_last_path_refuted : exists st es st', start sc_cfg None sc_paths [] = Ok st /\
  run sc_cfg sc_reread no_redep 99 st = Ok (es, st', true) /\
  (forall p, In p sc_paths -> p_finished p = true) /\ s_time st' = 1%Q /\ In (mkpath (N := QNum) [2%Q; 5%Q] true) sc_paths.
Proof. exact sc_early. Qed.
Print Assumptions C40_ends_with_last_path_refuted.
