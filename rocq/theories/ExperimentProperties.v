(** ExperimentProperties.v -- C31, C32, C54, C55.  Only statements, witnesses and assumptions. *)
From Coq Require Import Reals ZArith QArith Bool List String Ascii Floats.
From Verif Require Import Base BaseFacts ScanPathModel MaterialModel Decimal InputModel InputSpec ExperimentModel ExperimentSpec ExperimentProofs ExperimentProofs2 ExperimentProofs3 ExperimentExamples.
Import ListNotations.
Local Open Scope string_scope.

(** ** C31.  The log is read if and only if every line starts with a number and the entries of the wanted lines are readable and within the cameras;
    then every camera gets its stamps, plus the offset, of exactly the wanted lines, in file order.  Any parser, any arithmetic. *)
Theorem C31_exactly_the_wanted : forall (N : Num) (P : parser N) (cfg : log_config N) lines (ts : list (list N)), read_frame_timestamps P cfg lines = Ok ts <->
  List.length ts = lg_cameras cfg /\
  (forall camera, (camera < lg_cameras cfg)%nat -> exists xs, nth_error ts camera = Some xs /\ stamps P cfg camera lines xs) /\
  (forall line, In line lines -> exists s z, column line 0 s /\ stoi P s = Some z) /\
  (forall line k s, In line lines -> wanted P cfg line -> column line (S k) s -> s <> "" -> (k < lg_cameras cfg)%nat /\ exists x, stod P s = Some x).
Proof. exact @log_ok. Qed.
Print Assumptions C31_exactly_the_wanted.
(** Witness; and refutation of the announced check: frames 1, 3, 2 are read without complaint.  The missing entry of frame 3 makes the stamp of frame 2 the second one of the first camera. *)
Theorem C31_consecutive_refuted : read_frame_timestamps QParser x_cfg ["0,0.5,0.6"; "1 , 1.5 ,1.6"; "3,,3.6"; "2,2.5,2.6"; "7,7.5,7.6"] =
  Ok [[(8 # 5)%Q; (13 # 5)%Q]; [(17 # 10)%Q; (37 # 10)%Q; (27 # 10)%Q]].
Proof. exact ex_log. Qed.
Print Assumptions C31_consecutive_refuted.
Example C31_extra_column : read_frame_timestamps QParser x_cfg ["2,1,2,3"] = UB. Proof. exact ex_log_ub. Qed.
Example C31_empty_line : read_frame_timestamps QParser x_cfg ["2,1,2"; ""] = Throw. Proof. exact ex_log_blank. Qed.

(** ** C32.  Real arithmetic: when no pass of the loop has two frames, every frame is assimilated exactly in the pass in which it is due: once, in order. *)
Theorem C32_each_frame_once : forall (ts : list R) (half t0 : R) (times : list R), increasing ts -> increasing (t0 :: times) -> apart ts times ->
  exists evs, frame_run (N := RNum) ts half 1 t0 times (frames_initial (N := RNum) 0) = Ok evs /\ List.length evs = List.length times /\
    (forall k j, nth_error (map snd evs) k = Some (Assimilated j) <-> due ts times k j) /\
    (forall k j, nth_error (map snd evs) k <> Some (Read j)) /\
    (forall j x t, nth_error ts j = Some x -> In t times -> (x <= t)%R -> exists k, nth_error (map snd evs) k = Some (Assimilated j) /\ forall k', nth_error (map snd evs) k' = Some (Assimilated j) -> k' = k) /\
    (forall k k' j j', (k < k')%nat -> nth_error (map snd evs) k = Some (Assimilated j) -> nth_error (map snd evs) k' = Some (Assimilated j') -> (j < j')%nat).
Proof. exact each_once. Qed.
Print Assumptions C32_each_frame_once.
Theorem C32_spaced_frames : forall (ts : list R) (t0 : R) times, increasing ts -> increasing (t0 :: times) -> spaced ts times -> apart ts times.
Proof. exact spaced_apart. Qed.
Print Assumptions C32_spaced_frames.
Example C32_spaced_example : increasing r_ts /\ increasing (0%R :: r_times) /\ spaced r_ts r_times. Proof. exact (conj r_ts_increasing (conj r_times_increasing r_spaced)). Qed.
Example C32_events_example : exists st1 st2 st3, frame_run (N := RNum) [1; 3]%R (101 / 100)%R 1 0%R [1; 2; 3]%R (frames_initial (N := RNum) 0) = Ok [(st1, Assimilated 0); (st2, Nothing); (st3, Assimilated 1)].
Proof. exact r_events. Qed.
(** The same in binary64. *)
Theorem C32_binary64 : forall (ts : list FNum) (half t0 : FNum) times, Forall Ffinite ts -> Forall Ffinite (t0 :: times) ->
  increasing (map Fval ts) -> increasing (map Fval (t0 :: times)) -> apart (map Fval ts) (map Fval times) ->
  exists evs, frame_run ts half 1 t0 times (frames_initial 0) = Ok evs /\ List.length evs = List.length times /\
    (forall k j, nth_error (map snd evs) k = Some (Assimilated j) <-> due (map Fval ts) (map Fval times) k j) /\ (forall k j, nth_error (map snd evs) k <> Some (Read j)).
Proof. exact binary64_each_once. Qed.
Print Assumptions C32_binary64.
(** Two frames in a pass that is not the last one: the run aborts. *)
Theorem C32_two_in_a_step : forall (ts : list R) (half t0 : R) (times : list R), increasing ts -> increasing (t0 :: times) ->
  (exists k j j', (S k < List.length times)%nat /\ j <> j' /\ due ts times k j /\ due ts times k j') ->
  frame_run (N := RNum) ts half 1 t0 times (frames_initial (N := RNum) 0) = Throw.
Proof. exact two_in_a_step. Qed.
Print Assumptions C32_two_in_a_step.
Example C32_two_example : frame_run (N := RNum) [1 / 4; 1 / 2]%R (101 / 100)%R 1 0%R r_times (frames_initial (N := RNum) 0) = Throw. Proof. exact r_two. Qed.
(** Any first frame and any state: the assimilation of frame [j] happens in the pass of stamp number [j] of the log ... *)
Theorem C32_stamp_used : forall (N : Num) (ts : list N) half times n old st evs, frame_run ts half n old times st = Ok evs ->
  forall k j, nth_error (map snd evs) k = Some (Assimilated j) ->
  exists x prev t, nth_error ts j = Some x /\ nth_error (old :: times) k = Some prev /\ nth_error times k = Some t /\ nleb N x t = true /\ (nltb N prev x = true \/ (n + k = 1)%nat).
Proof. exact assimilated_window. Qed.
Print Assumptions C32_stamp_used.
(** ... but the log is read from experiment.first_frame on: with first_frame = 1 and stamps 1, 2, 3, 4 of the frames 1 to 4, frame 1 is never assimilated and frame 2 at time 3; with first_frame = 10 memory is read out of bounds. *)
Theorem C32_first_frame_refuted :
  match frame_run (N := FNum) [1; 2; 3; 4]%float 0x1.028f5c28f5c29p-1%float 1 0%float [0.5; 1; 1.5; 2; 2.5; 3; 3.5; 4; 4.5]%float (frames_initial 1) with Ok evs => Some (map snd evs) | _ => None end =
    Some [Nothing; Read 1; Nothing; Nothing; Nothing; Assimilated 2; Nothing; Assimilated 3; Nothing] /\
  frame_run (N := FNum) [1; 2; 3; 4; 5]%float 0x1.028f5c28f5c29p-1%float 1 0%float [0.5; 1]%float (frames_initial 10) = UB.
Proof. exact (conj ex_shift ex_shift_ub). Qed.
Print Assumptions C32_first_frame_refuted.
(** Restart at time [T]: fine if no stamp is before [T]; otherwise the run aborts at the next frame; and it reads out of bounds if all the stamps are before [T]. *)
Theorem C32_restart_before_first : forall (ts : list R) (T x : R), nth_error ts 0 = Some x -> (T <= x)%R -> frames_restarted (N := RNum) 0 ts T = Ok (frames_initial (N := RNum) 0).
Proof. exact restart_fresh. Qed.
Print Assumptions C32_restart_before_first.
Theorem C32_restart_aborts : forall (ts : list R) (half T y : R) (times : list R) n st, increasing ts -> increasing (T :: times) -> (2 <= n)%nat ->
  nth_error ts 0 = Some y -> (y < T)%R -> frames_restarted (N := RNum) 0 ts T = Ok st ->
  exists x, nth_error ts (f_next st) = Some x /\ (T <= x)%R /\ ((exists t, In t times /\ (x <= t)%R) -> frame_run (N := RNum) ts half n T times st = Throw).
Proof. exact restart_aborts. Qed.
Print Assumptions C32_restart_aborts.
Example C32_restart_example : frames_restarted (N := RNum) 0 r_ts 2%R = Ok (mkfs (N := RNum) 1 0 (-1)%R) /\ frame_run (N := RNum) r_ts (101 / 100)%R 3 2%R [3]%R (mkfs (N := RNum) 1 0 (-1)%R) = Throw. Proof. exact r_restart. Qed.
Theorem C32_restart_out_of_bounds : forall (ts : list R) (T : R) first, (forall x, In x ts -> (x < T)%R) -> frames_restarted (N := RNum) first ts T = UB.
Proof. exact restart_ub. Qed.
Print Assumptions C32_restart_out_of_bounds.
(** Output on assimilation: every pass that assimilates writes output, unless its time is exactly the end of the window of the previous frame ... *)
Theorem C32_output_at_frames : forall (ts : list R) (half t0 : R) (times : list R), increasing ts -> increasing (t0 :: times) -> apart ts times ->
  (forall x, nth_error ts 0 = Some x -> (t0 < x)%R) -> (forall k t t', nth_error (t0 :: times) k = Some t -> nth_error times k = Some t' -> (t' - t <= half)%R) -> (0 < half)%R ->
  (forall t, nth_error times 0 = Some t -> (-1 + half < t)%R) ->
  forall evs, frame_run (N := RNum) ts half 1 t0 times (frames_initial (N := RNum) 0) = Ok evs ->
  forall k st j t period n, nth_error evs k = Some (st, Assimilated j) -> nth_error times k = Some t ->
  writes_output (N := RNum) true period n half t st = true \/ t = (f_da_time st + half)%R.
Proof. exact output_at_frames. Qed.
Print Assumptions C32_output_at_frames.
Example C32_output_example : (forall x, nth_error r_ts 0 = Some x -> 0 < x)%R /\ (forall k t t', nth_error (0%R :: r_times) k = Some t -> nth_error r_times k = Some t' -> (t' - t <= 101 / 100)%R) /\ (forall t, nth_error r_times 0 = Some t -> (-1 + 101 / 100 < t)%R).
Proof. exact r_output_hyps. Qed.
(** ... which happens in binary64: time step 1, stamps 0.99 and 2; the second assimilation is not written. *)
Theorem C32_output_refuted : f_outputs = [(Assimilated 0, true); (Assimilated 1, false); (Nothing, false)].
Proof. exact ex_outputs. Qed.
Print Assumptions C32_output_refuted.

(** ** C54.  Rows: any line, any dimension. *)
Theorem C54_rows : forall (N : Num) (strtod : string -> N) (zero : N) dim line fields, words_of line fields -> row_means strtod zero dim (filter nonempty fields) (cloud_row strtod zero dim line).
Proof. exact @row_ok. Qed.
Print Assumptions C54_rows.
Example C54_row_example : cloud_row (N := QNum) x_strtod 0%Q 3 "1,2,3,400" = mksample (N := QNum) [1%Q; 2%Q; 3%Q] 400%Q /\ words_of "1,2,3,400" ["1"; "2"; "3"; "400"]. Proof. exact ex_row. Qed.
(** A field that is left empty shifts the others: y = 3, z = 400. *)
Theorem C54_empty_field_refuted : cloud_row (N := QNum) x_strtod 0%Q 3 "1,,3,400" = mksample (N := QNum) [1%Q; 3%Q; 400%Q] 0%Q.
Proof. exact ex_row_shift. Qed.
Print Assumptions C54_empty_field_refuted.
Theorem C54_frame : forall (N : Num) (strtod : string -> N) (zero : N) fs dim template first last frame,
  read_frame strtod zero fs dim template first last frame =
  List.concat (map (fun camera => match fs (frame_file template camera frame) with [] => [] | _ :: rows => map (cloud_row strtod zero dim) rows end) (seq first (S last - first))).
Proof. exact @frame_ok. Qed.
Print Assumptions C54_frame.
Theorem C54_file_names : forall ps camera frame, Forall (fun p => match p with Text s => no_hash s | _ => True end) ps ->
  frame_file (render_with "#camera" "#frame" ps) camera frame = render_with (to_string camera) (to_string frame) ps.
Proof. exact file_name. Qed.
Print Assumptions C54_file_names.
Example C54_file_example : frame_file "data/cam#camera_f#frame.csv" 2 13 = "data/cam2_f13.csv" /\ "data/cam#camera_f#frame.csv" = render_with "#camera" "#frame" [Text "data/cam"; Cam; Text "_f"; Frm; Text ".csv"].
Proof. exact ex_file. Qed.

(** ** C55.  Nodes of a process: once each, with a position of a cell of the process. *)
Theorem C55_nodes : forall (N : Num) owned (cells : list (list (nat * pt N))),
  NoDup (map fst (dof_to_support owned cells)) /\
  (forall d, In d (map fst (dof_to_support owned cells)) <-> owned d = true /\ exists c, In c cells /\ In d (map fst c)) /\
  (forall d x, In (d, x) (dof_to_support owned cells) -> exists c, In c cells /\ In (d, x) c).
Proof. exact @support_ok. Qed.
Print Assumptions C55_nodes.
(** The mapping, the same on all processes: the node that the search returned, whoever owns it. *)
Theorem C55_mapping : forall (locals : list (list nat)) (founds : list (nat * nat)), (forall f, In f founds -> (snd f < List.length locals)%nat /\ (fst f < List.length (nth (snd f) locals []))%nat) -> locals <> [] ->
  expt_to_dof locals (map Some founds) = Ok (seq 0 (List.length founds), map (fun f => Z.of_nat (nth (fst f) (nth (snd f) locals []) 0%nat)) founds).
Proof. exact mapping_ok. Qed.
Print Assumptions C55_mapping.
Example C55_mapping_example : expt_to_dof [[4; 7]; [9]]%nat [Some (0, 1); Some (0, 0); Some (0, 1)]%nat = Ok ([0; 1; 2]%nat, [9; 4; 9]%Z). Proof. exact ex_mapping. Qed.
(** Writing the observations: the last observation of an owned node wins, everything else is unchanged. *)
Theorem C55_written : forall (N : Num) owned (values : list N) dofs temperature, (List.length values <= List.length dofs)%nat ->
  exists T, set_with owned values dofs temperature = Ok T /\
    forall d, (T d = temperature d /\ forall i, (i < List.length values)%nat -> nth_error dofs i = Some d -> owned d = false) \/
              (owned d = true /\ exists i, nth_error dofs i = Some d /\ nth_error values i = Some (T d) /\ forall i', (i < i' < List.length values)%nat -> nth_error dofs i' <> Some d).
Proof. exact @set_ok. Qed.
Print Assumptions C55_written.
(** Without any node (nothing mapped) the mapping is read out of bounds. *)
Theorem C55_no_node : forall (N : Num) owned (values : list N) temperature, values <> [] -> set_with owned values [] temperature = UB.
Proof. exact @set_ub. Qed.
Print Assumptions C55_no_node.
