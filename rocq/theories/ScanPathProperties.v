(** ScanPathProperties.v -- C01..C06.  Only statements, witnesses and assumptions. *)
From Coq Require Import Reals ZArith QArith Qreals Bool List String Ascii Sorted Lra Lia Floats.
From Verif Require Import Base BaseFacts QuaternionModel ScanPathModel ScanPathSpec ScanPathProofs ScanPathProofs2 Decimal.
Import ListNotations.

(** Files of the test suite (tests/data/scan_path.txt, tests/data/scan_path_event_series.inp). *)
Definition file_segment : list string :=
  ["Number of path segments"; "2"; "Mode    x       y     z   pmod    param";
   "1       0.000   0.1  0.1   0       1e-6"; "0       0.002   0.1  0.1   1       0.8"]%string.
Definition file_event : list string :=
  ["0.1, 0.0, 0.0, 0.0, 1.0"; "1.0, 0.5, 0.0, 0.0, 0.5"; "2.0, 0.5, 0.5, 0.0, 1.0"]%string.
Definition no_pow {N : Num} (_ : quat N) (_ : N) : option (quat N) := None.
Definition q1 : QNum := 1%Q.
Definition qq (n : Z) (d : positive) : QNum := Qmake n d.
Definition sp_none : scan_path QNum := mkSP false false q1 q1 FSegment [] 0.
Definition sp_event : scan_path QNum := got (new_scan_path QParser "event_series" q1 q1 file_event) sp_none.
Definition sp_segment : scan_path QNum := got (new_scan_path QParser "segment" q1 q1 file_segment) sp_none.

(* ------------------------------------------------------------------------------------------------ *)
(** * C01  For every constructed object, every parser, every list of queries at nondecreasing finite
    times: the answers are those of objects asked only once.  [Embeds N dom val] holds for the reals, the rationals
    and the finite binary64 numbers (C01_embed_R, _Q, _F).  No order of the end times is needed. *)
Theorem C01_history_independent :
  forall (N : Num) (dom : N -> Prop) (val : N -> R) (P : parser N) fmt ds vs lines sp pow qs,
    Embeds N dom val ->
    new_scan_path P fmt ds vs lines = Ok sp ->
    Forall (fun s => dom (end_time s)) (sp_segs sp) ->
    Forall (fun q => dom (query_time q)) qs ->
    nondecreasing (map (fun q => val (query_time q)) qs) ->
    ask_all pow sp qs = fresh_answers pow sp qs.
Proof. exact (fun N dom val P fmt ds vs lines sp pow qs => history_independent P fmt ds vs lines sp dom val pow qs). Qed.
Print Assumptions C01_history_independent.

Theorem C01_embed_R : Embeds RNum (fun _ => True) (fun x => x).
Proof. exact Embeds_R. Qed.
Print Assumptions C01_embed_R.
Theorem C01_embed_Q : Embeds QNum (fun _ => True) Q2R.
Proof. exact Embeds_Q. Qed.
Print Assumptions C01_embed_Q.
Theorem C01_embed_F : Embeds FNum Ffinite Fval.
Proof. exact Embeds_F. Qed.
Print Assumptions C01_embed_F.

(** The single answer: data of the first segment whose end time is not before the query time. *)
Theorem C01_fresh_power :
  forall (N : Num) (P : parser N) fmt ds vs lines sp t last,
    new_scan_path P fmt ds vs lines = Ok sp ->
    last_segment (sp_segs sp) last -> nltb N (end_time last) t = false ->
    exists i s sp', current (sp_segs sp) t i s /\ get_power_modifier sp t = Ok (power_modifier s, sp').
Proof. exact (fun N P fmt ds vs lines sp t last H => power_fresh sp t last (new_scan_path_old P fmt ds vs lines sp H)). Qed.
Print Assumptions C01_fresh_power.

Example C01_witness : exists sp,
  new_scan_path QParser "event_series" q1 q1 file_event = Ok sp /\
  ask_all no_pow sp [QPower (qq 1 20); QValue (qq 1 2) true; QPower (qq 1 1); QValue (qq 3 2) false; QPower (qq 2 1)] =
  Ok [APower (qq 0 1); APoint (mkpt (qq 2 9) (qq 0 1) (qq 0 1)); APower (qq 1 1);
      APoint (mkpt (qq 1 2) (qq 1 4) (qq 0 1)); APower (qq 1 2)].
Proof. exists sp_event; split; vmrefl. Qed.

(** With decreasing times the remembered segment gives a different (wrong) answer. *)
Theorem C01_decreasing_times_refuted :
  exists sp qs, new_scan_path QParser "event_series" q1 q1 file_event = Ok sp /\
    ask_all no_pow sp qs = Ok [APower (qq 1 2); APower (qq 1 2)] /\
    fresh_answers no_pow sp qs = Ok [APower (qq 1 2); APower (qq 1 1)].
Proof. exists sp_event, [QPower (qq 3 2); QPower (qq 1 2)]. split; [|split]; vmrefl. Qed.
Print Assumptions C01_decreasing_times_refuted.

(* ------------------------------------------------------------------------------------------------ *)
(** * C02 *)
Theorem C02_position_on_segment :
  forall (P : parser RNum) fmt ds vs lines sp (t : R) save last,
    new_scan_path P fmt ds vs lines = Ok sp ->
    last_segment (sp_segs sp) last -> (t <= end_time last)%R ->
    exists i s p0 (t0 : R) sp', current (sp_segs sp) t i s /\ segment_start (sp_segs sp) i s p0 t0 /\
      (t <= end_time s)%R /\
      ((t0 < end_time s)%R ->
       value sp t save = Ok (between ((t - t0) / (end_time s - t0)) p0 (end_point s), sp')).
Proof. exact (fun P fmt ds vs lines sp t save last H => value_R sp t save last (new_scan_path_old P fmt ds vs lines sp H)). Qed.
Print Assumptions C02_position_on_segment.

(** Continuity, quantitatively: if no segment is faster than [V] the beam never moves faster than [V],
    across any number of junctions. *)
Theorem C02_speed_limit :
  forall (P : parser RNum) fmt ds vs lines sp (V t t' : R) save save' last p p' sp1 sp2,
    new_scan_path P fmt ds vs lines = Ok sp ->
    last_segment (sp_segs sp) last -> speed_limit (sp_segs sp) V ->
    (0 <= t)%R -> (t <= t')%R -> (t' <= end_time last)%R ->
    value sp t save = Ok (p, sp1) -> value sp t' save' = Ok (p', sp2) ->
    forall c, (Rabs (coord c p' - coord c p) <= V * (t' - t))%R.
Proof.
  exact (fun P fmt ds vs lines sp V t t' save save' last p p' sp1 sp2 H =>
    speed_bound sp V t t' save save' last p p' sp1 sp2 (new_scan_path_old P fmt ds vs lines sp H)).
Qed.
Print Assumptions C02_speed_limit.

(** In binary64 a first event at time 0 makes the position at time 0 not a number (0/0). *)
Definition file_zero : list string := ["0.0, 0.0, 0.0, 0.0, 1.0"; "1.0, 0.5, 0.0, 0.0, 1.0"]%string.
Theorem C02_zero_duration_refuted :
  exists p sp', (do sp <- new_scan_path FParser "event_series" (1%float : FNum) (1%float : FNum) file_zero;
    value sp (0%float : FNum) true) = Ok (p, sp') /\ PrimFloat.is_nan (px p) = true.
Proof.
  pose (r := (do sp <- new_scan_path FParser "event_series" (1%float : FNum) (1%float : FNum) file_zero;
    value sp (0%float : FNum) true)).
  pose (d := (mkpt (N := FNum) 0%float 0%float 0%float, mkSP (N := FNum) false false 1%float 1%float FSegment [] 0)).
  exists (fst (got r d)), (snd (got r d)). split; vmrefl.
Qed.
Print Assumptions C02_zero_duration_refuted.

Example C02_witness :
  let s1 := mkseg (N := RNum) 1%R 0%R (mkpt (N := RNum) 0%R 0%R 0%R) None in
  let s2 := mkseg (N := RNum) 3%R 1%R (mkpt (N := RNum) 4%R 0%R 0%R) None in
  speed_limit [s1; s2] 2%R /\ last_segment [s1; s2] s2.
Proof.
  cbv zeta. split.
  - intros [|[|[|i]]] s p0 t0 E SS; try discriminate; injection E as <-; simpl in SS.
    + destruct SS as [-> ->]. simpl. split; [lra|]. intros [|[|c]]; simpl; rewrite Rminus_eq_0, Rabs_R0; lra.
    + destruct SS as [s' [E [-> ->]]]. injection E as <-. simpl. split; [lra|].
      intros [|[|c]]; simpl; [rewrite Rabs_right; lra| |]; rewrite Rminus_eq_0, Rabs_R0; lra.
  - exists [mkseg (N := RNum) 1%R 0%R (mkpt (N := RNum) 0%R 0%R 0%R) None]. reflexivity.
Qed.

(* ------------------------------------------------------------------------------------------------ *)
(** * C03  For every object state (any cursor, hence any history). *)
Theorem C03_after_the_end :
  forall (N : Num) (sp : scan_path N) t save last,
    last_segment (sp_segs sp) last -> nltb N (end_time last) t = true ->
    value sp t save = Ok (mkpt (nopp N (nmax N)) (nopp N (nmax N)) (nopp N (nmax N)), sp) /\
    get_power_modifier sp t = Ok (nofZ N 0, sp).
Proof. exact (fun N sp t save last L H => conj (value_after sp t save last L H) (power_after sp t last L H)). Qed.
Print Assumptions C03_after_the_end.

Theorem C03_empty_path_undefined :
  forall (N : Num) pow (sp : scan_path N) q, sp_segs sp = [] ->
    (forall t, q = QRotation t -> sp_five_axis sp = true) -> ask pow sp q = UB.
Proof. exact (fun N pow sp q => ask_empty pow sp q). Qed.
Print Assumptions C03_empty_path_undefined.

Example C03_witness : new_scan_path QParser "segment" q1 q1 file_segment = Ok sp_segment /\
  (exists l last, sp_segs sp_segment = l ++ [last] /\ nltb QNum (end_time last) (qq 1 1) = true) /\
  get_power_modifier sp_segment (qq 1 1) = Ok (qq 0 1, sp_segment).
Proof.
  split; [vmrefl|]. split; [|vmrefl].
  exists [hd (mkseg q1 q1 (mkpt q1 q1 q1) None) (sp_segs sp_segment)], (List.last (sp_segs sp_segment) (mkseg q1 q1 (mkpt q1 q1 q1) None)).
  split; vmrefl.
Qed.
(** An empty event file loads and the first query is undefined. *)
Example C03_empty_witness : exists sp, new_scan_path QParser "event_series" q1 q1 [] = Ok sp /\
  ask no_pow sp (QPower (qq 0 1)) = UB.
Proof.
  exists (got (new_scan_path QParser "event_series" q1 q1 []) sp_none). split; vmrefl.
Qed.

(* ------------------------------------------------------------------------------------------------ *)
(** * C04  Exact characterisation of what loads and what it yields. *)
Theorem C04_segment_file :
  forall (N : Num) (P : parser N) ds vs file segs fin,
    load_segment P ds vs file = Ok (segs, fin) <->
    exists h count rest n, file = h :: count :: rest /\ stoi P count = Some n /\
      let announced := firstn (Z.to_nat (n mod 2 ^ 32)) (tl rest) in
      let body := before_marker announced in
      List.length segs = List.length body /\
      (forall i line s, nth_error body i = Some line -> nth_error segs i = Some s ->
         segment_of_line P ds vs (predecessor segs i) line s) /\
      fin = existsb has_end_marker announced.
Proof. exact (fun N P => load_segment_iff P). Qed.
Print Assumptions C04_segment_file.

Theorem C04_end_times_nondecreasing :
  forall (P : parser RNum) ds vs h count rest segs fin,
    load_segment P ds vs (h :: count :: rest) = Ok (segs, fin) ->
    dwell_nonneg P (tl rest) ->
    (forall s, nth_error segs 0 = Some s -> 0 <= (end_time s : R))%R /\
    (forall i s s', nth_error segs i = Some s -> nth_error segs (S i) = Some s' ->
       ((end_time s : R) <= end_time s')%R).
Proof. exact seg_times. Qed.
Print Assumptions C04_end_times_nondecreasing.

(** The tokens of a line of words separated by runs of separators are those words. *)
Theorem C04_tokens :
  forall sep w rest, sepless sep w -> w <> EmptyString ->
    Forall (fun gw => fst gw <> EmptyString /\ all_sep sep (fst gw) /\ sepless sep (snd gw) /\ snd gw <> EmptyString) rest ->
    split sep (line_of w rest) = w :: map snd rest.
Proof. exact (fun sep w rest => split_words sep rest w false). Qed.
Print Assumptions C04_tokens.

(** An end marker placed after exactly the announced number of lines is never seen: the path is complete
    but is_finished stays false. *)
Theorem C04_end_marker_after_announced_refuted :
  exists file segs, In "SCAN_PATH_END"%string file /\ load_segment QParser q1 q1 file = Ok (segs, false) /\
    List.length segs = 2%nat.
Proof.
  exists (file_segment ++ ["SCAN_PATH_END"%string]), (sp_segs sp_segment). split; [simpl; tauto|].
  split; vmrefl.
Qed.
Print Assumptions C04_end_marker_after_announced_refuted.

(** A negative dwell time is accepted and makes the end times decrease. *)
Theorem C04_negative_dwell_refuted :
  exists file segs, load_segment QParser q1 q1 file = Ok (segs, false) /\
    map end_time segs = [qq 1 1; qq 1 2].
Proof.
  exists ["";"2";"";"1 0 0 0 1 1.0";"1 0 0 0 1 -0.5"]%string.
  exists (fst (got (load_segment QParser q1 q1 ["";"2";"";"1 0 0 0 1 1.0";"1 0 0 0 1 -0.5"]%string) ([], true))).
  split; vmrefl.
Qed.
Print Assumptions C04_negative_dwell_refuted.

(** Without a second line, or when it is not a number, nothing is loaded. *)
Theorem C04_short_file : forall (N : Num) (P : parser N) ds vs lines, (List.length lines < 2)%nat -> load_segment P ds vs lines = Throw.
Proof. exact short_file. Qed.
Print Assumptions C04_short_file.
Theorem C04_bad_count : forall (N : Num) (P : parser N) ds vs first count rest, stoi P count = None -> load_segment P ds vs (first :: count :: rest) = Throw.
Proof. exact bad_count. Qed.
Print Assumptions C04_bad_count.

Example C04_witness : exists segs, load_segment QParser q1 q1 file_segment = Ok (segs, false) /\
  map end_time segs = [qq 1 1000000; qq 2501 1000000] /\ map power_modifier segs = [qq 0 1; qq 1 1].
Proof. exists (sp_segs sp_segment). split; [|split]; vmrefl. Qed.
Example C04_line_first : load_segment QParser q1 q1 ["";"1";"";"0 0 0 0 1 1.0"]%string = Throw.
Proof. vmrefl. Qed.
Example C04_unknown_mode : load_segment QParser q1 q1 ["";"1";"";"2 0 0 0 1 1.0"]%string = Throw.
Proof. vmrefl. Qed.
Example C04_short_line : load_segment QParser q1 q1 ["";"1";"";"1 0 0"]%string = UB.
Proof. vmrefl. Qed.

(* ------------------------------------------------------------------------------------------------ *)
(** * C05 *)
Theorem C05_event_file :
  forall (N : Num) (P : parser N) ds file segs fin five,
    load_event_series P ds file = Ok (segs, fin, five) <->
    let body := before_marker (filter (fun line => negb (String.eqb line "")) file) in
      List.length segs = List.length body /\
      (forall i line s, nth_error body i = Some line -> nth_error segs i = Some s ->
         (exists pw, power_column P line pw) /\
         exists pw, match predecessor body i with None => pw = nofZ N 0 | Some line' => power_column P line' pw end /\
         event_of_line P ds pw line s) /\
      fin = existsb has_end_marker file /\
      five = existsb (fun s => match end_rotation s with Some _ => true | None => false end) segs.
Proof. exact (fun N P => load_event_iff P). Qed.
Print Assumptions C05_event_file.

Example C05_witness : exists segs, load_event_series QParser q1 file_event = Ok (segs, false, false) /\
  map end_time segs = [qq 1 10; qq 1 1; qq 2 1] /\ map power_modifier segs = [qq 0 1; qq 1 1; qq 1 2].
Proof. exists (sp_segs sp_event). split; [|split]; vmrefl. Qed.
Example C05_rotation_witness : exists segs,
  load_event_series QParser q1 ["0.1, 0, 0, 0, 1, 0, 0, 0, 5"; "SCAN_PATH_END"]%string = Ok (segs, true, true).
Proof.
  exists (fst (fst (got (load_event_series QParser q1 ["0.1, 0, 0, 0, 1, 0, 0, 0, 5"; "SCAN_PATH_END"]%string) ([], true, true)))).
  vmrefl.
Qed.

(* ------------------------------------------------------------------------------------------------ *)
(** * C06  Any interleaving of queries and re-reads in which lines are only appended. *)
Theorem C06_reread_history :
  forall (N : Num) (P : parser N) (dom : N -> Prop) (val : N -> R) pow fmt ds vs ops lines sp,
    Embeds N dom val ->
    new_scan_path P fmt ds vs lines = Ok sp ->
    Forall (fun s => dom (end_time s)) (sp_segs sp) ->
    only_appended P fmt lines ops -> files_in P dom fmt ds vs ops ->
    Forall dom (op_times ops) -> nondecreasing (map val (op_times ops)) ->
    run_ops P pow sp ops = run_fresh P pow fmt ds vs lines ops.
Proof. exact (fun N P => reread_history P). Qed.
Print Assumptions C06_reread_history.

Theorem C06_past_unchanged :
  forall (N : Num) (P : parser N) fmt ds vs old new sp sp' last last' t save,
    appended P fmt old new ->
    new_scan_path P fmt ds vs old = Ok sp -> new_scan_path P fmt ds vs new = Ok sp' ->
    last_segment (sp_segs sp) last -> last_segment (sp_segs sp') last' ->
    nltb N (end_time last) t = false -> nltb N (end_time last') t = false ->
    (exists p s1 s2, value sp t save = Ok (p, s1) /\ value sp' t save = Ok (p, s2)) /\
    (exists m s1 s2, get_power_modifier sp t = Ok (m, s1) /\ get_power_modifier sp' t = Ok (m, s2)).
Proof. exact (fun N P => past_unchanged P). Qed.
Print Assumptions C06_past_unchanged.

Example C06_witness : exists sp,
  let ops := [OQuery (QPower (qq 3 2)); OReread (file_event ++ ["3.0, 1.0, 0.5, 0.0, 0.0"%string]); OQuery (QPower (qq 5 2))] in
  new_scan_path QParser "event_series" q1 q1 file_event = Ok sp /\
  only_appended QParser "event_series" file_event ops /\
  run_ops QParser no_pow sp ops = Ok [APower (qq 1 2); APower (qq 1 1)].
Proof.
  exists sp_event. cbv zeta. split; [vmrefl|]. split; [|vmrefl].
  simpl. split; [|exact I]. exists ["3.0, 1.0, 0.5, 0.0, 0.0"%string]. reflexivity.
Qed.

(** If the file is replaced by a shorter one whose path reaches as far in time, the kept cursor reads
    out of bounds. *)
Theorem C06_shorter_file_refuted :
  exists sp, new_scan_path QParser "event_series" q1 q1 file_event = Ok sp /\
    let ops := [OQuery (QPower (qq 2 1)); OReread ["9.0, 0.0, 0.0, 0.0, 1.0"%string]; OQuery (QPower (qq 5 2))] in
    run_ops QParser no_pow sp ops = UB /\
    run_fresh QParser no_pow "event_series" q1 q1 file_event ops = Ok [APower (qq 1 2); APower (qq 0 1)].
Proof. exists sp_event. split; [vmrefl|]. cbv zeta. split; vmrefl. Qed.
Print Assumptions C06_shorter_file_refuted.
