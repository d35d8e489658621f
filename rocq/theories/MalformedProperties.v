(** MalformedProperties.v -- C88 (and C65_blanks_ignored).  Only statements, witnesses and assumptions.
    [UB]: the program reads past the end of a vector, so nothing is promised about what follows; [Throw]: an exception. *)
From Coq Require Import Reals ZArith QArith Bool List String Ascii.
From Verif Require Import Base Decimal QuaternionModel ScanPathModel ScanPathSpec MaterialModel MaterialSpec DepositionModel DepositionSpec MalformedSpec MalformedProofs MalformedExamples.
Import ListNotations.

(** A segment file is read out of bounds exactly if, after lines that all describe segments, a line with an accepted mode runs out of columns before any of them fails to be a number. *)
Theorem C88_segment_file : forall (N : Num) (P : parser N) ds vs file, load_segment P ds vs file = UB <->
  exists h count rest n, file = h :: count :: rest /\ stoi P count = Some n /\
    let body := before_marker (firstn (Z.to_nat (n mod 2 ^ 32)) (tl rest)) in
    exists i line segs, nth_error body i = Some line /\ describe P ds vs body i segs /\ mode_accepted i line /\ runs_out P (split is_space line) [1; 2; 3; 4; 5]%nat.
Proof. exact @segment_ub. Qed.
Print Assumptions C88_segment_file.

Theorem C88_event_file : forall (N : Num) (P : parser N) ds file, load_event_series P ds file = UB <->
  let body := before_marker (filter (fun line => negb (String.eqb line "")) file) in
  exists i line, nth_error body i = Some line /\ events P ds body i /\ runs_out P (split is_space_comma line) [0; 1; 2; 3]%nat.
Proof. exact @event_ub. Qed.
Print Assumptions C88_event_file.

(** Deposition file: a line stops before its time, or after a time that is not smaller than the one before it. *)
Theorem C88_deposition_file : forall (N : Num) (P : parser N) ncos nsin dim3 lines, read_material_deposition P ncos nsin dim3 lines = UB <->
  exists h body i line rows, lines = h :: body /\ stoi P h = Some (if dim3 then 3%Z else 2%Z) /\ nth_error body i = Some line /\
    Forall2 (row_of_line P ncos nsin dim3) (firstn i body) rows /\ times_increase rows /\ deposition_runs_out P dim3 rows line.
Proof. exact @deposition_ub. Qed.
Print Assumptions C88_deposition_file.

(** A scan path with another format is reported; the two formats are undefined exactly when their file is. *)
Theorem C88_scan_path : forall (N : Num) (P : parser N) fmt ds vs lines, new_scan_path P fmt ds vs lines = UB <->
  (fmt = "segment"%string /\ load_segment P ds vs lines = UB) \/ (fmt = "event_series"%string /\ load_event_series P ds lines = UB).
Proof. exact @scan_path_ub. Qed.
Print Assumptions C88_scan_path.
Theorem C88_unknown_format_is_reported : forall (N : Num) (P : parser N) fmt ds vs lines, fmt <> "segment"%string -> fmt <> "event_series"%string -> new_scan_path P fmt ds vs lines = Throw.
Proof. exact @unknown_format. Qed.
Print Assumptions C88_unknown_format_is_reported.

(** A table of at most 12 rows is read out of bounds exactly if, after fields that are rows, one is a number without a comma. *)
Theorem C88_table : forall (N : Num) (P : parser N) text, parse_table P text = UB <->
  let entries := split_off "|"%char (remove_blanks text) in
  (List.length entries <= 12)%nat /\
  exists i e, nth_error entries i = Some e /\ (forall j d, (j < i)%nat -> nth_error entries j = Some d -> exists r, row_of_field P d r) /\ runs_out P (split_off ","%char e) [0; 1]%nat.
Proof. exact @table_ub. Qed.
Print Assumptions C88_table.
Theorem C88_number_without_comma : forall (N : Num) (P : parser N) e, runs_out P (split_off ","%char e) [0; 1]%nat <-> exists w v, split_off ","%char e = [w] /\ stod P w = Some v.
Proof. exact @field_runs_out. Qed.
Print Assumptions C88_number_without_comma.
(** A polynomial never is. *)
Theorem C88_polynomial_is_reported : forall (N : Num) (P : parser N) po text, parse_poly P po text <> UB.
Proof. exact @poly_not_ub. Qed.
Print Assumptions C88_polynomial_is_reported.

(** Sufficient: every line has all its columns, whatever is in them.  Then the file is read or an exception is thrown. *)
Theorem C88_wide_segment_lines : forall (N : Num) (P : parser N) ds vs lines, (forall l, In l lines -> (6 <= List.length (split is_space l))%nat) -> load_segment P ds vs lines <> UB.
Proof. exact @wide_segment. Qed.
Print Assumptions C88_wide_segment_lines.
Theorem C88_wide_event_lines : forall (N : Num) (P : parser N) ds lines, (forall l, In l lines -> l <> ""%string -> (4 <= List.length (split is_space_comma l))%nat) -> load_event_series P ds lines <> UB.
Proof. exact @wide_event. Qed.
Print Assumptions C88_wide_event_lines.
Theorem C88_wide_deposition_lines : forall (N : Num) (P : parser N) ncos nsin (dim3 : bool) lines,
  (forall l, In l (tl lines) -> ((if dim3 then 8 else 6) <= List.length (split is_space l))%nat) -> read_material_deposition P ncos nsin dim3 lines <> UB.
Proof. exact @wide_deposition. Qed.
Print Assumptions C88_wide_deposition_lines.
Theorem C88_wide_table : forall (N : Num) (P : parser N) text,
  (forall e, In e (split_off "|"%char (remove_blanks text)) -> (2 <= List.length (split_off ","%char e))%nat) -> parse_table P text <> UB.
Proof. exact @wide_table. Qed.
Print Assumptions C88_wide_table.

(** Necessary too: a line that lacks a column and whose fields are numbers always runs out. *)
Theorem C88_short_line : forall (N : Num) (P : parser N) toks cols, (forall c s, In c cols -> nth_error toks c = Some s -> exists v, stod P s = Some v) ->
  (exists c, In c cols /\ (List.length toks <= c)%nat) -> runs_out P toks cols.
Proof. exact @short_line. Qed.
Print Assumptions C88_short_line.

(** So a file that another program is still writing, cut inside its last line, is not reported. *)
Theorem C88_cut_file_is_reported_refuted : exists whole cut : list string,
  fine (load_segment QParser 1%Q 1%Q whole) = true /\ (exists k, nth_error cut 4 = option_map (fun l => substring 0 k l) (nth_error whole 4)) /\ firstn 4 cut = firstn 4 whole /\ List.length cut = List.length whole /\
  load_segment QParser 1%Q 1%Q cut = UB.
Proof.
  exists whole_segments, cut_segments. split; [exact (proj1 cut_segments_ub)|]. split; [exists 11%nat; vm_compute; reflexivity|]. split; [reflexivity|]. split; [reflexivity|]. exact (proj1 (proj2 cut_segments_ub)).
Qed.
Print Assumptions C88_cut_file_is_reported_refuted.

Example C88_witness_segments : exists segs, describe QParser 1%Q 1%Q (skipn 3 cut_segments) 1 segs /\ mode_accepted 1 "0 0.002 0.0". Proof. exact describe_example. Qed.
Example C88_witness_events : fine (load_event_series QParser 1%Q ["0.1, 0, 0, 0, 1"; "1.0, 1, 1, 0, 0"]%string) = true /\ load_event_series QParser 1%Q ["0.1, 0, 0, 0, 1"; "1.0, 1, 1"]%string = UB /\
  load_event_series QParser 1%Q ["0.1, 0, 0, 0, 1"; "1.0, 1, x"]%string = Throw. Proof. exact cut_events_ub. Qed.
Example C88_witness_deposition : read_material_deposition QParser (fun a => a) (fun a => a) true ["3"; "0 0 1 2 2 1 0.5 0"; "1 0 1 2 2 1 0.7"]%string = UB /\
  read_material_deposition QParser (fun a => a) (fun a => a) true ["3"; "0 0 1 2 2 1 0.5 0"; "1 0 1 2 2 1 0.4"]%string = Throw. Proof. exact (conj (proj1 (proj2 cut_deposition_ub)) (proj1 (proj2 (proj2 cut_deposition_ub)))). Qed.
Example C88_witness_table : fine (parse_table QParser "300., 5 | 1000, 2") = true /\ parse_table QParser "300., 5 | 1000" = UB /\ parse_table QParser "300., 5 | steel" = Throw /\ parse_poly QParser 1 "5., x" = Throw.
Proof. exact table_without_comma. Qed.
Example C88_witness_short : runs_out QParser ["0"; "0.002"; "0.0"]%string [1; 2; 3; 4; 5]%nat /\ ~ runs_out QParser ["0"; "0.002"; "x"]%string [1; 2; 3; 4; 5]%nat. Proof. exact short_example. Qed.

(** C65: what "blanks are ignored" means. *)
Theorem C65_blanks_ignored : forall s, list_ascii_of_string (remove_blanks s) = filter (fun c => negb (existsb (Ascii.eqb c) white)) (list_ascii_of_string s).
Proof. exact remove_blanks_filter. Qed.
Print Assumptions C65_blanks_ignored.
Theorem C31_blank_characters : forall c, is_blank c = true <-> In c white.
Proof. exact is_blank_white. Qed.
Print Assumptions C31_blank_characters.
