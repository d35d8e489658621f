(** ScanPathModel.v -- model of source/ScanPath.{hh,cc}. *)
From Coq Require Import Reals ZArith Bool List String Ascii.
From Verif Require Import Base QuaternionModel.
Import ListNotations.
Local Open Scope num_scope.

(** struct ScanPathSegment (ScanPath.hh:40-48).  [end_rotation = None]: default-constructed, invalid. *)
Record seg (N : Num) : Type := mkseg {
  end_time : N;
  power_modifier : N;
  end_point : pt N;
  end_rotation : option (quat N)
}.
Arguments mkseg {N} _ _ _ _.
Arguments end_time {N} _.
Arguments power_modifier {N} _.
Arguments end_point {N} _.
Arguments end_rotation {N} _.

(** _file_format (ScanPath.hh:168): the constructor (ScanPath.cc:34-35) throws on anything else. *)
Inductive file_format := FSegment | FEventSeries.
Definition parse_format (s : string) : res file_format :=
  if String.eqb s "segment" then Ok FSegment
  else if String.eqb s "event_series" then Ok FEventSeries else Throw.

(** class ScanPath (ScanPath.hh:60-181): data members. *)
Record scan_path (N : Num) : Type := mkSP {
  sp_end : bool;                 (* _scan_path_end *)
  sp_five_axis : bool;           (* _five_axis *)
  sp_dscale : N;                 (* _distance_scaling *)
  sp_vscale : N;                 (* _velocity_scaling *)
  sp_format : file_format;       (* _file_format *)
  sp_segs : list (seg N);        (* _segment_list *)
  sp_old : nat                   (* _old_segment *)
}.
Arguments mkSP {N} _ _ _ _ _ _ _.
Arguments sp_end {N} _.
Arguments sp_five_axis {N} _.
Arguments sp_dscale {N} _.
Arguments sp_vscale {N} _.
Arguments sp_format {N} _.
Arguments sp_segs {N} _.
Arguments sp_old {N} _.

Definition set_old {N} (sp : scan_path N) (o : nat) : scan_path N :=
  mkSP (sp_end sp) (sp_five_axis sp) (sp_dscale sp) (sp_vscale sp) (sp_format sp) (sp_segs sp) o.

(** boost::split(out, s, is_any_of(seps), token_compress_on): tokens are separated by maximal runs of
    separators; a leading or trailing run yields an empty first or last token. *)
Fixpoint split_go (sep : ascii -> bool) (cur : string) (in_sep : bool) (s : string) : list string :=
  match s with
  | EmptyString => [cur]
  | String c s' =>
      if sep c then (if in_sep then split_go sep EmptyString true s'
                     else cur :: split_go sep EmptyString true s')
      else split_go sep (cur ++ String c EmptyString) false s'
  end.
Definition split (sep : ascii -> bool) (s : string) : list string := split_go sep EmptyString false s.
Definition is_space (c : ascii) : bool := Ascii.eqb c " ".
(** is_any_of(" ,,"): ScanPath.cc:168. *)
Definition is_space_comma (c : ascii) : bool := Ascii.eqb c " " || Ascii.eqb c ",".

(** line.find("SCAN_PATH_END") != npos (ScanPath.cc:77, 157). *)
Definition has_end_marker (line : string) : bool :=
  match String.index 0 "SCAN_PATH_END" line with Some _ => true | None => false end.

(** std::stod and std::stoi: [None] means that they throw. *)
Record parser (N : Num) : Type := mkparser { stod : string -> option N; stoi : string -> option Z }.
Arguments stod {N} _ _.
Arguments stoi {N} _ _.

Section Loaders.
  Context {N : Num} (P : parser N).

  Definition num_tok (toks : list string) (i : nat) : res N :=
    do s <- at_ toks i;
    match stod P s with Some v => Ok v | None => Throw end.

  (** Body of the while loop of load_segment_scan_path (ScanPath.cc:83-137) for one line, given the
      segments read so far. *)
  Definition load_segment_line (ds vs : N) (segs : list (seg N)) (line : string) : res (seg N) :=
    let toks := split is_space line in
    do m <- at_ toks 0;
    do is_point <-
      (if String.eqb m "0" then (if Nat.ltb 0 (List.length segs) then Ok false else Throw)
       else if String.eqb m "1" then Ok true else Throw);
    do x <- num_tok toks 1;
    do y <- num_tok toks 2;
    do z <- num_tok toks 3;
    let p := mkpt (x * ds) (y * ds) (z * ds) in
    do pm <- num_tok toks 4;
    if (is_point : bool) then
      (if Nat.ltb 0 (List.length segs) then
         do last <- back segs;
         do d <- num_tok toks 5;
         Ok (mkseg (end_time last + d) pm p None)
       else
         do d <- num_tok toks 5;
         Ok (mkseg d pm p None))
    else
      do v <- num_tok toks 5;
      do last <- back segs;
      let velocity := v * vs in
      let line_length := pdist p (end_point last) in
      Ok (mkseg (end_time last + nabs (line_length / velocity)) pm p None).

  (** The while loop (ScanPath.cc:74-139): [n] is n_segments - data_index. *)
  Fixpoint load_segment_loop (ds vs : N) (n : Z) (segs : list (seg N)) (lines : list string)
    : res (list (seg N) * bool) :=
    if (n <=? 0)%Z then Ok (segs, false)
    else match lines with
    | [] => Ok (segs, false)
    | line :: rest =>
        if has_end_marker line then Ok (segs, true)
        else do s <- load_segment_line ds vs segs line;
             load_segment_loop ds vs (n - 1) (segs ++ [s]) rest
    end.

  (** load_segment_scan_path (ScanPath.cc:58-141).  The file is its list of lines; the first and third
      are skipped, the second is the number of segments (converted from int to unsigned int).
      Simplification: a file without a second line makes stoi throw (in the code the string may then still hold the
      first line). *)
  Definition load_segment (ds vs : N) (lines : list string) : res (list (seg N) * bool) :=
    match lines with
    | _ :: count :: rest =>
        match stoi P count with
        | None => Throw
        | Some n => load_segment_loop ds vs (n mod 2 ^ 32)%Z [] (tl rest)
        end
    | _ => Throw
    end.

  (** Body of the while loop of load_event_series_scan_path (ScanPath.cc:165-193) for one line.
      Result: segment, new last_power, whether the line carries a rotation. *)
  Definition load_event_line (ds : N) (last_power : N) (line : string) : res (seg N * N * bool) :=
    let toks := split is_space_comma line in
    do t <- num_tok toks 0;
    do x <- num_tok toks 1;
    do y <- num_tok toks 2;
    do z <- num_tok toks 3;
    let p := mkpt (x * ds) (y * ds) (z * ds) in
    do rot <-
      (if Nat.eqb (List.length toks) 9 then
         do a <- num_tok toks 4;
         do b <- num_tok toks 5;
         do c <- num_tok toks 6;
         do d <- num_tok toks 7;
         Ok (Some (mkq a b c d))
       else Ok None);
    do l <- back toks;
    match stod P l with
    | None => Throw
    | Some lp => Ok (mkseg t last_power p rot, lp, match rot with Some _ => true | None => false end)
    end.

  (** The while loop (ScanPath.cc:151-194).  Result: segments, end marker seen, rotation seen. *)
  Fixpoint load_event_loop (ds : N) (last_power : N) (segs : list (seg N)) (five : bool) (lines : list string)
    : res (list (seg N) * bool * bool) :=
    match lines with
    | [] => Ok (segs, false, five)
    | line :: rest =>
        if String.eqb line "" then load_event_loop ds last_power segs five rest
        else if has_end_marker line then Ok (segs, true, five)
        else do r <- load_event_line ds last_power line;
             let '(s, lp, f) := r in
             load_event_loop ds lp (segs ++ [s]) (five || f) rest
    end.

  Definition load_event_series (ds : N) (lines : list string) : res (list (seg N) * bool * bool) :=
    load_event_loop ds (nZ 0) [] false lines.

  (** ScanPath::read_file (ScanPath.cc:43-56).  The segment list is replaced; _scan_path_end and _five_axis
      are only ever set to true; _old_segment is kept.  Waiting for the file to change
      (utils.hh:41-66) is not modelled. *)
  Definition read_file (sp : scan_path N) (lines : list string) : res (scan_path N) :=
    match sp_format sp with
    | FSegment =>
        do r <- load_segment (sp_dscale sp) (sp_vscale sp) lines;
        let '(segs, fin) := r in
        Ok (mkSP (sp_end sp || fin) (sp_five_axis sp) (sp_dscale sp) (sp_vscale sp) (sp_format sp) segs (sp_old sp))
    | FEventSeries =>
        do r <- load_event_series (sp_dscale sp) lines;
        let '(segs, fin, five) := r in
        Ok (mkSP (sp_end sp || fin) (sp_five_axis sp || five) (sp_dscale sp) (sp_vscale sp) (sp_format sp)
                 segs (sp_old sp))
    end.

  (** The constructor (ScanPath.cc:15-41) with the two scaling factors already looked up. *)
  Definition new_scan_path (format : string) (ds vs : N) (lines : list string) : res (scan_path N) :=
    do f <- parse_format format;
    read_file (mkSP false false ds vs f [] 0) lines.
End Loaders.

Section Queries.
  Context {N : Num}.

  (** while (time > _segment_list[current_segment].end_time) ++current_segment;
      (ScanPath.cc:203-207), started on the suffix of the list at the cursor. *)
  Fixpoint advance (l : list (seg N)) (i : nat) (t : N) : res nat :=
    match l with
    | [] => UB
    | s :: l' => if nltb N (end_time s) t then advance l' (S i) t else Ok i
    end.

  (** update_current_segment_info (ScanPath.cc:197-226).  Result: current segment, start point, start time, start
      rotation, and the object (whose cursor is updated if [save]). *)
  Definition update_current_segment_info (sp : scan_path N) (t : N) (save : bool)
    : res (nat * pt N * N * option (quat N) * scan_path N) :=
    do cur <- advance (skipn (sp_old sp) (sp_segs sp)) (sp_old sp) t;
    do start <-
      (match cur with
       | S prev =>
           do s <- at_ (sp_segs sp) prev;
           Ok (end_point s, end_time s, end_rotation s)
       | O =>
           do s <- at_ (sp_segs sp) 0;
           Ok (end_point s, nZ 0, end_rotation s)
       end);
    let '(p0, t0, r0) := start in
    Ok (cur, p0, t0, r0, if (save : bool) then set_old sp cur else sp).

  (** std::numeric_limits<double>::lowest() in every coordinate (ScanPath.cc:234-236). *)
  Definition lowest_point : pt N := mkpt (- nmax N) (- nmax N) (- nmax N).

  (** ScanPath::value (ScanPath.cc:228-257); the second component is the object after the call. *)
  Definition value (sp : scan_path N) (t : N) (save : bool) : res (pt N * scan_path N) :=
    do last <- back (sp_segs sp);
    if nltb N (end_time last) t then Ok (lowest_point, sp)
    else
      do r <- update_current_segment_info sp t save;
      let '(cur, p0, t0, _, sp') := r in
      do s <- at_ (sp_segs sp) cur;
      Ok (padd p0 (pscale (t - t0) (pdivs (psub (end_point s) p0) (end_time s - t0))), sp').

  (** ScanPath::get_power_modifier (ScanPath.cc:259-275). *)
  Definition get_power_modifier (sp : scan_path N) (t : N) : res (N * scan_path N) :=
    do last <- back (sp_segs sp);
    if nltb N (end_time last) t then Ok (nZ 0, sp)
    else
      do r <- update_current_segment_info sp t true;
      let '(cur, _, _, _, sp') := r in
      do s <- at_ (sp_segs sp) cur;
      Ok (power_modifier s, sp').

  (** ScanPath::get_quaternion (ScanPath.cc:290-342).  [pow] is Quaternion::pow ([None]: NaN result).
      Outcome [Ok None]: an invalid (NaN) quaternion is returned.  The debug-only asserts on validity are
      not modelled. *)
  Definition get_quaternion (pow : quat N -> N -> option (quat N)) (sp : scan_path N) (t : N)
    : res (option (quat N)) :=
    if negb (sp_five_axis sp) then Ok (Some qone)
    else
      do last <- back (sp_segs sp);
      if nltb N (end_time last) t then Ok (end_rotation last)
      else
        do r <- update_current_segment_info sp t false;
        let '(cur, _, t0, r0, _) := r in
        do s <- at_ (sp_segs sp) cur;
        match r0, end_rotation s with
        | Some q0, Some q1 =>
            if qeqb q0 q1 then Ok (Some q0)
            else
              let duration := end_time s - t0 in
              if duration <? nZ 1 / nZ 1000000000000 then Ok (Some q1)
              else
                let q1' := if qdot q0 q1 <? nZ 0 then qscale q1 (- nZ 1) else q1 in
                match pow (qdiv q1' q0) ((t - t0) / duration) with
                | Some q => Ok (Some (qmul q q0))
                | None => Ok None
                end
        | None, None => Ok None
        | Some _, None => Ok None
        | None, Some q1 =>
            if end_time s - t0 <? nZ 1 / nZ 1000000000000 then Ok (Some q1) else Ok None
        end.

  (** ScanPath::rotate (ScanPath.cc:277-288). *)
  Definition sp_rotate (pow : quat N -> N -> option (quat N)) (sp : scan_path N) (t : N) (p : pt N)
    : res (option (pt N)) :=
    do last <- back (sp_segs sp);
    if nltb N (end_time last) t then Ok (Some p)
    else
      do q <- get_quaternion pow sp t;
      Ok (match q with Some q' => Some (rotate q' p) | None => None end).

  (** The observable queries of a ScanPath object and their answers. *)
  Inductive query := QValue (t : N) (save : bool) | QPower (t : N) | QRotation (t : N).
  Inductive answer := APoint (p : pt N) | APower (x : N) | ARotation (q : option (quat N)).
  Definition query_time (q : query) : N :=
    match q with QValue t _ => t | QPower t => t | QRotation t => t end.

  Definition ask (pow : quat N -> N -> option (quat N)) (sp : scan_path N) (q : query)
    : res (answer * scan_path N) :=
    match q with
    | QValue t save => do r <- value sp t save; Ok (APoint (fst r), snd r)
    | QPower t => do r <- get_power_modifier sp t; Ok (APower (fst r), snd r)
    | QRotation t => do r <- get_quaternion pow sp t; Ok (ARotation r, sp)
    end.

  (** A sequence of queries on one object. *)
  Fixpoint ask_all (pow : quat N -> N -> option (quat N)) (sp : scan_path N) (qs : list query)
    : res (list answer) :=
    match qs with
    | [] => Ok []
    | q :: qs' =>
        do r <- ask pow sp q;
        do rest <- ask_all pow (snd r) qs';
        Ok (fst r :: rest)
    end.
End Queries.
Arguments query N : clear implicits.
Arguments answer N : clear implicits.
