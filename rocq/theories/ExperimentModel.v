(** ExperimentModel.v -- source/experimental_data_utils.cc, source/PointCloud.cc and the frame logic of the time loop
    (application/adamantine.hh:1801-1869, 2151-2175, 2413-2419). *)
From Coq Require Import ZArith Bool List String Ascii.
From Verif Require Import Base ScanPathModel MaterialModel InputModel.
Import ListNotations.
Local Open Scope string_scope.

(** boost::trim: blanks (std::isspace) removed at both ends. *)
Fixpoint trim_left (s : string) : string :=
  match s with
  | EmptyString => EmptyString
  | String c s' => if is_blank c then trim_left s' else s
  end.
Fixpoint trim_right (s : string) : string :=
  match s with
  | EmptyString => EmptyString
  | String c s' => match trim_right s' with
                   | EmptyString => if is_blank c then EmptyString else String c EmptyString
                   | r => String c r
                   end
  end.
Definition trim (s : string) : string := trim_right (trim_left s).

(** ** read_frame_timestamps (experimental_data_utils.cc:140-206) *)
Section Log.
  Context {N : Num} (P : parser N).
  Local Open Scope num_scope.
  (** The four entries of the experiment tree that are used (148-165).
      Simplification: natural numbers; with last_camera + 1 < first_camera the unsigned subtraction of line 167 wraps around to a huge vector. *)
  Record log_config := mklog { lg_offset : N; lg_first : Z; lg_last : Z; lg_cameras : nat }.

  (** time_stamps[camera].push_back(x) *)
  Fixpoint push (ts : list (list N)) (camera : nat) (x : N) : res (list (list N)) :=
    match ts, camera with
    | [], _ => UB
    | t :: rest, O => Ok ((t ++ [x])%list :: rest)
    | t :: rest, S k => do r <- push rest k x; Ok (t :: r)
    end.
  (** static_cast<unsigned int>(int) *)
  Definition to_unsigned (z : Z) : Z := Z.modulo z (2 ^ 32).
  (** The entries after the first one (196-201). *)
  Fixpoint log_entries (cfg : log_config) (interesting : bool) (camera : nat) (entries : list string) (ts : list (list N)) : res (list (list N)) :=
    match entries with
    | [] => Ok ts
    | e :: rest =>
        let s := trim e in
        if interesting && Nat.ltb 0 (String.length s) then
          if Nat.ltb camera (List.length ts) then
            match stod P s with
            | None => Throw
            | Some x => do ts' <- push ts camera (x + lg_offset cfg); log_entries cfg interesting (S camera) rest ts'
            end
          else UB
        else log_entries cfg interesting (S camera) rest ts
    end.
  (** A line (175-204).  The while loop over s_stream.good() with getline(',') visits exactly the fields of split_off: a line that ends
      with a comma, and an empty line, have an empty last field.  [frame] is set to the largest unsigned value at the beginning of
      each line (179), so that the assertion of line 190 always holds; it is modelled as it is written. *)
  Definition uint_max : Z := (2 ^ 32 - 1)%Z.
  Definition log_line (cfg : log_config) (ts : list (list N)) (line : string) : res (list (list N)) :=
    let frame := uint_max in
    match split_off ","%char line with
    | [] => Ok ts
    | e :: rest =>
        match stoi P (trim e) with
        | None => Throw
        | Some z =>
            if Z.eqb (to_unsigned (z - frame)) 1 || Z.eqb frame uint_max then
              let frame := to_unsigned z in
              log_entries cfg (Z.leb (lg_first cfg) frame && Z.leb frame (lg_last cfg)) 0 rest ts
            else Throw
        end
    end.
  Fixpoint log_lines (cfg : log_config) (ts : list (list N)) (lines : list string) : res (list (list N)) :=
    match lines with
    | [] => Ok ts
    | l :: rest => do ts' <- log_line cfg ts l; log_lines cfg ts' rest
    end.
  Definition read_frame_timestamps (cfg : log_config) (lines : list string) : res (list (list N)) :=
    log_lines cfg (repeat [] (lg_cameras cfg)) lines.
End Log.
Arguments log_config : clear implicits.

(** ** Frames in the time loop *)
Section Frames.
  Context {N : Num}.
  Local Open Scope num_scope.
  (** State: [f_next] is experimental_frame_index + 1 (0 for the initial UINT_MAX, 1803-1804); [f_reader] is the frame that
      read_next_frame will read (PointCloud.cc:24, 93; RayTracing.cc likewise); [f_da_time] is da_time (1783). *)
  Record fstate := mkfs { f_next : nat; f_reader : nat; f_da_time : N }.
  (** What happened in a step: nothing; a frame was read, and it was assimilated or not. *)
  Inductive fevent := Nothing | Read (frame : nat) | Assimilated (frame : nat).

  (** 2151-2170; ts is frame_time_stamps[0], [half] is da_time_half_window (1897).
      [frame_time] is the largest double unless a frame is read, and then (time being less than that) nothing happens. *)
  Definition frame_step (ts : list N) (half : N) (n : nat) (old_time time : N) (st : fstate) : res (fstate * fevent) :=
    if Nat.ltb (f_next st) (List.length ts) then
      do next <- at_ ts (f_next st);
      let da_time := if (f_da_time st + half) <? time then next else f_da_time st in
      if next <=? time then
        let frame := f_reader st in
        do frame_time <- at_ ts frame;
        let st' := mkfs (S frame) (S frame) da_time in
        if frame_time <=? time then
          if (old_time <? frame_time) || Nat.eqb n 1 then Ok (st', Assimilated frame) else Throw
        else Ok (st', Read frame)
      else Ok (mkfs (f_next st) (f_reader st) da_time, Nothing)
    else Ok (st, Nothing).
  (** The passes of the time loop: the pass number [n] evolves from old_time to the next time of the list. *)
  Fixpoint frame_run (ts : list N) (half : N) (n : nat) (old_time : N) (times : list N) (st : fstate) : res (list (fstate * fevent)) :=
    match times with
    | [] => Ok []
    | t :: rest =>
        do '(st', e) <- frame_step ts half n old_time t st;
        do r <- frame_run ts half (S n) t rest st';
        Ok ((st', e) :: r)
    end.
  (** Start of a run: the reader is at experiment.first_frame; da_time is -1. *)
  Definition frames_initial (first_frame : nat) : fstate := mkfs 0 first_frame (nZ (-1)).
  (** Restart (1854-1869): while (ts[index + 1] < time) ++index, without a bound; the reader is not advanced. *)
  Fixpoint advance (ts : list N) (time : N) (next : nat) : res nat :=
    match ts with
    | [] => UB
    | t :: rest => if t <? time then advance rest time (S next) else Ok next
    end.
  Definition frames_restarted (first_frame : nat) (ts : list N) (time : N) : res fstate :=
    do next <- advance ts time 0; Ok (mkfs next first_frame (nZ (-1))).
  (** Output condition (2417-2419), for time_steps_output > 0. *)
  Definition writes_output (on_da : bool) (period n : nat) (half time : N) (st : fstate) : bool :=
    Nat.eqb (Nat.modulo n period) 0 || (on_da && ((f_da_time st - half) <? time) && (time <? (f_da_time st + half))).
End Frames.
Arguments fstate : clear implicits.

(** ** PointCloud (PointCloud.cc:31-93) *)
Section Cloud.
  Context {N : Num} (strtod : string -> N) (zero : N).
  (** A row: fields separated by ',', the empty ones are skipped without counting; the first [dim] fields are coordinates, the
      later ones the value, the last one wins (54-84).  strtod of the rest of the line is strtod of the field: a number never contains a comma. *)
  Record sample := mksample { s_coords : list N; s_value : N }.
  Fixpoint set_coord (l : list N) (i : nat) (x : N) : list N :=
    match l, i with
    | [], _ => []
    | _ :: r, O => x :: r
    | a :: r, S k => a :: set_coord r k x
    end.
  Fixpoint row_fields (dim i : nat) (fields : list string) (p : sample) : sample :=
    match fields with
    | [] => p
    | f :: rest =>
        if Nat.eqb (String.length f) 0 then row_fields dim i rest p
        else row_fields dim (S i) rest
               (if Nat.ltb i dim then mksample (set_coord (s_coords p) i (strtod f)) (s_value p)
                else mksample (s_coords p) (strtod f))
    end.
  Definition cloud_row (dim : nat) (line : string) : sample :=
    row_fields dim 0 (split_off ","%char line) (mksample (repeat zero dim) zero).
  (** A file: the first line is dropped (47). *)
  Definition cloud_file (dim : nat) (lines : list string) : list sample := map (cloud_row dim) (tl lines).

  (** std::regex_replace of a literal pattern: every occurrence, from left to right. *)
  Fixpoint replace_go (fuel : nat) (pat by_ s : string) : string :=
    match fuel with
    | O => s
    | S fuel' =>
        if Nat.eqb (String.length s) 0 then s
        else if String.prefix pat s then by_ ++ replace_go fuel' pat by_ (String.substring (String.length pat) (String.length s) s)
        else match s with EmptyString => EmptyString | String c s' => String c (replace_go fuel' pat by_ s') end
    end.
  Definition replace_all (pat by_ s : string) : string := replace_go (String.length s) pat by_ s.
  Definition frame_file (template : string) (camera frame : nat) : string :=
    replace_all "#frame" (to_string frame) (replace_all "#camera" (to_string camera) template).
  (** read_next_frame: the files of all the cameras, in order (36-90).  Waiting for a file is not modelled: [fs] gives its final contents. *)
  Definition read_frame (fs : string -> list string) (dim : nat) (template : string) (first_camera last_camera frame : nat) : list sample :=
    List.concat (map (fun camera => cloud_file dim (fs (frame_file template camera frame))) (seq first_camera (last_camera + 1 - first_camera))).
End Cloud.
Arguments sample : clear implicits.

(** ** Mapping of the experimental points to degrees of freedom (experimental_data_utils.cc:24-110, 112-138) *)
Section Mapping.
  Context {N : Num}.
  (** Cells with active FE index 0 owned by the rank: global indices and support points of their degrees of freedom. *)
  Definition dcell := list (nat * pt N).
  (** 41-63: unordered_set visited; locally owned degrees of freedom only. *)
  Definition visit (owned : nat -> bool) (acc : list (nat * pt N)) (d : nat * pt N) : list (nat * pt N) :=
    if negb (existsb (Nat.eqb (fst d)) (map fst acc)) && owned (fst d) then (acc ++ [d])%list else acc.
  Definition dof_to_support (owned : nat -> bool) (cells : list dcell) : list (nat * pt N) :=
    fold_left (visit owned) (List.concat cells) [].
  (** 69-110.  ArborX' nearest neighbour query is a parameter: for every experimental point the (index, rank) of a closest support
      point over all the ranks, or nothing when there is no support point.  [local] are the degrees of freedom found by [my_rank];
      reading beyond them is undefined.  global_indices before MPI::max. *)
  Definition local_index (local : list nat) (my_rank : nat) (found : nat * nat) : res Z :=
    if Nat.eqb (snd found) my_rank then do d <- at_ local (fst found); Ok (Z.of_nat d) else Ok (-1)%Z.
  Fixpoint local_indices (local : list nat) (my_rank : nat) (founds : list (option (nat * nat))) (i : nat) : res (list (nat * Z)) :=
    match founds with
    | [] => Ok []
    | None :: rest => local_indices local my_rank rest (S i)
    | Some f :: rest =>
        do d <- local_index local my_rank f;
        do r <- local_indices local my_rank rest (S i);
        Ok ((i, d) :: r)
    end.
  (** MPI::max component by component; the same on all the ranks. *)
  Fixpoint max_lists (a b : list Z) : list Z :=
    match a, b with x :: a', y :: b' => Z.max x y :: max_lists a' b' | _, _ => [] end.
  Fixpoint all_ok {A} (l : list (res A)) : res (list A) :=
    match l with [] => Ok [] | r :: rest => do x <- r; do xs <- all_ok rest; Ok (x :: xs) end.
  (** [locals]: the degrees of freedom found by each rank. *)
  Definition expt_to_dof (locals : list (list nat)) (founds : list (option (nat * nat))) : res (list nat * list Z) :=
    do per_rank <- all_ok (map (fun '(r, local) => local_indices local r founds 0) (combine (seq 0 (List.length locals)) locals));
    match per_rank with
    | [] => Ok ([], [])
    | first :: others => Ok (map fst first, fold_left (fun acc l => max_lists acc (map snd l)) others (map snd first))
    end.

  (** set_with_experimental_data (112-138): the loop runs over the values and reads the mapping at the same position. *)
  Fixpoint set_with (owned : Z -> bool) (values : list N) (dofs : list Z) (temperature : Z -> N) : res (Z -> N) :=
    match values with
    | [] => Ok temperature
    | v :: rest =>
        match dofs with
        | [] => UB
        | d :: dofs' => set_with owned rest dofs' (if owned d then fun k => if Z.eqb k d then v else temperature k else temperature)
        end
    end.
End Mapping.
