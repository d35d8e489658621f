(** InputModel.v -- input databases: boost::property_tree, validate_input_database.cc, Boundary.{hh,cc}, the units of types.hh.

    A property tree is a string and an ordered list of named subtrees.  A path "a.b.c" is given as the list of its names
    [a; b; c] (simplification: names are assumed not to contain the separator '.', so a concatenation such as
    child_pair.first + ".type" is the path [child_pair.first; "type"]). *)
From Coq Require Import ZArith NArith Bool List String Ascii DecimalString Decimal.
From Verif Require Import Base ScanPathModel MaterialModel.
Import ListNotations.
Local Open Scope string_scope.

Inductive ptree := Node (data : string) (kids : list (string * ptree)).
Definition pdata (t : ptree) : string := match t with Node d _ => d end.
Definition pkids (t : ptree) : list (string * ptree) := match t with Node _ k => k end.

(** ptree::count: number of direct children of that name. *)
Definition count (t : ptree) (name : string) : nat := List.length (filter (fun p => String.eqb (fst p) name) (pkids t)).
(** get_child_optional: the first child of each name along the path. *)
Definition kid (t : ptree) (name : string) : option ptree :=
  match find (fun p => String.eqb (fst p) name) (pkids t) with Some p => Some (snd p) | None => None end.
Fixpoint child_opt (t : ptree) (path : list string) : option ptree :=
  match path with
  | [] => Some t
  | n :: rest => match kid t n with Some c => child_opt c rest | None => None end
  end.
(** get_child throws ptree_bad_path. *)
Definition child (t : ptree) (path : list string) : res ptree := match child_opt t path with Some c => Ok c | None => Throw end.
(** get<std::string>, get_optional<std::string>. *)
Definition get_str_opt (t : ptree) (path : list string) : option string := option_map pdata (child_opt t path).
Definition get_str (t : ptree) (path : list string) : res string := match get_str_opt t path with Some s => Ok s | None => Throw end.
(** get<T>: throws ptree_bad_path or ptree_bad_data; get(path, default) and get_optional<T> ignore both failures.
    [tr] is the translator of the type, any function. *)
Definition get_opt {A} (tr : string -> option A) (t : ptree) (path : list string) : option A :=
  match get_str_opt t path with Some s => tr s | None => None end.
Definition get {A} (tr : string -> option A) (t : ptree) (path : list string) : res A :=
  match get_opt tr t path with Some a => Ok a | None => Throw end.
Definition get_def {A} (tr : string -> option A) (d : A) (t : ptree) (path : list string) : A :=
  match get_opt tr t path with Some a => a | None => d end.

(** std::to_string of an unsigned integer. *)
Definition to_string (n : nat) : string := NilZero.string_of_uint (Nat.to_uint n).

(** boost::iequals in the C locale. *)
Definition lower_char (c : ascii) : ascii :=
  let n := nat_of_ascii c in if (Nat.leb 65 n && Nat.leb n 90)%bool then ascii_of_nat (n + 32) else c.
Fixpoint lower (s : string) : string := match s with EmptyString => EmptyString | String c s' => String (lower_char c) (lower s') end.
Definition iequals (a b : string) : bool := String.eqb (lower a) (lower b).

Definition need (b : bool) : res unit := if b then Ok tt else Throw.
(** ASSERT_THROW(database.count(...) != 0). *)
Definition need_kid (t : ptree) (name : string) : res unit := need (negb (Nat.eqb (count t name) 0)).
Definition andthen (a b : res unit) : res unit := do _ <- a; b.
Fixpoint each {A} (f : A -> res unit) (l : list A) : res unit :=
  match l with [] => Ok tt | a :: rest => andthen (f a) (each f rest) end.
Infix ";;" := andthen (at level 61, right associativity).

(** ** Boundary types (Boundary.hh:21-29) and one word of a boundary line. *)
Definition adiabatic : N := 1.
Definition radiative : N := 2.
Definition convective : N := 4.
Definition clamped : N := 8.
Definition traction_free : N := 16.
Definition has_flag (t f : N) : bool := negb (N.eqb (N.land t f) 0).

(** parse_boundary_type (validate_input_database.cc:34-86): the type of the line so far and the union of the radiative and
    convective flags of all the lines. *)
Record line_state := mkls { ls_line : N; ls_all : N; ls_thermal : bool; ls_mech : bool }.
Definition parse_word (st : line_state) (w : string) : res line_state :=
  if String.eqb w "adiabatic" then
    if negb (has_flag (ls_line st) radiative) || negb (has_flag (ls_line st) convective)
    then Ok (mkls (N.lor (ls_line st) adiabatic) (ls_all st) true (ls_mech st)) else Throw
  else if String.eqb w "radiative" then
    if negb (has_flag (ls_line st) adiabatic)
    then Ok (mkls (N.lor (ls_line st) radiative) (N.lor (ls_all st) radiative) true (ls_mech st)) else Throw
  else if String.eqb w "convective" then
    if negb (has_flag (ls_line st) adiabatic)
    then Ok (mkls (N.lor (ls_line st) convective) (N.lor (ls_all st) convective) true (ls_mech st)) else Throw
  else if String.eqb w "clamped" then
    if negb (has_flag (ls_line st) traction_free)
    then Ok (mkls (N.lor (ls_line st) clamped) (ls_all st) (ls_thermal st) true) else Throw
  else if String.eqb w "traction_free" then
    if negb (has_flag (ls_line st) clamped)
    then Ok (mkls (N.lor (ls_line st) traction_free) (ls_all st) (ls_thermal st) true) else Throw
  else Throw.
Fixpoint parse_words (st : line_state) (ws : list string) : res line_state :=
  match ws with [] => Ok st | w :: rest => do st' <- parse_word st w; parse_words st' rest end.
(** The words of a line: the while loop over the delimiter "," (105-113; Boundary.cc:100-107) is split_off. *)
Definition words (line : string) : list string := split_off ","%char line.

(** One child of the boundary tree (87-126). *)
Definition boundary_line (b : ptree) (p : string * ptree) : res string :=
  if String.eqb (fst p) "type" then Ok (pdata (snd p)) else get_str b [fst p; "type"].
Definition check_line (thermal mech : bool) (b : ptree) (acc : N * bool) (p : string * ptree) : res (N * bool) :=
  do line <- boundary_line b p;
  do st <- parse_words (mkls 0 (fst acc) false false) (words line);
  do _ <- (if thermal then need (ls_thermal st) else Ok tt);
  do _ <- (if mech then need (ls_mech st) else Ok tt);
  Ok (ls_all st, snd acc || has_flag (ls_line st) clamped).
Fixpoint check_lines (thermal mech : bool) (b : ptree) (acc : N * bool) (ps : list (string * ptree)) : res (N * bool) :=
  match ps with [] => Ok acc | p :: rest => do acc' <- check_line thermal mech b acc p; check_lines thermal mech b acc' rest end.

Section Validate.
  (** Translators of ptree for bool, unsigned int and double. *)
  Context {N : Num} (tbool : string -> option bool) (tuint : string -> option nat) (tdouble : string -> option N).
  Local Open Scope num_scope.
  Local Open Scope string_scope.
  Local Infix ";;" := andthen (at level 61, right associativity).

  Definition check_discretization (thermal : bool) (db : ptree) : res unit :=
    if thermal then
      do d <- get tuint db ["discretization"; "thermal"; "fe_degree"];
      need (Nat.ltb 0 d && Nat.ltb d 6) ;;
      match get_str_opt db ["discretization"; "thermal"; "quadrature"] with
      | Some q => need (iequals q "gauss" || iequals q "lobatto")
      | None => Ok tt
      end
    else Ok tt.

  (** Tree geometry (159-229). *)
  Definition check_geometry (db : ptree) (dim : nat) : res unit :=
    (if get_def tbool false db ["geometry"; "use_powder"] then
       do l <- get tdouble db ["geometry"; "powder_layer"]; need (nofZ N 0 <=? l)%num
     else Ok tt) ;;
    (if get_def tbool false db ["geometry"; "material_deposition"] then
       do m <- get_str db ["geometry"; "material_deposition_method"];
       need (String.eqb m "file" || String.eqb m "scan_paths") ;;
       (if String.eqb m "file" then need_kid db "geometry.material_deposition_file"
        else
          do g <- child db ["geometry"];
          need_kid g "deposition_length" ;; need_kid g "deposition_height" ;;
          (if Nat.eqb dim 3 then need_kid g "deposition_width" else Ok tt) ;;
          need_kid g "deposition_lead_time")
     else Ok tt) ;;
    do import <- get tbool db ["geometry"; "import_mesh"];
    do g <- child db ["geometry"];
    (if import then need_kid g "mesh_file" ;; need_kid g "mesh_format"
     else need_kid g "length" ;; need_kid g "height" ;; (if Nat.eqb dim 3 then need_kid g "width" else Ok tt)).

  (** Tree materials (232-339). *)
  Definition state_names : list string := ["solid"; "liquid"; "powder"].
  Definition check_state (dim : nat) (bt : BinNums.N) (s : ptree) : res unit :=
    need_kid s "density" ;; need_kid s "specific_heat" ;; need_kid s "thermal_conductivity_x" ;; need_kid s "thermal_conductivity_z" ;;
    (if Nat.eqb dim 3 then need_kid s "thermal_conductivity_y" else Ok tt) ;;
    (if has_flag bt convective then need_kid s "convection_heat_transfer_coef" else Ok tt) ;;
    (if has_flag bt radiative then need_kid s "emissivity" else Ok tt).
  Definition check_material (dim : nat) (bt : BinNums.N) (ms : ptree) (id : nat) : res unit :=
    let name := "material_" ++ to_string id in
    need_kid ms name ;;
    do m <- child ms [name];
    each (fun s => if negb (Nat.eqb (count m s) 0) then do st <- child m [s]; check_state dim bt st else Ok tt) state_names ;;
    need (existsb (fun s => negb (Nat.eqb (count m s) 0)) state_names) ;;
    (if has_flag bt convective then need_kid m "convection_temperature_infty" else Ok tt) ;;
    (if has_flag bt radiative then need_kid m "radiation_temperature_infty" else Ok tt).
  Definition check_materials (db : ptree) (dim : nat) (bt : BinNums.N) : res unit :=
    do n <- get tuint db ["materials"; "n_materials"];
    do f <- get_str db ["materials"; "property_format"];
    need (String.eqb f "table" || String.eqb f "polynomial") ;;
    do ms <- child db ["materials"];
    each (check_material dim bt ms) (seq 0 n).

  (** Tree sources (365-399). *)
  Definition check_beam (db : ptree) (i : nat) : res unit :=
    let beam := "beam_" ++ to_string i in
    do ty <- get_str db ["sources"; beam; "type"];
    need (iequals ty "goldak" || iequals ty "electron_beam" || iequals ty "cube") ;;
    do b <- child db ["sources"; beam];
    need_kid b "scan_path_file" ;;
    do f <- get_str db ["sources"; beam; "scan_path_file_format"];
    need (iequals f "segment" || iequals f "event_series") ;;
    do d <- get tdouble db ["sources"; beam; "depth"];
    need (nofZ N 0 <=? d)%num ;;
    do a <- get tdouble db ["sources"; beam; "absorption_efficiency"];
    need ((nofZ N 0 <=? a)%num && (a <=? nofZ N 1)%num).

  (** Tree time_stepping (402-420). *)
  Definition check_time (db : ptree) : res unit :=
    do m <- get_str db ["time_stepping"; "method"];
    need (iequals m "forward_euler" || iequals m "rk_third_order" || iequals m "rk_fourth_order") ;;
    (if get_def tbool false db ["time"; "scan_path_for_duration"] then
       do d <- get tdouble db ["time_stepping"; "duration"]; need (nofZ N 0 <=? d)%num
     else Ok tt) ;;
    do s <- get tdouble db ["time_stepping"; "time_step"];
    need (nofZ N 0 <=? s)%num.

  (** Tree experiment (422-470). *)
  Definition check_experiment (db : ptree) : res unit :=
    match child_opt db ["experiment"] with
    | None => Ok tt
    | Some e =>
        if get_def tbool false db ["experiment"; "read_in_experimental_data"] then
          need_kid e "file" ;; need_kid e "last_frame" ;;
          do f <- get_str db ["experiment"; "format"];
          need (iequals f "point_cloud" || iequals f "ray") ;;
          do l <- get tuint db ["experiment"; "last_frame"];
          need (Nat.leb (get_def tuint 0%nat db ["experiment"; "first_frame"]) l) ;;
          do fc <- get tuint db ["experiment"; "first_camera_id"];
          do lc <- get tuint db ["experiment"; "last_camera_id"];
          need (Nat.leb fc lc) ;;
          need_kid e "log_filename"
        else Ok tt
    end.

  (** Tree data_assimilation (475-493). *)
  Definition check_da (db : ptree) : res unit :=
    match get_opt tdouble db ["data_assimilation"; "convergence_tolerance"] with
    | Some c => need (nofZ N 0 <=? c)%num
    | None => Ok tt
    end ;;
    let f := match get_str_opt db ["data_assimilation"; "localization_cutoff_function"] with Some f => f | None => "none" end in
    need (iequals f "gaspari_cohn" || iequals f "step_function" || iequals f "none").

  (** Tree units (496-563). *)
  Definition length_units : list string := ["millimeter"; "centimeter"; "inch"; "meter"].
  Definition power_units : list string := ["milliwatt"; "watt"].
  Definition velocity_units : list string := ["millimeter/second"; "centimeter/second"; "meter/second"].
  Definition check_unit (db : ptree) (path : list string) (allowed : list string) : res unit :=
    match get_str_opt db path with Some u => need (existsb (iequals u) allowed) | None => Ok tt end.
  Definition check_units (db : ptree) : res unit :=
    check_unit db ["units"; "mesh"] length_units ;;
    check_unit db ["units"; "heat_source"; "power"] power_units ;;
    check_unit db ["units"; "heat_source"; "velocity"] velocity_units ;;
    check_unit db ["units"; "heat_source"; "dimension"] length_units ;;
    check_unit db ["units"; "heat_source"; "scan_path"] length_units.

  (** validate_input_database (validate_input_database.cc:16-564). *)
  Definition validate (db : ptree) : res unit :=
    do thermal <- get tbool db ["physics"; "thermal"];
    do mech <- get tbool db ["physics"; "mechanical"];
    need (thermal || mech) ;;
    do b <- child db ["boundary"];
    do acc <- check_lines thermal mech b (0%N, false) (pkids b);
    (if mech then need (snd acc) else Ok tt) ;;
    check_discretization thermal db ;;
    do dim <- get tuint db ["geometry"; "dim"];
    need (Nat.eqb dim 2 || Nat.eqb dim 3) ;;
    check_geometry db dim ;;
    check_materials db dim (fst acc) ;;
    match get_str_opt db ["memory_space"] with Some s => need (String.eqb s "device" || String.eqb s "host") | None => Ok tt end ;;
    do pp <- child db ["post_processor"];
    need_kid pp "filename_prefix" ;;
    need_kid db "refinement" ;;
    do n_beams <- get tuint db ["sources"; "n_beams"];
    each (check_beam db) (seq 0 n_beams) ;;
    check_time db ;; check_experiment db ;; check_da db ;; check_units db.
End Validate.

(** ** Units (types.hh:29-34): operator[] of the map gives 0 for an absent name. *)
Definition unit_table : list (string * (Z * Z)) :=
  [("millimeter", (1, 1000)%Z); ("centimeter", (1, 100)%Z); ("inch", (254, 10000)%Z); ("meter", (1, 1)%Z);
   ("milliwatt", (1, 1000)%Z); ("watt", (1, 1)%Z); ("millimeter/second", (1, 1000)%Z); ("centimer/second", (1, 100)%Z);
   ("meter/second", (1, 1)%Z)].
Definition unit_factor {N : Num} (u : string) : N :=
  match find (fun p => String.eqb (fst p) u) unit_table with
  | Some (_, (a, b)) => ndiv N (nofZ N a) (nofZ N b)
  | None => nofZ N 0
  end.
(** BeamHeatSourceProperties.hh:38-50, CubeHeatSource.cc:18-29, ScanPath.cc:20-32, Geometry.cc:170-172: 1 (meter) unless given. *)
Definition scaling {N : Num} (units : option ptree) (path : list string) : N :=
  match units with
  | Some u => match get_str_opt u path with Some s => unit_factor s | None => nofZ N 1 end
  | None => nofZ N 1
  end.
(** Creation of a heat source and of its scan path (ThermalPhysics.templates.hh:382-411, ScanPath.cc:34-35). *)
Definition make_beam (ty fmt : string) : res unit :=
  need (String.eqb ty "goldak" || String.eqb ty "electron_beam" || String.eqb ty "cube") ;;
  need (String.eqb fmt "segment" || String.eqb fmt "event_series").

(** ** Boundary (Boundary.cc) *)
(** parse_boundary_line (Boundary.cc:87-110): find(...)->second on an unknown word dereferences the end iterator. *)
Definition flag_of (w : string) : option N :=
  if String.eqb w "adiabatic" then Some adiabatic
  else if String.eqb w "radiative" then Some radiative
  else if String.eqb w "convective" then Some convective
  else if String.eqb w "clamped" then Some clamped
  else if String.eqb w "traction_free" then Some traction_free else None.
Fixpoint line_type (acc : N) (ws : list string) : res N :=
  match ws with
  | [] => Ok acc
  | w :: rest => match flag_of w with Some f => line_type (N.lor acc f) rest | None => UB end
  end.
Definition parse_boundary_line (line : string) : res N := line_type 0 (words line).

(** The check of the ids (Boundary.cc:17-34): the first occurrence of "boundary_" is removed, the rest is read by stoi. *)
Definition check_id (stoi : string -> option Z) (ids : list nat) (p : string * ptree) : res unit :=
  match String.index 0 "boundary_" (fst p) with
  | None => Ok tt
  | Some pos =>
      let s := fst p in
      let rest := String.append (String.substring 0 pos s) (String.substring (pos + 9) (String.length s - (pos + 9)) s) in
      match stoi rest with None => Throw | Some z => need (existsb (fun i => Z.eqb (Z.of_nat i) z) ids) end
  end.
Definition max_id (ids : list nat) : res nat := match ids with [] => UB | a :: rest => Ok (fold_left Nat.max rest a) end.
Fixpoint set_ids (db : ptree) (ids : list nat) (types : list N) : res (list N) :=
  match ids with
  | [] => Ok types
  | i :: rest =>
      match get_str_opt db ["boundary_" ++ to_string i; "type"] with
      | Some l => do t <- parse_boundary_line l; set_ids db rest (set_nth types i t)
      | None => set_ids db rest types
      end
  end.
Definition make_boundary (stoi : string -> option Z) (db : ptree) (ids : list nat) : res (list N) :=
  do _ <- each (check_id stoi ids) (pkids db);
  do m <- max_id ids;
  do types <- match get_str_opt db ["type"] with
              | Some l => do t <- parse_boundary_line l; Ok (repeat t (m + 1))
              | None => Ok (repeat 0%N (m + 1))
              end;
  do types2 <- set_ids db ids types;
  match get_str_opt db ["printed_surface"; "type"] with
  | Some l => do t <- parse_boundary_line l; Ok (set_nth types2 (List.length types2 - 1) t)
  | None => Ok types2
  end.
(** get_boundary_type (Boundary.hh:120-126), get_boundary_ids (Boundary.cc:72-85). *)
Definition get_boundary_type (types : list N) (id : nat) : res N :=
  if Nat.ltb id (List.length types - 1) then at_ types id else back types.
Definition get_boundary_ids (types : list N) (f : N) : list nat :=
  filter (fun i => has_flag (nth i types 0%N) f) (seq 0 (List.length types)).
