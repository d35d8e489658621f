(** MembersModel.v -- the members of an ensemble run: what each one reads from its own database, and the way the assimilated parameters
    reach its heat sources (run_ensemble, adamantine.hh:1494-2470; ThermalPhysics.templates.hh:371-411, 450-474, 832-852). *)
From Coq Require Import ZArith Bool List String.
From Verif Require Import Base MaterialModel InputModel EnsembleModel AssimilationModel CellModel.
Import ListNotations.
Local Open Scope string_scope.

Section Members.
  Context {N : Num} (tuint : string -> option nat) (tdouble : string -> option N) (fmt : N -> string) (dim3 : bool).
  Local Open Scope num_scope.

  (** ** Heat sources *)
  (** BeamHeatSourceProperties.hh:56-93 (radius_squared is a function of radius). *)
  Record properties := mkproperties { bp_depth : N; bp_absorption : N; bp_radius : N; bp_max_power : N }.
  (** A goldak or electron_beam source with its unit factors and its scan path file (HeatSource.hh:54-66), or a cube (CubeHeatSource.cc:11-41). *)
  Inductive source :=
  | Moving (type : string) (dimension power : N) (p : properties) (file format : string) (distance velocity : N)
  | Fixed (start_time end_time value : N) (min_point max_point : list N).
  (** set_from_database (BeamHeatSourceProperties.hh:56-67). *)
  Definition set_from_database (dimension power : N) (b : ptree) : res properties :=
    do depth <- get tdouble b ["depth"];
    do absorption <- get tdouble b ["absorption_efficiency"];
    do diameter <- get tdouble b ["diameter"];
    do max_power <- get tdouble b ["max_power"];
    Ok (mkproperties (depth * dimension) absorption (diameter * dimension / nZ 2) (max_power * power)).
  (** HeatSource.hh:54-66, ScanPath.cc:15-44.  Simplification: the scan path itself (reading it, waiting for it) is C01-C06; here its name. *)
  Definition make_moving (type : string) (units : option ptree) (b : ptree) : res source :=
    let dimension := scaling units ["heat_source"; "dimension"] in
    let power := scaling units ["heat_source"; "power"] in
    do p <- set_from_database dimension power b;
    do file <- get_str b ["scan_path_file"];
    do format <- get_str b ["scan_path_file_format"];
    if String.eqb format "segment" || String.eqb format "event_series"
    then Ok (Moving type dimension power p file format (scaling units ["heat_source"; "scan_path"]) (scaling units ["heat_source"; "velocity"]))
    else Throw.
  (** CubeHeatSource.cc:17-40 *)
  Definition make_cube (units : option ptree) (b : ptree) : res source :=
    let dimension := scaling units ["heat_source"; "dimension"] in
    let power := scaling units ["heat_source"; "power"] in
    do start_time <- get tdouble b ["start_time"];
    do end_time <- get tdouble b ["end_time"];
    do value <- get tdouble b ["value"];
    do low <- mapR (fun k => do v <- get tdouble b ["min_" ++ k]; Ok (v * dimension)) (["x"; "y"] ++ (if dim3 then ["z"] else []))%list;
    do high <- mapR (fun k => do v <- get tdouble b ["max_" ++ k]; Ok (v * dimension)) (["x"; "y"] ++ (if dim3 then ["z"] else []))%list;
    Ok (Fixed start_time end_time (value * power) low high).
  (** ThermalPhysics.templates.hh:387-411 *)
  Definition make_source (units : option ptree) (b : ptree) : res source :=
    do type <- get_str b ["type"];
    if String.eqb type "goldak" || String.eqb type "electron_beam" then make_moving type units b
    else if String.eqb type "cube" then make_cube units b
    else Throw.
  Definition beam_name (i : nat) : string := "beam_" ++ to_string i.
  (** ThermalPhysics.templates.hh:371-411 *)
  Definition make_sources (db : ptree) : res (list source) :=
    do src <- child db ["sources"];
    do n_beams <- get tuint src ["n_beams"];
    mapR (fun i => do b <- child src [beam_name i]; make_source (child_opt db ["units"]) b) (seq 0 n_beams).
  (** update_physics_parameters (ThermalPhysics.templates.hh:832-852), HeatSource.hh:136-141: a cube keeps its own data. *)
  Definition update_source (src : ptree) (i : nat) (s : source) : res source :=
    do b <- child src [beam_name i];
    do type <- get_str b ["type"];
    if String.eqb type "goldak" || String.eqb type "electron_beam" then
      match s with
      | Moving ty d p _ f fo di ve => do q <- set_from_database d p b; Ok (Moving ty d p q f fo di ve)
      | Fixed _ _ _ _ _ => do _ <- set_from_database (nZ 1) (nZ 1) b; Ok s
      end
    else Ok s.
  Definition update_physics_parameters (src : ptree) (ss : list source) : res (list source) :=
    mapR (fun '(i, s) => update_source src i s) (combine (seq 0 (List.length ss)) ss).

  (** ** Set-up of a member (adamantine.hh:1664-1753) *)
  (** What the constructor of ThermalPhysics takes from the database of the member (371-411, 450-453, 474).  Geometry, Boundary and
      MaterialProperty are built from the input database shared by the members (1705-1716): not in [setting]. *)
  Record setting := mksetting { sg_sources : list source; sg_method : string; sg_height : N }.
  Definition make_setting (db : ptree) : res setting :=
    do ss <- make_sources db;
    do ts <- child db ["time_stepping"];
    do method <- get_str ts ["method"];
    Ok (mksetting ss method (get_def tdouble (nZ 1000000000) db ["geometry"; "material_height"])).
  Definition initial_temperature (db : ptree) : N := get_def tdouble (nZ 300) db ["materials"; "initial_temperature"].
  Definition new_material_temperature (db : ptree) : N := get_def tdouble (nZ 300) db ["materials"; "new_material_temperature"].
  (** 1686-1697, 2318-2329 *)
  Definition parameter_key (p : parameter) : list string :=
    match p with beam_0_absorption => ["sources"; "beam_0"; "absorption_efficiency"] | beam_0_max_power => ["sources"; "beam_0"; "max_power"] end.
  (** 1670-1701; [n_beams] is read from the input database. *)
  Definition initial_block (n_beams : nat) (assimilate : bool) (ps : list parameter) (db : ptree) : res (list N) :=
    if Nat.ltb 0 n_beams && assimilate then mapR (fun p => get tdouble db (parameter_key p)) ps else Ok [].

  (** The state of the physics of a member (mesh, temperature, material state, ...): any type. *)
  Context {State : Type} {Shared : Type}.
  (** [init]: setup and initialize_dof_vector (1725-1731); [advance sh n]: refinement, material deposition and evolution in pass [n]
      (1959-2140): it depends on the sources and new_material_temperature of the member, and on data shared by the members: input file,
      deposition boxes, bounding heat sources; [distribute]: hanging-node constraints (2143-2147). *)
  Context (init : setting -> N -> State) (advance : Shared -> nat -> setting -> N -> State -> State) (distribute : State -> State).
  Record member := mkmember { mb_db : ptree; mb_setting : setting; mb_state : State; mb_block : list N }.
  (** [restart]: the state in the checkpoint file of the member (1732-1743). *)
  Definition setup_member (n_beams : nat) (assimilate : bool) (ps : list parameter) (restart : option State) (db : ptree) : res member :=
    do block <- initial_block n_beams assimilate ps db;
    do sg <- make_setting db;
    Ok (mkmember db sg (match restart with None => init sg (initial_temperature db) | Some s => s end) block).
  Definition setup (n_beams : nat) (assimilate : bool) (ps : list parameter) (restart : list (option State)) (dbs : list ptree) : res (list member) :=
    mapR (fun '(r, db) => setup_member n_beams assimilate ps r db) (combine restart dbs).

  (** ** A pass of the time loop *)
  (** 1959-2140 *)
  Definition evolve (sh : Shared) (n : nat) (m : member) : member :=
    mkmember (mb_db m) (mb_setting m) (advance sh n (mb_setting m) (new_material_temperature (mb_db m)) (mb_state m)) (mb_block m).
  Definition distributed (m : member) : member := mkmember (mb_db m) (mb_setting m) (distribute (mb_state m)) (mb_block m).
  (** 2306-2332: put in the database; an index beyond the block is undefined behaviour. *)
  Fixpoint write_parameters (ps : list parameter) (values : list N) (db : ptree) : res ptree :=
    match ps, values with
    | [], _ => Ok db
    | p :: ps', v :: values' => write_parameters ps' values' (put db (parameter_key p) (fmt v))
    | _ :: _, [] => UB
    end.
  (** update_ensemble (2294-2296) changes state and block of all the members: any function. *)
  Definition analysis := list (State * list N) -> res (list (State * list N)).
  Definition analysed (ps : list parameter) (p : member * (State * list N)) : res member :=
    let '(m, (s, block)) := p in
    do db <- write_parameters ps block (mb_db m);
    Ok (mkmember db (mb_setting m) s block).
  Definition assimilated (ps : list parameter) (u : analysis) (ms : list member) : res (list member) :=
    do xs <- u (map (fun m => (mb_state m, mb_block m)) ms);
    mapR (analysed ps) (combine ms xs).
  (** 2363-2368 *)
  Definition refreshed (m : member) : res member :=
    do src <- child (mb_db m) ["sources"];
    do ss <- update_physics_parameters src (sg_sources (mb_setting m));
    Ok (mkmember (mb_db m) (mksetting ss (sg_method (mb_setting m)) (sg_height (mb_setting m))) (mb_state m) (mb_block m)).
  (** Pass [n]; [u]: the analysis if a frame is assimilated in this pass and some of its points are on the mesh (2151-2235; C32, C55). *)
  Definition pass (sh : Shared) (assimilate : bool) (ps : list parameter) (ms : list member) (nu : nat * option analysis) : res (list member) :=
    let '(n, u) := nu in
    let ms := map (evolve sh n) ms in
    if assimilate then
      let ms := map distributed ms in
      do ms <- match u with Some u => assimilated ps u ms | None => Ok ms end;
      mapR refreshed ms
    else Ok ms.
  Definition run (sh : Shared) (assimilate : bool) (ps : list parameter) (passes : list (nat * option analysis)) (ms : list member) : res (list member) :=
    foldR (pass sh assimilate ps) passes ms.

  (** ** Member data files (ensemble_management.cc:246-262): one line per key, written when the databases are created and never again.
      [show]: operator<< (six digits). *)
  Context (show : N -> string).
  Definition data_line (db : ptree) (key : list string) : res string :=
    do v <- get tdouble db key; Ok (String.concat "." key ++ ": " ++ show v).
  Definition data_file (keys : list (list string)) (db : ptree) : res (list string) := mapR (data_line db) keys.
  Definition data_file_name (output_dir prefix : string) (first member : nat) : string :=
    output_dir ++ prefix ++ "_m" ++ to_string (first + member) ++ "_data.txt".
End Members.
Arguments properties : clear implicits.
Arguments source : clear implicits.
Arguments setting : clear implicits.
Arguments member : clear implicits.
Arguments analysis : clear implicits.
