(** InputSpec.v -- what C24 and C25 mean. *)
From Coq Require Import ZArith NArith Bool List String Ascii.
From Verif Require Import Base InputModel.
Import ListNotations.
Local Open Scope string_scope.

(** The subtree at a path: at each step the first child of that name. *)
Inductive at_path : ptree -> list string -> ptree -> Prop :=
| at_here t : at_path t [] t
| at_down t n c rest t' pre post : pkids t = (pre ++ (n, c) :: post)%list -> (forall p, In p pre -> fst p <> n) ->
    at_path c rest t' -> at_path t (n :: rest) t'.
Definition value (t : ptree) (path : list string) (s : string) : Prop := exists c, at_path t path c /\ pdata c = s.
Definition typed {A} (tr : string -> option A) (t : ptree) (path : list string) (a : A) : Prop := exists s, value t path s /\ tr s = Some a.
(** An option that is on: given and read as true. *)
Definition enabled (tbool : string -> option bool) (t : ptree) (path : list string) : Prop := typed tbool t path true.
Definition present (t : ptree) (name : string) : Prop := exists c, In (name, c) (pkids t).
(** Equal ignoring case to one of the names. *)
Definition alphabet : list (ascii * ascii) :=
  combine (list_ascii_of_string "ABCDEFGHIJKLMNOPQRSTUVWXYZ") (list_ascii_of_string "abcdefghijklmnopqrstuvwxyz").
Definition same_letter (a b : ascii) : Prop := a = b \/ In (a, b) alphabet \/ In (b, a) alphabet.
Inductive same_ignoring_case : string -> string -> Prop :=
| same_empty : same_ignoring_case "" ""
| same_next a b s t : same_letter a b -> same_ignoring_case s t -> same_ignoring_case (String a s) (String b t).
Definition named (s : string) (names : list string) : Prop := exists n, In n names /\ same_ignoring_case s n.

(** A word allowed after the words [before] on a boundary line. *)
Definition word_ok (before : list string) (w : string) : Prop :=
  (w = "adiabatic" /\ ~ (In "radiative" before /\ In "convective" before)) \/
  (w = "radiative" /\ ~ In "adiabatic" before) \/ (w = "convective" /\ ~ In "adiabatic" before) \/
  (w = "clamped" /\ ~ In "traction_free" before) \/ (w = "traction_free" /\ ~ In "clamped" before).
(** The comma separated words of a line. *)
Definition words_of (line : string) (ws : list string) : Prop :=
  ws <> [] /\ String.concat "," ws = line /\ forall w, In w ws -> ~ In ","%char (list_ascii_of_string w).
Definition line_ok (ws : list string) : Prop := forall a w c, ws = (a ++ w :: c)%list -> word_ok a w.
Definition line_of (b : ptree) (p : string * ptree) (line : string) : Prop :=
  (fst p = "type" /\ pdata (snd p) = line) \/ (fst p <> "type" /\ value b [fst p; "type"] line).
Definition says (b : ptree) (p : string * ptree) (ws : list string) : Prop := exists line, line_of b p line /\ words_of line ws.
Definition used (b : ptree) (w : string) : Prop := exists p ws, In p (pkids b) /\ says b p ws /\ In w ws.

Definition valid_boundary (thermal mech : bool) (b : ptree) : Prop :=
  (forall p, In p (pkids b) -> exists ws, says b p ws /\ line_ok ws /\
     (thermal = true -> In "adiabatic" ws \/ In "radiative" ws \/ In "convective" ws) /\
     (mech = true -> In "clamped" ws \/ In "traction_free" ws)) /\
  (mech = true -> used b "clamped").

Section Valid.
  Context {N : Num} (tbool : string -> option bool) (tuint : string -> option nat) (tdouble : string -> option N).
  Definition at_least_0 (x : N) : Prop := nleb N (nofZ N 0) x = true.
  Definition at_most_1 (x : N) : Prop := nleb N x (nofZ N 1) = true.

  Definition valid_discretization (db : ptree) : Prop :=
    (exists d, typed tuint db ["discretization"; "thermal"; "fe_degree"] d /\ (1 <= d <= 5)%nat) /\
    (forall q, value db ["discretization"; "thermal"; "quadrature"] q -> named q ["gauss"; "lobatto"]).

  Definition valid_geometry (db : ptree) (dim : nat) : Prop :=
    (enabled tbool db ["geometry"; "use_powder"] -> exists l, typed tdouble db ["geometry"; "powder_layer"] l /\ at_least_0 l) /\
    (enabled tbool db ["geometry"; "material_deposition"] ->
       (value db ["geometry"; "material_deposition_method"] "file" /\ present db "geometry.material_deposition_file") \/
       (value db ["geometry"; "material_deposition_method"] "scan_paths" /\ exists g, at_path db ["geometry"] g /\
          present g "deposition_length" /\ present g "deposition_height" /\ (dim = 3%nat -> present g "deposition_width") /\ present g "deposition_lead_time")) /\
    exists import g, typed tbool db ["geometry"; "import_mesh"] import /\ at_path db ["geometry"] g /\
      (import = true -> present g "mesh_file" /\ present g "mesh_format") /\
      (import = false -> present g "length" /\ present g "height" /\ (dim = 3%nat -> present g "width")).

  Definition valid_state (dim : nat) (conv rad : Prop) (s : ptree) : Prop :=
    present s "density" /\ present s "specific_heat" /\ present s "thermal_conductivity_x" /\ present s "thermal_conductivity_z" /\
    (dim = 3%nat -> present s "thermal_conductivity_y") /\ (conv -> present s "convection_heat_transfer_coef") /\ (rad -> present s "emissivity").
  Definition valid_materials (db : ptree) (dim : nat) (conv rad : Prop) : Prop :=
    exists n f ms, typed tuint db ["materials"; "n_materials"] n /\ value db ["materials"; "property_format"] f /\ In f ["table"; "polynomial"] /\
      at_path db ["materials"] ms /\
      forall id, (id < n)%nat -> exists m, at_path ms ["material_" ++ to_string id] m /\
        (forall s st, In s ["solid"; "liquid"; "powder"] -> at_path m [s] st -> valid_state dim conv rad st) /\
        (exists s, In s ["solid"; "liquid"; "powder"] /\ present m s) /\
        (conv -> present m "convection_temperature_infty") /\ (rad -> present m "radiation_temperature_infty").

  Definition valid_beam (db : ptree) (i : nat) : Prop :=
    let beam := "beam_" ++ to_string i in
    (exists ty, value db ["sources"; beam; "type"] ty /\ named ty ["goldak"; "electron_beam"; "cube"]) /\
    (exists b, at_path db ["sources"; beam] b /\ present b "scan_path_file") /\
    (exists f, value db ["sources"; beam; "scan_path_file_format"] f /\ named f ["segment"; "event_series"]) /\
    (exists d, typed tdouble db ["sources"; beam; "depth"] d /\ at_least_0 d) /\
    (exists a, typed tdouble db ["sources"; beam; "absorption_efficiency"] a /\ at_least_0 a /\ at_most_1 a).

  Definition valid_time (db : ptree) : Prop :=
    (exists m, value db ["time_stepping"; "method"] m /\ named m ["forward_euler"; "rk_third_order"; "rk_fourth_order"]) /\
    (enabled tbool db ["time"; "scan_path_for_duration"] -> exists d, typed tdouble db ["time_stepping"; "duration"] d /\ at_least_0 d) /\
    (exists s, typed tdouble db ["time_stepping"; "time_step"] s /\ at_least_0 s).

  Definition valid_experiment (db : ptree) : Prop :=
    enabled tbool db ["experiment"; "read_in_experimental_data"] ->
    exists e f l fc lc, at_path db ["experiment"] e /\ present e "file" /\ present e "last_frame" /\ present e "log_filename" /\
      value db ["experiment"; "format"] f /\ named f ["point_cloud"; "ray"] /\
      typed tuint db ["experiment"; "last_frame"] l /\ (forall k, typed tuint db ["experiment"; "first_frame"] k -> (k <= l)%nat) /\
      typed tuint db ["experiment"; "first_camera_id"] fc /\ typed tuint db ["experiment"; "last_camera_id"] lc /\ (fc <= lc)%nat.

  Definition valid_da (db : ptree) : Prop :=
    (forall c, typed tdouble db ["data_assimilation"; "convergence_tolerance"] c -> at_least_0 c) /\
    (forall f, value db ["data_assimilation"; "localization_cutoff_function"] f -> named f ["gaspari_cohn"; "step_function"; "none"]).

  Definition valid_units (db : ptree) : Prop :=
    (forall u, value db ["units"; "mesh"] u -> named u ["millimeter"; "centimeter"; "inch"; "meter"]) /\
    (forall u, value db ["units"; "heat_source"; "power"] u -> named u ["milliwatt"; "watt"]) /\
    (forall u, value db ["units"; "heat_source"; "velocity"] u -> named u ["millimeter/second"; "centimeter/second"; "meter/second"]) /\
    (forall u, value db ["units"; "heat_source"; "dimension"] u -> named u ["millimeter"; "centimeter"; "inch"; "meter"]) /\
    (forall u, value db ["units"; "heat_source"; "scan_path"] u -> named u ["millimeter"; "centimeter"; "inch"; "meter"]).

  (** A database that the program accepts. *)
  Definition valid_input (db : ptree) : Prop := exists thermal mech dim b,
    typed tbool db ["physics"; "thermal"] thermal /\ typed tbool db ["physics"; "mechanical"] mech /\ (thermal = true \/ mech = true) /\
    at_path db ["boundary"] b /\ valid_boundary thermal mech b /\
    (thermal = true -> valid_discretization db) /\
    typed tuint db ["geometry"; "dim"] dim /\ (dim = 2 \/ dim = 3)%nat /\ valid_geometry db dim /\
    valid_materials db dim (used b "convective") (used b "radiative") /\
    (forall s, value db ["memory_space"] s -> In s ["device"; "host"]) /\
    (exists pp, at_path db ["post_processor"] pp /\ present pp "filename_prefix") /\ present db "refinement" /\
    (exists n, typed tuint db ["sources"; "n_beams"] n /\ forall i, (i < n)%nat -> valid_beam db i) /\
    valid_time db /\ valid_experiment db /\ valid_da db /\ valid_units db.
End Valid.

(** The flags of boundary types (documented values). *)
Definition bc_names : list (string * BinNums.N) := [("adiabatic", 1); ("radiative", 2); ("convective", 4); ("clamped", 8); ("traction_free", 16)]%N.
Definition union_of (ws : list string) (t : BinNums.N) : Prop :=
  (forall w, In w ws -> exists f, In (w, f) bc_names) /\
  forall i, N.testbit t i = true <-> exists w f, In w ws /\ In (w, f) bc_names /\ N.testbit f i = true.
(** The type declared for a boundary id: its own line, else the default line, else nothing. *)
Definition declared (db : ptree) (id : nat) (t : BinNums.N) : Prop :=
  (exists line ws, value db ["boundary_" ++ to_string id; "type"] line /\ words_of line ws /\ union_of ws t) \/
  ((forall line, ~ value db ["boundary_" ++ to_string id; "type"] line) /\
   ((exists line ws, value db ["type"] line /\ words_of line ws /\ union_of ws t) \/
    ((forall line, ~ value db ["type"] line) /\ t = 0%N))).
