(** MainModel.v -- application/adamantine.cc (choice of the simulation, exit status) and MaterialProperty::fill_properties.

    Not modelled: Kokkos views, MPI start-up, Caliper, Adiak, the messages.  The conversions of ptree text to bool, unsigned int and double are
    parameters, as in InputModel.  The simulations themselves (adamantine.hh: run, run_ensemble) are a parameter [sim] of the main program. *)
From Coq Require Import ZArith Bool List String Ascii.
From Verif Require Import Base ScanPathModel MaterialModel InputModel CellModel.
Import ListNotations.
Local Open Scope string_scope.

(** types.hh:107-128: material_state_names, property_names, state_property_names ("density" is there twice). *)
Definition material_states : list string := ["solid"; "liquid"; "powder"].
Definition thermal_names : list string :=
  ["density"; "specific_heat"; "thermal_conductivity_x"; "thermal_conductivity_y"; "thermal_conductivity_z"; "emissivity";
   "radiation_heat_transfer_coef"; "convection_heat_transfer_coef"].
Definition mechanical_names : list string :=
  ["lame_first_parameter"; "lame_second_parameter"; "thermal_expansion_coef"; "density"; "plastic_modulus"; "isotropic_hardening"; "elastic_limit"].
Definition state_property_names : list string := (thermal_names ++ mechanical_names)%list.
Definition property_names : list string := ["liquidus"; "solidus"; "latent_heat"; "radiation_temperature_infty"; "convection_temperature_infty"].
Definition material_name (id : nat) : string := "material_" ++ to_string id.

Section Main.
  Context {N : Num}.
  Variable tbool : string -> option bool.
  Variable tuint : string -> option nat.
  Variable tdouble : string -> option N.
  Variable P : parser N.
  (** std::numeric_limits<double>::infinity() *)
  Variable infinity : N.
  (** dealii::numbers::invalid_material_id *)
  Variable invalid_id : nat.

  (** ** get_material_template_parameters (adamantine.cc:163-243) *)
  (** 180-189: the materials in use. *)
  Fixpoint find_ids (ms : ptree) (n : nat) (fuel id : nat) (acc : list nat) : list nat :=
    match fuel with
    | O => acc
    | S fuel' =>
        let acc' := if negb (Nat.eqb (count ms (material_name id)) 0) then (acc ++ [id])%list else acc in
        if Nat.eqb (List.length acc') n then acc' else find_ids ms n fuel' (S id) acc'
    end.
  (** 209-227: one property of one state. *)
  Definition see_property (use_table : bool) (state_tree : ptree) (state : nat) (acc : nat * nat) (name : string) : nat * nat :=
    match get_str_opt state_tree [name] with
    | None => acc
    | Some text =>
        let n_states := Nat.max (state + 1) (snd acc) in
        if use_table then (fst acc, n_states)
        else (Nat.max (List.length (split_off "," (remove_blanks text)) - 1) (fst acc), n_states)
    end.
  (** 196-231 *)
  Definition see_state (use_table : bool) (m : ptree) (acc : nat * nat) (s : nat * string) : nat * nat :=
    match child_opt m [snd s] with
    | None => acc
    | Some state_tree => fold_left (see_property use_table state_tree (fst s)) state_property_names acc
    end.
  (** 191-233 *)
  Fixpoint see_materials (use_table : bool) (ms : ptree) (ids : list nat) (acc : nat * nat) : res (nat * nat) :=
    match ids with
    | [] => Ok acc
    | id :: rest =>
        do m <- child ms [material_name id];
        see_materials use_table ms rest (fold_left (see_state use_table m) (combine (seq 0 3) material_states) acc)
    end.
  (** n_materials, p_order, n_material_states; ASSERT_THROW at 235-241. *)
  Definition template_parameters (ms : ptree) : res (nat * nat * nat) :=
    do format <- get_str ms ["property_format"];
    do n <- get tuint ms ["n_materials"];
    do acc <- see_materials (String.eqb format "table") ms (find_ids ms n invalid_id 0 []) (0, 0)%nat;
    do _ <- need (Nat.ltb (fst acc) 5);
    do _ <- need (Nat.ltb 0 (snd acc) && Nat.ltb (snd acc) 4);
    Ok (n, fst acc, snd acc).

  (** ** MaterialProperty::fill_properties (MaterialProperty.templates.hh:796-1115) *)
  Definition zero_law (use_table : bool) (p_order : nat) : state_law N :=
    if use_table then Table (repeat (nZ 0, nZ 0) table_size) else Poly (repeat (nZ 0) (p_order + 1)).
  Definition infinite_law (use_table : bool) (p_order : nat) : state_law N :=
    if use_table then Table ((infinity, infinity) :: repeat (nZ 0, nZ 0) (table_size - 1)) else Poly (infinity :: repeat (nZ 0) p_order).
  (** 926-1054: property number [p] of a state; the mechanical properties of the states other than solid are only counted. *)
  Definition fill_property (use_table : bool) (p_order : nat) (state_tree : ptree) (state p : nat) (name : string) : res (state_law N) :=
    let mech := negb (Nat.ltb p (List.length thermal_names)) in
    match get_str_opt state_tree [name] with
    | Some text =>
        if mech && negb (Nat.eqb state 0) then
          if use_table then do _ <- need (Nat.leb (List.length (split_off "|" (remove_blanks text))) table_size); Ok (zero_law use_table p_order)
          else do _ <- need (Nat.leb (List.length (split_off "," (remove_blanks text))) (p_order + 1)); Ok (zero_law use_table p_order)
        else if use_table then do rows <- parse_table P text; Ok (Table rows)
        else do cs <- parse_poly P p_order text; Ok (Poly cs)
    | None =>
        if String.eqb name "elastic_limit" && Nat.eqb state 0 then Ok (infinite_law use_table p_order) else Ok (zero_law use_table p_order)
    end.
  (** 912-1056: the 15 properties of a state. *)
  Definition fill_state (use_table : bool) (p_order : nat) (m : ptree) (s : nat * string) : res (list (state_law N)) :=
    match child_opt m [snd s] with
    | None => Ok (repeat (zero_law use_table p_order) (List.length state_property_names))
    | Some state_tree => mapR (fun pn => fill_property use_table p_order state_tree (fst s) (fst pn) (snd pn)) (combine (seq 0 (List.length state_property_names)) state_property_names)
    end.
  (** A material: laws by state and property, state-independent properties (1058-1072). *)
  Record filled := mkfilled { f_laws : list (list (state_law N)); f_props : list N }.
  Definition fill_material (use_table : bool) (p_order n_states : nat) (ms : ptree) (id : nat) : res filled :=
    do m <- child ms [material_name id];
    do laws <- mapR (fill_state use_table p_order m) (combine (seq 0 n_states) (firstn n_states material_states));
    Ok (mkfilled laws (map (fun name => match get_opt tdouble m [name] with Some v => v | None => nmax N end) property_names)).
  Definition fill_properties (p_order n_states : nat) (ms : ptree) : res (list filled) :=
    do format <- get_str ms ["property_format"];
    do n <- get tuint ms ["n_materials"];
    mapR (fill_material (String.eqb format "table") p_order n_states ms) (seq 0 n).
  (** 1074-1109: mechanical property [j] of a material: value of the first row, or first coefficient. *)
  Definition first_value (l : state_law N) : res N := match l with Table rows => do r <- at_ rows 0; Ok (snd r) | Poly cs => at_ cs 0 end.
  Definition mechanical_value (f : filled) (j : nat) : res N :=
    do laws <- at_ (f_laws f) 0; do l <- at_ laws (List.length thermal_names + j); first_value l.
  (** Thermal property [p] of a state. *)
  Definition thermal_law (f : filled) (state p : nat) : res (state_law N) := do laws <- at_ (f_laws f) state; at_ laws p.

  (** ** main (adamantine.cc:245-490) *)
  (** instantiation.hh:10-16 *)
  Definition dims : list nat := [2; 3]%nat.
  Definition materials_built : list Z := [-1; 1]%Z.
  Definition orders : list nat := [0; 1; 2; 3; 4]%nat.
  Record instance := mkinst { i_ensemble : bool; i_device : bool; i_dim : nat; i_materials : Z; i_order : nat; i_states : mstates }.
  (** 30-160: the chain of ifs; every instantiation equal to the three parameters is run. *)
  Definition dispatch (ensemble device : bool) (dim n p_order : nat) (k : mstates) : list instance :=
    flat_map (fun d => flat_map (fun nm => flat_map (fun o =>
      if (Nat.eqb dim d && Z.eqb (Z.of_nat n) nm && Nat.eqb p_order o)%bool then [mkinst ensemble device d nm o k] else [])
      orders) materials_built) dims.
  Definition states_of (n : nat) : mstates := if Nat.eqb n 1 then Solid else if Nat.eqb n 2 then SolidLiquid else SolidLiquidPowder.
  (** 340-425: the simulations a valid database starts. *)
  Definition choose (db : ptree) : res (list instance) :=
    do ensemble <- match child_opt db ["ensemble"] with Some e => Ok (get_def tbool false e ["ensemble_simulation"]) | None => Ok false end;
    do dim <- get tuint db ["geometry"; "dim"];
    do ms <- child db ["materials"];
    do '(n, p_order, n_states) <- template_parameters ms;
    let device := String.eqb (get_def Some "host" db ["memory_space"]) "device" in
    if ensemble && device then Throw else Ok (dispatch ensemble device dim n p_order (states_of n_states)).
  Fixpoint simulate (sim : instance -> res unit) (l : list instance) : list instance * res unit :=
    match l with
    | [] => ([], Ok tt)
    | i :: rest => match sim i with
                   | Ok _ => let '(done_, r) := simulate sim rest in (i :: done_, r)
                   | Throw => ([i], Throw)
                   | UB => ([i], UB)
                   end
    end.
  (** What the command line and the file system give: help asked for; --kokkos-help; the input file: absent from the command line, unreadable, or a
      tree; whether creating the output directory fails. *)
  Inductive input := NoFile | Unreadable | Tree (db : ptree).
  Record command := mkcmd { help : bool; kokkos_help : bool; file_ : input; outdir_fails : bool }.
  (** Simulations started and exit status ([UB]: undefined behaviour).  Exceptions of validation and of the output directory, and the missing
      --input-file (boost::bad_any_cast), end with status 0; all the others with status 1. *)
  Definition main_program (sim : instance -> res unit) (c : command) : list instance * res nat :=
    if help c then ([], Ok 0%nat) else
    if kokkos_help c then ([], Ok 0%nat) else
    match file_ c with
    | NoFile => ([], Ok 0%nat)
    | Unreadable => ([], Ok 1%nat)
    | Tree db =>
        match validate tbool tuint tdouble db with
        | UB => ([], UB)
        | Throw => ([], Ok 0%nat)
        | Ok _ =>
            if outdir_fails c then ([], Ok 0%nat) else
            match choose db with
            | UB => ([], UB)
            | Throw => ([], Ok 1%nat)
            | Ok l => let '(started, r) := simulate sim l in (started, match r with Ok _ => Ok 0%nat | Throw => Ok 1%nat | UB => UB end)
            end
        end
    end.
End Main.
