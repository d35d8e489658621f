(** MembersSpec.v -- what C74 means. *)
From Coq Require Import ZArith Bool List String.
From Verif Require Import Base MaterialModel InputModel EnsembleModel AssimilationModel CellModel MembersModel.
Import ListNotations.
Local Open Scope string_scope.

Section MembersSpec.
  Context {N : Num}.
  Local Open Scope num_scope.
  (** The sources when the assimilated parameters have the given values: beam 0 gets the absorption efficiency, or the power in the
      unit of the input file; a cube has neither.  Nothing else changes. *)
  Definition with_parameter (s : source N) (p : parameter) (v : N) : source N :=
    match s with
    | Moving ty d w q f fo di ve =>
        match p with
        | beam_0_absorption => Moving ty d w (mkproperties (bp_depth q) v (bp_radius q) (bp_max_power q)) f fo di ve
        | beam_0_max_power => Moving ty d w (mkproperties (bp_depth q) (bp_absorption q) (bp_radius q) (v * w)) f fo di ve
        end
    | Fixed _ _ _ _ _ => s
    end.
  Fixpoint beam_with (ps : list parameter) (values : list N) (s : source N) : source N :=
    match ps, values with p :: ps', v :: values' => beam_with ps' values' (with_parameter s p v) | _, _ => s end.
  Definition with_parameters (ps : list parameter) (values : list N) (sg : setting N) : setting N :=
    mksetting (match sg_sources sg with [] => [] | s :: rest => beam_with ps values s :: rest end) (sg_method sg) (sg_height sg).

  Context {State Shared : Type} (advance : Shared -> nat -> setting N -> N -> State -> State) (distribute : State -> State).
  (** A member without a database: its setting and temperature of the new material at the start, its state, its parameters. *)
  Record reference := mkreference { rf_start : setting N; rf_new : N; rf_state : State; rf_block : list N }.
  (** In every pass the member moves on with the parameters of the last analysis; then state and parameters are analysed. *)
  Definition reference_move (ps : list parameter) (sh : Shared) (n : nat) (m : reference) : State :=
    distribute (advance sh n (with_parameters ps (rf_block m) (rf_start m)) (rf_new m) (rf_state m)).
  Definition reference_pass (ps : list parameter) (sh : Shared) (ms : list reference) (nu : nat * option (analysis N State)) : res (list reference) :=
    let '(n, u) := nu in
    do xs <- match u with
             | Some u => u (map (fun m => (reference_move ps sh n m, rf_block m)) ms)
             | None => Ok (map (fun m => (reference_move ps sh n m, rf_block m)) ms)
             end;
    Ok (map (fun '(m, (s, b)) => mkreference (rf_start m) (rf_new m) s b) (combine ms xs)).
  Definition reference_run (ps : list parameter) (sh : Shared) (passes : list (nat * option (analysis N State))) (ms : list reference) : res (list reference) :=
    foldR (reference_pass ps sh) passes ms.
  (** What is observed of a member: sources (and the rest of its setting), state, parameters. *)
  Definition observed (r : res (list (member N State))) : res (list (setting N * State * list N)) :=
    do ms <- r; Ok (map (fun m => (mb_setting m, mb_state m, mb_block m)) ms).
  Definition observed_reference (ps : list parameter) (r : res (list reference)) : res (list (setting N * State * list N)) :=
    do ms <- r; Ok (map (fun m => (with_parameters ps (rf_block m) (rf_start m), rf_state m, rf_block m)) ms).
  (** The analysis keeps the number of members and of parameters. *)
  Definition keeps_sizes (u : analysis N State) : Prop :=
    forall xs ys, u xs = Ok ys -> map (fun x => List.length (snd x)) ys = map (fun x => List.length (snd x)) xs.

  (** A single member with no assimilation. *)
  Fixpoint alone (sh : Shared) (sg : setting N) (new : N) (ns : list nat) (s : State) : State :=
    match ns with [] => s | n :: rest => alone sh sg new rest (advance sh n sg new s) end.
End MembersSpec.
Arguments reference : clear implicits.

(** The entries a member takes from its own database; [rest] below an entry belongs to it. *)
Definition own_entries : list (list string) :=
  [["sources"]; ["units"]; ["time_stepping"]; ["geometry"; "material_height"]; ["materials"; "initial_temperature"]; ["materials"; "new_material_temperature"]].
Definition own (key : list string) : Prop := exists e rest, In e own_entries /\ key = (e ++ rest)%list.

(** Source [s] is beam [i] of the database: entry by entry, in SI units. *)
Definition entry (i : nat) (k : string) : list string := ["sources"; "beam_" ++ to_string i; k].
Definition is_beam {N : Num} (tdouble : string -> option N) (db : ptree) (i : nat) (s : source N) : Prop :=
  let unit_of k := scaling (N := N) (child_opt db ["units"]) ["heat_source"; k] in
  match s with
  | Moving ty d w q f fo di ve =>
      get_str db (entry i "type") = Ok ty /\ (ty = "goldak" \/ ty = "electron_beam") /\ get_str db (entry i "scan_path_file") = Ok f /\ get_str db (entry i "scan_path_file_format") = Ok fo /\
      di = unit_of "scan_path" /\ ve = unit_of "velocity" /\ d = unit_of "dimension" /\ w = unit_of "power" /\
      exists depth diameter power, get tdouble db (entry i "depth") = Ok depth /\ get tdouble db (entry i "diameter") = Ok diameter /\ get tdouble db (entry i "max_power") = Ok power /\
        get tdouble db (entry i "absorption_efficiency") = Ok (bp_absorption q) /\
        bp_depth q = nmul N depth (unit_of "dimension") /\ bp_radius q = ndiv N (nmul N diameter (unit_of "dimension")) (nofZ N 2) /\ bp_max_power q = nmul N power (unit_of "power")
  | Fixed t0 t1 v lo hi =>
      get_str db (entry i "type") = Ok "cube" /\ get tdouble db (entry i "start_time") = Ok t0 /\ get tdouble db (entry i "end_time") = Ok t1 /\
      (exists value, get tdouble db (entry i "value") = Ok value /\ v = nmul N value (unit_of "power")) /\
      (forall j k, In (j, k) [(0, "x"); (1, "y"); (2, "z")]%nat -> (j < List.length lo)%nat -> exists l h, get tdouble db (entry i ("min_" ++ k)) = Ok l /\ get tdouble db (entry i ("max_" ++ k)) = Ok h /\
         nth_error lo j = Some (nmul N l (unit_of "dimension")) /\ nth_error hi j = Some (nmul N h (unit_of "dimension")))
  end.
