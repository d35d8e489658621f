(** OutputModel.v -- source/PostProcessor.{hh,cc}: names and mutual references of the output files, strain and material fields.

    Not modelled: the VTK format.  A file is its name and what matters of its contents: the time of a .vtu file, the pieces listed by a .pvtu
    file, the records of the .pvd file.  ASSERTs are debug-only.  The subdomain id of a process is its rank (distributed triangulation). *)
From Coq Require Import ZArith Bool List String Ascii.
From Verif Require Import Base InputModel CellModel EnsembleModel.
Import ListNotations.
Local Open Scope string_scope.

Section Files.
  Context {N : Num}.

  (** The data members of PostProcessor concerned (PostProcessor.hh:158-172). *)
  Record post := mkpost { o_prefix : string; o_dir : string; o_times : list (N * string) }.

  (** PostProcessor.cc:39-44, 69-74: [None] is the default index -1. *)
  Definition member_prefix (prefix : string) (member : option nat) : string :=
    match member with Some k => prefix ++ "_m" ++ to_string k | None => prefix end.
  (** PostProcessor.cc:19-53: constructor for one physics. *)
  Definition make_post (db : ptree) (member : option nat) : res post :=
    do prefix <- get_str db ["filename_prefix"];
    Ok (mkpost (member_prefix prefix member) (get_def Some "" db ["output_dir"]) []).
  (** PostProcessor.cc:55-79: constructor for thermo-mechanics; it does not read output_dir. *)
  Definition make_post_coupled (db : ptree) (member : option nat) : res post :=
    do prefix <- get_str db ["filename_prefix"];
    Ok (mkpost (member_prefix prefix member) "" []).

  Inductive content := Vtu (time : N) | Pvtu (pieces : list string) | Pvd (records : list (N * string)).
  Definition file : Type := string * content.

  (** PostProcessor.cc:187-231: write_pvtu on process [rank] of [n_procs]. *)
  Definition write_pvtu (n_procs rank : nat) (p : post) (step : nat) (time : N) : list file * post :=
    let local_filename := o_dir p ++ o_prefix p ++ "." ++ to_string step ++ "." ++ to_string rank in
    let vtu := (local_filename ++ ".vtu", Vtu time) in
    if Nat.eqb rank 0 then
      let filenames := map (fun i => o_prefix p ++ "." ++ to_string step ++ "." ++ to_string i ++ ".vtu") (seq 0 n_procs) in
      let pvtu_filename := o_dir p ++ o_prefix p ++ "." ++ to_string step ++ ".pvtu" in
      ([vtu; (pvtu_filename, Pvtu filenames)], mkpost (o_prefix p) (o_dir p) (o_times p ++ [(time, pvtu_filename)])%list)
    else ([vtu], p).
  (** PostProcessor.cc:81-90. *)
  Definition write_pvd (rank : nat) (p : post) : list file :=
    if Nat.eqb rank 0 then [(o_dir p ++ o_prefix p ++ ".pvd", Pvd (o_times p))] else [].

  (** The outputs of a run on one process, in order. *)
  Fixpoint write_outputs (n_procs rank : nat) (p : post) (outs : list (nat * N)) : list file * post :=
    match outs with
    | [] => ([], p)
    | (step, time) :: rest =>
        let '(here, p1) := write_pvtu n_procs rank p step time in
        let '(later, p2) := write_outputs n_procs rank p1 rest in
        ((here ++ later)%list, p2)
    end.
  (** application/adamantine.hh:980-1406: all the files of a run; the .pvd file is written after the time loop only ([finished]). *)
  Definition process_files (n_procs : nat) (p : post) (outs : list (nat * N)) (finished : bool) (rank : nat) : list file :=
    let '(files, p') := write_outputs n_procs rank p outs in
    (files ++ (if finished then write_pvd rank p' else []))%list.
  Definition run_files (n_procs : nat) (p : post) (outs : list (nat * N)) (finished : bool) : list file :=
    flat_map (process_files n_procs p outs finished) (seq 0 n_procs).

  (** application/adamantine.hh:1747-1776, 1881, 2424, 2441: an ensemble.  [members]: index and number of processes of each member; the
      experimental data are written by the first group of processes, without output_dir and without .pvd file (1756-1776, 2208-2228). *)
  Definition ensemble_files (prefix dir : string) (members : list (nat * nat)) (outs : list (nat * N)) (n_expt : nat) (frames : list (nat * N)) : list file :=
    (flat_map (fun m => run_files (snd m) (mkpost (member_prefix prefix (Some (fst m))) dir []) outs true) members ++
     run_files n_expt (mkpost (prefix ++ ".expt") "" []) frames false)%list.
End Files.

(** application/adamantine.cc:316-327: the output directory asked for on the command line; std::filesystem::absolute (POSIX) puts the current
    directory [cwd] in front of a relative path, and fails on an empty one (message and exit status 0; here [None]). *)
Definition is_absolute (s : string) : bool := match s with String c _ => Ascii.eqb c "/" | EmptyString => false end.
Fixpoint last_is_slash (s : string) : bool := match s with EmptyString => false | String c EmptyString => Ascii.eqb c "/" | String _ s' => last_is_slash s' end.
Definition option_dir (cwd arg : string) : option string :=
  if String.eqb arg "" then None else
  Some ((if is_absolute arg then arg else cwd ++ (if last_is_slash cwd then "" else "/") ++ arg) ++ "/").
Arguments post : clear implicits.
Arguments content : clear implicits.
Arguments file : clear implicits.

Section Fields.
  Context {N : Num}.
  Local Open Scope num_scope.

  (** StrainPostProcessor::evaluate_vector_field (PostProcessor.hh:202-222): one point; [g j k] is the gradient, [out] the vector to fill. *)
  Definition strain_row (dim : nat) (g : nat -> nat -> N) (j : nat) (out : res (list N)) : res (list N) :=
    fold_left (fun acc k => do v <- acc; update v (j * dim + k) ((g j k + g k j) / nZ 2)) (seq 0 dim) out.
  Definition strain_point (dim : nat) (g : nat -> nat -> N) (out : list N) : res (list N) :=
    fold_left (fun acc j => strain_row dim g j acc) (seq 0 dim) (Ok out).

  (** material_dataout (PostProcessor.hh:293-336).  A cell: whether it is locally owned and its degree of freedom; [dofs_map] is
      MaterialProperty::_dofs_map; [state s i]; [n_states] rows.  Result: powder, liquid, solid, one entry per cell. *)
  Fixpoint assoc (m : list (nat * nat)) (k : nat) : option nat :=
    match m with [] => None | (a, b) :: m' => if Nat.eqb a k then Some b else assoc m' k end.
  Fixpoint material_dataout (n_states : nat) (state : nat -> nat -> N) (dofs_map : list (nat * nat)) (cells : list (bool * nat)) : res (list (N * N * N)) :=
    match cells with
    | [] => Ok []
    | (owned, dof) :: rest =>
        do here <- (if owned then
                      match assoc dofs_map dof with
                      | None => Throw
                      | Some i => Ok (if Nat.ltb 2 n_states then state 2 i else nZ 0, if Nat.ltb 1 n_states then state 1 i else nZ 0, state 0 i)
                      end
                    else Ok (nZ 0, nZ 0, nZ 0));
        do others <- material_dataout n_states state dofs_map rest;
        Ok (here :: others)
    end.
  (** MaterialProperty::reinit_dofs (MaterialProperty.templates.hh:210-240): the owned cells are numbered in order.  An entry already present in
      the unordered_map is replaced (degrees of freedom are distinct, so the order of the list does not matter). *)
  Fixpoint dofs_map_from (i : nat) (cells : list (bool * nat)) : list (nat * nat) :=
    match cells with
    | [] => []
    | (true, dof) :: rest => (dof, i) :: dofs_map_from (S i) rest
    | (false, _) :: rest => dofs_map_from i rest
    end.
End Fields.
