(** MembersProperties.v -- C74: the members of an ensemble run. *)
From Coq Require Import ZArith QArith Bool List String.
From Verif Require Import Base MaterialModel InputModel EnsembleModel EnsembleSpec EnsembleExamples AssimilationModel CellModel MembersModel MembersSpec MembersProofs MembersProofs2 MembersExamples.
Import ListNotations.
Local Open Scope string_scope.

(** * C74 *)
(** The heat sources of a member are those of its own database, entry by entry, in SI units. *)
Theorem C74_sources : forall (N : Num) (tuint : string -> option nat) (tdouble : string -> option N) (dim3 : bool) db ss, make_sources tuint tdouble dim3 db = Ok ss ->
  get tuint db ["sources"; "n_beams"] = Ok (List.length ss) /\ forall i s, nth_error ss i = Some s -> is_beam tdouble db i s.
Proof. exact @sources_read. Qed.
Print Assumptions C74_sources.
Example C74_sources_example : match make_sources me_uint me_double true me_beam_db with
  | Ok [Moving ty _ _ q f fo di ve] => (ty, f, fo, Qred (bp_depth q), Qred (bp_absorption q), Qred (bp_radius q), Qred (bp_max_power q)) = ("goldak", "path.txt", "segment", 2, 1 # 2, 1 # 2, 1 # 10)%Q
  | _ => False end.
Proof. exact me_sources. Qed.
(** Any arithmetic, physics and analysis: in a run with assimilation every member moves in each pass with the sources of the start in which the
    parameters chosen have the values of its last analysis (of its database before the first); the database adds nothing. *)
Theorem C74_parameters_used : forall (N : Num) (tuint : string -> option nat) (tdouble : string -> option N) (fmt : N -> string) (dim3 : bool), (forall v, tdouble (fmt v) = Some v) ->
  forall (State Shared : Type) (init : setting N -> N -> State) (advance : Shared -> nat -> setting N -> N -> State -> State) (distribute : State -> State)
    (absorption power : bool) n_beams restart dbs ms sh passes, (0 < n_beams)%nat ->
  setup tuint tdouble dim3 init n_beams true (selected absorption power) restart dbs = Ok ms ->
  Forall (fun nu => forall u, snd nu = Some u -> keeps_sizes u) passes ->
  observed (run tdouble fmt advance distribute sh true (selected absorption power) passes ms) =
  observed_reference (selected absorption power) (reference_run advance distribute (selected absorption power) sh passes
    (map (fun m => mkreference (mb_setting m) (new_material_temperature tdouble (mb_db m)) (mb_state m) (mb_block m)) ms)).
Proof. exact @run_refines. Qed.
Print Assumptions C74_parameters_used.
Example C74_round_trip : forall v : num QNum, me_double (me_fmt v) = Some v. Proof. exact me_round. Qed.
Example C74_setup : exists ms, me_setup [None; None; None] (me_dbs me_beam_db) = Ok ms /\ List.length ms = 3%nat. Proof. exact me_setup_ok. Qed.
Example C74_analysis_sizes : forall v, keeps_sizes (me_analysis v). Proof. exact me_keeps. Qed.
Example C74_run_example : me_states (do ms <- me_setup [None; None; None] (me_dbs me_beam_db); me_run [(1%nat, Some (me_analysis (1 # 4))); (2%nat, None)] ms) =
  [[(1 # 2, 9 # 100); (1 # 4, 9 # 100)]; [(1 # 2, 11 # 100); (1 # 4, 11 # 100)]; [(1 # 2, 3 # 25); (1 # 4, 3 # 25)]]%Q.
Proof. exact me_assimilated. Qed.
(** No bounds are applied: an absorption efficiency of -3, then 7, is used as it is. *)
Theorem C74_efficiency_bounds_refuted : me_states (do ms <- me_setup [None] [me_beam_db]; me_run [(1%nat, Some (me_analysis (-3))); (2%nat, Some (me_analysis 7)); (3%nat, None)] ms) = [[(1 # 2, 1 # 10); (-3, 1 # 10); (7, 1 # 10)]]%Q.
Proof. exact me_unphysical. Qed.
Print Assumptions C74_efficiency_bounds_refuted.
(** No assimilation: the sources never change and the state of a member is a function of its own setting (and of the shared data). *)
Theorem C74_no_assimilation : forall (N : Num) (tdouble : string -> option N) (fmt : N -> string) (State Shared : Type)
    (advance : Shared -> nat -> setting N -> N -> State -> State) (distribute : State -> State) sh ps passes ms,
  run tdouble fmt advance distribute sh false ps passes ms =
  Ok (map (fun m => mkmember (mb_db m) (mb_setting m) (alone advance sh (mb_setting m) (new_material_temperature tdouble (mb_db m)) (map fst passes) (mb_state m)) (mb_block m)) ms).
Proof. exact @run_alone. Qed.
Print Assumptions C74_no_assimilation.
(** Perturbed entries outside sources, units, time_stepping, geometry.material_height and the two temperatures of the materials have no effect:
    every member is the simulation of the unperturbed input. *)
Theorem C74_no_spread : forall (N : Num) (tuint : string -> option nat) (tdouble : string -> option N) (fmt : N -> string) (dim3 : bool)
    (State Shared : Type) (init : setting N -> N -> State) (advance : Shared -> nat -> setting N -> N -> State -> State) (distribute : State -> State)
    (z : nat -> N) fuel db first local global st n_beams ps sh passes ms ms',
  create_database_ensemble tdouble fmt z fuel db first local global = Ok (Some st) -> (forall key, In key (ts_keys st) -> ~ own key) ->
  setup tuint tdouble dim3 init n_beams false ps (repeat None (List.length (ts_dbs st))) (ts_dbs st) = Ok ms ->
  run tdouble fmt advance distribute sh false ps passes ms = Ok ms' ->
  forall m, In m ms' -> exists sg, make_setting tuint tdouble dim3 db = Ok sg /\ mb_setting m = sg /\
    mb_state m = alone advance sh sg (new_material_temperature tdouble db) (map fst passes) (init sg (initial_temperature tdouble db)).
Proof. exact @no_spread. Qed.
Print Assumptions C74_no_spread.
Example C74_no_spread_applies : exists st, create_database_ensemble me_double me_fmt en_z 5 me_material_db 0 3 3 = Ok (Some st) /\ (forall key, In key (ts_keys st) -> ~ own key) /\
  exists ms, setup me_uint me_double true me_init 1 false [] (repeat None (List.length (ts_dbs st))) (ts_dbs st) = Ok ms /\ List.length ms = 3%nat.
Proof. exact me_not_own. Qed.
(** The solidus drawn for the members, 995, 1005 and 1010, is not used: the members are the same. *)
Theorem C74_perturbation_used_refuted : map (me_get ["materials"; "material_0"; "solidus"]) (me_dbs me_material_db) = [Ok 995; Ok 1005; Ok 1010]%Q /\
  me_states (do ms <- me_setup [None; None; None] (me_dbs me_material_db); me_run [(1%nat, None); (2%nat, None)] ms) =
  [[(1 # 2, 1 # 10); (1 # 2, 1 # 10)]; [(1 # 2, 1 # 10); (1 # 2, 1 # 10)]; [(1 # 2, 1 # 10); (1 # 2, 1 # 10)]]%Q.
Proof. exact (conj me_solidus me_no_spread). Qed.
Print Assumptions C74_perturbation_used_refuted.
(** Restart: the state is the one saved, sources and parameters are those of the start. *)
Theorem C74_restart : forall (N : Num) (tuint : string -> option nat) (tdouble : string -> option N) (dim3 : bool) (State : Type) (init : setting N -> N -> State) n_beams da ps dbs saved ms ms0,
  List.length saved = List.length dbs ->
  setup tuint tdouble dim3 init n_beams da ps (map Some saved) dbs = Ok ms -> setup tuint tdouble dim3 init n_beams da ps (repeat None (List.length dbs)) dbs = Ok ms0 ->
  map mb_state ms = saved /\ map mb_setting ms = map mb_setting ms0 /\ map mb_block ms = map mb_block ms0 /\ map mb_db ms = map mb_db ms0.
Proof. exact @restart_setting. Qed.
Print Assumptions C74_restart.
(** Without assimilation a restarted ensemble goes on as if it had not stopped ... *)
Theorem C74_restart_continues : forall (N : Num) (tuint : string -> option nat) (tdouble : string -> option N) (fmt : N -> string) (dim3 : bool)
    (State Shared : Type) (init : setting N -> N -> State) (advance : Shared -> nat -> setting N -> N -> State -> State) (distribute : State -> State) sh n_beams ps dbs p1 p2 ms0 ms1,
  setup tuint tdouble dim3 init n_beams false ps (repeat None (List.length dbs)) dbs = Ok ms0 -> run tdouble fmt advance distribute sh false ps p1 ms0 = Ok ms1 ->
  exists ms2, setup tuint tdouble dim3 init n_beams false ps (map Some (map mb_state ms1)) dbs = Ok ms2 /\
    run tdouble fmt advance distribute sh false ps p2 ms2 = run tdouble fmt advance distribute sh false ps (p1 ++ p2) ms0.
Proof. exact @restart_continues. Qed.
Print Assumptions C74_restart_continues.
(** ... with it, the absorption of 1/4 found in pass 1 is forgotten: pass 2 has that of the input again. *)
Theorem C74_restart_refuted : let saved := me_states (do ms <- me_setup [None; None; None] (me_dbs me_beam_db); me_run [(1%nat, Some (me_analysis (1 # 4)))] ms) in
  me_states (do ms <- me_setup (map Some saved) (me_dbs me_beam_db); me_run [(2%nat, None)] ms) =
  [[(1 # 2, 9 # 100); (1 # 2, 9 # 100)]; [(1 # 2, 11 # 100); (1 # 2, 11 # 100)]; [(1 # 2, 3 # 25); (1 # 2, 3 # 25)]]%Q.
Proof. exact me_restarted. Qed.
Print Assumptions C74_restart_refuted.
(** The data file of a member has one line per uncertain entry with the value in its database at the start. *)
Theorem C74_data_file : forall (N : Num) (tdouble : string -> option N) (show : N -> string) keys db values, Forall2 (fun key v => get tdouble db key = Ok v) keys values ->
  data_file tdouble show keys db = Ok (map (fun '(key, v) => String.concat "." key ++ ": " ++ show v) (combine keys values)).
Proof. intros N tdouble show keys db. exact (data_lines tdouble show keys db). Qed.
Print Assumptions C74_data_file.
(** One file per member of the ensemble, whatever the rank that owns it. *)
Theorem C74_data_file_names_differ : forall output_dir prefix f1 m1 f2 m2, (f1 + m1 <> f2 + m2)%nat -> data_file_name output_dir prefix f1 m1 <> data_file_name output_dir prefix f2 m2.
Proof. exact data_names_differ. Qed.
Print Assumptions C74_data_file_names_differ.
Example C74_data_file_name : data_file_name "out/" "adamantine" 10 2 = "out/adamantine_m12_data.txt".
Proof. reflexivity. Qed.
Example C74_data_example : map (data_file me_double (fun v => if Qeq_bool v 90 then "90" else if Qeq_bool v 110 then "110" else "120") [["sources"; "beam_0"; "max_power"]]) (me_dbs me_beam_db) =
  [Ok ["sources.beam_0.max_power: 90"]; Ok ["sources.beam_0.max_power: 110"]; Ok ["sources.beam_0.max_power: 120"]].
Proof. exact me_data. Qed.
