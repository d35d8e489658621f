(** InputProperties.v -- C24 and C25.  Only statements, witnesses and assumptions. *)
From Coq Require Import Reals ZArith NArith QArith Bool List String Ascii.
From Verif Require Import Base BaseFacts Decimal MaterialModel InputModel InputSpec InputProofs InputProofs2 InputProofs3 InputExamples.
Import ListNotations.
Local Open Scope string_scope.

(** * C24 *)
(** Accepted exactly when every constraint of InputSpec.valid_input holds, whatever the translators of numbers and booleans. *)
Theorem C24_accepts_iff : forall (N : Num) (tbool : string -> option bool) (tuint : string -> option nat) (tdouble : string -> option N) db,
  validate tbool tuint tdouble db = Ok tt <-> valid_input tbool tuint tdouble db.
Proof. exact @validate_ok. Qed.
Print Assumptions C24_accepts_iff.
Theorem C24_otherwise_throws : forall (N : Num) (tbool : string -> option bool) (tuint : string -> option nat) (tdouble : string -> option N) db,
  validate tbool tuint tdouble db = Throw <-> ~ valid_input tbool tuint tdouble db.
Proof. exact @validate_throws. Qed.
Print Assumptions C24_otherwise_throws.
Example C24_good : valid_input (N := QNum) rd_bool rd_uint parse_Q ex_good. Proof. exact good_valid. Qed.
Example C24_bad : ex_validate (ex_db "clamped" [] [] [] "goldak" "segment") = Throw. Proof. exact (proj1 (proj2 (proj2 bad_rejected))). Qed.
(** Adiabatic is accepted together with radiative. *)
Theorem C24_adiabatic_exclusive_refuted : exists db b p ws, validate (N := QNum) rd_bool rd_uint parse_Q db = Ok tt /\
  at_path db ["boundary"] b /\ In p (pkids b) /\ says b p ws /\ In "adiabatic" ws /\ In "radiative" ws.
Proof. exact (ex_intro _ ex_mixed (match mixed_says with ex_intro _ b (ex_intro _ p (ex_intro _ ws H)) =>
  ex_intro _ b (ex_intro _ p (ex_intro _ ws (conj (proj1 mixed_accepted) H))) end)). Qed.
Print Assumptions C24_adiabatic_exclusive_refuted.
Theorem C24_file_deposition_rejected : forall (N : Num) (tbool : string -> option bool) (tuint : string -> option nat) (tdouble : string -> option N) db,
  enabled tbool db ["geometry"; "material_deposition"] -> value db ["geometry"; "material_deposition_method"] "file" ->
  (forall n c, In (n, c) (pkids db) -> ~ In "."%char (list_ascii_of_string n)) -> validate tbool tuint tdouble db = Throw.
Proof. exact @file_rejected. Qed.
Print Assumptions C24_file_deposition_rejected.
Example C24_file_example : ex_validate ex_file = Throw. Proof. exact file_throws. Qed.
(** Unit names are accepted ignoring case, but only the spellings of the table scale by something other than 0. *)
Theorem C24_unit_factors : forall u, unit_factor (N := RNum) u <> 0%R <->
  In u ["millimeter"; "centimeter"; "inch"; "meter"; "milliwatt"; "watt"; "millimeter/second"; "centimer/second"; "meter/second"].
Proof. exact factor_in. Qed.
Print Assumptions C24_unit_factors.
Theorem C24_velocity_units : forall u, named u ["millimeter/second"; "centimeter/second"; "meter/second"] ->
  (unit_factor (N := RNum) u <> 0%R <-> u = "millimeter/second" \/ u = "meter/second").
Proof. exact factor_velocity. Qed.
Print Assumptions C24_velocity_units.
Theorem C24_accepted_unit_scales_refuted : exists db u,
  validate (N := QNum) rd_bool rd_uint parse_Q db = Ok tt /\ value db ["units"; "heat_source"; "velocity"] u /\ unit_factor (N := RNum) u = 0%R.
Proof. exact (ex_intro _ (ex_units "velocity" "centimeter/second") (ex_intro _ "centimeter/second"
  (conj (proj1 units_zero) (conj (proj1 (str_opt (ex_units "velocity" "centimeter/second") ["units"; "heat_source"; "velocity"] "centimeter/second") eq_refl) eq_refl)))). Qed.
Print Assumptions C24_accepted_unit_scales_refuted.
(** A heat source with its scan path is created exactly for these spellings. *)
Theorem C24_beam_builds : forall ty fmt, make_beam ty fmt = Ok tt <-> In ty ["goldak"; "electron_beam"; "cube"] /\ In fmt ["segment"; "event_series"].
Proof. exact beam_builds. Qed.
Print Assumptions C24_beam_builds.
Theorem C24_accepted_beam_builds_refuted : exists db ty fmt, validate (N := QNum) rd_bool rd_uint parse_Q db = Ok tt /\
  value db ["sources"; "beam_0"; "type"] ty /\ value db ["sources"; "beam_0"; "scan_path_file_format"] fmt /\ make_beam ty fmt = Throw.
Proof. exact (ex_intro _ (ex_db "adiabatic" [] [] [] "Goldak" "segment") (ex_intro _ "Goldak" (ex_intro _ "segment" (conj (proj1 beam_case)
  (conj (proj1 (str_opt (ex_db "adiabatic" [] [] [] "Goldak" "segment") ["sources"; "beam_0"; "type"] "Goldak") eq_refl) (conj (proj1 (str_opt (ex_db "adiabatic" [] [] [] "Goldak" "segment") ["sources"; "beam_0"; "scan_path_file_format"] "segment") eq_refl) (proj1 (proj2 beam_case)))))))). Qed.
Print Assumptions C24_accepted_beam_builds_refuted.

(** * C25 *)
Theorem C25_declared_type : forall stoi db ids types, make_boundary stoi db ids = Ok types ->
  forall id j t, In id ids -> In j ids -> (id < j)%nat -> (get_boundary_type types id = Ok t <-> declared db id t).
Proof. exact boundary_declared. Qed.
Print Assumptions C25_declared_type.
(** From the largest id on, and so for internal faces (whose id is the largest unsigned int). *)
Theorem C25_printed_surface : forall stoi db ids types, make_boundary stoi db ids = Ok types ->
  forall id t, (forall j, In j ids -> (j <= id)%nat) -> (get_boundary_type types id = Ok t <->
    (exists line ws, value db ["printed_surface"; "type"] line /\ words_of line ws /\ union_of ws t) \/
    ((forall line, ~ value db ["printed_surface"; "type"] line) /\ exists m, In m ids /\ (forall j, In j ids -> (j <= m)%nat) /\ declared db m t)).
Proof. exact boundary_surface. Qed.
Print Assumptions C25_printed_surface.
Example C25_example : make_boundary parse_Z ex_boundary [0; 1; 2; 3; 4; 5]%nat = Ok [6; 6; 6; 6; 9; 20]%N. Proof. exact boundary_built. Qed.
Theorem C25_largest_id_refuted : exists db ids types id t, make_boundary parse_Z db ids = Ok types /\ In id ids /\ declared db id t /\ get_boundary_type types id <> Ok t.
Proof. exact largest_lost. Qed.
Print Assumptions C25_largest_id_refuted.
Theorem C25_clamped_kept_refuted : exists db b types, validate (N := QNum) rd_bool rd_uint parse_Q db = Ok tt /\ enabled rd_bool db ["physics"; "mechanical"] /\
  at_path db ["boundary"] b /\ make_boundary parse_Z b [0; 1; 2; 3; 4; 5]%nat = Ok types /\ get_boundary_ids types clamped = [].
Proof. exact (ex_intro _ ex_mech (match proj2 clamped_lost with ex_intro _ b (ex_intro _ types H) => ex_intro _ b (ex_intro _ types
  (conj (proj1 clamped_lost) (conj (proj1 (opt_some rd_bool ex_mech ["physics"; "mechanical"] true) eq_refl) H))) end)). Qed.
Print Assumptions C25_clamped_kept_refuted.
Theorem C25_ids_with_flag : forall stoi db ids types, make_boundary stoi db ids = Ok types ->
  forall f id, In id (get_boundary_ids types f) <-> (exists m, In m ids /\ (id <= m)%nat) /\ exists t i, get_boundary_type types id = Ok t /\ N.testbit t i = true /\ N.testbit f i = true.
Proof. exact boundary_ids_spec. Qed.
Print Assumptions C25_ids_with_flag.
Theorem C25_unknown_word_undefined : forall line, parse_boundary_line line = UB <-> exists ws w, words_of line ws /\ In w ws /\ forall f, ~ In (w, f) bc_names.
Proof. exact parse_boundary_line_ub. Qed.
Print Assumptions C25_unknown_word_undefined.
Example C25_unknown_word : make_boundary parse_Z (Node "" [leaf "type" "radiatif"]) [0]%nat = UB. Proof. exact unknown_word_ub. Qed.
Theorem C25_validated_is_defined : forall (N : Num) (tbool : string -> option bool) (tuint : string -> option nat) (tdouble : string -> option N) stoi db b ids,
  validate tbool tuint tdouble db = Ok tt -> at_path db ["boundary"] b -> ids <> [] -> make_boundary stoi b ids <> UB.
Proof. exact @validated_boundary. Qed.
Print Assumptions C25_validated_is_defined.
Theorem C25_no_ids_undefined : forall stoi db, (forall s t, In (s, t) (pkids db) -> forall a b, s <> a ++ "boundary_" ++ b) -> make_boundary stoi db [] = UB.
Proof. exact no_ids. Qed.
Print Assumptions C25_no_ids_undefined.
Theorem C25_unknown_id_throws : forall stoi db ids s t, In (s, t) (pkids db) ->
  (exists k z, s = "boundary_" ++ k /\ stoi k = Some z /\ forall i, In i ids -> Z.of_nat i <> z) -> make_boundary stoi db ids = Throw.
Proof. exact unknown_id. Qed.
Print Assumptions C25_unknown_id_throws.
