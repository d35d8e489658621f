(** MainProperties.v -- C65 (what is stored for the materials) and C66 (which simulation is started, exit status). *)
From Coq Require Import ZArith QArith Bool List String Ascii.
From Verif Require Import Base Decimal ScanPathModel MaterialModel MaterialSpec InputModel InputSpec InputExamples CellModel MainModel MainSpec MainProofs MainProofs2 MainProofs3 MainExamples.
Import ListNotations.
Local Open Scope string_scope.

(** ** C65 *)
Theorem C65_parameters : forall (tuint : string -> option nat) (invalid : nat) ms n f,
  typed tuint ms ["n_materials"] n -> value ms ["property_format"] f -> materials_present ms n -> (0 < n <= invalid)%nat ->
  forall n' po ns, template_parameters tuint invalid ms = Ok (n', po, ns) ->
  n' = n /\ (po < 5)%nat /\ (1 <= ns <= 3)%nat /\
  (f = "table" -> po = 0%nat) /\
  (f <> "table" -> (forall state text k, seen ms n state text -> n_fields text k -> (k <= po + 1)%nat) /\
     (po = 0%nat \/ exists state text, seen ms n state text /\ n_fields text (po + 1))) /\
  (forall state text, seen ms n state text -> (state < ns)%nat) /\ (exists text, seen ms n (ns - 1) text).
Proof. exact parameters_spec. Qed.
Print Assumptions C65_parameters.
Theorem C65_refused_iff : forall (tuint : string -> option nat) (invalid : nat) ms n f,
  typed tuint ms ["n_materials"] n -> value ms ["property_format"] f -> materials_present ms n -> (0 < n <= invalid)%nat ->
  (template_parameters tuint invalid ms = Throw <->
   (f <> "table" /\ exists state text k, seen ms n state text /\ n_fields text k /\ (5 < k)%nat) \/ (forall state text, ~ seen ms n state text)) /\
  template_parameters tuint invalid ms <> UB.
Proof. exact parameters_throw. Qed.
Print Assumptions C65_refused_iff.
Example C65_case : typed rd_uint ex_mats ["n_materials"] 1%nat /\ value ex_mats ["property_format"] "polynomial" /\ materials_present ex_mats 1. Proof. exact ex_mats_typed. Qed.
Example C65_order_2 : template_parameters rd_uint 255 ex_mats = Ok (1, 2, 2)%nat. Proof. exact ex_parameters. Qed.
Example C65_six_refused : template_parameters rd_uint 255 ex_long = Throw. Proof. exact ex_long_throws. Qed.

Theorem C65_nothing_lost : forall (N : Num) (tuint : string -> option nat) (tdouble : string -> option N) (P : parser N) (infinity : N) (invalid : nat) ms n f po ns,
  typed tuint ms ["n_materials"] n -> value ms ["property_format"] f -> materials_present ms n -> (0 < n <= invalid)%nat ->
  template_parameters tuint invalid ms = Ok (n, po, ns) -> (forall state text, seen ms n state text -> readable P (String.eqb f "table") text) ->
  exists fs, fill_properties tuint tdouble P infinity po ns ms = Ok fs /\ List.length fs = n.
Proof. exact @fill_total. Qed.
Print Assumptions C65_nothing_lost.
Example C65_readable : forall state text, seen ex_mats 1 state text -> readable ex_parser false text. Proof. exact ex_readable. Qed.

Theorem C65_thermal : forall (N : Num) (tuint : string -> option nat) (tdouble : string -> option N) (P : parser N) (infinity : N) po ns ms n f fs,
  fill_properties tuint tdouble P infinity po ns ms = Ok fs -> typed tuint ms ["n_materials"] n -> value ms ["property_format"] f -> (ns <= 3)%nat ->
  forall id state s p name, (id < n)%nat -> (state < ns)%nat -> nth_error ["solid"; "liquid"; "powder"] state = Some s ->
  nth_error ["density"; "specific_heat"; "thermal_conductivity_x"; "thermal_conductivity_y"; "thermal_conductivity_z"; "emissivity"; "radiation_heat_transfer_coef"; "convection_heat_transfer_coef"] p = Some name ->
  exists fl l, nth_error fs id = Some fl /\ thermal_law fl state p = Ok l /\
  (forall text, given ms id s name text -> law_of P (String.eqb f "table") po text l) /\
  ((forall text, ~ given ms id s name text) -> l = if String.eqb f "table" then Table (repeat (nofZ N 0, nofZ N 0) 12) else Poly (repeat (nofZ N 0) (po + 1))).
Proof. exact @thermal_stored. Qed.
Print Assumptions C65_thermal.
Theorem C65_mechanical : forall (N : Num) (tuint : string -> option nat) (tdouble : string -> option N) (P : parser N) (infinity : N) po ns ms n f fs,
  fill_properties tuint tdouble P infinity po ns ms = Ok fs -> typed tuint ms ["n_materials"] n -> value ms ["property_format"] f -> (1 <= ns <= 3)%nat ->
  forall id j name, (id < n)%nat ->
  nth_error ["lame_first_parameter"; "lame_second_parameter"; "thermal_expansion_coef"; "density"; "plastic_modulus"; "isotropic_hardening"; "elastic_limit"] j = Some name ->
  exists fl v, nth_error fs id = Some fl /\ mechanical_value fl j = Ok v /\
  (forall text, given ms id "solid" name text -> first_number P (String.eqb f "table") text v) /\
  ((forall text, ~ given ms id "solid" name text) ->
     (name = "elastic_limit" /\ has_state ms id "solid" -> v = infinity) /\ (~ (name = "elastic_limit" /\ has_state ms id "solid") -> v = nofZ N 0)).
Proof. exact @mechanical_stored. Qed.
Print Assumptions C65_mechanical.
Theorem C65_material_values : forall (N : Num) (tuint : string -> option nat) (tdouble : string -> option N) (P : parser N) (infinity : N) po ns ms n f fs,
  fill_properties tuint tdouble P infinity po ns ms = Ok fs -> typed tuint ms ["n_materials"] n -> value ms ["property_format"] f -> (ns <= 3)%nat ->
  forall id q name, (id < n)%nat ->
  nth_error ["liquidus"; "solidus"; "latent_heat"; "radiation_temperature_infty"; "convection_temperature_infty"] q = Some name ->
  exists fl v, nth_error fs id = Some fl /\ nth_error (f_props fl) q = Some v /\
  (forall x, typed tdouble ms [material_name id; name] x -> v = x) /\ ((forall x, ~ typed tdouble ms [material_name id; name] x) -> v = nmax N).
Proof. exact @props_stored. Qed.
Print Assumptions C65_material_values.
Example C65_filled : fill_properties (N := QNum) rd_uint parse_Q ex_parser ex_infinity 2 2 ex_mats = Ok ex_filled. Proof. exact (proj1 ex_fills). Qed.
Example C65_stored : exists fl, nth_error ex_filled 0 = Some fl /\ thermal_law fl 1 0 = Ok (Poly (N := QNum) [1; 2; 3]%Q) /\ thermal_law fl 0 0 = Ok (Poly (N := QNum) [7904; 0; 0]%Q) /\
  mechanical_value fl 0 = Ok 5%Q /\ mechanical_value fl 6 = Ok ex_infinity /\ nth_error (f_props fl) 1 = Some 1675%Q /\ nth_error (f_props fl) 0 = Some (nmax QNum).
Proof. exact ex_values. Qed.

(** A modulus given as a table of 5 at 300 K and 2 at 1000 K is 5 at every temperature. *)
Theorem C65_moduli_follow_the_table_refuted : exists ms fs fl text, template_parameters rd_uint 255 ms = Ok (1, 0, 1)%nat /\
  fill_properties (N := QNum) rd_uint parse_Q ex_parser ex_infinity 0 1 ms = Ok fs /\ nth_error fs 0 = Some fl /\
  given ms 0 "solid" "lame_first_parameter" text /\ rows_of ex_parser text [(300, 5); (1000, 2)]%Q /\ mechanical_value fl 0 = Ok 5%Q.
Proof. exact modulus_constant. Qed.
Print Assumptions C65_moduli_follow_the_table_refuted.

(** ** C66 *)
Theorem C66_the_simulation_asked_for : forall (N : Num) (tbool : string -> option bool) (tuint : string -> option nat) (tdouble : string -> option N) (invalid : nat) (sim : instance -> res unit) db ms f,
  validate tbool tuint tdouble db = Ok tt -> at_path db ["materials"] ms -> typed tuint ms ["n_materials"] 1%nat -> value ms ["property_format"] f -> (1 <= invalid)%nat ->
  ~ too_long ms 1 f -> ~ (enabled tbool db ["ensemble"; "ensemble_simulation"] /\ value db ["memory_space"] "device") ->
  exists i, asked tbool tuint db i /\ main_program tbool tuint tdouble invalid sim (run_of db) = ([i], status_of (sim i)).
Proof. exact @main_one. Qed.
Print Assumptions C66_the_simulation_asked_for.
Example C66_valid : validate (N := QNum) rd_bool rd_uint parse_Q ex_good = Ok tt. Proof. exact good_accepted. Qed.
Example C66_one_material : exists ms, at_path ex_good ["materials"] ms /\ typed rd_uint ms ["n_materials"] 1%nat /\ value ms ["property_format"] "polynomial" /\ ~ too_long ms 1 "polynomial".
Proof. destruct good_materials as (ms & A & T & F & _). exists ms. repeat split; try assumption. apply good_short, A. Qed.
Example C66_plain : ~ (enabled rd_bool ex_good ["ensemble"; "ensemble_simulation"] /\ value ex_good ["memory_space"] "device"). Proof. exact good_plain. Qed.
Example C66_example : ex_run (fun _ => Ok tt) (run_of ex_good) = ([mkinst false false 3 1%Z 0 SolidLiquid], Ok 0%nat). Proof. exact (proj1 good_runs). Qed.
Theorem C66_every_run : forall (N : Num) (tbool : string -> option bool) (tuint : string -> option nat) (tdouble : string -> option N) (invalid : nat) (sim : instance -> res unit) c started r,
  main_program tbool tuint tdouble invalid sim c = (started, r) ->
  (started = [] /\ (r = Ok 0%nat \/ r = Ok 1%nat)) \/
  (exists i db ms, started = [i] /\ r = status_of (sim i) /\ help c = false /\ kokkos_help c = false /\ outdir_fails c = false /\ file_ c = Tree db /\ valid_input tbool tuint tdouble db /\
     at_path db ["materials"] ms /\ typed tuint ms ["n_materials"] 1%nat /\ ((1 <= invalid)%nat -> asked tbool tuint db i) /\ ~ (i_ensemble i = true /\ i_device i = true)).
Proof. exact @main_every. Qed.
Print Assumptions C66_every_run.
Theorem C66_stops_with_1 : forall (N : Num) (tbool : string -> option bool) (tuint : string -> option nat) (tdouble : string -> option N) (invalid : nat) (sim : instance -> res unit) db ms f n,
  validate tbool tuint tdouble db = Ok tt -> at_path db ["materials"] ms -> typed tuint ms ["n_materials"] n -> value ms ["property_format"] f -> (0 < n <= invalid)%nat ->
  too_long ms n f \/ (enabled tbool db ["ensemble"; "ensemble_simulation"] /\ value db ["memory_space"] "device") -> main_program tbool tuint tdouble invalid sim (run_of db) = ([], Ok 1%nat).
Proof. exact @main_one_stops. Qed.
Print Assumptions C66_stops_with_1.
Example C66_device_example : ex_validate ex_device = Ok tt /\ forall sim, ex_run sim (run_of ex_device) = ([], Ok 1%nat). Proof. exact device_stops. Qed.
(** Two or more materials are accepted by the validation and nothing is run. *)
Theorem C66_several_materials_do_nothing : forall (N : Num) (tbool : string -> option bool) (tuint : string -> option nat) (tdouble : string -> option N) (invalid : nat) (sim : instance -> res unit) db ms f n,
  validate tbool tuint tdouble db = Ok tt -> at_path db ["materials"] ms -> typed tuint ms ["n_materials"] n -> value ms ["property_format"] f -> (2 <= n <= invalid)%nat ->
  ~ too_long ms n f -> ~ (enabled tbool db ["ensemble"; "ensemble_simulation"] /\ value db ["memory_space"] "device") ->
  main_program tbool tuint tdouble invalid sim (run_of db) = ([], Ok 0%nat).
Proof. exact @main_many. Qed.
Print Assumptions C66_several_materials_do_nothing.
Theorem C66_valid_input_is_run_refuted : exists db, validate (N := QNum) rd_bool rd_uint parse_Q db = Ok tt /\
  forall sim, main_program (N := QNum) rd_bool rd_uint parse_Q 255 sim (run_of db) = ([], Ok 0%nat).
Proof. exact (ex_intro _ ex_two two_materials). Qed.
Print Assumptions C66_valid_input_is_run_refuted.
(** An input the validation refuses ends with status 0. *)
Theorem C66_invalid_input_status : forall (N : Num) (tbool : string -> option bool) (tuint : string -> option nat) (tdouble : string -> option N) (invalid : nat) (sim : instance -> res unit) c db,
  file_ c = Tree db -> ~ valid_input tbool tuint tdouble db -> main_program tbool tuint tdouble invalid sim c = ([], Ok 0%nat).
Proof. exact @main_invalid. Qed.
Print Assumptions C66_invalid_input_status.
Theorem C66_errors_exit_nonzero_refuted : exists db, validate (N := QNum) rd_bool rd_uint parse_Q db = Throw /\
  (forall sim, main_program (N := QNum) rd_bool rd_uint parse_Q 255 sim (run_of db) = ([], Ok 0%nat)) /\
  (forall sim, main_program (N := QNum) rd_bool rd_uint parse_Q 255 sim (mkcmd false false NoFile false) = ([], Ok 0%nat)).
Proof. exact (ex_intro _ ex_refused (conj (proj1 (proj2 bad_rejected)) (conj (proj1 refused_zero) (proj1 (proj2 refused_zero))))). Qed.
Print Assumptions C66_errors_exit_nonzero_refuted.
