(** MainExamples.v -- concrete cases and counterexamples for C65 and C66. *)
From Coq Require Import ZArith QArith Bool List String Ascii Lia.
From Verif Require Import Base BaseFacts Decimal ScanPathModel MaterialModel MaterialSpec InputModel InputSpec InputProofs InputProofs2 InputProofs3 InputExamples CellModel MainModel MainSpec MainProofs MainProofs2 MainProofs3.
Import ListNotations.
Local Open Scope string_scope.

Definition ex_parser : parser QNum := mkparser QNum parse_Q parse_Z.
(** A stand-in for infinity among the rationals. *)
Definition ex_infinity : num QNum := (1000000 # 1)%Q.
(** Polynomials: a quadratic density of the liquid, a linear modulus of the solid. *)
Definition ex_mats : ptree := Node "" [leaf "n_materials" "1"; leaf "property_format" "polynomial";
  sub "material_0" [sub "solid" [leaf "density" "7904"; leaf "lame_first_parameter" "5, 7"]; sub "liquid" [leaf "density" "1, 2, 3"; leaf "lame_first_parameter" "9"]; leaf "solidus" "1675"]].
Lemma ex_mats_typed : typed rd_uint ex_mats ["n_materials"] 1%nat /\ value ex_mats ["property_format"] "polynomial" /\ materials_present ex_mats 1.
Proof.
  split; [apply get_ok; vm_compute; reflexivity|]. split; [apply str_ok; vm_compute; reflexivity|]. intros id I. assert (id = 0%nat) by lia. subst. apply present_path. eexists. apply child_ok. vm_compute. reflexivity.
Qed.
Lemma ex_parameters : template_parameters rd_uint 255 ex_mats = Ok (1, 2, 2)%nat.
Proof. vm_compute. reflexivity. Qed.
Definition ex_filled : list (filled (N := QNum)) := match fill_properties (N := QNum) rd_uint parse_Q ex_parser ex_infinity 2 2 ex_mats with Ok fs => fs | _ => [] end.
Lemma ex_fills : fill_properties (N := QNum) rd_uint parse_Q ex_parser ex_infinity 2 2 ex_mats = Ok ex_filled /\ List.length ex_filled = 1%nat.
Proof. split; [vmrefl|vmrefl]. Qed.
Definition ex_first : filled (N := QNum) := nth 0 ex_filled (mkfilled [] []).
Lemma ex_values : exists fl, nth_error ex_filled 0 = Some fl /\ thermal_law fl 1 0 = Ok (Poly (N := QNum) [1; 2; 3]%Q) /\ thermal_law fl 0 0 = Ok (Poly (N := QNum) [7904; 0; 0]%Q) /\
  mechanical_value fl 0 = Ok 5%Q /\ mechanical_value fl 6 = Ok ex_infinity /\ nth_error (f_props fl) 1 = Some 1675%Q /\ nth_error (f_props fl) 0 = Some (nmax QNum).
Proof. exists ex_first. split; [vmrefl|]. repeat split; vmrefl. Qed.
Definition reads (text : string) : bool := match parse_coefs (N := QNum) ex_parser (words (remove_blanks text)) with Ok _ => true | _ => false end.
Lemma coefs_readable text : reads text = true -> readable ex_parser false text.
Proof.
  unfold reads. destruct (parse_coefs ex_parser (words (remove_blanks text))) as [cs| |] eqn:E; try discriminate. intros _. exists cs, (words (remove_blanks text)). split; [apply words_spec|]. apply coefs_ok, E.
Qed.
Lemma ex_readable : forall state text, seen ex_mats 1 state text -> readable ex_parser false text.
Proof.
  intros state text (id & s & name & I & ES & IN & (c & A & V)). assert (id = 0%nat) by lia. subst id. apply child_at in A. subst text. cbn [In] in IN.
  destruct state as [|[|[|state]]]; [| | |destruct state; discriminate ES]; injection ES as <-;
    repeat (destruct IN as [<- |IN]; [vm_compute in A; first [discriminate A|injection A as <-]|]); try destruct IN.
  all: cbn [pdata].
  all: apply coefs_readable; vmrefl.
Qed.

(** Six coefficients are refused. *)
Definition ex_long : ptree := Node "" [leaf "n_materials" "1"; leaf "property_format" "polynomial"; sub "material_0" [sub "solid" [leaf "density" "1,2,3,4,5,6"]]].
Lemma ex_long_throws : template_parameters rd_uint 255 ex_long = Throw.
Proof. vm_compute. reflexivity. Qed.

(** A table of a modulus that depends on the temperature. *)
Definition ex_table : ptree := Node "" [leaf "n_materials" "1"; leaf "property_format" "table"; sub "material_0" [sub "solid" [leaf "density" "0, 7904"; leaf "lame_first_parameter" "300, 5 | 1000, 2"]]].
Definition ex_tfilled : list (filled (N := QNum)) := match fill_properties (N := QNum) rd_uint parse_Q ex_parser ex_infinity 0 1 ex_table with Ok fs => fs | _ => [] end.
Lemma modulus_constant : exists ms fs fl text, template_parameters rd_uint 255 ms = Ok (1, 0, 1)%nat /\ fill_properties (N := QNum) rd_uint parse_Q ex_parser ex_infinity 0 1 ms = Ok fs /\ nth_error fs 0 = Some fl /\
  given ms 0 "solid" "lame_first_parameter" text /\ rows_of ex_parser text [(300, 5); (1000, 2)]%Q /\ mechanical_value fl 0 = Ok 5%Q.
Proof.
  exists ex_table, ex_tfilled, (nth 0 ex_tfilled (mkfilled [] [])), "300, 5 | 1000, 2". split; [vmrefl|]. split; [vmrefl|]. split; [vmrefl|]. split; [apply str_opt; vm_compute; reflexivity|].
  split; [|vmrefl]. unfold rows_of. change (split_off "|"%char (remove_blanks "300, 5 | 1000, 2")) with ["300,5"; "1000,2"].
  constructor; [|constructor; [|constructor]].
  - exists "300", "5", []. split; [reflexivity|]. split; vmrefl.
  - exists "1000", "2", []. split; [reflexivity|]. split; vmrefl.
Qed.

(** ** Main program *)
Definition ex_invalid : nat := 255.
Definition ex_run (sim : instance -> res unit) (c : command) : list instance * res nat := main_program (N := QNum) rd_bool rd_uint parse_Q ex_invalid sim c.
Lemma good_runs : ex_run (fun _ => Ok tt) (run_of ex_good) = ([mkinst false false 3 1%Z 0 SolidLiquid], Ok 0%nat) /\
  ex_run (fun _ => Throw) (run_of ex_good) = ([mkinst false false 3 1%Z 0 SolidLiquid], Ok 1%nat).
Proof. split; vm_compute; reflexivity. Qed.
Definition ex_two : ptree := match ex_good with Node v l => Node v (map (fun p => if String.eqb (fst p) "materials" then sub "materials" [leaf "n_materials" "2"; leaf "property_format" "polynomial";
      sub "material_0" [sub "solid" ex_state; sub "liquid" ex_state; leaf "convection_temperature_infty" "300"; leaf "radiation_temperature_infty" "300"];
      sub "material_1" [sub "solid" ex_state; leaf "convection_temperature_infty" "300"; leaf "radiation_temperature_infty" "300"]] else p) l) end.
Lemma two_materials : ex_validate ex_two = Ok tt /\ forall sim, ex_run sim (run_of ex_two) = ([], Ok 0%nat).
Proof. split; [|intros sim]; vm_compute; reflexivity. Qed.
Lemma good_materials : exists ms, at_path ex_good ["materials"] ms /\ typed rd_uint ms ["n_materials"] 1%nat /\ value ms ["property_format"] "polynomial" /\ template_parameters rd_uint ex_invalid ms = Ok (1, 0, 2)%nat /\ materials_present ms 1.
Proof.
  eexists. split; [apply child_at; vm_compute; reflexivity|]. split; [apply get_ok; vm_compute; reflexivity|]. split; [apply str_ok; vm_compute; reflexivity|]. split; [vm_compute; reflexivity|].
  intros id I. assert (id = 0%nat) by lia. subst. apply present_path. eexists. apply child_ok. vm_compute. reflexivity.
Qed.
Lemma good_plain : ~ (enabled rd_bool ex_good ["ensemble"; "ensemble_simulation"] /\ value ex_good ["memory_space"] "device").
Proof. intros [E _]. apply opt_some in E. vm_compute in E. discriminate E. Qed.
Lemma good_short ms : at_path ex_good ["materials"] ms -> ~ too_long ms 1 "polynomial".
Proof.
  intros A L. destruct good_materials as (ms' & A' & T & F & E & M). rewrite (at_path_fun _ _ _ _ A' A) in *. destruct (parameters_throw rd_uint ex_invalid ms 1 "polynomial" T F M) as [X _]; [unfold ex_invalid; lia|].
  assert (template_parameters rd_uint ex_invalid ms = Throw) by (apply X; left; exact L). congruence.
Qed.
(** A database refused by the validation, a missing file name, a valid database with two materials: status 0, nothing run. *)
Definition ex_refused : ptree := ex_db "radiatif" [] [] [] "goldak" "segment".
Lemma refused_zero : (forall sim, ex_run sim (run_of ex_refused) = ([], Ok 0%nat)) /\ (forall sim, ex_run sim (mkcmd false false NoFile false) = ([], Ok 0%nat)) /\
  (forall sim, ex_run sim (mkcmd false false (Tree ex_good) true) = ([], Ok 0%nat)) /\ (forall sim, ex_run sim (mkcmd false false Unreadable false) = ([], Ok 1%nat)).
Proof. repeat split; intros sim; vm_compute; reflexivity. Qed.
(** An ensemble on the device. *)
Definition ex_device : ptree := match ex_good with Node v l => Node v (l ++ [leaf "memory_space" "device"; sub "ensemble" [leaf "ensemble_simulation" "true"]]) end.
Lemma device_stops : ex_validate ex_device = Ok tt /\ forall sim, ex_run sim (run_of ex_device) = ([], Ok 1%nat).
Proof. split; [|intros sim]; vm_compute; reflexivity. Qed.
