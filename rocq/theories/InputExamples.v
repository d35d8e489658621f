(** InputExamples.v -- concrete databases for C24 and C25, and the counterexamples. *)
From Coq Require Import Reals ZArith NArith QArith Bool List String Ascii Lra Lia.
From Verif Require Import Base BaseFacts Decimal MaterialModel InputModel InputSpec InputProofs InputProofs2 InputProofs3.
Import ListNotations.
Local Open Scope string_scope.

Definition rd_bool (s : string) : option bool := if String.eqb s "true" then Some true else if String.eqb s "false" then Some false else None.
Definition rd_uint (s : string) : option nat := match parse_Z s with Some z => if Z.ltb z 0 then None else Some (Z.to_nat z) | None => None end.
Definition leaf (k v : string) : string * ptree := (k, Node v []).
Definition sub (k : string) (l : list (string * ptree)) : string * ptree := (k, Node "" l).

Definition ex_state : list (string * ptree) :=
  [leaf "density" "7904"; leaf "specific_heat" "714"; leaf "thermal_conductivity_x" "31.4"; leaf "thermal_conductivity_y" "31.4"; leaf "thermal_conductivity_z" "31.4";
   leaf "convection_heat_transfer_coef" "100"; leaf "emissivity" "0.3"].
(** [bline] the default boundary line, [extra] further boundary children, [geo] further geometry entries. *)
Definition ex_db (bline : string) (extra geo units : list (string * ptree)) (beam fmt : string) : ptree :=
  Node "" [sub "physics" [leaf "thermal" "true"; leaf "mechanical" "false"];
    sub "boundary" (leaf "type" bline :: extra);
    sub "discretization" [sub "thermal" [leaf "fe_degree" "3"; leaf "quadrature" "Lobatto"]];
    sub "geometry" ([leaf "dim" "3"; leaf "import_mesh" "false"; leaf "length" "0.004"; leaf "height" "0.002"; leaf "width" "0.002"] ++ geo);
    sub "materials" [leaf "n_materials" "1"; leaf "property_format" "polynomial";
      sub "material_0" [sub "solid" ex_state; sub "liquid" ex_state; leaf "convection_temperature_infty" "300"; leaf "radiation_temperature_infty" "300"]];
    sub "post_processor" [leaf "filename_prefix" "out"]; sub "refinement" [leaf "n_refinements" "2"];
    sub "sources" [leaf "n_beams" "1"; sub "beam_0" [leaf "type" beam; leaf "scan_path_file" "sp.txt"; leaf "scan_path_file_format" fmt; leaf "depth" "0.001"; leaf "absorption_efficiency" "0.3"]];
    sub "time_stepping" [leaf "method" "Rk_Fourth_order"; leaf "duration" "1e-3"; leaf "time_step" "0"];
    sub "units" units].
Definition ex_validate (db : ptree) : res unit := validate (N := QNum) rd_bool rd_uint parse_Q db.

Definition ex_good : ptree := ex_db "radiative,convective" [sub "boundary_4" [leaf "type" "adiabatic"]; sub "printed_surface" [leaf "type" "convective"]]
  [leaf "material_deposition" "true"; leaf "material_deposition_method" "scan_paths"; leaf "deposition_length" "1e-3"; leaf "deposition_height" "1e-3"; leaf "deposition_width" "1e-3"; leaf "deposition_lead_time" "0"]
  [leaf "mesh" "millimeter"] "goldak" "segment".
Lemma good_accepted : ex_validate ex_good = Ok tt.
Proof. vm_compute. reflexivity. Qed.
Lemma good_valid : valid_input (N := QNum) rd_bool rd_uint parse_Q ex_good.
Proof. apply validate_ok, good_accepted. Qed.
(** Single defects are rejected. *)
Lemma bad_rejected :
  ex_validate (ex_db "adiabatic,radiative" [] [] [] "goldak" "segment") = Throw /\
  ex_validate (ex_db "radiatif" [] [] [] "goldak" "segment") = Throw /\
  ex_validate (ex_db "clamped" [] [] [] "goldak" "segment") = Throw /\
  ex_validate (ex_db "clamped,traction_free,adiabatic" [] [] [] "goldak" "segment") = Throw /\
  ex_validate (ex_db "adiabatic" [] [leaf "use_powder" "true"; leaf "powder_layer" "-1"] [] "goldak" "segment") = Throw /\
  ex_validate (ex_db "adiabatic" [] [] [leaf "mesh" "foot"] "goldak" "segment") = Throw /\
  ex_validate (ex_db "adiabatic" [] [] [] "laser" "segment") = Throw.
Proof. repeat split; vm_compute; reflexivity. Qed.
(** Adiabatic after radiative is accepted, in the other order it is not. *)
Definition ex_mixed : ptree := ex_db "radiative,adiabatic" [] [] [] "goldak" "segment".
Lemma mixed_accepted : ex_validate ex_mixed = Ok tt /\ ex_validate (ex_db "adiabatic,radiative" [] [] [] "goldak" "segment") = Throw.
Proof. split; vm_compute; reflexivity. Qed.
Lemma mixed_says : exists b p ws, at_path ex_mixed ["boundary"] b /\ In p (pkids b) /\ says b p ws /\ In "adiabatic" ws /\ In "radiative" ws.
Proof.
  eexists _, _, (words "radiative,adiabatic"). split; [apply child_at; reflexivity|]. split; [left; reflexivity|]. split; [|vm_compute; tauto].
  exists "radiative,adiabatic". split; [left; split; reflexivity|apply words_spec].
Qed.
(** Deposition from a file, with the file given. *)
Definition ex_file : ptree := ex_db "adiabatic" [] [leaf "material_deposition" "true"; leaf "material_deposition_method" "file"; leaf "material_deposition_file" "dep.txt"] [] "goldak" "segment".
Lemma file_throws : ex_validate ex_file = Throw.
Proof. vm_compute. reflexivity. Qed.
(** A beam accepted by the validation whose construction throws. *)
Lemma beam_case : ex_validate (ex_db "adiabatic" [] [] [] "Goldak" "segment") = Ok tt /\ make_beam "Goldak" "segment" = Throw /\
  ex_validate (ex_db "adiabatic" [] [] [] "goldak" "Segment") = Ok tt /\ make_beam "goldak" "Segment" = Throw.
Proof. repeat split; vm_compute; reflexivity. Qed.

(** ** Units *)
Lemma factor_in u : unit_factor (N := RNum) u <> 0%R <->
  In u ["millimeter"; "centimeter"; "inch"; "meter"; "milliwatt"; "watt"; "millimeter/second"; "centimer/second"; "meter/second"].
Proof.
  unfold unit_factor, unit_table. cbn [find fst].
  repeat match goal with |- context [String.eqb ?a u] => destruct (String.eqb_spec a u) as [<-|?] end;
    try (split; [intros _; cbn [In]; tauto|intros _; simpl; lra]).
  split; [intros H; exfalso; apply H; reflexivity|]. cbn [In]. intuition congruence.
Qed.
Lemma factor_velocity u : named u ["millimeter/second"; "centimeter/second"; "meter/second"] ->
  (unit_factor (N := RNum) u <> 0%R <-> u = "millimeter/second" \/ u = "meter/second").
Proof.
  rewrite named_lower. intros (n & I & E). rewrite factor_in. split; [|intros [->| ->]; cbn [In]; tauto].
  intros J. cbn [In] in I, J. destruct I as [<-|[<-|[<-|[]]]]; destruct J as [<-|[<-|[<-|[<-|[<-|[<-|[<-|[<-|[<-|[]]]]]]]]]]; auto; vm_compute in E; discriminate.
Qed.
Definition ex_units (k v : string) : ptree := ex_db "adiabatic" [] [] [sub "heat_source" [leaf k v]] "goldak" "segment".
Lemma units_zero : ex_validate (ex_units "velocity" "centimeter/second") = Ok tt /\
  ex_validate (ex_units "power" "Watt") = Ok tt.
Proof. split; vm_compute; reflexivity. Qed.
Lemma scaling_zero : scaling (N := RNum) (child_opt (ex_units "velocity" "centimeter/second") ["units"]) ["heat_source"; "velocity"] = 0%R /\
  scaling (N := RNum) (child_opt (ex_units "power" "Watt") ["units"]) ["heat_source"; "power"] = 0%R.
Proof. split; reflexivity. Qed.

(** ** Boundary *)
Definition ex_boundary : ptree := Node "" [leaf "type" "radiative,convective"; sub "boundary_4" [leaf "type" "adiabatic,clamped"]; sub "boundary_5" [leaf "type" "clamped,adiabatic"];
  sub "printed_surface" [leaf "type" "convective,traction_free"]].
Lemma boundary_built : make_boundary parse_Z ex_boundary [0; 1; 2; 3; 4; 5]%nat = Ok [6; 6; 6; 6; 9; 20]%N.
Proof. vm_compute. reflexivity. Qed.
Lemma boundary_types : get_boundary_type [6; 6; 6; 6; 9; 20]%N 4 = Ok 9%N /\ get_boundary_type [6; 6; 6; 6; 9; 20]%N 5 = Ok 20%N /\ get_boundary_ids [6; 6; 6; 6; 9; 20]%N clamped = [4]%nat.
Proof. vm_compute. auto. Qed.
(** The largest id loses its declared type to the printed surface. *)
Lemma largest_lost : exists db ids types id t, make_boundary parse_Z db ids = Ok types /\ In id ids /\ declared db id t /\ get_boundary_type types id <> Ok t.
Proof.
  exists ex_boundary, [0; 1; 2; 3; 4; 5]%nat, [6; 6; 6; 6; 9; 20]%N, 5%nat, 9%N. split; [apply boundary_built|]. split; [vm_compute; tauto|]. split; [|vm_compute; discriminate].
  left. exists "clamped,adiabatic". destruct (proj1 (parse_boundary_line_ok "clamped,adiabatic" 9%N) eq_refl) as (ws & W & U). exists ws. split; [|auto].
  apply str_opt. reflexivity.
Qed.
(** A validated database in which the only clamped face is lost with it. *)
Definition ex_mech : ptree := Node "" (sub "physics" [leaf "thermal" "true"; leaf "mechanical" "true"] :: tl (pkids
  (ex_db "adiabatic,traction_free" [sub "boundary_5" [leaf "type" "adiabatic,clamped"]; sub "printed_surface" [leaf "type" "adiabatic,traction_free"]] [] [] "goldak" "segment"))).
Lemma clamped_lost : ex_validate ex_mech = Ok tt /\ exists b types, at_path ex_mech ["boundary"] b /\ make_boundary parse_Z b [0; 1; 2; 3; 4; 5]%nat = Ok types /\ get_boundary_ids types clamped = [].
Proof.
  split; [vm_compute; reflexivity|]. eexists _, _. split; [apply child_at; reflexivity|]. split; vm_compute; reflexivity.
Qed.
Lemma unknown_word_ub : make_boundary parse_Z (Node "" [leaf "type" "radiatif"]) [0]%nat = UB.
Proof. vm_compute. reflexivity. Qed.
