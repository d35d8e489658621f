(** MainSpec.v -- what C65 and C66 mean. *)
From Coq Require Import ZArith Bool List String Ascii.
From Verif Require Import Base ScanPathModel MaterialModel MaterialSpec InputModel InputSpec CellModel MainModel.
Import ListNotations.
Local Open Scope string_scope.

(** Text of the property [name] of the state [state] of material [id], in the tree of the materials. *)
Definition given (ms : ptree) (id : nat) (state name text : string) : Prop := value ms [material_name id; state; name] text.
Definition has_state (ms : ptree) (id : nat) (state : string) : Prop := exists st, at_path ms [material_name id; state] st.
Definition materials_present (ms : ptree) (n : nat) : Prop := forall id, (id < n)%nat -> present ms (material_name id).
(** Number of comma separated fields, blanks removed. *)
Definition n_fields (text : string) (k : nat) : Prop := exists ws, words_of (remove_blanks text) ws /\ List.length ws = k.
(** A property known to the program that a state of one of the materials 0, ..., n-1 has; [state]: number of the state. *)
Definition seen (ms : ptree) (n state : nat) (text : string) : Prop :=
  exists id s name, (id < n)%nat /\ nth_error ["solid"; "liquid"; "powder"] state = Some s /\
    In name ["density"; "specific_heat"; "thermal_conductivity_x"; "thermal_conductivity_y"; "thermal_conductivity_z"; "emissivity";
             "radiation_heat_transfer_coef"; "convection_heat_transfer_coef"; "lame_first_parameter"; "lame_second_parameter";
             "thermal_expansion_coef"; "plastic_modulus"; "isotropic_hardening"; "elastic_limit"] /\ given ms id s name text.

Section Laws.
  Context {N : Num} (P : parser N).
  Definition coefs_of (text : string) (cs : list N) : Prop := exists ws, words_of (remove_blanks text) ws /\ Forall2 (fun w c => stod P w = Some c) ws cs.
  Definition rows_of (text : string) (rows : list (N * N)) : Prop := Forall2 (row_of_field P) (split_off "|"%char (remove_blanks text)) rows.
  (** What is stored for a property given by [text]. *)
  Definition law_of (table : bool) (p_order : nat) (text : string) (l : state_law N) : Prop :=
    if table then exists rows full, rows_of text rows /\ padded rows full /\ l = Table full
    else exists cs, coefs_of text cs /\ l = Poly (cs ++ repeat (nofZ N 0) (p_order + 1 - List.length cs)).
  (** The first number of the text that counts: value of the first row, or constant coefficient. *)
  Definition first_number (table : bool) (text : string) (v : N) : Prop :=
    if table then exists t rows, rows_of text ((t, v) :: rows) else exists cs, coefs_of text (v :: cs).
  (** All the numbers can be read, and a table has at most 12 rows. *)
  Definition readable (table : bool) (text : string) : Prop :=
    if table then exists rows, rows_of text rows /\ (List.length rows <= 12)%nat else exists cs, coefs_of text cs.
End Laws.

(** Order of the polynomials of the materials 0, ..., n-1: the smallest that holds all of them; 0 for tables. *)
Definition order_needed (ms : ptree) (n : nat) (format : string) (p_order : nat) : Prop :=
  (format = "table" -> p_order = 0%nat) /\
  (format <> "table" -> (forall state text k, seen ms n state text -> n_fields text k -> (k <= p_order + 1)%nat) /\
     (p_order = 0%nat \/ exists state text, seen ms n state text /\ n_fields text (p_order + 1))).
(** Some state has a polynomial with more than five coefficients. *)
Definition too_long (ms : ptree) (n : nat) (format : string) : Prop :=
  format <> "table" /\ exists state text k, seen ms n state text /\ n_fields text k /\ (5 < k)%nat.
Definition states_needed (ms : ptree) (n : nat) (k : mstates) : Prop :=
  let uses state := exists text, seen ms n state text in
  match k with Solid => ~ uses 1%nat /\ ~ uses 2%nat | SolidLiquid => uses 1%nat /\ ~ uses 2%nat | SolidLiquidPowder => uses 2%nat end.
(** The simulation that a database asks for: dimension, memory space, ensemble or not, order of the polynomials, states. *)
Definition asked (tbool : string -> option bool) (tuint : string -> option nat) (db : ptree) (i : instance) : Prop :=
  typed tuint db ["geometry"; "dim"] (i_dim i) /\ (exists n, typed tuint db ["materials"; "n_materials"] n /\ i_materials i = Z.of_nat n) /\
  (i_device i = true <-> value db ["memory_space"] "device") /\ (i_ensemble i = true <-> enabled tbool db ["ensemble"; "ensemble_simulation"]) /\
  exists ms n f, at_path db ["materials"] ms /\ typed tuint ms ["n_materials"] n /\ value ms ["property_format"] f /\
    order_needed ms n f (i_order i) /\ states_needed ms n (i_states i).
(** A run with an input file and without the help options. *)
Definition run_of (db : ptree) : command := mkcmd false false (Tree db) false.
Definition status_of (r : res unit) : res nat := match r with Ok _ => Ok 0%nat | Throw => Ok 1%nat | UB => UB end.
