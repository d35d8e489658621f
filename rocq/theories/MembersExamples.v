(** MembersExamples.v -- witnesses and counterexamples for C74. *)
From Coq Require Import ZArith QArith Bool List String.
From Verif Require Import Base BaseFacts MaterialModel InputModel InputExamples EnsembleModel EnsembleSpec EnsembleExamples AssimilationModel CellModel MembersModel MembersSpec MembersProofs MembersProofs2.
Import ListNotations.
Local Open Scope string_scope.

(** A goldak beam of 100 mW, absorption 1/2; an entry of the ensemble section gives the deviation of [key]. *)
Definition me_db (uncertain : list (string * ptree)) : ptree :=
  Node "" [sub "sources" [InputExamples.leaf "n_beams" "1";
             sub "beam_0" [InputExamples.leaf "type" "goldak"; InputExamples.leaf "depth" "2"; InputExamples.leaf "absorption_efficiency" "0.5"; InputExamples.leaf "diameter" "1";
               InputExamples.leaf "max_power" "100"; InputExamples.leaf "scan_path_file" "path.txt"; InputExamples.leaf "scan_path_file_format" "segment"]];
           sub "units" [sub "heat_source" [InputExamples.leaf "power" "milliwatt"]]; sub "time_stepping" [InputExamples.leaf "method" "forward_euler"];
           sub "materials" [InputExamples.leaf "initial_temperature" "300"; sub "material_0" [InputExamples.leaf "solidus" "1000"]];
           sub "ensemble" (InputExamples.leaf "ensemble_simulation" "true" :: InputExamples.leaf "ensemble_size" "3" :: uncertain)].
Definition me_beam_db : ptree := me_db [sub "sources" [sub "beam_0" [InputExamples.leaf "max_power_stddev" "10"]]].
Definition me_material_db : ptree := me_db [sub "materials" [sub "material_0" [InputExamples.leaf "solidus_stddev" "5"]]].
Definition me_uint (s : string) : option nat := if String.eqb s "1" then Some 1%nat else None.
Definition me_double : string -> option (num QNum) := read_Q.
Definition me_fmt : num QNum -> string := print_Q.
Lemma me_round (v : num QNum) : me_double (me_fmt v) = Some v. Proof. exact (read_print v). Qed.
(** A state that remembers absorption and power of beam 0 in every pass. *)
Definition me_state : Type := list (Q * Q).
Definition me_init (_ : setting QNum) (_ : num QNum) : me_state := [].
Definition me_advance (_ : unit) (_ : nat) (sg : setting QNum) (_ : num QNum) (s : me_state) : me_state :=
  match sg_sources sg with Moving _ _ _ q _ _ _ _ :: _ => (s ++ [(Qred (bp_absorption q), Qred (bp_max_power q))])%list | _ => s end.
Definition me_distribute (s : me_state) : me_state := s.
(** An analysis that gives every member the absorption [v]. *)
Definition me_analysis (v : Q) : analysis QNum me_state := fun xs => Ok (map (fun '(s, b) => (s, map (fun _ => v) b)) xs).
Lemma me_keeps v : keeps_sizes (me_analysis v).
Proof.
  intros xs ys E. injection E as <-. rewrite map_map. apply map_ext. intros [s b]. cbn [snd]. apply map_length.
Qed.
Definition me_setup (restart : list (option me_state)) (dbs : list ptree) : res (list (member QNum me_state)) :=
  setup me_uint me_double true me_init 1 true (selected true false) restart dbs.
Definition me_run (passes : list (nat * option (analysis QNum me_state))) (ms : list (member QNum me_state)) : res (list (member QNum me_state)) :=
  run me_double me_fmt me_advance me_distribute tt true (selected true false) passes ms.
Definition me_states (r : res (list (member QNum me_state))) : list me_state := match r with Ok ms => map mb_state ms | _ => [] end.
Definition me_dbs (db : ptree) : list ptree := match create_database_ensemble me_double me_fmt en_z 5 db 0 3 3 with Ok (Some st) => ts_dbs st | _ => [] end.
(** Three members of 90, 110 and 120 mW: the analysis of pass 1 gives the absorption of pass 2. *)
Lemma me_assimilated : me_states (do ms <- me_setup [None; None; None] (me_dbs me_beam_db); me_run [(1%nat, Some (me_analysis (1 # 4))); (2%nat, None)] ms) =
  [[(1 # 2, 9 # 100); (1 # 4, 9 # 100)]; [(1 # 2, 11 # 100); (1 # 4, 11 # 100)]; [(1 # 2, 3 # 25); (1 # 4, 3 # 25)]]%Q.
Proof. vmrefl. Qed.
Lemma me_setup_ok : exists ms, me_setup [None; None; None] (me_dbs me_beam_db) = Ok ms /\ List.length ms = 3%nat.
Proof.
  destruct (me_setup [None; None; None] (me_dbs me_beam_db)) as [ms| |] eqn:E; [|exfalso|exfalso].
  - exists ms. split; [reflexivity|]. assert (X : match me_setup [None; None; None] (me_dbs me_beam_db) with Ok ms => List.length ms | _ => 0%nat end = 3%nat) by vmrefl. rewrite E in X. exact X.
  - assert (X : match me_setup [None; None; None] (me_dbs me_beam_db) with Ok ms => true | _ => false end = true) by vmrefl. rewrite E in X. discriminate X.
  - assert (X : match me_setup [None; None; None] (me_dbs me_beam_db) with Ok ms => true | _ => false end = true) by vmrefl. rewrite E in X. discriminate X.
Qed.
(** Stopped after the analysis and restarted: pass 2 has the absorption of the input file. *)
Lemma me_restarted : let saved := me_states (do ms <- me_setup [None; None; None] (me_dbs me_beam_db); me_run [(1%nat, Some (me_analysis (1 # 4)))] ms) in
  me_states (do ms <- me_setup (map Some saved) (me_dbs me_beam_db); me_run [(2%nat, None)] ms) =
  [[(1 # 2, 9 # 100); (1 # 2, 9 # 100)]; [(1 # 2, 11 # 100); (1 # 2, 11 # 100)]; [(1 # 2, 3 # 25); (1 # 2, 3 # 25)]]%Q.
Proof. cbv zeta. vmrefl. Qed.
(** An absorption of -3 or 7 is used as it is. *)
Lemma me_unphysical : me_states (do ms <- me_setup [None] [me_beam_db]; me_run [(1%nat, Some (me_analysis (-3))); (2%nat, Some (me_analysis 7)); (3%nat, None)] ms) = [[(1 # 2, 1 # 10); (-3, 1 # 10); (7, 1 # 10)]]%Q.
Proof. vmrefl. Qed.
(** The solidus of the members differs in their databases: 995, 1005, 1010; the members do not. *)
Definition me_get (key : list string) (db : ptree) : res Q := get me_double db key.
Lemma me_solidus : map (me_get ["materials"; "material_0"; "solidus"]) (me_dbs me_material_db) = [Ok 995; Ok 1005; Ok 1010]%Q.
Proof. vmrefl. Qed.
Lemma me_no_spread : me_states (do ms <- me_setup [None; None; None] (me_dbs me_material_db); me_run [(1%nat, None); (2%nat, None)] ms) =
  [[(1 # 2, 1 # 10); (1 # 2, 1 # 10)]; [(1 # 2, 1 # 10); (1 # 2, 1 # 10)]; [(1 # 2, 1 # 10); (1 # 2, 1 # 10)]]%Q.
Proof. vmrefl. Qed.
Lemma me_not_own : exists st, create_database_ensemble me_double me_fmt en_z 5 me_material_db 0 3 3 = Ok (Some st) /\ (forall key, In key (ts_keys st) -> ~ own key) /\
  exists ms, setup me_uint me_double true me_init 1 false [] (repeat None (List.length (ts_dbs st))) (ts_dbs st) = Ok ms /\ List.length ms = 3%nat.
Proof.
  destruct (create_database_ensemble me_double me_fmt en_z 5 me_material_db 0 3 3) as [[st|]| |] eqn:E.
  - exists st. split; [reflexivity|].
    assert (K : match create_database_ensemble me_double me_fmt en_z 5 me_material_db 0 3 3 with Ok (Some st) => ts_keys st | _ => [] end = [["materials"; "material_0"; "solidus"]]) by vmrefl.
    rewrite E in K. split.
    + rewrite K. intros key [<-|[]] (e & rest & I & Q). cbn in I. repeat (destruct I as [<-|I]; [discriminate Q|]). exact I.
    + assert (X : match create_database_ensemble me_double me_fmt en_z 5 me_material_db 0 3 3 with
                  | Ok (Some st) => match setup me_uint me_double true me_init 1 false [] (repeat None (List.length (ts_dbs st))) (ts_dbs st) with Ok ms => List.length ms | _ => 0%nat end | _ => 0%nat end = 3%nat) by vmrefl.
      rewrite E in X. destruct (setup _ _ _ _ _ _ _ _ _) as [ms| |]; [exists ms; auto|discriminate X|discriminate X].
  - exfalso. assert (X : match create_database_ensemble me_double me_fmt en_z 5 me_material_db 0 3 3 with Ok (Some _) => true | _ => false end = true) by vmrefl. rewrite E in X. discriminate X.
  - exfalso. assert (X : match create_database_ensemble me_double me_fmt en_z 5 me_material_db 0 3 3 with Ok (Some _) => true | _ => false end = true) by vmrefl. rewrite E in X. discriminate X.
  - exfalso. assert (X : match create_database_ensemble me_double me_fmt en_z 5 me_material_db 0 3 3 with Ok (Some _) => true | _ => false end = true) by vmrefl. rewrite E in X. discriminate X.
Qed.
Lemma me_sources : match make_sources me_uint me_double true me_beam_db with
  | Ok [Moving ty _ _ q f fo di ve] => (ty, f, fo, Qred (bp_depth q), Qred (bp_absorption q), Qred (bp_radius q), Qred (bp_max_power q)) = ("goldak", "path.txt", "segment", 2, 1 # 2, 1 # 2, 1 # 10)%Q
  | _ => False end.
Proof. vm_compute. reflexivity. Qed.
(** The data file of member 1: the power drawn. *)
Lemma me_data : map (data_file me_double (fun v => if Qeq_bool v 90 then "90" else if Qeq_bool v 110 then "110" else "120") [["sources"; "beam_0"; "max_power"]]) (me_dbs me_beam_db) =
  [Ok ["sources.beam_0.max_power: 90"]; Ok ["sources.beam_0.max_power: 110"]; Ok ["sources.beam_0.max_power: 120"]].
Proof. vmrefl. Qed.
