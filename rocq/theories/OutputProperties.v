(** OutputProperties.v -- C63 (output files), C64 (output fields). *)
From Coq Require Import ZArith QArith Bool List String Ascii Reals Floats.
From Verif Require Import Base InputModel OutputModel OutputSpec OutputProofs OutputProofs2 OutputProofs3 OutputExamples RunModel.
Import ListNotations.
Local Open Scope string_scope.

(** * C63 *)
(** No file of a run, fresh or restarted, overwrites another one. *)
Theorem C63_names_distinct : forall (N : Num) (cfg : config N) reread redep restart ps dep fuel st es st' fin, start cfg restart ps dep = Ok st -> run cfg reread redep fuel st = Ok (es, st', fin) ->
  forall n p, NoDup (map fst (run_files n p (outputs st es) fin)).
Proof. intros. apply run_distinct. eapply run_outputs_distinct; eassumption. Qed.
Print Assumptions C63_names_distinct.
Theorem C63_ensemble_names_distinct : forall (N : Num) prefix dir members (outs : list (nat * N)) n_expt frames, NoDup (map fst members) -> NoDup (map fst outs) -> NoDup (map fst frames) ->
  NoDup (map fst (ensemble_files prefix dir members outs n_expt frames)).
Proof. exact @ensemble_distinct. Qed.
Print Assumptions C63_ensemble_names_distinct.
(** Every output has one .vtu file per process, with its time. *)
Theorem C63_vtu : forall (N : Num) n dir prefix (outs : list (nat * N)) fin s t r, NoDup (map fst outs) -> In (s, t) outs -> (r < n)%nat ->
  lookup (vtu_file dir prefix s r) (run_files n (mkpost prefix dir []) outs fin) = Some (Vtu t).
Proof. exact @vtu_written. Qed.
Print Assumptions C63_vtu.
(** The .pvtu file lists the pieces of all the processes; when they are found by a reader. *)
Theorem C63_pvtu : forall (N : Num) n dir prefix (outs : list (nat * N)) fin s t, NoDup (map fst outs) -> In (s, t) outs -> (0 < n)%nat ->
  exists pieces, lookup (pvtu_file dir prefix s) (run_files n (mkpost prefix dir []) outs fin) = Some (Pvtu pieces) /\ List.length pieces = n /\
  forall r, (r < n)%nat -> exists name, nth_error pieces r = Some name /\
    (resolves (pvtu_file dir prefix s) name (vtu_file dir prefix s r) <-> (ends_with_slash dir /\ no_slash prefix) \/ (dir = "" /\ absolute prefix)).
Proof. exact @pvtu_written. Qed.
Print Assumptions C63_pvtu.
(** The .pvd file lists all the outputs with their times, in order; when they are found by a reader. *)
Theorem C63_pvd : forall (N : Num) n dir prefix (outs : list (nat * N)), NoDup (map fst outs) -> (0 < n)%nat ->
  exists records, lookup (pvd_file dir prefix) (run_files n (mkpost prefix dir []) outs true) = Some (Pvd records) /\ map fst records = map snd outs /\
  forall i s t, nth_error outs i = Some (s, t) -> exists name, nth_error records i = Some (t, name) /\
    (resolves (pvd_file dir prefix) name (pvtu_file dir prefix s) <-> absolute (dir ++ prefix) \/ no_slash (dir ++ prefix)).
Proof. exact @pvd_written. Qed.
Print Assumptions C63_pvd.
Theorem C63_only_these : forall (N : Num) n dir prefix (outs : list (nat * N)) fin name, In name (map fst (run_files n (mkpost prefix dir []) outs fin)) ->
  (exists s t r, In (s, t) outs /\ (r < n)%nat /\ name = vtu_file dir prefix s r) \/ (exists s t, In (s, t) outs /\ name = pvtu_file dir prefix s) \/ (fin = true /\ name = pvd_file dir prefix).
Proof. exact @only_these. Qed.
Print Assumptions C63_only_these.
(** A run that does not reach its end has no .pvd file. *)
Theorem C63_unfinished : forall (N : Num) n dir prefix (outs : list (nat * N)), lookup (pvd_file dir prefix) (run_files n (mkpost prefix dir []) outs false) = None.
Proof. exact @no_pvd. Qed.
Print Assumptions C63_unfinished.
(** With the output directory given on the command line, everything is found, from the .pvd file to the .vtu files. *)
Theorem C63_command_line_directory : forall (N : Num) cwd arg dir prefix n (outs : list (nat * N)), absolute cwd -> option_dir cwd arg = Some dir -> no_slash prefix -> NoDup (map fst outs) -> (0 < n)%nat ->
  let fs := run_files n (mkpost prefix dir []) outs true in
  exists records, lookup (pvd_file dir prefix) fs = Some (Pvd records) /\ List.length records = List.length outs /\
  forall i s t, nth_error outs i = Some (s, t) ->
    exists name pieces, nth_error records i = Some (t, name) /\ resolves (pvd_file dir prefix) name (pvtu_file dir prefix s) /\
    lookup (pvtu_file dir prefix s) fs = Some (Pvtu pieces) /\ List.length pieces = n /\
    forall r, (r < n)%nat -> exists piece, nth_error pieces r = Some piece /\ resolves (pvtu_file dir prefix s) piece (vtu_file dir prefix s r) /\ lookup (vtu_file dir prefix s r) fs = Some (Vtu t).
Proof. exact @option_references. Qed.
Print Assumptions C63_command_line_directory.
(** Thermal or mechanical simulations write below output_dir. *)
Theorem C63_directory : forall (N : Num) db member (p : post N) prefix n outs fin name, make_post db member = Ok p -> get_str db ["filename_prefix"] = Ok prefix ->
  In name (map fst (run_files n p outs fin)) -> exists rest, name = get_def Some "" db ["output_dir"] ++ member_prefix prefix member ++ rest.
Proof. exact @make_post_files. Qed.
Print Assumptions C63_directory.
(** Restart in the same directory: the files of the earlier outputs stay, the .pvd file has the outputs since the restart only. *)
Theorem C63_restart : forall (N : Num) n dir prefix (outs1 outs2 : list (nat * N)) fin1, NoDup (map fst outs1) -> NoDup (map fst outs2) -> (0 < n)%nat ->
  let fs := (run_files n (mkpost prefix dir []) outs1 fin1 ++ run_files n (mkpost prefix dir []) outs2 true)%list in
  (exists records, lookup (pvd_file dir prefix) fs = Some (Pvd records) /\ map fst records = map snd outs2) /\
  forall s t r, In (s, t) outs1 -> ~ In s (map fst outs2) -> (r < n)%nat -> lookup (vtu_file dir prefix s r) fs = Some (Vtu t).
Proof. intros N n dir prefix outs1 outs2 fin1 H1 H2 L. split; [apply second_pvd; assumption|]. intros s t r I NI R. apply first_kept; assumption. Qed.
Print Assumptions C63_restart.
(** False: a relative output directory, one without a final '/', a prefix with a directory. *)
Theorem C63_relative_directory_refuted : exists records, lookup "results/ptc.pvd" (run_files 1 (mkpost (N := QNum) "ptc" "results/" []) ex_outs true) = Some (Pvd records) /\
  nth_error records 1 = Some ((1 # 2)%Q, "results/ptc.5.pvtu") /\ forall target, resolves "results/ptc.pvd" "results/ptc.5.pvtu" target ->
  lookup target (run_files 1 (mkpost (N := QNum) "ptc" "results/" []) ex_outs true) = None.
Proof. exact relative_broken. Qed.
Print Assumptions C63_relative_directory_refuted.
Theorem C63_no_final_slash_refuted : lookup "/tmp/o/ptc.5.0.vtu" (run_files 1 (mkpost (N := QNum) "ptc" "/tmp/o" []) ex_outs true) = None /\
  exists pieces, lookup "/tmp/optc.5.pvtu" (run_files 1 (mkpost (N := QNum) "ptc" "/tmp/o" []) ex_outs true) = Some (Pvtu pieces) /\
  forall name target, In name pieces -> resolves "/tmp/optc.5.pvtu" name target -> lookup target (run_files 1 (mkpost (N := QNum) "ptc" "/tmp/o" []) ex_outs true) = None.
Proof. exact no_final_slash. Qed.
Print Assumptions C63_no_final_slash_refuted.
Theorem C63_prefix_with_directory_refuted : exists pieces, lookup "sub/ptc.5.pvtu" (run_files 1 (mkpost (N := QNum) "sub/ptc" "" []) ex_outs true) = Some (Pvtu pieces) /\
  forall name target, In name pieces -> resolves "sub/ptc.5.pvtu" name target -> lookup target (run_files 1 (mkpost (N := QNum) "sub/ptc" "" []) ex_outs true) = None.
Proof. exact slash_in_prefix. Qed.
Print Assumptions C63_prefix_with_directory_refuted.
(** False: thermo-mechanical simulations and the experimental data are not written below output_dir. *)
Theorem C63_coupled_directory_refuted : get_def Some "" out_db ["output_dir"] = "/tmp/o/" /\ (exists p, make_post (N := QNum) out_db None = Ok p /\ o_dir p = "/tmp/o/") /\
  forall p n outs fin name, make_post_coupled (N := QNum) out_db None = Ok p -> In name (map fst (run_files n p outs fin)) -> ~ exists rest, name = "/tmp/o/" ++ rest.
Proof. exact coupled_ignores. Qed.
Print Assumptions C63_coupled_directory_refuted.
Theorem C63_experiment_directory_refuted : forall name, In name (map fst (ensemble_files (N := QNum) "ptc" "/tmp/o/" [] [] 1 [(3%nat, 0%Q)])) -> ~ exists rest, name = "/tmp/o/" ++ rest.
Proof. exact experiment_ignores. Qed.
Print Assumptions C63_experiment_directory_refuted.
(** False: after a restart the .pvd file describes the whole simulation. *)
Theorem C63_restart_pvd_complete_refuted : let first := run_files 1 (mkpost (N := QNum) "ptc" "" []) [(0%nat, 0%Q); (5%nat, (1 # 2)%Q)] false in
  let second := run_files 1 (mkpost (N := QNum) "ptc" "" []) [(5%nat, (1 # 2)%Q); (10%nat, 1%Q)] true in
  lookup "ptc.0.0.vtu" (first ++ second)%list = Some (Vtu (N := QNum) 0%Q) /\ lookup "ptc.0.pvtu" (first ++ second)%list = Some (Pvtu (N := QNum) ["ptc.0.0.vtu"]) /\
  lookup "ptc.pvd" (first ++ second)%list = Some (Pvd (N := QNum) [((1 # 2)%Q, "ptc.5.pvtu"); (1%Q, "ptc.10.pvtu")]).
Proof. exact restart_forgets. Qed.
Print Assumptions C63_restart_pvd_complete_refuted.
Example C63_example_names : map fst (run_files 2 (mkpost (N := QNum) "ptc" "" []) [(0%nat, 0%Q); (7%nat, 1%Q)] true) =
  ["ptc.0.0.vtu"; "ptc.0.pvtu"; "ptc.7.0.vtu"; "ptc.7.pvtu"; "ptc.pvd"; "ptc.0.1.vtu"; "ptc.7.1.vtu"]. Proof. exact ex_names. Qed.
Example C63_example_ensemble : map fst (ensemble_files (N := QNum) "e" "" [(0%nat, 1%nat); (1%nat, 1%nat)] [(0%nat, 0%Q)] 1 [(3%nat, 0%Q)]) =
  ["e_m0.0.0.vtu"; "e_m0.0.pvtu"; "e_m0.pvd"; "e_m1.0.0.vtu"; "e_m1.0.pvtu"; "e_m1.pvd"; "e.expt.3.0.vtu"; "e.expt.3.pvtu"]. Proof. exact ex_ensemble. Qed.
Example C63_example_pvtu : NoDup (map fst ex_outs) /\ lookup "/tmp/o/ptc.5.pvtu" (run_files 2 (mkpost (N := QNum) "ptc" "/tmp/o/" []) ex_outs true) = Some (Pvtu (N := QNum) ["ptc.5.0.vtu"; "ptc.5.1.vtu"]).
Proof. exact (conj ex_outs_distinct ex_pvtu). Qed.
Example C63_example_pvd : lookup "/tmp/o/ptc.pvd" (run_files 2 (mkpost (N := QNum) "ptc" "/tmp/o/" []) ex_outs true) = Some (Pvd (N := QNum) [(0%Q, "/tmp/o/ptc.0.pvtu"); ((1 # 2)%Q, "/tmp/o/ptc.5.pvtu"); (1%Q, "/tmp/o/ptc.10.pvtu")]).
Proof. exact ex_pvd. Qed.
Example C63_example_option : option_dir "/home/u" "results" = Some "/home/u/results/" /\ option_dir "/" "r" = Some "/r/" /\ option_dir "/home/u" "/tmp" = Some "/tmp/". Proof. exact ex_option. Qed.
Example C63_example_paths : ends_with_slash "/tmp/o/" /\ no_slash "ptc" /\ absolute "/tmp/o/ptc" /\ resolves "/tmp/o/ptc.5.pvtu" "ptc.5.0.vtu" "/tmp/o/ptc.5.0.vtu". Proof. exact ex_slash. Qed.

(** * C64 *)
(** All the entries of the strain are written, whatever was in the vector. *)
Theorem C64_strain : forall (N : Num) dim (g : nat -> nat -> N) (out : list N), List.length out = (dim * dim)%nat ->
  exists v, strain_point dim g out = Ok v /\ List.length v = (dim * dim)%nat /\
  forall j k, (j < dim)%nat -> (k < dim)%nat -> entry dim v j k = Some (ndiv N (nadd N (g j k) (g k j)) (nofZ N 2)).
Proof. exact @strain_ok. Qed.
Print Assumptions C64_strain.
(** Symmetric; nothing for a linearised rotation; the gradient itself when it is symmetric. *)
Theorem C64_strain_exact : forall dim (g : nat -> nat -> R) (out : list R), List.length out = (dim * dim)%nat ->
  exists v : list R, strain_point (N := RNum) dim g out = Ok v /\ (forall j k, (j < dim)%nat -> (k < dim)%nat -> entry dim v j k = entry dim v k j) /\
  ((forall j k, g j k = (- g k j)%R) -> forall x, In x v -> x = 0%R) /\
  ((forall j k, g j k = g k j) -> forall j k, (j < dim)%nat -> (k < dim)%nat -> entry dim v j k = Some (g j k)).
Proof. exact strain_R. Qed.
Print Assumptions C64_strain_exact.
Theorem C64_strain_symmetric_binary64 : forall dim (g : nat -> nat -> float) out v, strain_point (N := FNum) dim g out = Ok v -> List.length out = (dim * dim)%nat ->
  forall j k, (j < dim)%nat -> (k < dim)%nat -> entry dim v j k = entry dim v k j.
Proof. exact strain_symmetric_F. Qed.
Print Assumptions C64_strain_symmetric_binary64.
(** The ratios of the owned cells, in the numbering of the material; nothing for the other cells and for the states that do not exist. *)
Theorem C64_material : forall (N : Num) n_states (state : nat -> nat -> N) cells, NoDup (map snd (filter fst cells)) ->
  exists v, material_dataout n_states state (dofs_map_from 0 cells) cells = Ok v /\ List.length v = List.length cells /\
  forall k, (forall d, nth_error cells k = Some (false, d) -> nth_error v k = Some (nofZ N 0, nofZ N 0, nofZ N 0)) /\
            (forall d, nth_error cells k = Some (true, d) -> nth_error v k = Some (if Nat.ltb 2 n_states then state 2%nat (owned_before cells k) else nofZ N 0, if Nat.ltb 1 n_states then state 1%nat (owned_before cells k) else nofZ N 0, state 0%nat (owned_before cells k))).
Proof. exact @material_numbered. Qed.
Print Assumptions C64_material.
Theorem C64_material_sum : forall (state : nat -> nat -> R) cells, NoDup (map snd (filter fst cells)) -> (forall i, (state 0%nat i + state 1%nat i + state 2%nat i = 1)%R) ->
  exists v : list (R * R * R), material_dataout (N := RNum) 3 state (dofs_map_from 0 cells) cells = Ok v /\
  forall k b d p l s, nth_error cells k = Some (b, d) -> nth_error v k = Some (p, l, s) -> (p + l + s)%R = if b then 1%R else 0%R.
Proof. exact material_sum. Qed.
Print Assumptions C64_material_sum.
(** Out of date numbering: an exception, exactly when an owned cell is missing. *)
Theorem C64_material_throws : forall (N : Num) n_states (state : nat -> nat -> N) m cells, material_dataout n_states state m cells = Throw <-> exists d, In (true, d) cells /\ ~ In d (map fst m).
Proof. exact @material_throw. Qed.
Print Assumptions C64_material_throws.
Example C64_example_strain : strain_point (N := QNum) 2 (fun j k => match j, k with 0%nat, 0%nat => 1%Q | 0%nat, _ => 3%Q | _, 0%nat => (-1)%Q | _, _ => 4%Q end) [9%Q; 9%Q; 9%Q; 9%Q] = Ok [1; 1; 1; 4]%Q.
Proof. exact ex_strain. Qed.
Example C64_example_short : strain_point (N := QNum) 2 (fun _ _ => 1%Q) [0%Q; 0%Q; 0%Q] = UB. Proof. exact strain_short. Qed.
Example C64_example_material : NoDup (map snd (filter fst ex_cells)) /\ material_dataout (N := QNum) 3 ex_state (dofs_map_from 0 ex_cells) ex_cells = Ok [(0, 0, 1); (0, 0, 0); (3 # 4, 1 # 4, 0)]%Q.
Proof. exact (conj ex_cells_distinct ex_material). Qed.
Example C64_example_throw : material_dataout (N := QNum) 3 ex_state [(7%nat, 0%nat)] ex_cells = Throw. Proof. exact ex_material_throw. Qed.
