(** CellProperties.v -- C41, C42, C43, C58.  Only statements, witnesses and assumptions. *)
From Coq Require Import Reals ZArith QArith Bool List Floats Lra.
From Verif Require Import Base BaseFacts ScanPathModel HeatSourceModel HeatSourceSpec HeatSourceProofs2 AssimilationSpec CellModel CellSpec CellProofs5 CellProofs6 CellProofs7 RefineModel RefineSpec MeltedSpec RefineProofs CellExamples.
Import ListNotations.

(** ** C41.  Activation succeeds, and the arrays of every process fit the new mesh. *)
Theorem C41_succeeds : forall n_dofs n_states w elements cs sn first last new_owner node_owner temperature,
  activation_input n_dofs n_states w elements cs sn last new_owner node_owner ->
  exists w' flags, add_material n_dofs n_states w elements cs sn first last new_owner node_owner temperature = Ok (w', flags) /\
    CellSpec.well_formed n_dofs n_states w' /\ n_ranks w' = n_ranks w.
Proof. exact run_ok. Qed.
Print Assumptions C41_succeeds.
(** Exactly the cells of the boxes of the window are activated. *)
Theorem C41_activates_exactly : forall n_dofs n_states w elements cs sn first last new_owner node_owner temperature,
  activation_input n_dofs n_states w elements cs sn last new_owner node_owner -> forall w' flags,
  add_material n_dofs n_states w elements cs sn first last new_owner node_owner temperature = Ok (w', flags) ->
  forall pos c, nth_error (w_cells w) pos = Some c ->
    exists c', nth_error (w_cells w') pos = Some c' /\ c_nodes c' = c_nodes c /\ c_owner c' = new_owner pos /\
      (c_active c' = true <-> c_active c = true \/ exists i, (first <= i < last)%nat /\ box_has w elements i pos).
Proof. exact cells_after. Qed.
Print Assumptions C41_activates_exactly.
Theorem C41_state_kept : forall n_dofs n_states w elements cs sn first last new_owner node_owner temperature,
  activation_input n_dofs n_states w elements cs sn last new_owner node_owner -> forall w' flags,
  add_material n_dofs n_states w elements cs sn first last new_owner node_owner temperature = Ok (w', flags) ->
  forall pos, cell_state w' pos = cell_state w pos.
Proof. exact state_kept. Qed.
Print Assumptions C41_state_kept.
Theorem C41_history_kept : forall n_dofs n_states w elements cs sn first last new_owner node_owner temperature,
  activation_input n_dofs n_states w elements cs sn last new_owner node_owner -> forall w' flags,
  add_material n_dofs n_states w elements cs sn first last new_owner node_owner temperature = Ok (w', flags) ->
  forall pos, has_material w pos -> cell_cos w' pos = cell_cos w pos /\ cell_sin w' pos = cell_sin w pos /\ cell_melted w' pos = cell_melted w pos /\ cell_cos w pos <> None.
Proof. exact history_kept. Qed.
Print Assumptions C41_history_kept.
(** A new cell takes the direction of the last box of the window that meets it. *)
Theorem C41_new_direction : forall n_dofs n_states w elements cs sn first last new_owner node_owner temperature,
  activation_input n_dofs n_states w elements cs sn last new_owner node_owner -> forall w' flags,
  add_material n_dofs n_states w elements cs sn first last new_owner node_owner temperature = Ok (w', flags) ->
  forall pos c i, nth_error (w_cells w) pos = Some c -> c_active c = false -> last_box w elements first last i pos ->
    cell_cos w' pos = nth_error cs i /\ cell_sin w' pos = nth_error sn i /\ cell_melted w' pos = Some true /\ nth_error cs i <> None.
Proof. exact new_history. Qed.
Print Assumptions C41_new_direction.
(** Temperatures: a node of an old cell keeps its value if a process that holds an old cell at the node also owns the node. *)
Theorem C41_temperature_kept : forall n_dofs n_states w elements cs sn first last new_owner node_owner temperature,
  activation_input n_dofs n_states w elements cs sn last new_owner node_owner -> forall w' flags,
  add_material n_dofs n_states w elements cs sn first last new_owner node_owner temperature = Ok (w', flags) ->
  forall m pos c m0, nth_error (w_cells w) pos = Some c -> c_active c = true -> In m (c_nodes c) -> new_owner pos = node_owner m ->
    nth_error (c_nodes c) 0 = Some m0 -> PrimFloat.eqb (w_sol w m0) infinity = false -> w_sol w' m = w_sol w m.
Proof. exact temperature_kept. Qed.
Print Assumptions C41_temperature_kept.
Theorem C41_temperature_serial : forall n_dofs n_states w elements cs sn first last new_owner node_owner temperature,
  activation_input n_dofs n_states w elements cs sn last new_owner node_owner -> forall w' flags,
  add_material n_dofs n_states w elements cs sn first last new_owner node_owner temperature = Ok (w', flags) ->
  forall m pos, n_ranks w = 1%nat -> finite_temperature w -> has_material w pos -> node_of w pos m -> w_sol w' m = w_sol w m.
Proof. exact serial_temperature. Qed.
Print Assumptions C41_temperature_serial.
Theorem C41_temperature_new : forall n_dofs n_states w elements cs sn first last new_owner node_owner temperature,
  activation_input n_dofs n_states w elements cs sn last new_owner node_owner -> forall w' flags,
  add_material n_dofs n_states w elements cs sn first last new_owner node_owner temperature = Ok (w', flags) ->
  forall m, (forall pos c, nth_error (w_cells w) pos = Some c -> c_active c = true -> In m (c_nodes c) -> new_owner pos <> node_owner m) -> w_sol w' m = temperature.
Proof. exact temperature_new. Qed.
Print Assumptions C41_temperature_new.
(** The flags per box handed back to the caller. *)
Theorem C41_box_flags : forall n_dofs n_states w elements cs sn first last new_owner node_owner temperature w' flags r i,
  activation_input n_dofs n_states w elements cs sn last new_owner node_owner ->
  add_material n_dofs n_states w elements cs sn first last new_owner node_owner temperature = Ok (w', flags) ->
  (r < n_ranks w)%nat -> (i < List.length cs)%nat ->
  exists fl b, nth_error flags r = Some fl /\ nth_error fl i = Some b /\
    (b = true <-> (first <= i < last)%nat /\ exists pos c, nth_error (w_cells w) pos = Some c /\ c_owner c = r /\ c_active c = false /\ box_has w elements i pos).
Proof. exact flags_spec. Qed.
Print Assumptions C41_box_flags.
(** On several processes an old temperature can be lost ... *)
Theorem C41_parallel_refuted : exists n_dofs n_states w elements cs sn first last new_owner node_owner temperature w' flags pos m,
  activation_input n_dofs n_states w elements cs sn last new_owner node_owner /\ finite_temperature w /\
  add_material n_dofs n_states w elements cs sn first last new_owner node_owner temperature = Ok (w', flags) /\
  lowest_owner w' node_owner /\ has_material w pos /\ node_of w pos m /\ w_sol w' m <> w_sol w m.
Proof. exact interface_lost. Qed.
Print Assumptions C41_parallel_refuted.
(** ... and deposited material does not start as never melted (the comment at adamantine.hh:1169). *)
Theorem C41_unmelted_refuted : exists w' flags c,
  add_material 2 1 one_world [[[0]; [0; 1]]]%nat [0x1p0%float; 0%float] [0%float; 0x1p0%float] 0 2 (fun _ => 0%nat) (fun _ => 0%nat) 0x1.f4p9%float = Ok (w', flags) /\
  nth_error (w_cells one_world) 0 = Some c /\ c_active c = false /\ cell_melted w' 0 = Some true.
Proof. exact deposited_melted. Qed.
Print Assumptions C41_unmelted_refuted.
Example C41_witness : activation_input 2 1 one_world [[[0]; [0; 1]]]%nat [0x1p0%float; 0%float] [0%float; 0x1p0%float] 2 (fun _ => 0%nat) (fun _ => 0%nat) /\
  finite_temperature one_world /\ has_material one_world 1 /\ node_of one_world 1 1 /\ last_box one_world [[[0]; [0; 1]]]%nat 0 2 1 0.
Proof. exact (conj one_input (conj (proj1 one_finite) (conj (proj1 (proj2 one_finite)) (conj (proj2 (proj2 one_finite)) one_last)))). Qed.
Example C41_witness_parallel : activation_input 2 1 two_world two_elements [0x1p0%float] [0%float] 1 id_owner lower.
Proof. exact two_input. Qed.

(** ** C42.  Saving and loading, on any number of processes with any distribution of the cells. *)
Theorem C42_round_trip : forall n_dofs n_states w n' owner,
  CellSpec.well_formed n_dofs n_states w -> (forall pos, (pos < List.length (w_cells w))%nat -> (owner pos < n')%nat) ->
  exists cp w', save_checkpoint n_states w = Ok cp /\ load_checkpoint n_states n' owner cp = Ok w' /\ CellSpec.well_formed n_dofs n_states w' /\ n_ranks w' = n' /\
    List.length (w_cells w') = List.length (w_cells w) /\
    (forall pos c, nth_error (w_cells w) pos = Some c -> exists c', nth_error (w_cells w') pos = Some c' /\ c_nodes c' = c_nodes c /\ c_active c' = c_active c /\ c_owner c' = owner pos) /\
    (forall pos, cell_state w' pos = cell_state w pos) /\
    (forall pos, has_material w pos -> cell_cos w' pos = cell_cos w pos /\ cell_sin w' pos = cell_sin w pos /\ cell_melted w' pos = cell_melted w pos) /\
    w_sol w' = w_sol w.
Proof. exact checkpoint_round_trip. Qed.
Print Assumptions C42_round_trip.
Example C42_witness : CellSpec.well_formed 2 1 two_world /\ exists cp w', save_checkpoint 1 two_world = Ok cp /\ load_checkpoint 1 1 (fun _ => 0%nat) cp = Ok w' /\ n_ranks two_world = 2%nat /\ n_ranks w' = 1%nat.
Proof. split; [exact two_wf|]. eexists _, _. split; [vm_compute; reflexivity|]. split; [vm_compute; reflexivity|]. split; reflexivity. Qed.
(** The state that is saved is the one of the time step when the mechanical problem is solved in that step ... *)
Theorem C42_current : forall (St : Type) (cfg : sync_config) factor, sy_mechanical cfg = Some factor ->
  forall (steps : list (bool * bool * St)) n s m x, In (m, x) (saved (sync_run cfg n steps s)) -> In (m, x) (saved s) \/
    ((n <= m < n + List.length steps)%nat /\
     (divides factor m || divides (sy_output cfg) m = true -> exists r a, nth_error steps (m - n) = Some (r, a, x))).
Proof. exact @current_with_mechanics. Qed.
Print Assumptions C42_current.
Theorem C42_saved : forall (St : Type) (cfg : sync_config) (steps : list (bool * bool * St)) n s m,
  (n <= m < n + List.length steps)%nat -> divides (sy_checkpoint cfg) m = true -> exists x, In (m, x) (saved (sync_run cfg n steps s)).
Proof. exact @checkpoint_saved. Qed.
Print Assumptions C42_saved.
(** ... but without mechanics it is that of the last output, refinement or activation, however many steps ago. *)
Theorem C42_stale : forall (St : Type) (cfg : sync_config), sy_mechanical cfg = None -> forall (steps : list (bool * bool * St)) n s,
  quiet steps -> (forall m, (n <= m < n + List.length steps)%nat -> divides (sy_output cfg) m = false) ->
  mp_state (sync_run cfg n steps s) = mp_state s /\ forall m x, In (m, x) (saved (sync_run cfg n steps s)) -> In (m, x) (saved s) \/ x = mp_state s.
Proof. exact @stale_without_mechanics. Qed.
Print Assumptions C42_stale.
Theorem C42_current_refuted : exists (cfg : sync_config) (steps : list (bool * bool * Z)) (s : sync_state Z),
  sy_mechanical cfg = None /\ op_state s = mp_state s /\ nth_error steps 2 = Some (false, false, 3%Z) /\
  In (3%nat, 0%Z) (saved (sync_run cfg 1 steps s)) /\ op_state (sync_run cfg 1 steps s) = 3%Z.
Proof. exact stale_checkpoint. Qed.
Print Assumptions C42_current_refuted.
Theorem C42_current_mechanics_refuted : exists (cfg : sync_config) (steps : list (bool * bool * Z)) (s : sync_state Z),
  sy_mechanical cfg = Some 2%nat /\ op_state s = mp_state s /\
  In (3%nat, 2%Z) (saved (sync_run cfg 1 steps s)) /\ op_state (sync_run cfg 1 steps s) = 3%Z.
Proof. exact stale_with_mechanics. Qed.
Print Assumptions C42_current_mechanics_refuted.

(** ** C43.  Melted flags, in any arithmetic (so in binary64, with NaN averages, too). *)
Theorem C43_history : forall (N : Num) (threshold : N) (fields : list (list N)) (flags : list bool),
  (forall f, In f fields -> List.length f = List.length flags) ->
  exists fl, mark_history threshold fields flags = Ok fl /\ List.length fl = List.length flags /\
    forall k b, nth_error flags k = Some b ->
      exists b', nth_error fl k = Some b' /\ (b' = true <-> b = true \/ exists f t, In f fields /\ nth_error f k = Some t /\ nltb N threshold t = true).
Proof. exact @history. Qed.
Print Assumptions C43_history.
Theorem C43_missing_flags : forall (N : Num) (threshold : N) averages flags, (List.length flags < List.length averages)%nat -> mark_melted threshold averages flags = UB.
Proof. exact @mark_short. Qed.
Print Assumptions C43_missing_flags.
(** The temperature that is compared is the mean of the field over the cell, and lies between its extremes. *)
Theorem C43_average_is_mean : forall (shape : list (list R)) (jxw values : list R),
  List.length shape = List.length values -> (forall row, In row shape -> List.length row = List.length jxw) ->
  (forall q, (q < List.length jxw)%nat -> Rsum_to (List.length values) (fun i => shape_at shape i q) = 1%R) ->
  cell_average (N := RNum) shape jxw values = quadrature_mean shape jxw values.
Proof. exact average_is_mean. Qed.
Print Assumptions C43_average_is_mean.
Theorem C43_average_bounds : forall (shape : list (list R)) (jxw values : list R) (a b : R),
  (forall row, In row shape -> (0 <= node_weight jxw row)%R) -> (0 < Rsum (map (fun sv => node_weight jxw (fst sv)) (combine shape values)))%R ->
  (forall x, In x values -> (a <= x <= b)%R) -> (a <= cell_average (N := RNum) shape jxw values <= b)%R.
Proof. exact average_bounds. Qed.
Print Assumptions C43_average_bounds.
(** The run compares every cell with the solidus of the first material. *)
Theorem C43_material_refuted : exists (solidus : list Q) (initial : Q) (materials : list nat) (averages : list Q) (flags : list bool) s,
  List.length materials = List.length averages /\ nth_error materials 0 = Some 1%nat /\ nth_error solidus 1 = Some s /\
  nth_error flags 0 = Some false /\ (nth 0 averages 0 < s)%Q /\
  run_mark_melted (N := QNum) (reference_temperatures (N := QNum) solidus initial) averages flags = Ok [true].
Proof. exact wrong_solidus. Qed.
Print Assumptions C43_material_refuted.
Theorem C43_missed_refuted : exists (solidus : list Q) (initial : Q) (materials : list nat) (averages : list Q) (flags : list bool) s,
  List.length materials = List.length averages /\ nth_error materials 0 = Some 1%nat /\ nth_error solidus 1 = Some s /\
  nth_error flags 0 = Some false /\ (s < nth 0 averages 0)%Q /\
  run_mark_melted (N := QNum) (reference_temperatures (N := QNum) solidus initial) averages flags = Ok [false].
Proof. exact wrong_solidus_missed. Qed.
Print Assumptions C43_missed_refuted.
Example C43_witness : mark_history (N := QNum) 10%Q [[5%Q; 20%Q; 1%Q]; [6%Q; 3%Q; 1%Q]] [false; false; true] = Ok [false; true; true].
Proof. vm_compute; reflexivity. Qed.
Example C43_witness_mean : List.length lin_shape = 2%nat /\ (forall row, In row lin_shape -> List.length row = 2%nat) /\
  (forall q, (q < 2)%nat -> Rsum_to 2 (fun i => shape_at lin_shape i q) = 1%R) /\
  (forall row, In row lin_shape -> (0 <= node_weight [1/2; 1/2]%R row)%R).
Proof. exact lin_ok. Qed.

(** ** C58.  Flags: refined exactly the cells below the finest level that meet a source at a sampled time; coarsened (if asked
    for) exactly the refined cells that meet none. *)
Theorem C58_flags : forall d cells time next n sources n_refinements coarsen_after_beam l,
  compute_cells_to_refine d cells time next n sources = Ok l ->
  exists fl, refine_mesh_flags d cells time next n sources n_refinements coarsen_after_beam = Ok fl /\ List.length fl = List.length cells /\
    forall pos bx lev, nth_error cells pos = Some (bx, lev) ->
      exists r c, nth_error fl pos = Some (r, c) /\
        (r = true <-> (lev < n_refinements)%nat /\ meets d sources time next n (bx, lev)) /\
        (c = true <-> coarsen_after_beam = true /\ (0 < lev)%nat /\ ~ meets d sources time next n (bx, lev)).
Proof. exact flags_result. Qed.
Print Assumptions C58_flags.
Theorem C58_intersects : forall d (a b : box), HeatSourceSpec.well_formed d a -> HeatSourceSpec.well_formed d b ->
  intersects d a b = true <-> exists p, in_box d a p /\ in_box d b p.
Proof. exact intersects_spec. Qed.
Print Assumptions C58_intersects.
Theorem C58_beam_met : forall d sources time next n i b sp c sp' (bx : box) lev p, In (Beam b sp) sources -> (d = true -> sp_five_axis sp = false) ->
  (0 <= b_radius b)%R -> (0 <= b_depth b)%R -> HeatSourceSpec.well_formed d bx ->
  (i < n)%nat -> value sp (sample_time time next n i) false = Ok (c, sp') ->
  in_scaled_beam d (b_radius b) (b_depth b) 2 c p -> in_box d bx p -> meets d sources time next n (bx, lev).
Proof. exact beam_met. Qed.
Print Assumptions C58_beam_met.
Theorem C58_samples : forall time next n, (0 < n)%nat -> (time < next)%R ->
  sample_time time next n 0 = time /\
  (forall i, (sample_time time next n (S i) - sample_time time next n i = (next - time) / INR n)%R) /\
  (forall i, (i < n)%nat -> (time <= sample_time time next n i < next)%R).
Proof. exact samples. Qed.
Print Assumptions C58_samples.
Theorem C58_samples_are_steps : forall time dt n i, (0 < n)%nat -> sample_time time (next_refinement_time time dt n) n i = (time + INR i * dt)%R.
Proof. exact samples_are_steps. Qed.
Print Assumptions C58_samples_are_steps.
(** A cell the beam passes over between two samples is not refined. *)
Theorem C58_between_samples_refuted : exists (b : beam) (sp : scan_path RNum) (bx : box),
  good_beam b /\ HeatSourceSpec.well_formed true bx /\
  (exists t c, (0 <= t < next_refinement_time 0 1 1)%R /\ value sp t false = Ok (c, sp) /\ in_box true bx c) /\
  refine_mesh_flags true [(bx, O)] 0 (next_refinement_time 0 1 1) 1 [Beam b sp] 3 false = Ok [(false, false)].
Proof. exact between_samples. Qed.
Print Assumptions C58_between_samples_refuted.
(** Cell data: every new cell gets the data of the cell it comes from. *)
Theorem C58_transfer : forall n_dofs n_dofs' n_states w mesh sol, CellSpec.well_formed n_dofs n_states w ->
  (forall o c, In (o, c) mesh -> (source o < List.length (w_cells w))%nat /\ (c_owner c < n_ranks w)%nat /\ List.length (c_nodes c) = n_dofs') ->
  exists w', refine_and_transfer n_states w mesh sol = Ok w' /\ CellSpec.well_formed n_dofs' n_states w' /\ w_cells w' = map snd mesh /\ w_sol w' = sol /\
    (forall pos o c, nth_error mesh pos = Some (o, c) ->
       cell_state w' pos = cell_state w (source o) /\
       (c_active c = true -> has_material w (source o) ->
          cell_cos w' pos = cell_cos w (source o) /\ cell_sin w' pos = cell_sin w (source o) /\ cell_melted w' pos = cell_melted w (source o)) /\
       (c_active c = true -> ~ has_material w (source o) -> cell_cos w' pos = Some infinity /\ cell_sin w' pos = Some infinity /\ cell_melted w' pos = Some true)).
Proof. exact refine_result. Qed.
Print Assumptions C58_transfer.
(** Coarsening keeps the data of the first child only. *)
Theorem C58_coarsening_refuted : exists n_states w mesh sol w' first others child c, CellSpec.well_formed 2 n_states w /\
  refine_and_transfer n_states w mesh sol = Ok w' /\ nth_error mesh 0 = Some (Coarsened first others, c) /\ In child others /\
  cell_state w' 0 <> cell_state w child /\ cell_melted w child = Some true /\ cell_melted w' 0 = Some false.
Proof. exact coarsening_forgets. Qed.
Print Assumptions C58_coarsening_refuted.
Example C58_witness : CellSpec.well_formed 2 1 siblings /\
  forall o c, In (o, c) merged -> (source o < List.length (w_cells siblings))%nat /\ (c_owner c < n_ranks siblings)%nat /\ List.length (c_nodes c) = 2%nat.
Proof. exact (conj siblings_wf merged_ok). Qed.
Example C58_witness_beam : exists c, value (still false None) (sample_time 0 (next_refinement_time 0 (1/2) 2) 2 1) false = Ok (c, still false None) /\
  in_scaled_beam true (b_radius unit_beam) (b_depth unit_beam) 2 c c.
Proof.
  exists (P0 0 0 0). split.
  - apply still_value. rewrite samples_are_steps by auto. cbn. split; Lra.lra.
  - unfold in_scaled_beam, height, P0, unit_beam, set_from_database; cbn. rewrite Rminus_diag_eq, Rabs_R0 by reflexivity. repeat split; intros; Lra.lra.
Qed.
