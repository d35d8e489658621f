(** MechProperties.v -- C44-C48, C59, C60.  Only statements, witnesses and assumptions. *)
From Coq Require Import Reals ZArith QArith Bool List Floats Lia Lra.
From Verif Require Import Base BaseFacts CellModel AssimilationSpec StressModel StressSpec StressProofs StressProofs2 MechModel MechSpec MechProofs MechProofs2 MechProofs3 MechProofs4 ElementModel ElementSpec ElementProofs ElementProofs2 MechExamples.
Import ListNotations.
Local Open Scope R_scope.

(** ** C44.  The trial stress is the old stress plus Hooke's law applied to the strain increment; the effective stress is the
    deviator minus the back stress. *)
Theorem C44_trial_stress : forall d o (m : plasticity RNum) s e, regular d o s -> shaped d o e ->
  (forall i, (i < d)%nat -> diagonal (trial m s e) i = diagonal (p_stress s) i + lame1 m * tr e + 2 * lame2 m * diagonal e i) /\
  (forall i, (i < o)%nat -> shear (trial m s e) i = shear (p_stress s) i + 2 * lame2 m * shear e i).
Proof. exact trial_entries. Qed.
Print Assumptions C44_trial_stress.
Theorem C44_effective_stress : forall d o (s : point RNum) a, shaped d o a -> shaped d o (p_back s) ->
  (forall i, (i < d)%nat -> diagonal (effective s a) i = diagonal a i - tr a / INR d - diagonal (p_back s) i) /\
  (forall i, (i < o)%nat -> shear (effective s a) i = shear a i - shear (p_back s) i).
Proof. exact effective_entries. Qed.
Print Assumptions C44_effective_stress.
(** Below the yield limit the trial stress is kept; otherwise the stress returns along the effective stress. *)
Theorem C44_elastic : forall (m : plasticity RNum) s e, magnitude (effective s (trial m s e)) < p_yield s ->
  update_point m s e = mkpoint (trial m s e) (p_back s) (p_yield s).
Proof. exact elastic_case. Qed.
Print Assumptions C44_elastic.
Theorem C44_radial_return : forall d o (m : plasticity RNum) s e, regular d o s -> shaped d o e ->
  let xi := effective s (trial m s e) in
  let gamma := (magnitude xi - p_yield s) / (2 * lame2 m + plastic_modulus m) in
  let s' := update_point m s e in
  p_yield s <= magnitude xi ->
  (forall i, (i < d)%nat -> diagonal (p_stress s') i = diagonal (trial m s e) i - 2 * lame2 m * gamma * (diagonal xi i / magnitude xi) /\
                            diagonal (p_back s') i = diagonal (p_back s) i + (1 - iso_hardening m) * (plastic_modulus m * plastic_modulus m) * (diagonal xi i / magnitude xi)) /\
  (forall i, (i < o)%nat -> shear (p_stress s') i = shear (trial m s e) i - 2 * lame2 m * gamma * (shear xi i / magnitude xi) /\
                            shear (p_back s') i = shear (p_back s) i + (1 - iso_hardening m) * (plastic_modulus m * plastic_modulus m) * (shear xi i / magnitude xi)) /\
  p_yield s' = p_yield s + iso_hardening m * plastic_modulus m * gamma.
Proof. exact plastic_entries. Qed.
Print Assumptions C44_radial_return.
Example C44_elastic_case : magnitude (effective (rest 1) (trial (mat 1 1) (rest 1) (pull (1 / 8)))) < p_yield (rest 1).
Proof. rewrite pull_effective by lra. cbn. lra. Qed.
Example C44_plastic_case : physical (mat 1 1) /\ regular 3 3 (rest 1) /\ shaped 3 3 (pull 1) /\ p_yield (rest 1) <= magnitude (effective (rest 1) (trial (mat 1 1) (rest 1) (pull 1))).
Proof. split; [apply mat_physical; lra|]. split; [apply rest_regular; lra|]. split; [apply pull_shaped|]. rewrite pull_effective by lra. cbn. lra. Qed.
(** Plasticity leaves the volumetric stress alone and the yield limit never shrinks, along every strain path. *)
Theorem C44_volume_untouched : forall d o (m : plasticity RNum), (0 < d)%nat -> physical m -> forall path s, regular d o s -> Forall (shaped d o) path ->
  tr (p_stress (strain_path m s path)) = tr (p_stress s) + (INR d * lame1 m + 2 * lame2 m) * Rsum (map tr path).
Proof. exact path_volume. Qed.
Print Assumptions C44_volume_untouched.
Theorem C44_yield_monotone : forall d o (m : plasticity RNum), (0 < d)%nat -> physical m -> forall path s, regular d o s -> Forall (shaped d o) path ->
  p_yield s <= p_yield (strain_path m s path).
Proof. exact path_yield. Qed.
Print Assumptions C44_yield_monotone.
Theorem C44_stays_regular : forall d o (m : plasticity RNum), (0 < d)%nat -> physical m -> forall path s, regular d o s -> Forall (shaped d o) path ->
  regular d o (strain_path m s path).
Proof. exact path_regular. Qed.
Print Assumptions C44_stays_regular.
(** With isotropic hardening every update ends on or inside the yield surface. *)
Theorem C44_isotropic_admissible : forall d o (m : plasticity RNum), (0 < d)%nat -> physical m -> forall path s, iso_hardening m = 1 ->
  regular d o s -> Forall (shaped d o) path -> path <> [] -> admissible (strain_path m s path).
Proof. exact path_admissible. Qed.
Print Assumptions C44_isotropic_admissible.
Example C44_path_case : physical (mat 1 1) /\ iso_hardening (mat 1 1) = 1 /\ regular 3 3 (rest 1) /\ Forall (shaped 3 3) [pull 1; pull (1 / 8); pull 2].
Proof. split; [apply mat_physical; lra|]. split; [reflexivity|]. split; [apply rest_regular; lra|]. repeat constructor. Qed.
(** With kinematic hardening this is so exactly under a condition on the increment, and it can fail. *)
Theorem C44_kinematic_condition : forall d o (m : plasticity RNum) s e, (0 < d)%nat -> physical m -> regular d o s -> shaped d o e ->
  iso_hardening m < 1 -> 0 < plastic_modulus m -> p_yield s <= magnitude (effective s (trial m s e)) ->
  let gamma := (magnitude (effective s (trial m s e)) - p_yield s) / (2 * lame2 m + plastic_modulus m) in
  admissible (update_point m s e) <->
  gamma <= plastic_modulus m /\ (1 - iso_hardening m) * plastic_modulus m * (plastic_modulus m - gamma) <= 2 * p_yield (update_point m s e).
Proof. exact kinematic_iff. Qed.
Print Assumptions C44_kinematic_condition.
Example C44_kinematic_case : physical (mat 1 0) /\ regular 3 3 (rest 1) /\ shaped 3 3 (pull (1 / 2)) /\ iso_hardening (mat 1 0) < 1 /\ 0 < plastic_modulus (mat 1 0) /\
  p_yield (rest 1) <= magnitude (effective (rest 1) (trial (mat 1 0) (rest 1) (pull (1 / 2)))).
Proof. split; [apply mat_physical; lra|]. split; [apply rest_regular; lra|]. split; [apply pull_shaped|]. split; [cbn; lra|]. split; [cbn; lra|]. rewrite pull_effective by lra. cbn. lra. Qed.
Theorem C44_kinematic_admissible_refuted : ~ (forall d o (m : plasticity RNum) s e, (0 < d)%nat -> physical m -> regular d o s -> shaped d o e -> admissible (update_point m s e)).
Proof.
  intros H. apply kinematic_bad. apply (H 3%nat 3%nat (mat 10 0) (rest 1) (pull (13 / 4))); [lia| apply mat_physical; lra| apply rest_regular; lra| apply pull_shaped].
Qed.
Print Assumptions C44_kinematic_admissible_refuted.
(** A material with elastic limit zero: the first update without any strain gives a stress that is not a number. *)
Theorem C44_zero_limit_refuted : let z := mksym (N := FNum) [0; 0; 0]%float [0; 0; 0]%float in
  map PrimFloat.is_nan (dg (p_stress (update_point (mkplast (N := FNum) 0x1p0 0x1p0 0x1p0 0x1p0)%float (mkpoint (N := FNum) z z 0%float) z))) = [true; true; true].
Proof. vm_compute. reflexivity. Qed.
Print Assumptions C44_zero_limit_refuted.
(** On a process exactly the points of the active cells are updated, each with its own strain. *)
Theorem C44_cells : forall (cells : list (mech_cell RNum)) vars,
  List.length vars = List.length cells ->
  (forall i c v, nth_error cells i = Some c -> nth_error vars i = Some v -> mc_active c = true -> (List.length (mc_strain c) <= List.length v)%nat) ->
  exists vars', compute_stress cells vars = Ok vars' /\ List.length vars' = List.length vars /\
    (forall i c, nth_error cells i = Some c -> mc_active c = false -> nth_error vars' i = nth_error vars i) /\
    (forall i c v v', nth_error cells i = Some c -> mc_active c = true -> nth_error vars i = Some v -> nth_error vars' i = Some v' ->
       List.length v' = List.length v /\
       forall q p, nth_error v q = Some p -> nth_error v' q = Some (match nth_error (mc_strain c) q with Some e => update_point (mc_param c) p e | None => p end)).
Proof. exact compute_stress_spec. Qed.
Print Assumptions C44_cells.
Example C44_cells_case : let cells := [mkmc (N := RNum) true (mat 1 1) [pull 1]; mkmc (N := RNum) false (mat 1 1) []] in let vars := [[rest 1]; [rest 1]] in
  List.length vars = List.length cells /\
  (forall i c v, nth_error cells i = Some c -> nth_error vars i = Some v -> mc_active c = true -> (List.length (mc_strain c) <= List.length v)%nat).
Proof. split; [reflexivity|]. intros [|[|i]] c v A B C; cbn in *; try (injection A as <-; injection B as <-; cbn in *; (lia || discriminate)). now destruct i. Qed.
(** Successive solves: the increments add up, so that the volumetric stress depends only on the first and the last displacement, and
    if no solve yields the whole stress does. *)
Theorem C44_solves_volume : forall d o (m : plasticity RNum) grads, (0 < d)%nat -> physical m -> Forall (shaped d o) grads -> forall n us old s,
  regular d o s -> same_size n old -> Forall (fun u => List.length u = n) us ->
  tr (p_stress (solve_path (zero_tensor d o) grads m old s us)) =
  tr (p_stress s) + (INR d * lame1 m + 2 * lame2 m) * (tr (previous_strain d o grads (fold_left (fun _ u => Some u) us old)) - tr (previous_strain d o grads old)).
Proof. exact solves_trace. Qed.
Print Assumptions C44_solves_volume.
Theorem C44_solves_elastic : forall d o (m : plasticity RNum) grads, (0 < d)%nat -> physical m -> Forall (shaped d o) grads -> forall n us old s,
  regular d o s -> same_size n old -> Forall (fun u => List.length u = n) us -> always_elastic d o m grads old s us ->
  solve_path (zero_tensor d o) grads m old s us =
  mkpoint (tadd (p_stress s) (hooke (lame1 m) (lame2 m) (tsub (previous_strain d o grads (fold_left (fun _ u => Some u) us old)) (previous_strain d o grads old)))) (p_back s) (p_yield s).
Proof. exact solves_elastic. Qed.
Print Assumptions C44_solves_elastic.

(** ** C45.  Packing and unpacking restores the data of a cell; a mesh transfer hands every new cell the data of the cell it comes from. *)
Theorem C45_round_trip : forall nq nc m, shaped_data nq nc m ->
  exists d, pack_mech nq nc m = Ok d /\ List.length d = (nq * (1 + 2 * nc))%nat /\ unpack_mech nq nc d = Ok m.
Proof. intros nq nc m H. destruct (round_trip nq nc m H) as (d & A & B & C). exists d. split; [exact A|]. split; [|exact C]. rewrite B. unfold n_doubles_per_quad. lia. Qed.
Print Assumptions C45_round_trip.
Theorem C45_transfer : forall nq nc nd nd' w mesh u, well_formed nq nc nd w ->
  (forall o c, In (o, c) mesh -> (source o < List.length (mw_cells w))%nat /\ (c_owner c < List.length (mw_data w))%nat /\ List.length (c_nodes c) = nd') ->
  exists w', transfer nq nc w mesh u = Ok w' /\ well_formed nq nc nd' w' /\ mw_cells w' = map snd mesh /\ mw_u w' = u /\ List.length (mw_data w') = List.length (mw_data w) /\
    forall pos o c, nth_error mesh pos = Some (o, c) -> data_of w' pos = data_of w (source o) /\ data_of w (source o) <> None.
Proof. exact transfer_ok. Qed.
Print Assumptions C45_transfer.
Example C45_case : well_formed 1 1 2 beam_world /\ data_of beam_world 0 = Some (mkmdata [0x1p0%float] [[0x1p1%float]] [[0%float]]) /\
  exists w', transfer 1 1 beam_world [(Refined 0, mkcell [0; 3]%nat 0 true); (Refined 0, mkcell [3; 1]%nat 0 true); (Kept 1, mkcell [1; 2]%nat 0 false)] (fun _ => 0%float) = Ok w' /\
    data_of w' 1 = data_of beam_world 0.
Proof. split; [apply beam_wf|]. split; [reflexivity|]. eexists. split; [reflexivity|]. reflexivity. Qed.

(** ** C46.  The constructor activates exactly the solid cells and starts without stress. *)
Theorem C46_construct : forall nq nc nd n_ranks cells solid limit, List.length solid = List.length cells -> List.length limit = List.length cells ->
  (forall c, In c cells -> List.length (fst c) = nd /\ (snd c < n_ranks)%nat) ->
  exists w, construct nq nc n_ranks cells solid limit = Ok w /\ well_formed nq nc nd w /\ List.length (mw_data w) = n_ranks /\ List.length (mw_cells w) = List.length cells /\
    forall pos c s l, nth_error cells pos = Some c -> nth_error solid pos = Some s -> nth_error limit pos = Some l ->
      (active_at w pos <-> PrimFloat.ltb 0x1.fae147ae147aep-1 s = true) /\ data_of w pos = Some (stress_free nq nc l).
Proof. exact construct_ok. Qed.
Print Assumptions C46_construct.
(** After a setup a cell takes part iff it is solid and active thermally; it keeps its data if it took part before and starts without
    stress otherwise. *)
Theorem C46_setup : forall nq nc nd w ths rebuild have_u own, well_formed nq nc nd w -> List.length ths = List.length (mw_cells w) ->
  exists w', mech_setup nq nc nd w ths rebuild have_u own = Ok w' /\ well_formed nq nc nd w' /\ List.length (mw_cells w') = List.length (mw_cells w) /\
    forall pos t, nth_error ths pos = Some t ->
      (active_at w' pos <-> PrimFloat.ltb 0x1.fae147ae147aep-1 (th_solid t) = true /\ th_active t = true) /\
      (active_at w' pos -> active_at w pos -> data_of w' pos = data_of w pos) /\
      (active_at w' pos -> ~ active_at w pos -> data_of w' pos = Some (stress_free nq nc (th_limit t))).
Proof. exact setup_activity. Qed.
Print Assumptions C46_setup.
(** If no cell changes and no rebuild is asked for, nothing changes. *)
Theorem C46_setup_unchanged : forall nq nc nd w ths have_u own, well_formed nq nc nd w -> List.length ths = List.length (mw_cells w) -> ~ rebuilt w ths false ->
  exists w', mech_setup nq nc nd w ths false have_u own = Ok w' /\ mw_data w' = mw_data w /\ (forall n, mw_u w' n = mw_u w n) /\ forall pos, active_at w' pos <-> active_at w pos.
Proof. exact setup_unchanged. Qed.
Print Assumptions C46_setup_unchanged.
(** Any history of setups, stress updates and mesh changes does to every cell what the history of one cell says. *)
Theorem C46_history : forall nq nc nd steps w, well_formed nq nc nd w -> good_history nq nc nd (List.length (mw_data w)) (views w) steps ->
  exists w', mech_run nq nc nd steps w = Ok w' /\ well_formed nq nc nd w' /\ views w' = fold_left (fun vs s => step_views nq nc s vs) steps (views w).
Proof. exact history_ok. Qed.
Print Assumptions C46_history.
Definition C46_steps : list mech_step :=
  [Setup [solid_th; solid_th] false true (fun _ => 0%nat); Stress (fun _ m => mkmdata (md_plastic m) (map (map (fun x => (x + 0x1p0)%float)) (md_stress m)) (md_back m)) (fun _ => 0x1p0%float);
   Mesh [(Refined 0, mkcell [0; 3] 0 true); (Refined 0, mkcell [3; 1] 0 true); (Kept 1, mkcell [1; 2] 0 true)]%nat (fun _ => 0x1p0%float);
   Setup [solid_th; liquid_th; solid_th] false true (fun _ => 0%nat)].
Example C46_case : well_formed 1 1 2 beam_world /\ good_history 1 1 2 (List.length (mw_data beam_world)) (views beam_world) C46_steps /\
  fold_left (fun vs s => step_views 1 1 s vs) C46_steps (views beam_world) =
  [Some (mkmdata [0x1p0%float] [[0x1.8p1%float]] [[0%float]]); None; Some (mkmdata [0x1p0%float] [[0x1p0%float]] [[0%float]])].
Proof.
  split; [apply beam_wf|]. split; [|reflexivity]. cbn [good_history C46_steps]. split; [reflexivity|]. split.
  { intros pos m (A & B & C & D & E). unfold shaped_data. cbn. rewrite map_length. repeat split; try assumption. apply Forall_map. eapply Forall_impl; [|exact D]. intros t. now rewrite map_length. }
  split; [|split; [reflexivity| exact I]]. intros o c [E|[E|[E|[]]]]; injection E as <- <-; cbn; repeat split; try lia; try congruence.
Qed.
Example C46_construct_case : exists w, construct 1 1 2 [([0; 1], 0); ([1; 2], 1)]%nat [0x1p0; 0x1p-1]%float [0x1p1; 0x1p2]%float = Ok w /\ data_of w 0 = Some (mkmdata [0x1p1%float] [[0%float]] [[0%float]]).
Proof. eexists. split; reflexivity. Qed.

(** ** C47.  v . K u is the work of the stress of u on the strain of v. *)
Theorem C47_energy : forall d n comps qs, element d n comps qs -> forall (lambda mu : R) (v u : nat -> R),
  Rsum_to n (fun i => Rsum_to n (fun j => v i * matrix_entry (N := RNum) lambda mu comps qs i j * u j)) = work d n lambda mu comps qs v u.
Proof. exact bilinear. Qed.
Print Assumptions C47_energy.
Theorem C47_symmetric : forall d n comps qs, element d n comps qs -> forall (lambda mu : R) i j, (i < n)%nat -> (j < n)%nat ->
  matrix_entry (N := RNum) lambda mu comps qs i j = matrix_entry (N := RNum) lambda mu comps qs j i.
Proof. exact symmetric. Qed.
Print Assumptions C47_symmetric.
Theorem C47_nonnegative : forall d n comps qs, element d n comps qs -> forall (lambda mu : R) (u : nat -> R), 0 <= mu -> 0 <= INR d * lambda + 2 * mu ->
  Forall (fun q : quad RNum => 0 <= q_jxw q) qs -> (0 < d)%nat ->
  0 <= Rsum_to n (fun i => Rsum_to n (fun j => u i * matrix_entry (N := RNum) lambda mu comps qs i j * u j)).
Proof. intros d n comps qs EL lambda mu u A B C D. rewrite (bilinear d n comps qs EL). now apply work_nonneg. Qed.
Print Assumptions C47_nonnegative.
(** The displacements without force are exactly those without strain. *)
Theorem C47_rigid : forall d n comps qs, element d n comps qs -> forall (lambda mu : R) (u : nat -> R), 0 < mu -> 0 < INR d * lambda + 2 * mu ->
  Forall (fun q : quad RNum => 0 < q_jxw q) qs -> (0 < d)%nat ->
  (forall i, (i < n)%nat -> Rsum_to n (fun j => matrix_entry (N := RNum) lambda mu comps qs i j * u j) = 0) <->
  (forall q a b, In q qs -> (a < d)%nat -> (b < d)%nat -> strain n comps q u a b = 0).
Proof. exact rigid_iff. Qed.
Print Assumptions C47_rigid.
Example C47_case : element 2 2 (unit_comps 2) [unit_quad 2] /\ 0 <= 1 /\ 0 < INR 2 * (- / 2) + 2 * 1 /\ Forall (fun q : quad RNum => 0 < q_jxw q) [unit_quad 2] /\
  matrix_entry (N := RNum) 3 1 (unit_comps 2) [unit_quad 2] 0 1 = 3.
Proof. split; [apply unit_element; now left|]. split; [lra|]. split; [cbn; lra|]. split; [repeat constructor; cbn; lra|]. unfold matrix_entry, sgrad, comp. cbn. lra. Qed.

(** ** C48.  The von Mises output of a point is sqrt(3/2) times the norm of the deviator exactly if |xz| = |yz|. *)
Theorem C48_exactly_when : forall a : sym RNum, shaped 3 3 a -> (von_mises a = von_mises_stress a <-> Rabs (shear a 1) = Rabs (shear a 2)).
Proof. exact von_mises_iff. Qed.
Print Assumptions C48_exactly_when.
Theorem C48_value : forall a : sym RNum, shaped 3 3 a -> von_mises a = R_sqrt.sqrt (3 / 2 * contract (deviator a) (deviator a) + 3 * (shear a 2 * shear a 2 - shear a 1 * shear a 1)).
Proof. exact von_mises_value. Qed.
Print Assumptions C48_value.
Theorem C48_deviator : forall d o (a : sym RNum), shaped d o a -> (forall i, (i < d)%nat -> diagonal (deviator a) i = diagonal a i - tr a / INR d) /\ forall i, shear (deviator a) i = shear a i.
Proof. intros d o a S. split; [exact (D_dev d o a S)| reflexivity]. Qed.
Print Assumptions C48_deviator.
(** Pure xz shear is reported as no stress at all. *)
Theorem C48_shear_refuted : ~ (forall a : sym RNum, shaped 3 3 a -> von_mises a = von_mises_stress a).
Proof.
  intros H. set (a := mksym (N := RNum) [0; 0; 0] [0; 1; 0]). assert (shaped 3 3 a) as S by (split; reflexivity). apply (von_mises_iff a S) in H; [|exact S].
  unfold shear, a in H. cbn in H. rewrite Rabs_R1, Rabs_R0 in H. lra.
Qed.
Print Assumptions C48_shear_refuted.
Theorem C48_lost_shear : forall x : R, von_mises (mksym (N := RNum) [0; 0; 0] [0; x; 0]) = 0 /\ von_mises_stress (mksym (N := RNum) [0; 0; 0] [0; x; 0]) = R_sqrt.sqrt 3 * Rabs x.
Proof. exact lost_shear. Qed.
Print Assumptions C48_lost_shear.
Theorem C48_homogeneous : forall (c : R) (a : sym RNum), shaped 3 3 a -> von_mises (tscale (N := RNum) c a) = Rabs c * von_mises a.
Proof. exact von_mises_scale. Qed.
Print Assumptions C48_homogeneous.
Theorem C48_hydrostatic : forall c : R, von_mises (isotropic 3 3 c) = 0.
Proof. exact von_mises_hydrostatic. Qed.
Print Assumptions C48_hydrostatic.
(** The value of a cell is the average of its points; cells that are not active have value zero, and so have all in two dimensions. *)
Theorem C48_cells : forall (active : list bool) (stress : list (list (sym RNum))) n, List.length stress = List.length active -> Forall (fun s => List.length s = n) stress ->
  exists out, get_von_mises_stress 3 active stress = Ok out /\ List.length out = List.length active /\
    forall i s b, nth_error stress i = Some s -> nth_error active i = Some b -> nth_error out i = Some (if b then Rsum (map von_mises s) / INR (List.length s) else 0).
Proof. exact output_spec. Qed.
Print Assumptions C48_cells.
Theorem C48_two_dimensions_refuted : forall (active : list bool) (stress : list (list (sym RNum))), get_von_mises_stress 2 active stress = Ok (map (fun _ => 0) active).
Proof. reflexivity. Qed.
Print Assumptions C48_two_dimensions_refuted.
Example C48_case : let a := mksym (N := RNum) [1; 2; 3] [1; -2; 2] in shaped 3 3 a /\ Rabs (shear a 1) = Rabs (shear a 2).
Proof. split; [split; reflexivity|]. unfold shear. cbn. rewrite Rabs_left, Rabs_right; lra. Qed.

(** ** C59.  The work of the thermal load on a displacement v. *)
Theorem C59_load_work : forall d n comps qs, element d n comps qs -> forall (lambda mu alpha reference : R) (temperature : list R) (v : nat -> R),
  Rsum_to n (fun i => v i * thermal_load (N := RNum) lambda mu alpha reference temperature comps qs i) =
  Rsum (map (fun q => (3 * lambda + 2 * mu) * alpha * excess reference temperature q * divergence d n comps q v * q_jxw q) qs).
Proof. exact load_work. Qed.
Print Assumptions C59_load_work.
(** In three dimensions a displacement that expands every point by alpha times its excess temperature balances the load; in two the
    expansion is that of plane strain. *)
Theorem C59_free_expansion : forall n comps qs, element 3 n comps qs -> forall (lambda mu alpha reference : R) (temperature : list R) (u : nat -> R),
  (forall q a b, In q qs -> (a < 3)%nat -> (b < 3)%nat -> gradient n comps q u a b = if Nat.eqb a b then alpha * excess reference temperature q else 0) ->
  forall i, (i < n)%nat -> Rsum_to n (fun j => matrix_entry (N := RNum) lambda mu comps qs i j * u j) = thermal_load (N := RNum) lambda mu alpha reference temperature comps qs i.
Proof. intros n comps qs EL lambda mu alpha reference temperature u HG. apply (expansion 3 n comps qs EL lambda mu alpha reference temperature u (fun q => alpha * excess reference temperature q)); [intros q _; cbn; ring| exact HG]. Qed.
Print Assumptions C59_free_expansion.
Theorem C59_plane_strain : forall n comps qs, element 2 n comps qs -> forall (lambda mu alpha reference : R) (temperature : list R) (u : nat -> R), lambda + mu <> 0 ->
  (forall q a b, In q qs -> (a < 2)%nat -> (b < 2)%nat -> gradient n comps q u a b = if Nat.eqb a b then (1 + lambda / (2 * (lambda + mu))) * (alpha * excess reference temperature q) else 0) ->
  forall i, (i < n)%nat -> Rsum_to n (fun j => matrix_entry (N := RNum) lambda mu comps qs i j * u j) = thermal_load (N := RNum) lambda mu alpha reference temperature comps qs i.
Proof.
  intros n comps qs EL lambda mu alpha reference temperature u NZ HG.
  apply (expansion 2 n comps qs EL lambda mu alpha reference temperature u (fun q => (1 + lambda / (2 * (lambda + mu))) * (alpha * excess reference temperature q))); [intros q _; cbn; field; lra| exact HG].
Qed.
Print Assumptions C59_plane_strain.
Example C59_case : element 3 3 (unit_comps 3) [unit_quad 3] /\ excess 300 [500] (unit_quad 3) = 200 /\
  forall a b, (a < 3)%nat -> (b < 3)%nat -> gradient 3 (unit_comps 3) (unit_quad 3) (fun _ => / 100 * 200) a b = if Nat.eqb a b then / 100 * 200 else 0.
Proof. split; [apply unit_element; now right|]. split; [unfold excess, Rsum_to, Rsum; cbn; lra|]. intros a b Ha Hb. apply (unit_gradient 3 (/ 100 * 200) a b); [now right| assumption| assumption]. Qed.
(** The stress computed from that displacement is not zero: the thermal strain is not subtracted. *)
Theorem C59_expansion_stress : forall d o (m : plasticity RNum) (k beta : R), (0 < d)%nat -> 0 < k ->
  update_point m (mkpoint (N := RNum) (zero_tensor d o) (zero_tensor d o) k) (isotropic d o beta) =
  mkpoint (N := RNum) (isotropic d o ((INR d * lame1 m + 2 * lame2 m) * beta)) (zero_tensor d o) k.
Proof. exact expansion_stress. Qed.
Print Assumptions C59_expansion_stress.
Theorem C59_free_expansion_stress_refuted : ~ (forall (m : plasticity RNum) (k beta : R), physical m -> 0 <= lame1 m -> 0 < k ->
  p_stress (update_point m (rest k) (isotropic 3 3 beta)) = zero_tensor 3 3).
Proof.
  intros H. specialize (H (mat 1 1) 1 1 (mat_physical 1 1 ltac:(lra) ltac:(lra)) ltac:(cbn; lra) ltac:(lra)).
  unfold rest in H. rewrite (expansion_stress 3 3 (mat 1 1) 1 1 ltac:(lia) ltac:(lra)) in H. cbn [p_stress] in H. apply (f_equal (fun a => diagonal a 0)) in H. unfold diagonal, isotropic, zero_tensor, mat in H. cbn in H. lra.
Qed.
Print Assumptions C59_free_expansion_stress_refuted.
(** The reference temperature is the one of the material once the cell has melted, the initial temperature before; [references] holds
    one per material and last the initial one. *)
Theorem C59_reference : forall (references : list R) has_melted cells pos material_id c m (initial : R) solidus,
  nth_error cells pos = Some c -> j_owned c = true -> j_thermal c = true -> j_mech c = true ->
  nth_error has_melted (flag_position cells pos) = Some m -> references = solidus ++ [initial] -> (material_id < List.length solidus)%nat ->
  exists t, reference_temperature (N := RNum) references has_melted cells pos material_id = Ok t /\ (m = true -> nth_error solidus material_id = Some t) /\ (m = false -> t = initial).
Proof. exact reference_ok. Qed.
Print Assumptions C59_reference.
Example C59_reference_case : let cells := [mkjc false true true; mkjc true true false; mkjc true false false; mkjc true true true] in
  flag_position cells 3 = 1%nat /\ nth_error [false; true] (flag_position cells 3) = Some true.
Proof. split; reflexivity. Qed.
(** Gravity: the total vertical force is the weight; the other components vanish. *)
Theorem C59_weight : forall d n comps qs (rho : R) a, d = 2%nat \/ d = 3%nat -> element d n comps qs -> (a < d)%nat ->
  (forall q, In q qs -> Rsum_to n (fun i => if Nat.eqb (nth i comps O) a then nth i (q_values q) 0 else 0) = 1) ->
  Rsum_to n (fun i => if Nat.eqb (nth i comps O) a then body_load (N := RNum) (total_force (N := RNum) d [gravity_force (N := RNum) d rho]) comps qs i else 0) =
  (if Nat.eqb a (d - 1) then - (rho * (980665 / 100000)) else 0) * Rsum (map (fun q : quad RNum => q_jxw q : R) qs).
Proof. exact gravity_total. Qed.
Print Assumptions C59_weight.
Example C59_weight_case : forall a, (a < 3)%nat -> Rsum_to 3 (fun i => if Nat.eqb (nth i (unit_comps 3) O) a then nth i (q_values (unit_quad 3)) 0 else 0) = 1.
Proof. intros [|[|[|]]] Ha; try lia; unfold Rsum_to, Rsum; cbn; lra. Qed.

(** ** C60.  After a rebuild the old displacement of a degree of freedom is decided by the last active cell of its process that
    has it: kept if that cell took part before, zero otherwise. *)
Theorem C60_decided_by_last : forall nq nc nd w ths rebuild own w' n pos, well_formed nq nc nd w -> List.length ths = List.length (mw_cells w) -> rebuilt w ths rebuild ->
  mech_setup nq nc nd w ths rebuild true own = Ok w' -> last_touch w' (own n) n pos ->
  (active_at w pos -> mw_u w' n = mw_u w n) /\ (~ active_at w pos -> mw_u w' n = 0%float).
Proof. exact displacement_value. Qed.
Print Assumptions C60_decided_by_last.
Theorem C60_last_exists : forall w r n, (exists pos, touches w r n pos) -> exists pos, last_touch w r n pos.
Proof. exact last_touch_exists. Qed.
Print Assumptions C60_last_exists.
(** It is kept if every active cell with the degree of freedom took part before. *)
Theorem C60_kept : forall nq nc nd w ths rebuild own w' n, well_formed nq nc nd w -> List.length ths = List.length (mw_cells w) ->
  mech_setup nq nc nd w ths rebuild true own = Ok w' -> (exists pos, touches w' (own n) n pos) -> (forall pos, touches w' (own n) n pos -> active_at w pos) ->
  mw_u w' n = mw_u w n.
Proof. exact displacement_kept. Qed.
Print Assumptions C60_kept.
(** A cell that solidifies next to a displaced one resets the displacement they share. *)
Theorem C60_shared_refuted : ~ (forall nq nc nd w ths rebuild own w' n pos, well_formed nq nc nd w -> List.length ths = List.length (mw_cells w) ->
  mech_setup nq nc nd w ths rebuild true own = Ok w' -> touches w (own n) n pos -> touches w' (own n) n pos -> mw_u w' n = mw_u w n).
Proof.
  intros H. destruct (mech_setup 1 1 2 beam_world [solid_th; solid_th] false true (fun _ => 0%nat)) as [w'| |] eqn:E; try discriminate E.
  specialize (H 1%nat 1%nat 2%nat beam_world [solid_th; solid_th] false (fun _ => 0%nat) w' 1%nat 0%nat beam_wf eq_refl E).
  pose proof beam_lost as B. unfold after_beam in B. rewrite E in B. injection B as B.
  assert (mw_u w' 1 = 0x1p-1%float) as C; [|rewrite B in C; apply (f_equal (PrimFloat.eqb 0)) in C; vm_compute in C; discriminate C].
  apply H; [exists (mkcell [0; 1] 0 true)%nat; repeat split; cbn; auto|].
  vm_compute in E. injection E as <-. exists (mkcell [0; 1] 0 true)%nat. repeat split; cbn; auto.
Qed.
Print Assumptions C60_shared_refuted.
Example C60_case : rebuilt beam_world' [solid_th; solid_th] false /\ exists w', mech_setup 1 1 2 beam_world' [solid_th; solid_th] false true (fun _ => 0%nat) = Ok w' /\ mw_u w' 1 = 0x1p-1%float /\ touches w' 0 1 1.
Proof.
  split; [right; exists 0%nat, (mkcell [1; 2] 0 false)%nat, solid_th; repeat split; vm_compute; discriminate|]. eexists. split; [reflexivity|]. split; [reflexivity|].
  exists (mkcell [0; 1] 0 true)%nat. repeat split; cbn; auto.
Qed.
