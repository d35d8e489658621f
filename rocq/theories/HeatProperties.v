(** HeatProperties.v -- C67 to C71: the discrete heat equation and the time steps. *)
From Coq Require Import Reals QArith List Bool String ZArith Lra Lia.
From Verif Require Import Base MaterialModel MaterialSpec InputModel InputSpec HeatModel HeatSpec HeatProofs2 HeatProofs3 HeatProofs4 HeatProofs5 HeatExamples HeatProofs6 HeatProofs7.
Import ListNotations.
Local Open Scope R_scope.

(** * C67: heat balance *)
(** The rates solve the weak form of the heat equation, for every test field. *)
Theorem C67_weak_form : forall (dim3 on ad : bool) (m : heat_mesh RNum) (K : laws RNum) (F : face_laws RNum) (y : list R) (z : nat -> R), mesh_ok m -> massive m ->
  mass_product m z (entry (evaluate (N := RNum) dim3 on ad m K F y)) =
  cells_tested dim3 on (m_C m) (m_cells m) K y z - (if ad then 0 else faces_tested (m_C m) (m_faces m) F y z).
Proof. exact (fun dim3 on ad m K F y z Mok M => weak_form dim3 on ad m K F y Mok z M). Qed.
Print Assumptions C67_weak_form.
(** What the integral of the temperature gains per unit of time is what the sources release minus what the boundary loses. *)
Theorem C67_balance : forall (dim3 on ad : bool) (m : heat_mesh RNum) (K : laws RNum) (F : face_laws RNum) (y : list R), mesh_ok m -> massive m ->
  integral (m_C m) (m_mass m) (entry (evaluate (N := RNum) dim3 on ad m K F y)) = (if on then released m K y else 0) - (if ad then 0 else lost m F y).
Proof. exact (fun dim3 on ad m K F y Mok M => balance dim3 on ad m K F y Mok M). Qed.
Print Assumptions C67_balance.
(** With one heat capacity [rc], adiabatic walls and any scheme: the heat content of a step changes by the time step times the weighted powers of the stages. *)
Theorem C67_step : forall (dim3 : bool) (m : heat_mesh RNum) (on : nat -> R -> bool) (K : nat -> R -> laws RNum) (F : nat -> R -> face_laws RNum) (rc : R) (s : scheme) (t dt : R) (y : list R),
  mesh_ok m -> massive m -> 0 < rc -> List.length y = m_n m ->
  (forall i t c q T, pl_inv (K i t c q T) = / rc) -> (forall i t c q T T', pl_beams (K i t c q T) = pl_beams (K i t c q T')) ->
  let f i t y := evaluate (N := RNum) dim3 (on i t) true m (K i t) (F i t) y in
  rc * integral (m_C m) (m_mass m) (entry (snd (evolve (N := RNum) s f t dt y))) =
  rc * integral (m_C m) (m_mass m) (entry y) +
  dt * Sum (indexed (quadrature s)) (fun iq => snd (snd iq) * (let t' := t + fst (snd iq) * dt in if on (fst iq) t' then
    power_in (m_cells m) (fun c q => Sum (pl_beams (K (fst iq) t' c q 0)) (fun b => b : R)) else 0)).
Proof. exact step_power. Qed.
Print Assumptions C67_step.
(** Without sources and with adiabatic walls the integral of the temperature is conserved, for every scheme, step and material law. *)
Theorem C67_conserved : forall (dim3 : bool) (m : heat_mesh RNum) (K : nat -> R -> laws RNum) (F : nat -> R -> face_laws RNum) (s : scheme) (t dt : R) (y : list R),
  mesh_ok m -> massive m -> List.length y = m_n m ->
  let f i t y := evaluate (N := RNum) dim3 false true m (K i t) (F i t) y in
  integral (m_C m) (m_mass m) (entry (snd (evolve (N := RNum) s f t dt y))) = integral (m_C m) (m_mass m) (entry y).
Proof. exact step_conserved. Qed.
Print Assumptions C67_conserved.
(** Over any run of steps too, with material laws that change at every evaluation and hanging nodes that are reset in between. *)
Theorem C67_run : forall (dim3 : bool) (s : scheme) (m : heat_mesh RNum) (t : R) (y : list R) (t2 : R) (y2 : list R), mesh_ok m -> massive m -> List.length y = m_n m ->
  adiabatic_run dim3 s m t y t2 y2 -> List.length y2 = m_n m /\ integral (m_C m) (m_mass m) (entry y2) = integral (m_C m) (m_mass m) (entry y).
Proof. exact run_conserved. Qed.
Print Assumptions C67_run.
(** The heat is not, when the heat capacity varies. *)
Theorem C67_heat_content_refuted : exists (m : heat_mesh RNum) (K : laws RNum) (rc : nat -> R) (y : list R), mesh_ok m /\ massive m /\ conducting false m K /\
  (forall c q T, pl_inv (K c q T) = / rc c) /\ (forall c, 0 < rc c) /\ List.length y = m_n m /\
  forall F, heat_content (m_C m) (m_mass m) rc (entry (evaluate (N := RNum) false false true m K F y)) <> 0.
Proof.
  exact (ex_intro _ pair_mesh (ex_intro _ pair_laws (ex_intro _ pair_rc (ex_intro _ [0; 1; 0; 1; 1; 1] (conj pair_ok (conj pair_massive (conj pair_conducting
    (conj (fun c q T => eq_refl) (conj pair_rc_pos (conj eq_refl pair_content)))))))))).
Qed.
Print Assumptions C67_heat_content_refuted.
(** The heat input that is printed is the integral of the power of the sources. *)
Theorem C67_printed_input : forall (n : nat) (cells : list (hcell RNum)) (power : nat -> nat -> R), Forall (shape_ok n) cells ->
  heat_input (N := RNum) cells power = power_in cells power.
Proof. exact printed. Qed.
Print Assumptions C67_printed_input.
Example C67_witness : mesh_ok (mesh3 (N := RNum) convective) /\ massive (mesh3 (N := RNum) convective) /\
  rates3 true false convective = [104; 4; 64; -148 # 3; -436; 999; -436; -996]%Q /\ Qred (heat_input (N := QNum) cells3 (fun _ _ => 4%Q)) = 6%Q /\
  (forall i t c q T, pl_inv ((fun (_ : nat) (_ : R) => K3 (N := RNum)) i t c q T) = / 1) /\ Forall (shape_ok 8) (cells3 (N := RNum)).
Proof. exact (conj (mesh3_ok _) (conj (mesh3_massive _) (conj rates3_convective (conj heat_input3 (conj (fun i t c q T => eq_sym Rinv_1) (proj1 (proj2 (mesh3_ok adiabatic)))))))). Qed.

(** * C68: conduction *)
Theorem C68_uniform : forall (dim3 ad : bool) (m : heat_mesh RNum) (K : laws RNum) (F : face_laws RNum) (y : list R) (T : R) (j : nat), mesh_ok m ->
  (forall k, free m k -> entry y k = T) -> (ad = false -> forall a b, fl_conv (F a b T) = T /\ fl_rad (F a b T) = T) -> free m j ->
  entry (evaluate (N := RNum) dim3 false ad m K F y) j = 0.
Proof. exact rate_uniform. Qed.
Print Assumptions C68_uniform.
Theorem C68_uniform_run : forall (dim3 : bool) (s : scheme) (m : heat_mesh RNum) (t : R) (y : list R) (t2 : R) (y2 : list R) (T : R), mesh_ok m -> List.length y = m_n m ->
  (forall k, free m k -> entry y k = T) -> adiabatic_run dim3 s m t y t2 y2 -> forall k, free m k -> entry y2 k = T.
Proof. exact run_uniform. Qed.
Print Assumptions C68_uniform_run.
(** Conduction lowers the mass-weighted square of the temperature. *)
Theorem C68_dissipation : forall (dim3 : bool) (m : heat_mesh RNum) (K : laws RNum) (F : face_laws RNum) (y : list R), mesh_ok m -> massive m -> conducting dim3 m K ->
  mass_product m (entry y) (entry (evaluate (N := RNum) dim3 false true m K F y)) = dissipated dim3 m K y /\ dissipated dim3 m K y <= 0.
Proof. exact dissipation. Qed.
Print Assumptions C68_dissipation.
(** A step of forward Euler does not increase it, if the time step is at most two divided by the stiffness [L]. *)
Theorem C68_stable : forall (dim3 : bool) (m : heat_mesh RNum) (K : laws RNum) (F : face_laws RNum) (y : list R) (t dt L : R), mesh_ok m -> massive m -> List.length y = m_n m ->
  let r := evaluate (N := RNum) dim3 false true m K F y in
  mass_product m (entry r) (entry r) <= L * - mass_product m (entry y) (entry r) -> 0 < L -> 0 <= dt <= 2 / L ->
  let y' := snd (evolve (N := RNum) ForwardEuler (fun _ _ v => evaluate (N := RNum) dim3 false true m K F v) t dt y) in
  mass_product m (entry y') (entry y') <= mass_product m (entry y) (entry y).
Proof. exact euler_stable. Qed.
Print Assumptions C68_stable.
Example C68_stable_witness : let y := [0; 1; 0; 1; 1; 1] : list R in let r := evaluate (N := RNum) false false true pair_mesh pair_laws (F3 (N := RNum)) y in
  mass_product pair_mesh (entry r) (entry r) <= 8 * - mass_product pair_mesh (entry y) (entry r) /\ mass_product pair_mesh (entry y) (entry r) < 0.
Proof. exact (pair_bound F3). Qed.
Theorem C68_symmetric : forall (dim3 : bool) (m : heat_mesh RNum) (K : laws RNum) (F : face_laws RNum) (y z : list R), mesh_ok m -> massive m ->
  (forall i q T T', K i q T = K i q T') ->
  mass_product m (entry z) (entry (evaluate (N := RNum) dim3 false true m K F y)) = mass_product m (entry y) (entry (evaluate (N := RNum) dim3 false true m K F z)).
Proof. exact symmetric. Qed.
Print Assumptions C68_symmetric.
(** Hanging nodes: their entries do not influence the other rates, and their own rate is their own entry. *)
Theorem C68_hanging_unused : forall (dim3 on ad : bool) (m : heat_mesh RNum) (K : laws RNum) (F : face_laws RNum) (y y' : list R) (j : nat), mesh_ok m ->
  (forall k, free m k -> entry y k = entry y' k) -> free m j ->
  entry (evaluate (N := RNum) dim3 on ad m K F y) j = entry (evaluate (N := RNum) dim3 on ad m K F y') j.
Proof. exact rate_local. Qed.
Print Assumptions C68_hanging_unused.
Theorem C68_hanging_rate : forall (dim3 on ad : bool) (m : heat_mesh RNum) (K : laws RNum) (F : face_laws RNum) (y : list R) (j : nat), mesh_ok m ->
  In j (map fst (m_C m)) -> entry (evaluate (N := RNum) dim3 on ad m K F y) j = entry y j.
Proof. exact (fun dim3 on ad m K F y j Mok I => rate_constrained dim3 on ad m K F y Mok j I). Qed.
Print Assumptions C68_hanging_rate.
Theorem C68_total_mass : forall m : heat_mesh RNum, mesh_ok m -> Sum (seq 0 (m_n m)) (nodal_mass m) = volume (m_mass m).
Proof. exact total_mass. Qed.
Print Assumptions C68_total_mass.
Example C68_witness : mesh_ok (mesh3 (N := RNum) adiabatic) /\ massive (mesh3 (N := RNum) adiabatic) /\ conducting false (mesh3 (N := RNum) adiabatic) K3 /\
  rates3 false true adiabatic = [100; 0; 60; -160 # 3; -40; 999; -40; -200]%Q /\ In 5%nat (map fst (m_C (mesh3 (N := RNum) adiabatic))).
Proof. exact (conj (mesh3_ok _) (conj (mesh3_massive _) (conj (mesh3_conducting _) (conj rates3_conduction (or_introl eq_refl))))). Qed.

(** * C69: boundary conditions *)
(** A face exchanges heat exactly when one of its sides is active and the other one is not. *)
Theorem C69_faces : forall (C : constraints RNum) (F : face_laws RNum) (src d : list R) (jf : nat * hface RNum), on_boundary (snd jf) = false ->
  face_apply (N := RNum) C F src d jf = d.
Proof. exact inside_face. Qed.
Print Assumptions C69_faces.
Theorem C69_adiabatic_only : forall types, adiabatic_only types = true <-> Forall (fun ty => has_flag ty adiabatic = true) types.
Proof. exact adiabatic_only_iff. Qed.
Print Assumptions C69_adiabatic_only.
(** The short cut for adiabatic boundaries is right when no boundary is both adiabatic and something else. *)
Theorem C69_shortcut : forall (dim3 on : bool) (m : heat_mesh RNum) (K : laws RNum) (F : face_laws RNum) (y : list R) (types : list BinNums.N), mesh_ok m ->
  Forall (fun f => In (hf_type f) types) (m_faces m) ->
  Forall (fun ty => has_flag ty adiabatic = true -> has_flag ty convective = false /\ has_flag ty radiative = false) types ->
  forall j, free m j -> entry (evaluate (N := RNum) dim3 on (adiabatic_only types) m K F y) j = entry (evaluate (N := RNum) dim3 on false m K F y) j.
Proof. exact shortcut. Qed.
Print Assumptions C69_shortcut.
(** The same boundary "convective,adiabatic" loses heat or not, according to another boundary. *)
Theorem C69_own_boundary_refuted : exists (m : heat_mesh RNum) (K : laws RNum) (F : face_laws RNum) (y : list R) (ty : BinNums.N) (j : nat), mesh_ok m /\ massive m /\ free m j /\
  parse_boundary_line "convective,adiabatic" = Ok ty /\ Forall (fun f => hf_type f = ty) (m_faces m) /\
  entry (evaluate (N := RNum) false false (adiabatic_only [ty; ty]) m K F y) j <> entry (evaluate (N := RNum) false false (adiabatic_only [ty; convective]) m K F y) j.
Proof. exact mixed_refuted. Qed.
Print Assumptions C69_own_boundary_refuted.
Example C69_witness : Forall (fun f => In (hf_type f) [adiabatic; convective]) (m_faces (mesh3 (N := RNum) convective)) /\
  Forall (fun ty => has_flag ty adiabatic = true -> has_flag ty convective = false /\ has_flag ty radiative = false) [adiabatic; convective] /\ adiabatic_only [adiabatic; convective] = false /\
  map on_boundary (m_faces (mesh3 (N := RNum) convective)) = [true; true; false].
Proof. exact shortcut_case. Qed.

(** * C70: time steps *)
Theorem C70_methods : forall method, named method ["forward_euler"; "rk_third_order"; "rk_fourth_order"]%string <-> exists s, make_scheme method = Some s.
Proof. exact make_scheme_named. Qed.
Print Assumptions C70_methods.
Theorem C70_method_names : forall method, (named method ["forward_euler"]%string <-> make_scheme method = Some ForwardEuler) /\ (named method ["rk_third_order"]%string <-> make_scheme method = Some RungeKutta3) /\
  (named method ["rk_fourth_order"]%string <-> make_scheme method = Some RungeKutta4).
Proof. exact make_scheme_which. Qed.
Print Assumptions C70_method_names.
(** A validated input always has a scheme; the step then returns the end of the step. *)
Theorem C70_validated : forall (tbool : string -> option bool) (tdouble : string -> option R) (db : ptree), valid_time (N := RNum) tbool tdouble db ->
  exists m, value db ["time_stepping"; "method"]%string m /\
  forall (f : nat -> R -> list R -> list R) (t dt : R) (y : list R), exists y' : list R, evolve_one_time_step (N := RNum) m f t dt y = Ok (t + dt, y').
Proof. exact validated_step. Qed.
Print Assumptions C70_validated.
(** Any other method is dereferenced as a null pointer. *)
Theorem C70_unknown : forall method (f : nat -> R -> list R -> list R) (t dt : R) (y : list R), ~ named method ["forward_euler"; "rk_third_order"; "rk_fourth_order"]%string ->
  evolve_one_time_step (N := RNum) method f t dt y = UB.
Proof. exact unknown_step. Qed.
Print Assumptions C70_unknown.
(** A linear quantity changes by the weighted rates of stages that start at the present state. *)
Theorem C70_stages : forall (n : nat) (w : nat -> R) (f : nat -> R -> list R -> list R), (forall i t y, List.length y = n -> List.length (f i t y) = n) ->
  forall (s : scheme) (t dt : R) (y : list R), List.length y = n -> exists stage : nat -> list R, (forall i, List.length (stage i) = n) /\ stage O = y /\
  let total v := Sum (seq 0 n) (fun j => w j * entry v j) in
  total (snd (evolve (N := RNum) s f t dt y)) = total y + dt * Sum (indexed (quadrature s)) (fun iq => snd (snd iq) * total (f (fst iq) (t + fst (snd iq) * dt) (stage (fst iq)))).
Proof. exact stages_total. Qed.
Print Assumptions C70_stages.
Theorem C70_bounds : forall (n : nat) (w : nat -> R) (f : nat -> R -> list R -> list R) (lo hi : R), (forall i t y, List.length y = n -> List.length (f i t y) = n) ->
  (forall i t y, List.length y = n -> lo <= Sum (seq 0 n) (fun j => w j * entry (f i t y) j) <= hi) ->
  forall (s : scheme) (t dt : R) (y : list R), 0 <= dt -> List.length y = n ->
  let total v := Sum (seq 0 n) (fun j => w j * entry v j) in
  total y + dt * lo <= total (snd (evolve (N := RNum) s f t dt y)) <= total y + dt * hi.
Proof. exact bounds_total. Qed.
Print Assumptions C70_bounds.
(** Order: exponential decay or growth is reproduced up to the order, powers of the time below the order are integrated exactly. *)
Theorem C70_linear : forall (s : scheme) (lam t dt : R) (y : list R),
  snd (evolve (N := RNum) s (fun _ _ v => map (fun x => lam * x) v) t dt y) = map (fun x => taylor (order s) (lam * dt) * x) y.
Proof. exact linear_step. Qed.
Print Assumptions C70_linear.
Theorem C70_powers : forall (s : scheme) (k : nat), (k < order s)%nat -> Sum (quadrature s) (fun q => snd q * fst q ^ k) = / INR (S k).
Proof. exact quadrature_order. Qed.
Print Assumptions C70_powers.
Theorem C70_sources_on : forall l, heat_sources_on l = true <-> In true l.
Proof. exact sources_on. Qed.
Print Assumptions C70_sources_on.
Example C70_witness : make_scheme "RK_Fourth_Order" = Some RungeKutta4 /\ ~ named "backward_euler" ["forward_euler"; "rk_third_order"; "rk_fourth_order"]%string.
Proof. exact schemes_case. Qed.

(** * C71: host and device *)
Theorem C71_same_rates : forall (dim3 : bool) (m : heat_mesh RNum) (K : laws RNum) (F : face_laws RNum) (y : list R), mesh_ok m ->
  exists r : list R, evaluate_device (N := RNum) dim3 true m K y = Ok r /\ List.length r = m_n m /\
  (forall j, free m j -> smallest_mass < nodal_mass m j -> entry r j = entry (evaluate (N := RNum) dim3 true true m K F y) j) /\
  (forall j, free m j -> nodal_mass m j <= smallest_mass -> entry r j = 0).
Proof. exact device_rate. Qed.
Print Assumptions C71_same_rates.
(** Sources that are off release nothing: then the host's short cut agrees too. *)
Theorem C71_sources_off : forall (dim3 ad : bool) (m : heat_mesh RNum) (K : laws RNum) (F : face_laws RNum) (y : list R), mesh_ok m ->
  (forall i q T, Sum (pl_beams (K i q T)) (fun b => b : R) = 0) -> forall j, free m j ->
  entry (evaluate (N := RNum) dim3 true ad m K F y) j = entry (evaluate (N := RNum) dim3 false ad m K F y) j.
Proof. exact off_rate. Qed.
Print Assumptions C71_sources_off.
Theorem C71_only_adiabatic : forall (dim3 : bool) (m : heat_mesh RNum) (K : laws RNum) (y : list R), evaluate_device (N := RNum) dim3 false m K y = Throw.
Proof. exact device_throws. Qed.
Print Assumptions C71_only_adiabatic.
(** Small cells: the device leaves the temperature as it is. *)
Theorem C71_small_cells_refuted : exists (m : heat_mesh RNum) (K : laws RNum) (y r : list R) (j : nat), mesh_ok m /\ massive m /\ free m j /\
  evaluate_device (N := RNum) false true m K y = Ok r /\ entry r j = 0 /\ forall F, entry (evaluate (N := RNum) false true true m K F y) j <> 0.
Proof. exact small_refuted. Qed.
Print Assumptions C71_small_cells_refuted.
Example C71_witness : result (evaluate_device (N := QNum) false true (mesh3 (N := QNum) adiabatic) K3 y3) = [104; 4; 64; -148 # 3; -36; 0; -36; -196]%Q /\
  rates3 true true adiabatic = [104; 4; 64; -148 # 3; -36; 999; -36; -196]%Q /\ mesh_ok (mesh3 (N := RNum) adiabatic).
Proof. exact (conj device3 (conj rates3_sources (mesh3_ok _))). Qed.
