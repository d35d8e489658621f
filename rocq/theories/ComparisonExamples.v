(** ComparisonExamples.v -- two squares in warmer air; a cube with one more beam; a square whose time step is too long. *)
From Coq Require Import Reals List Bool String ZArith Lra Lia Permutation Sorted.
From Verif Require Import Base BaseFacts QuaternionModel ScanPathModel ScanPathSpec HeatSourceModel HeatSourceSpec HeatSourceProofs MaterialModel MaterialSpec InputModel HeatModel HeatSpec MaterialProofs MaterialProofs2 HeatProofs HeatProofs2 HeatProofs3 HeatProofs4 HeatProofs5 HeatProofs7 HeatExamples
  PowerSpec CellModel EnergyModel EnergySpec EnergyProofs3 EnergyExamples HeatSourceProofs2 StabilitySpec StabilityProofs StabilityProofs2 StabilityProofs3 StabilityProofs4 StabilityProofs5 StabilityExamples MaximumSpec MaximumProofs MaximumProofs2 MaximumExamples
  RadiationSpec RadiationProofs RadiationProofs2 RadiationProofs3 RadiationExamples SuperpositionSpec SuperpositionProofs SuperpositionProofs2 ComparisonSpec ComparisonProofs ComparisonProofs2.
Import ListNotations.
Open Scope R_scope.

(** ** Two squares with convection and radiation *)
Definition warm_faces : frozen_faces := fun _ _ => mkfl (N := RNum) (/ 1000) 10 400 (1/2) 350.
Definition in_air (Q : frozen_faces) (start : list R) : scenario := mksc (fun _ _ => false) (fun _ _ c q _ => unit_law c q) (fun _ _ j q _ => Q j q) start.
Definition cool_run : scenario := in_air hot_faces (repeat 300 6).
Definition warm_run : scenario := in_air warm_faces hot_spot.
Lemma hot_positive : positive_mesh false hot_squares.
Proof.
  split.
  - repeat (apply Forall_cons; [unfold positive_points; repeat (apply Forall_cons; [split; [calc|repeat (apply Forall_cons; [calc|]); apply Forall_nil]|]); apply Forall_nil|]). apply Forall_nil.
  - intros _. apply Forall_forall. intros f I B. apply (sides_values false 1 hot_squares); [lra|exact hot_exposed|exact I|exact B].
Qed.
Lemma hot_physical : physical false unit_law hot_faces.
Proof. split; [intros; cbn; lra|]. intros _ j q. cbn. lra. Qed.
Lemma warm_surroundings : surroundings false hot_squares warm_faces 300 1000.
Proof.
  intros _ j f I B. split; [apply (sides_values false 1 hot_squares); [lra|exact hot_exposed|exact (in_indexed _ _ I)|exact B]|]. intros q. cbn [warm_faces fl_inv fl_h fl_conv fl_emissivity fl_rad]. repeat split; lra.
Qed.
Lemma cool_between : between hot_squares 300 1000 (repeat 300 6).
Proof. intros j [L _]. cbn in L. unfold entry. do 6 (destruct j as [|j]; [cbn; lra|]). lia. Qed.
Lemma warmer_run : hotter false hot_squares (fun _ => unit_law) (fun _ => hot_faces) cool_run warm_run.
Proof.
  split; [|split; [|split; [reflexivity|split; [reflexivity|]]]].
  - intros n i c q T T'. cbn. split; [repeat split; reflexivity|]. split; [repeat split; reflexivity|]. unfold heat_density. lra.
  - intros _ n i j q T T'. cbn. repeat split; lra.
  - intros j Fj. pose proof (hot_between j Fj) as H. cbn [cool_run in_air sc_start warm_run]. enough (entry (repeat 300 6) j = 300) by lra. destruct Fj as [L _]. cbn in L. unfold entry. do 6 (destruct j as [|j]; [reflexivity|]). lia.
Qed.
Lemma constant_bounded dim3 ad m (K : laws RNum) (P : frozen) (F : face_laws RNum) (Q : frozen_faces) lo hi start : mesh_ok m -> massive m -> positive_weights (m_C m) -> surroundings ad m Q lo hi -> 0 <= lo ->
  (forall c q T, K c q T = P c q) -> (forall j q T, F j q T = Q j q) -> forall dts n t (y : list R), Forall (fun dt => 0 <= dt /\ moderate dim3 ad m P (largest_losses Q hi) dt) dts -> List.length y = m_n m -> between m lo hi y ->
  between m lo hi (temperatures dim3 ad ForwardEuler m (mksc (fun _ _ => false) (fun _ _ => K) (fun _ _ => F) start) n t dts y).
Proof.
  intros Mok M W Su Lo HK HF dts. induction dts as [|dt dts IH]; intros n t y D L B; [exact B|]. inversion_clear D as [|? ? D0 D']. destruct D0 as [D0 Md]. cbn [temperatures evolve sc_on sc_laws sc_faces]. apply IH; [exact D'| |].
  - etransitivity; [apply (saddR_length y dt _); rewrite rate_length; exact L|exact L].
  - exact (radiating_step dim3 ad m K P F Q lo hi t dt y Mok M W L (conj (fun _ _ _ _ _ _ => HK _ _ _) (fun _ _ _ _ _ _ => HF _ _ _)) Su Lo D0 Md B).
Qed.
Lemma air_bounded (Q : frozen_faces) dts (start : list R) : surroundings false hot_squares Q 300 1000 -> (forall y, largest_losses Q y = largest_losses hot_faces y) -> Forall (fun dt => dt = 2/9) dts ->
  List.length start = 6%nat -> between hot_squares 300 1000 start -> between hot_squares 300 1000 (final false false ForwardEuler hot_squares (in_air Q start) dts).
Proof.
  intros Su E D L B. refine (constant_bounded false false hot_squares _ unit_law _ Q 300 1000 start hot_ok hot_massive (Forall_nil _) Su _ (fun _ _ _ => eq_refl) (fun _ _ _ => eq_refl) dts 0 0 start _ L B); [lra|].
  eapply Forall_impl; [|exact D]. intros a ->. split; [lra|]. rewrite E. exact hot_moderate.
Qed.
Lemma both_bounded dts : Forall (fun dt => dt = 2/9) dts -> radiation_bounded false false hot_squares 1000 cool_run warm_run dts.
Proof.
  intros D. right. intros k. assert (Dk : Forall (fun dt => dt = 2/9) (firstn k dts)).
  { apply Forall_forall. intros x I. apply (proj1 (Forall_forall _ _) D). rewrite <- (firstn_skipn k dts). apply in_or_app. left. exact I. }
  split.
  - pose proof (air_bounded hot_faces _ (repeat 300 6) hot_surroundings (fun _ => eq_refl) Dk eq_refl cool_between) as B. intros j Fj. destruct (B j Fj) as [B1 B2]. split; [apply Rle_trans with 300; [lra|exact B1]|exact B2].
  - pose proof (air_bounded warm_faces _ hot_spot warm_surroundings (fun _ => eq_refl) Dk eq_refl hot_between) as B. intros j Fj. destruct (B j Fj) as [B1 B2]. split; [apply Rle_trans with 300; [lra|exact B1]|exact B2].
Qed.
Lemma warm_steps dts : Forall (fun dt => dt = 2/9) dts -> short_steps false false hot_squares (fun _ => unit_law) (fun _ => hot_faces) 1000 dts.
Proof. intros D n dt E. rewrite (proj1 (Forall_forall _ _) D dt (nth_error_In _ _ E)). split; [lra|exact hot_moderate]. Qed.
Lemma warm_limits dts : Forall (fun dt => dt = 2/9) dts -> Forall (fun dt => 0 <= dt /\ dt * (4 * (1 / (1 * 1) + 1/8 / 1)) <= 1) dts.
Proof. intros D. eapply Forall_impl; [|exact D]. intros a ->. lra. Qed.

(** ** A cube with one more beam *)
Definition cube_dofs := [0; 1; 2; 3; 4; 5; 6; 7]%nat.
Definition one_cube : heat_mesh RNum := mkhm (N := RNum) 8 [] [brick ends 1 1 1 cube_dofs] [brick ends 1 1 1 cube_dofs] [].
Lemma cube_ok : mesh_ok one_cube.
Proof.
  split; [split; [apply NoDup_nil|apply Forall_nil]|]. split; [|split]; [apply Forall_cons; [apply brick_shape; [reflexivity|repeat (apply Forall_cons; [cbn; lia|]); apply Forall_nil]|apply Forall_nil]..|apply Forall_nil].
Qed.
Lemma cube_massive : massive one_cube.
Proof. intros j [L N]. cbn in L, N. unfold nodal_mass. do 8 (destruct j as [|j]; [calc|]). lia. Qed.
Lemma cube_positive : positive_mesh true one_cube.
Proof.
  split; [|discriminate]. apply Forall_cons; [|apply Forall_nil]. unfold positive_points. repeat (apply Forall_cons; [split; [calc|repeat (apply Forall_cons; [calc|]); apply Forall_nil]|]). apply Forall_nil.
Qed.
Lemma cube_boxes : even_boxes true true 1 one_cube.
Proof.
  apply Forall2_cons; [|apply Forall2_nil]. split; [cbn; repeat constructor; cbn; intuition lia|]. exists 1, 1, 1, cube_dofs. repeat split; try lra; reflexivity.
Qed.
Lemma cube_steps dts : Forall (fun dt => dt = 1/6) dts -> short_steps true true one_cube (fun n c q => unit_K c q 0) no_losses 0 dts.
Proof.
  intros D n dt E. rewrite (proj1 (Forall_forall _ _) D dt (nth_error_In _ _ E)). split; [lra|].
  assert (Dn : downhill true true one_cube unit_law no_air (1/6)).
  { apply (boxes_downhill true true one_cube unit_law no_air 1 1 (1/6) cube_ok eq_refl cube_boxes unit_isotropic); [lra|lra| |exact cube_massive]. unfold even_factor. lra. }
  destruct Dn as (D1 & D2 & _). split; [exact D1|exact D2].
Qed.
Definition first_pulse : source := pulse_source [(1/4, 0); (3/8, 1)].
Definition second_pulse : source := pulse_source [(1/2, 1/2); (1, 2)].
Lemma pulses_new : Forall new_source [first_pulse; second_pulse].
Proof.
  apply Forall_cons; [|apply Forall_cons; [|apply Forall_nil]].
  - apply pulse_new; [discriminate| |].
    + unfold nondecreasing. cbn [map fst]. repeat (first [apply SSorted_nil|apply SSorted_cons|apply Forall_nil|apply Forall_cons]); lra.
    + repeat (apply Forall_cons; [cbn; lra|]). apply Forall_nil.
  - apply pulse_new; [discriminate| |].
    + unfold nondecreasing. cbn [map fst]. repeat (first [apply SSorted_nil|apply SSorted_cons|apply Forall_nil|apply Forall_cons]); lra.
    + repeat (apply Forall_cons; [cbn; lra|]). apply Forall_nil.
Qed.
Lemma pulses_never_cool : Forall never_cools ([first_pulse] ++ [second_pulse]).
Proof.
  apply Forall_cons; [|apply Forall_cons; [|apply Forall_nil]]; unfold never_cools, first_pulse, second_pulse; cbn [pulse_source source_path g_path pulse_path sp_segs map]; repeat (apply Forall_cons; [cbn; lra|]); apply Forall_nil.
Qed.
Lemma second_heats : Forall heating_beam [second_pulse].
Proof.
  apply Forall_cons; [|apply Forall_nil]. split; [apply unit_good|]. intros s I. pose proof pulses_never_cool as H. inversion H as [|? ? _ H']. inversion H' as [|? ? H2 _]. exact (proj1 (Forall_forall _ _) H2 s I).
Qed.
Lemma beams_case dts : Forall (fun dt => dt = 1/6) dts -> exists (t' : R) (y' : list R),
  mesh_ok one_cube /\ massive one_cube /\ positive_mesh true one_cube /\ settled (fun _ _ => unit_K) /\ Forall never_cools ([first_pulse] ++ [second_pulse]) /\ Forall heating_beam [second_pulse] /\
  short_steps true true one_cube (fun n c q => unit_K c q 0) no_losses 0 dts /\
  thermal_run true ForwardEuler one_cube (fun _ _ => mkpt (N := RNum) 0 0 0) (fun _ _ => unit_K) (fun _ _ => unit_F) 0 0 dts ([first_pulse] ++ [second_pulse]) (repeat 300 8) = Ok (t', y').
Proof.
  intros D. assert (Fd : Forall (fun d => 0 <= d) dts) by (eapply Forall_impl; [|exact D]; intros a ->; lra).
  destruct (thermal_runs ForwardEuler one_cube (fun _ _ => mkpt (N := RNum) 0 0 0) (fun _ _ => unit_K) (fun _ _ => unit_F) dts [first_pulse; second_pulse] (repeat 300 8) Fd pulses_new) as (t' & y' & T).
  exists t', y'. refine (conj cube_ok (conj cube_massive (conj cube_positive (conj _ (conj pulses_never_cool (conj second_heats (conj (cube_steps dts D) T))))))). intros n i c q T0 T'. repeat split; reflexivity.
Qed.

(** ** A time step that is short enough for the conduction, but not for the radiation *)
Definition dark : scenario := mksc (fun _ _ => false) (fun _ _ => unit_K) (fun _ _ => strong) (repeat 300 4).
Definition bright : scenario := mksc (fun _ _ => false) (fun _ _ => unit_K) (fun _ _ => strong) glowing.
Lemma dark_hotter : hotter false radiator (fun _ => unit_law) (fun _ _ _ => mkfl (N := RNum) 1 0 0 1 300) dark bright.
Proof.
  split; [|split; [|split; [reflexivity|split; [reflexivity|]]]].
  - intros n i c q T T'. cbn. split; [repeat split; reflexivity|]. split; [repeat split; reflexivity|]. unfold heat_density. lra.
  - intros _ n i j q T T'. cbn. repeat split; lra.
  - intros j [L _]. cbn in L. cbn [dark bright sc_start]. unfold entry, glowing. do 4 (destruct j as [|j]; [cbn; lra|]). lia.
Qed.
Lemma dark_weak : weak false false false radiator unit_K strong (repeat 300 4) (hat 1) = 0.
Proof. calc. Qed.
Lemma dark_after t : entry (snd (evolve (N := RNum) ForwardEuler (fun _ _ v => evaluate (N := RNum) false false false radiator unit_K strong v) t (1/4) (repeat 300 4))) 1 = 300.
Proof.
  match goal with |- entry (snd ?e) _ = _ => change e with (evolveR ForwardEuler (fun _ _ v => evaluate (N := RNum) false false false radiator unit_K strong v) t (1/4) (repeat 300 4)) end. rewrite evolve_step. cbn [snd step].
  assert (Lr : List.length (evaluate (N := RNum) false false false radiator unit_K strong (repeat 300 4)) = 4%nat) by apply (rate_length false false false radiator unit_K strong (repeat 300 4)).
  rewrite entry_sadd by exact (eq_sym Lr). assert (Fr : free radiator 1) by (split; [cbn; lia|intros []]).
  assert (E : entry (evaluate (N := RNum) false false false radiator unit_K strong (repeat 300 4)) 1 = 0 / (1/4)).
  { etransitivity; [exact (rate_free false false false radiator unit_K strong (repeat 300 4) radiator_ok 1 Fr)|]. rewrite dark_weak, radiator_mass by lia. reflexivity. }
  rewrite E. unfold entry. cbn [nth repeat]. lra.
Qed.
Lemma one_step dim3 ad m (K : laws RNum) (F : face_laws RNum) (start : list R) dt :
  final dim3 ad ForwardEuler m (mksc (fun _ _ => false) (fun _ _ => K) (fun _ _ => F) start) [dt] = snd (evolve (N := RNum) ForwardEuler (fun _ _ v => evaluate (N := RNum) dim3 false ad m K F v) 0 dt start).
Proof. reflexivity. Qed.
Lemma too_long : mesh_ok radiator /\ massive radiator /\ exposed_boxes false 1 radiator /\ aligned unit_law 1 /\ 1/4 * (4 * (1 / (1 * 1))) <= 1 /\
  hotter false radiator (fun _ => unit_law) (fun _ _ _ => mkfl (N := RNum) 1 0 0 1 300) dark bright /\ free radiator 1 /\
  entry (final false false ForwardEuler radiator bright [1/4]) 1 < entry (final false false ForwardEuler radiator dark [1/4]) 1.
Proof.
  split; [exact radiator_ok|]. split; [exact radiator_massive|]. split; [exact radiator_exposed|]. split; [exact unit_aligned|]. split; [exact quarter|]. split; [exact dark_hotter|].
  assert (Fr : free radiator 1) by (split; [cbn; lia|intros []]). split; [exact Fr|].
  unfold bright, dark. rewrite (one_step false false radiator unit_K strong glowing (1/4)), (one_step false false radiator unit_K strong (repeat 300 4) (1/4)).
  rewrite dark_after. exact (radiator_after 0).
Qed.
Lemma power_case dts : Forall (fun dt => dt = 1/6) dts -> exists (t' : R) (y1 : list R), Forall heating_beam [second_pulse] /\
  thermal_run true ForwardEuler one_cube (fun _ _ => mkpt (N := RNum) 0 0 0) (fun _ _ => unit_K) (fun _ _ => unit_F) 0 0 dts [second_pulse] (repeat 300 8) = Ok (t', y1).
Proof.
  intros D. assert (Fd : Forall (fun d => 0 <= d) dts) by (eapply Forall_impl; [|exact D]; intros a ->; lra). assert (Nw : Forall new_source [second_pulse]) by (pose proof pulses_new as H; inversion H; assumption).
  destruct (thermal_runs ForwardEuler one_cube (fun _ _ => mkpt (N := RNum) 0 0 0) (fun _ _ => unit_K) (fun _ _ => unit_F) dts [second_pulse] (repeat 300 8) Fd Nw) as (t' & y1 & T). exists t', y1. exact (conj second_heats T).
Qed.

(** ** A cooled square that starts at 300 K and one that starts at up to 900 K *)
Definition low_start : list R := repeat 300 4.
Definition high_start : list R := [300; 900; 400; 300].
Lemma cooled_sound : sound_faces cooled_square cool_air.
Proof.
  intros j f I _. assert (T : In f (m_faces cooled_square)) by exact (in_indexed _ _ I). destruct T as [<-|[]]. split; [|intros q; cbn; lra].
  repeat (apply Forall_cons; [calc|]). apply Forall_nil.
Qed.
Lemma in_air_same (Q : frozen_faces) (s1 s2 : list R) : same_heat (fun _ => unit_law) (fun _ => Q) (in_air Q s1) (in_air Q s2).
Proof. split; intros; cbn; repeat split; reflexivity. Qed.
Lemma scheme_case dts : Forall (fun dt => dt = 1/6) dts -> mesh_ok cooled_square /\ massive cooled_square /\ no_radiation cooled_square /\
  same_heat (fun _ => unit_law) (fun _ => cool_air) (in_air cool_air low_start) (in_air cool_air high_start) /\ List.length low_start = m_n cooled_square /\ List.length high_start = m_n cooled_square /\
  no_colder cooled_square low_start high_start /\
  (forall n dt, nth_error dts n = Some dt -> 0 <= dt /\ downhill false false cooled_square unit_law cool_air dt /\ sound_faces cooled_square cool_air).
Proof.
  intros D. split; [exact cooled_ok|]. split; [exact cooled_massive|]. split; [repeat (apply Forall_cons; [intros _; vm_compute; reflexivity|]); apply Forall_nil|].
  split; [apply in_air_same|]. split; [reflexivity|]. split; [reflexivity|]. split.
  - intros j [L _]. cbn in L. unfold entry, low_start, high_start. do 4 (destruct j as [|j]; [cbn; lra|]). lia.
  - intros n dt E. rewrite Forall_forall in D. rewrite (D dt (nth_error_In _ _ E)). split; [lra|]. split; [exact cooled_downhill|exact cooled_sound].
Qed.
