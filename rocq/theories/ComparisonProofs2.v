(** ComparisonProofs2.v -- consequences: boxes, one more beam, nothing becomes colder than the surroundings. *)
From Coq Require Import Reals List Bool String ZArith Lra Lia.
From Verif Require Import Base BaseFacts QuaternionModel ScanPathModel HeatSourceModel HeatSourceSpec HeatSourceProofs MaterialModel MaterialSpec InputModel HeatModel HeatSpec MaterialProofs MaterialProofs2 HeatProofs HeatProofs2 HeatProofs3 HeatProofs4 HeatProofs5 HeatProofs7
  PowerSpec CellModel StabilitySpec StabilityProofs StabilityProofs2 StabilityProofs3 MaximumSpec MaximumProofs RadiationSpec RadiationProofs RadiationProofs2 EnergyModel EnergySpec SuperpositionSpec SuperpositionProofs SuperpositionProofs2 SuperpositionProofs3 ComparisonSpec ComparisonProofs.
Import ListNotations.
Open Scope R_scope.

Lemma more_boxes dim3 m (P : nat -> frozen) (Q : nat -> frozen_faces) hi A B dts alpha g h : mesh_ok m -> massive m -> m_C m = [] -> exposed_boxes dim3 h m -> positive_mesh false m -> (forall n, physical false (P n) (Q n)) ->
  (forall n, aligned (P n) alpha /\ losses_at_most m (Q n) hi g) -> 0 < h -> 0 <= hi -> Forall (fun dt => 0 <= dt /\ dt * ((if dim3 then 6 else 4) * (alpha / (h * h) + g / h)) <= 1) dts ->
  hotter false m P Q A B -> radiation_bounded dim3 false m hi A B dts ->
  no_colder m (final dim3 false ForwardEuler m A dts) (final dim3 false ForwardEuler m B dts).
Proof.
  intros Mok M C0 Ex Pm Ph Al H0 Hi0 Dts H Ra. apply (more_run dim3 false m P Q hi A B dts Mok M); try assumption; [rewrite C0; constructor|].
  intros n dt E. destruct (proj1 (Forall_forall _ _) Dts dt (nth_error_In _ _ E)) as [D0 Dl]. split; [exact D0|]. destruct (Al n) as [A1 A2].
  apply (boxes_moderate dim3 m (P n) (still (Q n)) alpha g 0 hi h dt Mok M C0 Ex A1 A2); try assumption.
  intros _ j f I B0. pose proof (in_indexed _ _ I) as If. cbn [snd] in If. split; [exact (proj1 (Forall_forall _ _) (proj2 Pm eq_refl) f If B0)|].
  intros q. destruct (proj2 (Ph n) eq_refl j q) as (P1 & P2 & P3). cbn [still fl_inv fl_h fl_conv fl_emissivity fl_rad]. repeat split; try assumption; try lra; intros _; lra.
Qed.

(** ** One more beam *)
Lemma update_heating s t s1 : heating_beam s -> update_time s t = Ok s1 -> heating_beam s1 /\ forall dim3 p, 0 <= heat_of (source_value dim3 s1 p).
Proof.
  destruct s as [g|e]; [|intros []]. intros [Gb Nm] U. cbn [update_time] in U. destruct (goldak_update_time g t) as [g'| |] eqn:E; cbn [bind] in U; try discriminate. injection U as <-. split.
  - split; [rewrite (proj1 (goldak_updated _ _ _ E)); exact Gb|]. intros s I. unfold goldak_update_time in E.
    destruct (get_power_modifier (N := RNum) _ t) as [[pm sp1]| |] eqn:Pw; cbn [bind] in E; try discriminate. destruct (value sp1 t true) as [[p sp2]| |] eqn:V; cbn [bind] in E; try discriminate.
    destruct (get_quaternion qpow sp2 t) as [q| |]; cbn [bind] in E; try discriminate. injection E as <-. cbn [g_path] in I. rewrite (value_path _ _ _ _ _ V), (power_path _ _ _ _ Pw) in I. exact (Nm s I).
  - intros d p. cbn [source_value]. destruct (goldak_value d g' p) as [v|] eqn:V; [|cbn; lra]. exact (proj1 (goldak_bounds d g t g' p v E Gb Nm V)).
Qed.
Lemma set_time_heating l t r : Forall heating_beam l -> set_time l t = Ok r -> Forall heating_beam r /\ Forall (fun s => forall dim3 p, 0 <= heat_of (source_value dim3 s p)) r.
Proof.
  unfold set_time. intros F. revert r. induction F as [|s l Ns _ IH]; intros r H; cbn [mapR] in H; [injection H as <-; split; constructor|]. destruct (update_time s t) as [s1| |] eqn:U; cbn [bind] in H; try discriminate.
  destruct (mapR (fun s => update_time s t) l) as [r'| |]; cbn [bind] in H; try discriminate. injection H as <-. destruct (IH r' eq_refl) as [A B]. destruct (update_heating s t s1 Ns U) as [C D]. split; constructor; assumption.
Qed.
Lemma drive_heating ts : forall l sts, Forall heating_beam l -> drive l ts = Ok sts -> (forall i, Forall (fun s => forall dim3 p, 0 <= heat_of (source_value dim3 s p)) (nth i sts [])) /\ Forall heating_beam (last sts l).
Proof.
  induction ts as [|t ts IH]; intros l sts F H; cbn [drive] in *; [injection H as <-; split; [intros [|i]; constructor|exact F]|].
  destruct (set_time l t) as [r| |] eqn:E; cbn [bind] in H; try discriminate. destruct (set_time_heating l t r F E) as [A B]. destruct (drive r ts) as [rest| |] eqn:D; cbn [bind] in H; try discriminate.
  injection H as <-. destruct (IH r rest A D) as [C G]. split; [intros [|i]; [exact B|apply C]|]. rewrite last_of. exact G.
Qed.
Lemma more_beams dim3 m x (K : nat -> nat -> laws RNum) F : mesh_ok m -> massive m -> positive_weights (m_C m) -> positive_mesh true m -> settled K -> (forall n c q T, 0 <= pl_inv (K n 0%nat c q T)) ->
  forall dts n t l1 l2 (y1 y : list R) t' y', Forall never_cools (l1 ++ l2) -> Forall heating_beam l2 ->
  (forall k dt, nth_error dts k = Some dt -> 0 <= dt /\ moderate dim3 true m (fun c q => K (n + k)%nat 0%nat c q 0) (largest_losses (no_losses (n + k)%nat) 0) dt) ->
  List.length y1 = m_n m -> List.length y = m_n m -> no_colder m y1 y ->
  thermal_run dim3 ForwardEuler m x K F n t dts (l1 ++ l2) y = Ok (t', y') -> exists y1', thermal_run dim3 ForwardEuler m x K F n t dts l1 y1 = Ok (t', y1') /\ no_colder m y1' y'.
Proof.
  intros Mok M W Pm St Iv. induction dts as [|dt dts IH]; intros n t l1 l2 y1 y t' y' Nc Hb Sh L1 L Le H; cbn [thermal_run] in *.
  - injection H as <- <-. exists y1. split; [reflexivity|exact Le].
  - destruct (drive (l1 ++ l2) (stage_times ForwardEuler t dt)) as [sts| |] eqn:D; cbn [bind] in H; try discriminate. destruct (drive_app _ _ _ _ D) as (s1 & s2 & D1 & D2 & Nn & La). rewrite D1. cbn [bind].
    destruct (drive_quiet _ _ _ Nc D) as [Qa Nl]. apply Forall_app in Nc. destruct Nc as [Nc1 Nc2]. destruct (drive_quiet _ _ _ Nc1 D1) as [Q1 _]. destruct (drive_heating _ _ _ Hb D2) as [Hs Hl].
    unfold beam_step in *. cbn [evolve] in *. rewrite La in H, Nl. destruct (Sh 0%nat dt eq_refl) as [D0 Md]. rewrite Nat.add_0_r in Md. specialize (Qa 0%nat). specialize (Q1 0%nat). specialize (Hs 0%nat). specialize (Nn 0%nat).
    refine (IH (S n) _ _ _ _ _ _ _ Nl Hl _ _ _ _ H).
    + intros k d E. replace (S n + k)%nat with (n + S k)%nat by lia. exact (Sh (S k) d E).
    + etransitivity; [apply (saddR_length y1 dt _); rewrite rate_length; exact L1|exact L1].
    + etransitivity; [apply (saddR_length y dt _); rewrite rate_length; exact L|exact L].
    + apply (more_step dim3 true m (fun c q => K n 0%nat c q 0) (no_losses n) _ _ _ _ _ _ 0); try assumption; [split; [intros; apply Iv|discriminate]| |discriminate|left; discriminate].
      intros c q T T'. split; [exact (St n 0%nat c q T 0)|]. split; [exact (St n 0%nat c q T' 0)|].
      rewrite (density_quiet dim3 (K n 0%nat) x _ c q T Q1), (density_quiet dim3 (K n 0%nat) x _ c q T' Qa), Nn. unfold heats_at. rewrite Sum_app.
      assert (Z : 0 <= Sum (nth 0 s2 []) (fun s => heat_of (source_value dim3 s (x c q)))) by (apply Sum_nonneg; intros s I; exact (proj1 (Forall_forall _ _) Hs s I dim3 (x c q))). lra.
Qed.
Lemma another_beam dim3 m x (K : nat -> nat -> laws RNum) F dts l1 l2 (y : list R) t' y' : mesh_ok m -> massive m -> positive_weights (m_C m) -> positive_mesh true m -> settled K -> (forall n c q T, 0 <= pl_inv (K n 0%nat c q T)) ->
  Forall never_cools (l1 ++ l2) -> Forall heating_beam l2 -> short_steps dim3 true m (fun n c q => K n 0%nat c q 0) no_losses 0 dts -> List.length y = m_n m ->
  thermal_run dim3 ForwardEuler m x K F 0 0 dts (l1 ++ l2) y = Ok (t', y') -> exists y1, thermal_run dim3 ForwardEuler m x K F 0 0 dts l1 y = Ok (t', y1) /\ no_colder m y1 y'.
Proof.
  intros Mok M W Pm St Iv Nc Hb Sh L H. apply (more_beams dim3 m x K F Mok M W Pm St Iv dts 0 0 l1 l2 y y t' y' Nc Hb Sh L L); [intros j _; apply Rle_refl|exact H].
Qed.

(** ** Nothing becomes colder than the start and the surroundings *)
Definition uniform (m : heat_mesh RNum) (P : nat -> frozen) (Q : nat -> frozen_faces) (T0 : R) : scenario :=
  mksc (fun _ _ => false) (fun n _ c q _ => P n c q) (fun n _ j q _ => mkfl (N := RNum) (fl_inv (Q n j q)) (fl_h (Q n j q)) T0 (fl_emissivity (Q n j q)) T0) (repeat T0 (m_n m)).
Lemma uniform_stays dim3 ad m P Q T0 : mesh_ok m -> forall dts n t (y : list R), List.length y = m_n m -> (forall k, free m k -> entry y k = T0) ->
  forall k, free m k -> entry (temperatures dim3 ad ForwardEuler m (uniform m P Q T0) n t dts y) k = T0.
Proof.
  intros Mok. induction dts as [|dt dts IH]; intros n t y L U k Fk; [exact (U k Fk)|]. cbn [temperatures evolve]. apply IH; [|clear k Fk; intros k Fk|exact Fk].
  - etransitivity; [apply (saddR_length y dt _); rewrite rate_length; exact L|exact L].
  - etransitivity; [apply entry_sadd; rewrite rate_length; exact L|]. rewrite (U k Fk).
    pose proof (rate_uniform dim3 ad m (sc_laws (uniform m P Q T0) n 0) (sc_faces (uniform m P Q T0) n 0) y T0 k Mok U (fun _ _ _ => conj eq_refl eq_refl) Fk) as Z.
    etransitivity; [apply (f_equal (fun r : R => T0 + dt * r)); exact Z|ring].
Qed.
Lemma never_below dim3 ad m (P : nat -> frozen) (Q : nat -> frozen_faces) lo hi B dts : mesh_ok m -> massive m -> positive_weights (m_C m) -> positive_mesh ad m -> (forall n, physical ad (P n) (Q n)) -> 0 <= lo <= hi ->
  (forall n i c q T, same_conduction (sc_laws B n i c q T) (P n c q) /\ 0 <= heat_density (sc_on B n i) (sc_laws B n i c q T)) ->
  (ad = false -> forall n i j q T, let b := sc_faces B n i j q T in let k := Q n j q in fl_inv b = fl_inv k /\ fl_h b = fl_h k /\ fl_emissivity b = fl_emissivity k /\ lo <= fl_conv b /\ lo <= fl_rad b) ->
  List.length (sc_start B) = m_n m -> (forall k, free m k -> lo <= entry (sc_start B) k) -> short_steps dim3 ad m P Q hi dts ->
  ((ad = false -> no_radiation m) \/ forall k, between m 0 hi (final dim3 ad ForwardEuler m B (firstn k dts))) ->
  forall k, free m k -> lo <= entry (final dim3 ad ForwardEuler m B dts) k.
Proof.
  intros Mok M W Pm Ph Lo HB FB L St Sh Ra k Fk.
  assert (R0 : List.length (repeat lo (m_n m)) = m_n m) by apply repeat_length.
  assert (U : forall j, free m j -> entry (repeat lo (m_n m)) j = lo) by (intros j [Lj _]; unfold entry; rewrite (nth_indep _ 0 lo) by (rewrite repeat_length; exact Lj); apply nth_repeat).
  rewrite <- (uniform_stays dim3 ad m P Q lo Mok dts 0 0 (repeat lo (m_n m)) R0 U k Fk).
  apply (more_run dim3 ad m P Q hi (uniform m P Q lo) B dts Mok M W Pm Ph); [|exact Sh| |exact Fk].
  - split; [|split; [|split; [exact R0|split; [exact L|]]]].
    + intros n i c q T T'. split; [repeat split; reflexivity|]. destruct (HB n i c q T') as [A1 A2]. split; [exact A1|exact A2].
    + intros Ad n i j q T T'. destruct (FB Ad n i j q T') as (B1 & B2 & B3 & B4 & B5). cbv zeta. cbn [uniform sc_faces fl_inv fl_h fl_conv fl_emissivity fl_rad]. repeat split; try assumption; lra.
    + intros j Fj. cbn [uniform sc_start]. rewrite (U j Fj). exact (St j Fj).
  - destruct Ra as [Nr|Bd]; [left; exact Nr|right]. intros i. split; [|exact (Bd i)]. intros j Fj.
    assert (E : entry (final dim3 ad ForwardEuler m (uniform m P Q lo) (firstn i dts)) j = lo) by exact (uniform_stays dim3 ad m P Q lo Mok (firstn i dts) 0 0 (repeat lo (m_n m)) R0 U j Fj). rewrite E. exact Lo.
Qed.

(** ** More power *)
Lemma more_power a dim3 m x (K : nat -> nat -> laws RNum) F dts l (y : list R) t' y1 : 1 <= a -> mesh_ok m -> massive m -> positive_weights (m_C m) -> positive_mesh true m -> settled K -> (forall n c q T, 0 <= pl_inv (K n 0%nat c q T)) ->
  Forall heating_beam l -> short_steps dim3 true m (fun n c q => K n 0%nat c q 0) no_losses 0 dts -> List.length y = m_n m -> thermal_run dim3 ForwardEuler m x K F 0 0 dts l y = Ok (t', y1) ->
  exists ya, thermal_run dim3 ForwardEuler m x K F 0 0 dts (map (scaled_source a) l) y = Ok (t', ya) /\ no_colder m y1 ya.
Proof.
  intros A Mok M W Pm St Iv Hb Sh L H.
  assert (Nc : Forall never_cools ([] ++ l)) by (eapply Forall_impl; [|exact Hb]; intros s Hs; destruct s as [g|e]; [|destruct Hs]; apply Forall_forall; exact (proj2 Hs)).
  destruct (another_beam dim3 m x K F dts [] l y t' y1 Mok M W Pm St Iv Nc Hb Sh L H) as (y0' & R0' & Le).
  destruct (power_rise a dim3 ForwardEuler m x K F dts l y t' y1 Mok St L H) as (ya & y0 & Ra & R0 & E). rewrite R0 in R0'. injection R0' as <-. exists ya. split; [exact Ra|].
  intros j Fj. specialize (Le j Fj). specialize (E j). nra.
Qed.
