(** SuperpositionProofs2.v -- the temperature rises of the beams of a run add up, and grow with their powers; degrees. *)
From Coq Require Import Reals List Bool String ZArith Lra Lia.
From Verif Require Import Base BaseFacts QuaternionModel ScanPathModel HeatSourceModel HeatSourceProofs MaterialModel MaterialSpec InputModel HeatModel HeatSpec HeatProofs HeatProofs2 HeatProofs3 HeatProofs4 HeatProofs5 HeatProofs7 PowerSpec CellModel EnergyModel EnergySpec StabilitySpec SuperpositionSpec SuperpositionProofs.
Import ListNotations.
Open Scope R_scope.

(** ** Driving several groups of beams *)
Lemma info_path (sp : scan_path RNum) t save cur p0 t0 r0 sp' : update_current_segment_info sp t save = Ok (cur, p0, t0, r0, sp') -> sp_segs sp' = sp_segs sp.
Proof.
  unfold update_current_segment_info. destruct (advance _ _ _) as [c| |]; cbn [bind]; try discriminate.
  destruct c; (destruct (at_ (sp_segs sp) _) as [s| |]; cbn [bind]; try discriminate); intros [= _ _ _ _ <-]; destruct save; reflexivity.
Qed.
Lemma value_path (sp : scan_path RNum) t save p sp' : value sp t save = Ok (p, sp') -> sp_segs sp' = sp_segs sp.
Proof.
  unfold value. destruct (back _) as [l| |]; cbn [bind]; try discriminate. destruct (nltb RNum _ _); [intros [= _ <-]; reflexivity|].
  destruct (update_current_segment_info sp t save) as [[[[[c p0] t0] r0] sp1]| |] eqn:E; cbn [bind]; try discriminate. destruct (at_ _ _) as [s| |]; cbn [bind]; try discriminate.
  intros [= _ <-]. exact (info_path _ _ _ _ _ _ _ _ E).
Qed.
Lemma power_path (sp : scan_path RNum) t p sp' : get_power_modifier sp t = Ok (p, sp') -> sp_segs sp' = sp_segs sp.
Proof.
  unfold get_power_modifier. destruct (back _) as [l| |]; cbn [bind]; try discriminate. destruct (nltb RNum _ _); [intros [= _ <-]; reflexivity|].
  destruct (update_current_segment_info sp t true) as [[[[[c p0] t0] r0] sp1]| |] eqn:E; cbn [bind]; try discriminate. destruct (at_ _ _) as [s| |]; cbn [bind]; try discriminate.
  intros [= _ <-]. exact (info_path _ _ _ _ _ _ _ _ E).
Qed.
(** A beam that is off heats nothing. *)
Definition quiet (s : source) : Prop := is_source_on s = false -> forall dim3 p, heat_of (source_value dim3 s p) = 0.
Lemma update_quiet s t s1 : never_cools s -> update_time s t = Ok s1 -> never_cools s1 /\ quiet s1.
Proof.
  intros Nc U. unfold never_cools in *. rewrite Forall_forall in Nc. split.
  - apply Forall_forall. intros g I. apply Nc. destruct s as [b|b]; cbn [update_time] in U; [unfold goldak_update_time in U|unfold ebeam_update_time in U];
      (destruct (get_power_modifier (N := RNum) _ t) as [[pm sp1]| |] eqn:P; cbn [bind] in U; try discriminate); (destruct (value sp1 t true) as [[p sp2]| |] eqn:V; cbn [bind] in U; try discriminate);
      (destruct (get_quaternion qpow sp2 t) as [q| |]; cbn [bind] in U; try discriminate); injection U as <-; cbn [source_path g_path e_path] in *; rewrite (value_path _ _ _ _ _ V), (power_path _ _ _ _ P) in I; exact I.
  - intros Off d p. destruct s as [b|b]; cbn [update_time] in U.
    + destruct (goldak_update_time b t) as [b'| |] eqn:E; cbn [bind] in U; try discriminate. injection U as <-. cbn [source_value is_source_on] in *.
      destruct (goldak_value d b' p) as [v|] eqn:V; [|reflexivity]. exact (goldak_off d b t b' p v E Nc Off V).
    + destruct (ebeam_update_time b t) as [b'| |] eqn:E; cbn [bind] in U; try discriminate. injection U as <-. cbn [source_value is_source_on] in *.
      destruct (ebeam_value d b' p) as [v|] eqn:V; [|reflexivity]. exact (ebeam_off d b t b' p v E Nc Off V).
Qed.
Lemma set_time_app l1 l2 t r : set_time (l1 ++ l2) t = Ok r -> exists r1 r2, set_time l1 t = Ok r1 /\ set_time l2 t = Ok r2 /\ r = r1 ++ r2.
Proof.
  unfold set_time. revert r. induction l1 as [|s l1 IH]; intros r H; [exists [], r; repeat split; exact H|]. cbn [List.app mapR] in *. destruct (update_time s t) as [s1| |]; cbn [bind] in *; try discriminate.
  destruct (mapR (fun s => update_time s t) (l1 ++ l2)) as [r'| |]; cbn [bind] in H; try discriminate. destruct (IH r' eq_refl) as (r1 & r2 & A & B & C). injection H as <-. exists (s1 :: r1), r2. rewrite A. cbn [bind]. rewrite C. auto.
Qed.
Lemma set_time_quiet l t r : Forall never_cools l -> set_time l t = Ok r -> Forall never_cools r /\ Forall quiet r.
Proof.
  unfold set_time. intros F. revert r. induction F as [|s l Ns _ IH]; intros r H; cbn [mapR] in H; [injection H as <-; split; constructor|]. destruct (update_time s t) as [s1| |] eqn:U; cbn [bind] in H; try discriminate.
  destruct (mapR (fun s => update_time s t) l) as [r'| |]; cbn [bind] in H; try discriminate. injection H as <-. destruct (IH r' eq_refl) as [A B]. destruct (update_quiet s t s1 Ns U) as [C D]. split; constructor; assumption.
Qed.
Lemma last_of {A} (a : A) l d : last (a :: l) d = last l a.
Proof. revert a d. induction l as [|b l IH]; intros a d; [reflexivity|]. change (last (a :: b :: l) d) with (last (b :: l) d). rewrite !IH. reflexivity. Qed.
Lemma drive_app ts : forall l1 l2 sts, drive (l1 ++ l2) ts = Ok sts -> exists sts1 sts2, drive l1 ts = Ok sts1 /\ drive l2 ts = Ok sts2 /\
  (forall i, nth i sts [] = nth i sts1 [] ++ nth i sts2 []) /\ last sts (l1 ++ l2) = last sts1 l1 ++ last sts2 l2.
Proof.
  induction ts as [|t ts IH]; intros l1 l2 sts H; cbn [drive] in *; [injection H as <-; exists [], []; repeat split; intros [|i]; reflexivity|].
  destruct (set_time (l1 ++ l2) t) as [r| |] eqn:E; cbn [bind] in H; try discriminate. destruct (set_time_app l1 l2 t r E) as (r1 & r2 & A & B & ->).
  destruct (drive (r1 ++ r2) ts) as [rest| |] eqn:D; cbn [bind] in H; try discriminate. injection H as <-. destruct (IH r1 r2 rest D) as (s1 & s2 & D1 & D2 & Nn & La).
  rewrite A, B. cbn [bind]. rewrite D1, D2. cbn [bind]. exists (r1 :: s1), (r2 :: s2). split; [reflexivity|]. split; [reflexivity|]. split; [intros [|i]; [reflexivity|apply Nn]|].
  rewrite !last_of. exact La.
Qed.
Lemma drive_quiet ts : forall l sts, Forall never_cools l -> drive l ts = Ok sts -> (forall i, Forall quiet (nth i sts [])) /\ Forall never_cools (last sts l).
Proof.
  induction ts as [|t ts IH]; intros l sts F H; cbn [drive] in *; [injection H as <-; split; [intros [|i]; constructor|exact F]|].
  destruct (set_time l t) as [r| |] eqn:E; cbn [bind] in H; try discriminate. destruct (set_time_quiet l t r F E) as [A B]. destruct (drive r ts) as [rest| |] eqn:D; cbn [bind] in H; try discriminate.
  injection H as <-. destruct (IH r rest A D) as [C G]. split; [intros [|i]; [exact B|apply C]|]. rewrite last_of. exact G.
Qed.
Lemma drive_nil ts : exists sts, drive [] ts = Ok sts /\ (forall i, nth i sts [] = []) /\ last sts [] = [].
Proof.
  induction ts as [|t ts IH]; [exists []; repeat split; intros [|i]; reflexivity|]. destruct IH as (sts & D & A & B). cbn [drive]. unfold set_time. cbn [mapR bind]. rewrite D. cbn [bind]. exists ([] :: sts).
  split; [reflexivity|]. split; [intros [|i]; [reflexivity|apply A]|]. destruct sts; [reflexivity|exact B].
Qed.

(** ** One time step *)
Definition heats_at dim3 (l : list source) (p : pt RNum) : R := Sum l (fun s => heat_of (source_value dim3 s p)).
Lemma off_heats dim3 l p : Forall quiet l -> heat_sources_on (map is_source_on l) = false -> heats_at dim3 l p = 0.
Proof.
  intros Q Off. apply Sum_zero. intros s I. apply (proj1 (Forall_forall _ _) Q s I). destruct (is_source_on s) eqn:E; [|reflexivity].
  assert (H : heat_sources_on (map is_source_on l) = true) by (apply sources_on; rewrite <- E; apply in_map; exact I). congruence.
Qed.
Lemma beams_density dim3 (k : laws RNum) x (l : list source) c q T :
  heat_density (heat_sources_on (map is_source_on l)) (with_beams dim3 k x l c q T) = if heat_sources_on (map is_source_on l) then heats_at dim3 l (x c q) else 0.
Proof. unfold heat_density. destruct (heat_sources_on _); [|reflexivity]. unfold with_beams. cbv zeta. cbn [pl_beams]. exact (Sum_map _ _ l). Qed.
Lemma density_quiet dim3 (k : laws RNum) x (l : list source) c q T : Forall quiet l ->
  heat_density (heat_sources_on (map is_source_on l)) (with_beams dim3 k x l c q T) = heats_at dim3 l (x c q).
Proof. intros Q. rewrite beams_density. destruct (heat_sources_on _) eqn:E; [reflexivity|]. symmetry. exact (off_heats dim3 l (x c q) Q E). Qed.
Definition no_face : face_laws RNum := fun _ _ _ => mkfl (N := RNum) 0 0 0 0 0.
(** Weighted groups of beams. *)
Lemma beam_step_comb dim3 s m x (K : nat -> laws RNum) F (W : list (R * nat)) (sts : nat -> list (list source)) sts0 t dt V v : mesh_ok m ->
  (forall i c q T T', same_conduction (K i c q T) (K i c q T')) ->
  (forall i c q, heat_density (heat_sources_on (map is_source_on (nth i sts0 []))) (with_beams dim3 (K i) x (nth i sts0 []) c q 0) =
     Sum W (fun w => fst w * heat_density (heat_sources_on (map is_source_on (nth i (sts (snd w)) []))) (with_beams dim3 (K i) x (nth i (sts (snd w)) []) c q 0))) ->
  comb nat W (m_n m) V v ->
  comb nat W (m_n m) (fun k => snd (beam_step dim3 s m x K F (sts k) t dt (V k))) (snd (beam_step dim3 s m x K F sts0 t dt v)) /\
  (forall k, fst (beam_step dim3 s m x K F (sts k) t dt (V k)) = t + dt) /\ fst (beam_step dim3 s m x K F sts0 t dt v) = t + dt.
Proof.
  intros Mok St H C.
  set (f := fun (st : list (list source)) (i : nat) (_ : R) (v : list R) => evaluate (N := RNum) dim3 (heat_sources_on (map is_source_on (nth i st []))) true m (with_beams dim3 (K i) x (nth i st [])) no_face v).
  assert (E : forall st v, beam_step dim3 s m x K F st t dt v = evolveR s (f st) t dt v) by (intros; reflexivity).
  split; [|split; intros; rewrite E, evolve_step; reflexivity].
  assert (G : comb nat W (m_n m) (fun k => step s (f (sts k)) t dt (V k)) (step s (f sts0) t dt v)).
  { apply (comb_step nat W (m_n m) s (fun k => f (sts k)) (f sts0) t dt V v); [|exact C]. intros i u V' v' C'. unfold f.
    apply (rate_comb nat W dim3 true m (fun k => heat_sources_on (map is_source_on (nth i (sts k) []))) (fun k => with_beams dim3 (K i) x (nth i (sts k) [])) (fun _ => no_face)); try assumption.
    - intros w c q T T' _. exact (St i c q T T').
    - intros; split; reflexivity.
    - intros c q T Ts. rewrite beams_density, <- (beams_density dim3 (K i) x _ c q 0), H. apply Sum_ext. intros w _. rewrite !beams_density. reflexivity.
    - intros f0 q T Ts. cbn [no_face fl_conv]. symmetry. apply Sum_zero. intros; ring.
    - discriminate. }
  destruct G as (G1 & G2 & G3). rewrite E, evolve_step. cbn [snd]. split; [exact G1|]. split; [intros w I; rewrite E, evolve_step; exact (G2 w I)|]. intros j. rewrite G3. apply Sum_ext. intros w _. rewrite E, evolve_step. reflexivity.
Qed.

(** ** Runs: two groups of beams *)
Definition three (a b c : list R) (k : nat) : list R := match k with O => a | 1%nat => b | _ => c end.
Definition three_states (a b c : list (list source)) (k : nat) := match k with O => a | 1%nat => b | _ => c end.
Definition W3 : list (R * nat) := [(1, 0%nat); (1, 1%nat); (-1, 2%nat)].
Lemma W3_sum (f : nat -> R) : Sum W3 (fun w => fst w * f (snd w)) = f 0%nat + f 1%nat - f 2%nat.
Proof. unfold W3. rewrite !Sum_cons, Sum_nil. cbn [fst snd]. ring. Qed.
Lemma groups dim3 s m x (K : nat -> nat -> laws RNum) F : mesh_ok m -> settled K -> forall dts n t l1 l2 y y1 y2 y0 t' y', Forall never_cools (l1 ++ l2) ->
  comb nat W3 (m_n m) (three y1 y2 y0) y -> thermal_run dim3 s m x K F n t dts (l1 ++ l2) y = Ok (t', y') ->
  exists y1' y2' y0', thermal_run dim3 s m x K F n t dts l1 y1 = Ok (t', y1') /\ thermal_run dim3 s m x K F n t dts l2 y2 = Ok (t', y2') /\ thermal_run dim3 s m x K F n t dts [] y0 = Ok (t', y0') /\
    comb nat W3 (m_n m) (three y1' y2' y0') y'.
Proof.
  intros Mok St. induction dts as [|dt dts IH]; intros n t l1 l2 y y1 y2 y0 t' y' Nc C H; cbn [thermal_run] in *.
  - injection H as <- <-. exists y1, y2, y0. auto.
  - destruct (drive (l1 ++ l2) (stage_times s t dt)) as [sts| |] eqn:D; cbn [bind] in H; try discriminate. destruct (drive_app _ _ _ _ D) as (s1 & s2 & D1 & D2 & Nn & La).
    destruct (drive_nil (stage_times s t dt)) as (s0 & D0 & N0 & L0). rewrite D1, D2, D0. cbn [bind].
    destruct (drive_quiet _ _ _ Nc D) as [Qa Nl]. apply Forall_app in Nc. destruct Nc as [Nc1 Nc2]. destruct (drive_quiet _ _ _ Nc1 D1) as [Q1 _]. destruct (drive_quiet _ _ _ Nc2 D2) as [Q2 _].
    destruct (beam_step_comb dim3 s m x (K n) (F n) W3 (three_states s1 s2 s0) sts t dt (three y1 y2 y0) y Mok (St n)) as (G & T1 & T0); [|exact C|].
    + intros i c q. rewrite (W3_sum (fun k => heat_density (heat_sources_on (map is_source_on (nth i (three_states s1 s2 s0 k) []))) (with_beams dim3 (K n i) x (nth i (three_states s1 s2 s0 k) []) c q 0))).
      cbn [three_states]. rewrite N0. rewrite (density_quiet dim3 (K n i) x _ c q 0 (Qa i)), (density_quiet dim3 (K n i) x _ c q 0 (Q1 i)), (density_quiet dim3 (K n i) x _ c q 0 (Q2 i)), (density_quiet dim3 (K n i) x [] c q 0 (Forall_nil _)).
      rewrite Nn. unfold heats_at. rewrite Sum_app, Sum_nil. ring.
    + pose proof (T1 0%nat) as T10. pose proof (T1 1%nat) as T11. pose proof (T1 2%nat) as T12. cbn [three three_states] in T10, T11, T12.
      destruct (beam_step dim3 s m x (K n) (F n) sts t dt y) as [ta ya]. cbn [fst snd] in *. subst ta. rewrite La in H, Nl.
      assert (C' : comb nat W3 (m_n m) (three (snd (beam_step dim3 s m x (K n) (F n) s1 t dt y1)) (snd (beam_step dim3 s m x (K n) (F n) s2 t dt y2)) (snd (beam_step dim3 s m x (K n) (F n) s0 t dt y0))) ya).
      { destruct G as (G1 & G2 & G3). split; [exact G1|]. split.
        - intros w I. specialize (G2 w I). unfold W3 in I. cbn [In] in I. destruct I as [<-|[<-|[<-|[]]]]; exact G2.
        - intros j. rewrite G3. unfold W3. rewrite !Sum_cons, !Sum_nil. reflexivity. }
      destruct (beam_step dim3 s m x (K n) (F n) s1 t dt y1) as [tb yb]. destruct (beam_step dim3 s m x (K n) (F n) s2 t dt y2) as [tc yc]. destruct (beam_step dim3 s m x (K n) (F n) s0 t dt y0) as [td yd].
      cbn [fst snd] in *. subst tb tc td. rewrite L0. exact (IH _ _ _ _ _ _ _ _ _ _ Nl C' H).
Qed.
Lemma two_groups dim3 s m x (K : nat -> nat -> laws RNum) F dts l1 l2 (y : list R) t' y' : mesh_ok m -> settled K -> Forall never_cools (l1 ++ l2) -> List.length y = m_n m ->
  thermal_run dim3 s m x K F 0 0 dts (l1 ++ l2) y = Ok (t', y') ->
  exists y1 y2 y0, thermal_run dim3 s m x K F 0 0 dts l1 y = Ok (t', y1) /\ thermal_run dim3 s m x K F 0 0 dts l2 y = Ok (t', y2) /\ thermal_run dim3 s m x K F 0 0 dts [] y = Ok (t', y0) /\
    forall j, entry y' j - entry y0 j = (entry y1 j - entry y0 j) + (entry y2 j - entry y0 j).
Proof.
  intros Mok St Nc L H. destruct (groups dim3 s m x K F Mok St dts 0 0 l1 l2 y y y y t' y' Nc) as (y1 & y2 & y0 & A & B & D & (_ & _ & E)); [|exact H|].
  - split; [exact L|]. split; [intros w I; unfold W3 in I; cbn [In] in I; destruct I as [<-|[<-|[<-|[]]]]; exact L|]. intros j. unfold W3. rewrite !Sum_cons, Sum_nil. cbn [fst snd three]. ring.
  - exists y1, y2, y0. split; [exact A|]. split; [exact B|]. split; [exact D|]. intros j. rewrite E. unfold W3. rewrite !Sum_cons, Sum_nil. cbn [fst snd three]. ring.
Qed.
Lemma every_beam dim3 s m x (K : nat -> nat -> laws RNum) F dts (y : list R) t' y0 (T : source -> list R) : mesh_ok m -> settled K -> List.length y = m_n m ->
  thermal_run dim3 s m x K F 0 0 dts [] y = Ok (t', y0) -> forall srcs y', Forall never_cools srcs -> (forall src, In src srcs -> thermal_run dim3 s m x K F 0 0 dts [src] y = Ok (t', T src)) ->
  thermal_run dim3 s m x K F 0 0 dts srcs y = Ok (t', y') -> forall j, entry y' j - entry y0 j = Sum srcs (fun src => entry (T src) j - entry y0 j).
Proof.
  intros Mok St L H0. induction srcs as [|src srcs IH]; intros y' Nc A H j.
  - rewrite H0 in H. injection H as <-. rewrite Sum_nil. ring.
  - destruct (two_groups dim3 s m x K F dts [src] srcs y t' y' Mok St Nc L H) as (y1 & y2 & y0' & R1 & R2 & R0 & E). rewrite H0 in R0. injection R0 as <-.
    rewrite (A src (or_introl eq_refl)) in R1. injection R1 as <-. rewrite Sum_cons, E. f_equal. inversion Nc; subst. apply IH; [assumption| |exact R2]. intros s' I. apply A. right; exact I.
Qed.
