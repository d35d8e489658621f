(** SuperpositionProofs3.v -- other powers, other degrees; radiation does not add up. *)
From Coq Require Import Reals List Bool String ZArith Lra Lia.
From Verif Require Import Base BaseFacts QuaternionModel ScanPathModel HeatSourceModel MaterialModel MaterialSpec InputModel HeatModel HeatSpec HeatProofs HeatProofs2 HeatProofs3 HeatProofs4 HeatProofs5 HeatProofs7 PowerSpec CellModel EnergyModel EnergySpec StabilitySpec SuperpositionSpec SuperpositionProofs SuperpositionProofs2.
Import ListNotations.
Open Scope R_scope.

(** ** Powers *)
Lemma update_scaled a s t : update_time (scaled_source a s) t = (do s1 <- update_time s t; Ok (scaled_source a s1)).
Proof.
  destruct s as [g|e]; cbn [scaled_source update_time]; [unfold goldak_update_time; cbn [g_path g_beam g_five]|unfold ebeam_update_time; cbn [e_path e_beam e_five]];
    (destruct (get_power_modifier (N := RNum) _ t) as [[pm sp1]| |]; cbn [bind]; try reflexivity); (destruct (value sp1 t true) as [[p sp2]| |]; cbn [bind]; try reflexivity);
    (destruct (get_quaternion qpow sp2 t) as [q| |]; cbn [bind]; try reflexivity); cbn [scaled_source scaled_beam b_eff b_power b_depth b_radius2 g_on g_beam g_path g_five g_quat g_center g_alpha g_depth g_id2 g_r2 g_ir2 e_on e_beam e_path e_five e_quat e_center e_alpha e_depth e_id e_r2 e_ir2].
  - do 3 f_equal. unfold Rdiv. ring.
  - do 3 f_equal. unfold Rdiv. ring.
Qed.
Lemma set_time_scaled a l t : set_time (map (scaled_source a) l) t = (do r <- set_time l t; Ok (map (scaled_source a) r)).
Proof.
  unfold set_time. induction l as [|s l IH]; [reflexivity|]. cbn [map mapR]. rewrite update_scaled. destruct (update_time s t) as [s1| |]; cbn [bind]; try reflexivity.
  rewrite IH. destruct (mapR (fun s => update_time s t) l); reflexivity.
Qed.
Lemma drive_scaled a ts : forall l, drive (map (scaled_source a) l) ts = (do r <- drive l ts; Ok (map (map (scaled_source a)) r)).
Proof.
  induction ts as [|t ts IH]; intros l; [reflexivity|]. cbn [drive]. rewrite set_time_scaled. destruct (set_time l t) as [r| |]; cbn [bind]; try reflexivity. rewrite IH. destruct (drive r ts); reflexivity.
Qed.
Lemma nth_scaled a i (l : list (list source)) : nth i (map (map (scaled_source a)) l) [] = map (scaled_source a) (nth i l []).
Proof. exact (map_nth (map (scaled_source a)) l [] i). Qed.
Lemma last_scaled a (l : list (list source)) d : last (map (map (scaled_source a)) l) (map (scaled_source a) d) = map (scaled_source a) (last l d).
Proof. revert d. induction l as [|x l IH]; intros d; [reflexivity|]. cbn [map]. rewrite !last_of. apply IH. Qed.
Lemma on_scaled a l : map is_source_on (map (scaled_source a) l) = map is_source_on l.
Proof. rewrite map_map. apply map_ext. intros [g|e]; reflexivity. Qed.
Lemma value_scaled dim3 a s p : heat_of (source_value dim3 (scaled_source a s) p) = a * heat_of (source_value dim3 s p).
Proof.
  destruct s as [g|e]; cbn [scaled_source source_value];
    [unfold goldak_value; cbn [g_five g_quat g_center g_depth g_beam scaled_beam b_radius2 g_alpha g_ir2 g_id2]|unfold ebeam_value; cbn [e_five e_quat e_center e_depth e_alpha e_id e_r2 e_ir2]];
    (destruct (rotated dim3 _ _ p) as [rp|]; [|cbn [heat_of]; ring]); repeat match goal with |- context [if ?b then _ else _] => destruct b end; cbn [heat_of]; ring.
Qed.
Lemma heats_scaled dim3 a l p : heats_at dim3 (map (scaled_source a) l) p = a * heats_at dim3 l p.
Proof. unfold heats_at. rewrite Sum_map, <- Sum_scal. apply Sum_ext. intros s _. apply value_scaled. Qed.
Definition two (b c : list R) (k : nat) : list R := match k with O => b | _ => c end.
Definition two_states (b c : list (list source)) (k : nat) := match k with O => b | _ => c end.
Definition W2 (a : R) : list (R * nat) := [(a, 0%nat); (1 - a, 1%nat)].
Lemma W2_sum a (f : nat -> R) : Sum (W2 a) (fun w => fst w * f (snd w)) = a * f 0%nat + (1 - a) * f 1%nat.
Proof. unfold W2. rewrite !Sum_cons, Sum_nil. cbn [fst snd]. ring. Qed.
Lemma scaled_run a dim3 s m x (K : nat -> nat -> laws RNum) F : mesh_ok m -> settled K -> forall dts n t l y y1 y0 t' y1',
  comb nat (W2 a) (m_n m) (two y1 y0) y -> thermal_run dim3 s m x K F n t dts l y1 = Ok (t', y1') ->
  exists y' y0', thermal_run dim3 s m x K F n t dts (map (scaled_source a) l) y = Ok (t', y') /\ thermal_run dim3 s m x K F n t dts [] y0 = Ok (t', y0') /\ comb nat (W2 a) (m_n m) (two y1' y0') y'.
Proof.
  intros Mok St. induction dts as [|dt dts IH]; intros n t l y y1 y0 t' y1' C H; cbn [thermal_run] in *.
  - injection H as <- <-. exists y, y0. auto.
  - rewrite drive_scaled. destruct (drive l (stage_times s t dt)) as [s1| |] eqn:D; cbn [bind] in *; try discriminate.
    destruct (drive_nil (stage_times s t dt)) as (s0 & D0 & N0 & L0). rewrite D0. cbn [bind].
    destruct (beam_step_comb dim3 s m x (K n) (F n) (W2 a) (two_states s1 s0) (map (map (scaled_source a)) s1) t dt (two y1 y0) y Mok (St n)) as (G & T1 & T0); [|exact C|].
    + intros i c q. rewrite (W2_sum a (fun k => heat_density (heat_sources_on (map is_source_on (nth i (two_states s1 s0 k) []))) (with_beams dim3 (K n i) x (nth i (two_states s1 s0 k) []) c q 0))).
      cbn [two_states]. rewrite N0, nth_scaled, !beams_density, on_scaled, heats_scaled. cbn [map heat_sources_on fold_left]. destruct (heat_sources_on _); ring.
    + pose proof (T1 0%nat) as T10. pose proof (T1 1%nat) as T11. cbn [two two_states] in T10, T11.
      destruct (beam_step dim3 s m x (K n) (F n) (map (map (scaled_source a)) s1) t dt y) as [ta ya]. cbn [fst snd] in *. subst ta.
      assert (C' : comb nat (W2 a) (m_n m) (two (snd (beam_step dim3 s m x (K n) (F n) s1 t dt y1)) (snd (beam_step dim3 s m x (K n) (F n) s0 t dt y0))) ya).
      { destruct G as (G1 & G2 & G3). split; [exact G1|]. split.
        - intros w I. specialize (G2 w I). unfold W2 in I. cbn [In] in I. destruct I as [<-|[<-|[]]]; exact G2.
        - intros j. rewrite G3. unfold W2. rewrite !Sum_cons, !Sum_nil. reflexivity. }
      destruct (beam_step dim3 s m x (K n) (F n) s1 t dt y1) as [tb yb]. destruct (beam_step dim3 s m x (K n) (F n) s0 t dt y0) as [td yd].
      cbn [fst snd] in *. subst tb td. rewrite L0, last_scaled. exact (IH _ _ _ _ _ _ _ _ C' H).
Qed.
Lemma power_rise a dim3 s m x (K : nat -> nat -> laws RNum) F dts l (y : list R) t' y1 : mesh_ok m -> settled K -> List.length y = m_n m ->
  thermal_run dim3 s m x K F 0 0 dts l y = Ok (t', y1) ->
  exists ya y0, thermal_run dim3 s m x K F 0 0 dts (map (scaled_source a) l) y = Ok (t', ya) /\ thermal_run dim3 s m x K F 0 0 dts [] y = Ok (t', y0) /\
    forall j, entry ya j - entry y0 j = a * (entry y1 j - entry y0 j).
Proof.
  intros Mok St L H. destruct (scaled_run a dim3 s m x K F Mok St dts 0 0 l y y y t' y1) as (ya & y0 & A & B & (_ & _ & E)); [|exact H|].
  - split; [exact L|]. split; [intros w I; unfold W2 in I; cbn [In] in I; destruct I as [<-|[<-|[]]]; exact L|]. intros j. unfold W2. rewrite !Sum_cons, Sum_nil. cbn [fst snd two]. ring.
  - exists ya, y0. split; [exact A|]. split; [exact B|]. intros j. rewrite E. unfold W2. rewrite !Sum_cons, Sum_nil. cbn [fst snd two]. ring.
Qed.

(** ** Degrees *)
Lemma uniform_kept dim3 ad s m (A : scenario) T : mesh_ok m -> (forall n i, sc_on A n i = false) -> (forall n i j q T', fl_conv (sc_faces A n i j q T') = T /\ fl_rad (sc_faces A n i j q T') = T) ->
  forall dts n t y, List.length y = m_n m -> (forall k, free m k -> entry y k = T) -> forall k, free m k -> entry (temperatures dim3 ad s m A n t dts y) k = T.
Proof.
  intros Mok Off Fa. induction dts as [|dt dts IH]; intros n t y L U k Fr; [exact (U k Fr)|]. cbn [temperatures].
  set (f := fun (i : nat) (_ : R) (v : list R) => evaluate (N := RNum) dim3 (sc_on A n i) ad m (sc_laws A n i) (sc_faces A n i) v).
  change (entry (let '(t1, y1) := evolveR s f t dt y in temperatures dim3 ad s m A (S n) t1 dts y1) k = T). rewrite evolve_step.
  assert (Lf : forall i t y, List.length y = m_n m -> List.length (f i t y) = m_n m) by (intros; apply rate_length).
  assert (Z : forall i t v, (forall k, free m k -> entry v k = T) -> forall k, free m k -> entry (f i t v) k = 0).
  { intros i u v V k' Fr'. unfold f. rewrite Off. apply (rate_uniform dim3 ad m (sc_laws A n i) (sc_faces A n i) v T k' Mok V); [|exact Fr']. intros _ a b. apply Fa. }
  assert (Q : forall v w, List.length v = m_n m /\ (forall k, free m k -> entry v k = T) -> List.length w = m_n m /\ (forall k, free m k -> entry w k = T) ->
    forall a i u, List.length (saddR v a (f i u w)) = m_n m /\ forall k, free m k -> entry (saddR v a (f i u w)) k = T).
  { intros v w [Lv V] [Lw Wv] a i u. assert (E : List.length v = List.length (f i u w)) by (rewrite Lf; assumption). split; [rewrite saddR_length by exact E; exact Lv|].
    apply uniform_stage; [exact E|exact V|]. apply Z. exact Wv. }
  assert (Y : List.length y = m_n m /\ forall k, free m k -> entry y k = T) by auto.
  assert (P : List.length (step s f t dt y) = m_n m /\ forall k, free m k -> entry (step s f t dt y) k = T).
  { destruct s; unfold step; cbv zeta; apply Q; repeat (exact Y || apply Q). }
  apply IH; [exact (proj1 P)|exact (proj2 P)|exact Fr].
Qed.
(** The scenario of the degrees: everything at one degree, without beams. *)
Definition one_degree (m : heat_mesh RNum) (A : scenario) : scenario :=
  mksc (fun _ _ => false) (fun n i c q _ => sc_laws A n i c q 0) (fun n i j q _ => let k := sc_faces A n i j q 0 in mkfl (N := RNum) (fl_inv k) (fl_h k) 1 (fl_emissivity k) 1) (repeat 1 (m_n m)).
Lemma other_degrees dim3 ad s m (A B : scenario) c dts j : mesh_ok m -> (ad = false -> no_radiation m) -> same_material A A -> same_material A B ->
  List.length (sc_start A) = m_n m -> List.length (sc_start B) = m_n m -> (forall k, (k < m_n m)%nat -> entry (sc_start B) k = entry (sc_start A) k + c) ->
  (forall n i a q T T', heat_density (sc_on B n i) (sc_laws B n i a q T) = heat_density (sc_on A n i) (sc_laws A n i a q T')) ->
  (forall n i f q T T', (fl_conv (sc_faces B n i f q T) : R) = fl_conv (sc_faces A n i f q T') + c) -> free m j ->
  entry (final dim3 ad s m B dts) j = entry (final dim3 ad s m A dts) j + c.
Proof.
  intros Mok NR AA AB LA LB St HK HF Fr.
  assert (C : combines m [(1, A); (c, one_degree m A)] B).
  { split; [|split; [exact LB|split; [|split]]].
    - intros w [<-|[<-|[]]]; cbn [snd]; [split; assumption|]. split; [|cbn [one_degree sc_start]; apply repeat_length]. destruct AB as [B1 B2]. split.
      + intros n i a q T T'. cbn [one_degree sc_laws]. apply B1.
      + intros n i f q T T'. cbn [one_degree sc_faces fl_inv fl_h]. apply B2.
    - intros n i a q T Ts. rewrite !Sum_cons, Sum_nil. cbn [fst snd one_degree sc_on heat_density]. rewrite (HK n i a q T (Ts A)). ring.
    - intros n i f q T Ts. rewrite !Sum_cons, Sum_nil. cbn [fst snd one_degree sc_faces fl_conv]. etransitivity; [exact (HF n i f q T (Ts A))|]. cbn [num RNum]. ring.
    - intros k. rewrite !Sum_cons, Sum_nil. cbn [fst snd one_degree sc_start]. destruct (Nat.lt_ge_cases k (m_n m)) as [Lk|Lk].
      + rewrite St by exact Lk. unfold entry. rewrite nth_repeat_lt by exact Lk. ring.
      + unfold entry. rewrite !nth_overflow; [ring|rewrite repeat_length|rewrite LA|rewrite LB]; exact Lk. }
  rewrite (superposition dim3 ad s m _ B dts j Mok NR C). rewrite !Sum_cons, Sum_nil. cbn [fst snd].
  assert (U : entry (final dim3 ad s m (one_degree m A) dts) j = 1).
  { unfold final. apply (uniform_kept dim3 ad s m (one_degree m A) 1 Mok); [reflexivity|intros; split; reflexivity|cbn [one_degree sc_start]; apply repeat_length| |exact Fr].
    intros k [Lk _]. cbn [one_degree sc_start]. unfold entry. apply nth_repeat_lt. exact Lk. }
  rewrite U. ring.
Qed.
