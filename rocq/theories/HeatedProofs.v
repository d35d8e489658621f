(** HeatedProofs.v -- beams never cool, and heat no faster than their rate. *)
From Coq Require Import Reals List Bool String ZArith Lra Lia Permutation.
From Verif Require Import Base MaterialModel MaterialSpec InputModel HeatModel HeatSpec MaterialProofs MaterialProofs2 HeatProofs HeatProofs2 HeatProofs3 HeatProofs4 HeatProofs5 HeatProofs7
  StabilitySpec StabilityProofs StabilityProofs2 StabilityProofs3 StabilityProofs4 StabilityProofs5 MaximumSpec MaximumProofs MaximumProofs2 RadiationSpec RadiationProofs RadiationProofs2 RadiationProofs3 HeatedSpec.
Import ListNotations.
Open Scope R_scope.

Definition delivered (m : heat_mesh RNum) (P : frozen) (z : nat -> R) : R :=
  Sum (indexed (m_cells m)) (fun ic => Sum (indexed (c_quads (snd ic))) (fun iq => h_jxw (snd iq) * (heating (P (fst ic) (fst iq)) * field (m_C m) (snd ic) (snd iq) z))).
Lemma weak_on dim3 on ad m K P F Q (y : list R) z : at_temperatures m K P F Q y ->
  weak dim3 on ad m K F y z = weak dim3 false ad m K F y z + (if on then delivered m P z else 0).
Proof.
  intros [HK _]. unfold weak. destruct on; [|ring]. assert (X : cells_tested dim3 true (m_C m) (m_cells m) K y z = cells_tested dim3 false (m_C m) (m_cells m) K y z + delivered m P z); [|rewrite X; ring].
  unfold cells_tested, delivered. rewrite <- Sum_plus. apply Sum_ext. intros [i c] I. cbn [fst snd]. rewrite <- Sum_plus. apply Sum_ext. intros [q x] Iq. unfold cell_point. cbn [fst snd]. rewrite (HK i c q x I Iq). unfold heating. cbn [num RNum]. ring.
Qed.
Lemma delivered_nonneg m P i : mesh_ok m -> positive_weights (m_C m) -> positive_points m -> heated P -> 0 <= delivered m P (hat i).
Proof.
  intros Mok W Pp Hd. apply Sum_nonneg. intros ic I. apply Sum_nonneg. intros iq Iq. apply in_indexed in I. apply in_indexed in Iq. pose proof (proj1 (Forall_forall _ _) Pp _ I) as Pc. pose proof (proj1 (Forall_forall _ _) Pc _ Iq) as [J V].
  apply Rmult_le_pos; [exact J|]. apply Rmult_le_pos; [apply Hd|]. apply (field_between m 0 1); try assumption; [exact (proj1 (Forall_forall _ _) (m_cells_ok m Mok) _ I)|apply hat_range].
Qed.
Lemma delivered_le m P s i : mesh_ok m -> positive_weights (m_C m) -> positive_points m -> heated_at_most P s -> delivered m P (hat i) <= s * integral (m_C m) (m_cells m) (hat i).
Proof.
  intros Mok W Pp Hd. unfold delivered, integral. rewrite <- (Sum_indexed _ (m_cells m)), <- Sum_scal. apply Sum_le. intros ic I. rewrite <- (Sum_indexed _ (c_quads (snd ic))), <- Sum_scal. apply Sum_le. intros iq Iq.
  apply in_indexed in I. apply in_indexed in Iq. pose proof (proj1 (Forall_forall _ _) Pp _ I) as Pc. pose proof (proj1 (Forall_forall _ _) Pc _ Iq) as [J V].
  pose proof (proj1 (field_between m 0 1 _ _ (hat i) Mok W (proj1 (Forall_forall _ _) (m_cells_ok m Mok) _ I) Iq V (hat_range m i))) as F0. set (f := field (m_C m) (snd ic) (snd iq) (hat i)) in *.
  destruct (Hd (fst ic) (fst iq)) as [H0 H1]. set (h := heating _) in *. apply Rle_trans with (h_jxw (snd iq) * (s * f)); [|right; cbn [num RNum]; ring]. apply Rmult_le_compat_l; [exact J|]. apply Rmult_le_compat_r; assumption.
Qed.
(** What a step with sources adds to a step without. *)
Lemma euler_on dim3 on ad m K P F Q (y : list R) t dt j : mesh_ok m -> massive m -> List.length y = m_n m -> at_temperatures m K P F Q y -> free m j ->
  entry (snd (evolve (N := RNum) ForwardEuler (fun _ _ v => evaluate (N := RNum) dim3 on ad m K F v) t dt y)) j =
  entry (snd (evolve (N := RNum) ForwardEuler (fun _ _ v => evaluate (N := RNum) dim3 false ad m K F v) t dt y)) j + dt * ((if on then delivered m P (hat j) else 0) / nodal_mass m j).
Proof.
  intros Mok M Ly At Fr. cbn [evolve snd].
  assert (E : forall o, entry (sadd (N := RNum) y dt (evaluate (N := RNum) dim3 o ad m K F y)) j = entry y j + dt * (weak dim3 o ad m K F y (hat j) / nodal_mass m j)).
  { intros o. assert (Lr : List.length (evaluate (N := RNum) dim3 o ad m K F y) = m_n m) by apply (rate_length dim3 o ad m K F y).
    etransitivity; [apply entry_sadd; exact (eq_trans Ly (eq_sym Lr))|]. f_equal. f_equal. exact (rate_free dim3 o ad m K F y Mok j Fr). }
  rewrite !E, (weak_on dim3 on ad m K P F Q y (hat j) At). field. pose proof (M j Fr). lra.
Qed.
Lemma heated_above dim3 on ad m K P F Q lo hi t dt (y : list R) : mesh_ok m -> massive m -> positive_weights (m_C m) -> positive_points m -> List.length y = m_n m -> at_temperatures m K P F Q y -> surroundings ad m Q lo hi -> heated P -> 0 <= lo -> 0 <= dt ->
  moderate dim3 ad m P (losses m Q y) dt -> between m lo hi y -> forall j, free m j -> lo <= entry (snd (evolve (N := RNum) ForwardEuler (fun _ _ v => evaluate (N := RNum) dim3 on ad m K F v) t dt y)) j.
Proof.
  intros Mok M W Pp Ly At Su Hd Lo D0 Md Bt j Fr. rewrite (euler_on dim3 on ad m K P F Q y t dt j Mok M Ly At Fr).
  pose proof (euler_between dim3 ad m K P F Q lo hi y Mok M W Ly At Su Lo Bt t dt D0 Md j Fr) as [E _]. pose proof (delivered_nonneg m P j Mok W Pp Hd) as Dn. pose proof (M j Fr) as Mj.
  assert (0 <= dt * ((if on then delivered m P (hat j) else 0) / nodal_mass m j)); [|lra]. apply Rmult_le_pos; [exact D0|]. unfold Rdiv. apply Rmult_le_pos; [destruct on; lra|left; apply Rinv_0_lt_compat; exact Mj].
Qed.
Lemma heated_between dim3 on ad m K P F Q lo hi s t dt (y : list R) : mesh_ok m -> massive m -> positive_weights (m_C m) -> positive_points m -> same_masses m -> List.length y = m_n m -> at_temperatures m K P F Q y -> surroundings ad m Q lo hi ->
  heated_at_most P s -> 0 <= lo -> 0 <= dt -> moderate dim3 ad m P (losses m Q y) dt -> between m lo hi y ->
  between m lo (hi + dt * s) (snd (evolve (N := RNum) ForwardEuler (fun _ _ v => evaluate (N := RNum) dim3 on ad m K F v) t dt y)).
Proof.
  intros Mok M W Pp Sm Ly At Su Hd Lo D0 Md Bt j Fr. split.
  - apply (heated_above dim3 on ad m K P F Q lo hi t dt y); try assumption. intros i q. apply Hd.
  - rewrite (euler_on dim3 on ad m K P F Q y t dt j Mok M Ly At Fr). pose proof (euler_between dim3 ad m K P F Q lo hi y Mok M W Ly At Su Lo Bt t dt D0 Md j Fr) as [_ E].
    pose proof (delivered_le m P s j Mok W Pp Hd) as Dl. rewrite (Sm j Fr) in Dl. pose proof (M j Fr) as Mj. assert (S0 : 0 <= s) by (destruct (Hd 0%nat 0%nat); lra).
    assert (Rt : (if on then delivered m P (hat j) else 0) / nodal_mass m j <= s).
    { apply Rmult_le_reg_r with (nodal_mass m j); [exact Mj|]. unfold Rdiv. rewrite Rmult_assoc, Rinv_l, Rmult_1_r by lra. destruct on; [exact Dl|]. apply Rmult_le_pos; lra. }
    assert (dt * ((if on then delivered m P (hat j) else 0) / nodal_mass m j) <= dt * s) by (apply Rmult_le_compat_l; assumption). lra.
Qed.
(** The laws at the temperatures of the points. *)
Lemma freeze dim3 h m K F lo hi (y : list R) : mesh_ok m -> m_C m = [] -> exposed_boxes dim3 h m -> 0 < h -> lo <= hi -> between m lo hi y ->
  exists P Q, at_temperatures m K P F Q y /\ (forall i q, exists T, lo <= T <= hi /\ P i q = K i q T) /\
    (forall j f q, In (j, f) (indexed (m_faces m)) -> on_boundary f = true -> exists T, lo <= T <= hi /\ Q j q = F j q T).
Proof.
  intros Mok C0 Ex H0 LH Bt. assert (W : positive_weights (m_C m)) by (rewrite C0; constructor).
  set (P := fun i q => K i q (held lo hi (point_of (m_cells m) (m_C m) y i q)) : point_law RNum).
  set (TQ := fun i q => point_of (map active_side (m_faces m)) (m_C m) y i q).
  set (Q := fun i q => F i q (match nth_error (m_faces m) i with Some f => if on_boundary f then held lo hi (TQ i q) else TQ i q | None => TQ i q end) : face_law RNum).
  assert (EQ : forall i f q, In (i, f) (indexed (m_faces m)) -> Q i q = F i q (if on_boundary f then held lo hi (TQ i q) else TQ i q)).
  { intros i f q I. unfold Q. rewrite (in_indexed_nth _ _ _ I). reflexivity. }
  exists P, Q. split; [split|split].
  - intros i c q x I J. unfold P. rewrite (point_in _ _ _ _ _ _ _ I J). rewrite held_id; [reflexivity|]. pose proof (in_indexed _ _ I) as I'. pose proof (in_indexed _ _ J) as J'. cbn [snd] in I', J'.
    apply (field_between m lo hi); try assumption; [exact (proj1 (Forall_forall _ _) (m_cells_ok m Mok) _ I')|]. exact (proj1 (Forall_forall _ _) (box_values dim3 h c H0 (even_of dim3 h m Ex c I')) x J').
  - intros i f q x I J. rewrite (EQ i f q I). unfold TQ. rewrite (point_in _ _ _ _ _ _ _ (indexed_map active_side _ _ _ I) J). destruct (on_boundary f) eqn:B; [|reflexivity].
    rewrite held_id; [reflexivity|]. pose proof (in_indexed _ _ I) as I'. pose proof (in_indexed _ _ J) as J'. cbn [snd] in I', J'.
    apply (field_between m lo hi); try assumption; [exact (active_ok m Mok (i, f) I)|]. exact (proj2 (proj1 (Forall_forall _ _) (sides_values dim3 h m H0 Ex f I' B) x J')).
  - intros i q. exists (held lo hi (point_of (m_cells m) (m_C m) y i q)). split; [apply held_in; exact LH|reflexivity].
  - intros j f q I B. exists (held lo hi (TQ j q)). split; [apply held_in; exact LH|]. rewrite (EQ j f q I), B. reflexivity.
Qed.
Lemma boxes_points dim3 h m : 0 < h -> exposed_boxes dim3 h m -> positive_points m.
Proof.
  intros H0 Ex. apply Forall_forall. intros c Ic. pose proof (even_of dim3 h m Ex c Ic) as Ev. pose proof (box_values dim3 h c H0 Ev) as V. apply Forall_forall. intros q Iq. split; [|exact (proj1 (Forall_forall _ _) V q Iq)].
  destruct Ev as [_ B]. destruct dim3.
  - destruct B as [dx [dy [dz [dofs [Hx [Hy [Hz [_ [_ [E _]]]]]]]]]]. subst c. unfold brick in Iq. cbn [c_quads] in Iq. apply in_flat_map in Iq as [z [_ I]]. apply in_flat_map in I as [y [_ I]]. apply in_map_iff in I as [x [<- _]]. unfold point3. cbn [h_jxw].
    assert (0 < dx * dy * dz) by (apply Rmult_lt_0_compat; [apply Rmult_lt_0_compat|]; lra). lra.
  - destruct B as [dx [dz [dofs [Hx [Hz [_ [_ [E _]]]]]]]]. subst c. unfold rectangle in Iq. cbn [c_quads] in Iq. apply in_flat_map in Iq as [z [_ I]]. apply in_map_iff in I as [x [<- _]]. unfold point2. cbn [h_jxw].
    assert (0 < dx * dz) by (apply Rmult_lt_0_compat; lra). lra.
Qed.
Lemma boxes_masses dim3 h m : exposed_boxes dim3 h m -> same_masses m.
Proof. intros [E _] i _. unfold nodal_mass. rewrite E. reflexivity. Qed.
Lemma largest_mono ty (k : face_law RNum) (a b : R) : 0 <= fl_emissivity k -> 0 <= a <= b -> largest_coef ty k a <= largest_coef ty k b.
Proof.
  intros E Ab. unfold largest_coef. pose proof sigma_pos as Sg. cbn [num RNum] in *. apply Rplus_le_compat_l. destruct (has_flag ty radiative); [|lra]. apply Rmult_le_compat_l; [apply Rmult_le_pos; lra|].
  apply Rmult_le_compat_l; [lra|]. apply pow_incr. exact Ab.
Qed.
Lemma heated_boxes_step dim3 on m K F lo hi top alpha g s h t dt (y : list R) : mesh_ok m -> massive m -> m_C m = [] -> exposed_boxes dim3 h m -> heated_laws m K F lo hi top alpha g s -> 0 <= g -> 0 < h -> 0 <= lo -> hi <= top -> 0 <= dt ->
  dt * (even_factor dim3 true * (alpha / (h * h) + g / h)) <= 1 -> List.length y = m_n m -> between m lo hi y ->
  between m lo (hi + dt * s) (snd (evolve (N := RNum) ForwardEuler (fun _ _ v => evaluate (N := RNum) dim3 on false m K F v) t dt y)).
Proof.
  intros Mok Ms C0 Ex [Lk Lf] G0 H0 Lo Ht D0 DL Ly Bt j Fj. assert (LH : lo <= hi) by (specialize (Bt j Fj); lra). revert j Fj.
  assert (W : positive_weights (m_C m)) by (rewrite C0; constructor). destruct (freeze dim3 h m K F lo hi y Mok C0 Ex H0 LH Bt) as [P [Q [At [HP HQ]]]].
  assert (Su : surroundings false m Q lo hi).
  { intros _ j f I B. split; [exact (sides_values dim3 h m H0 Ex f (in_indexed _ _ I) B)|]. intros q. destruct (HQ j f q I B) as [T [HT E]]. rewrite E. destruct (Lf j f q T I B ltac:(lra)) as [F1 [F2 [F3 [F4 [F5 _]]]]]. cbv zeta in *. tauto. }
  apply (heated_between dim3 on false m K P F Q lo hi s t dt y); try assumption; [exact (boxes_points dim3 h m H0 Ex)|exact (boxes_masses dim3 h m Ex)| |].
  - intros i q. destruct (HP i q) as [T [HT E]]. rewrite E. apply Lk. lra.
  - apply (moderate_largest dim3 false m P Q lo hi dt y); try assumption. apply (boxes_moderate dim3 m P Q alpha g lo hi h dt); try assumption.
    + intros i q. destruct (HP i q) as [T [HT E]]. rewrite E. apply Lk. lra.
    + split; [exact G0|]. intros j f q I B. destruct (HQ j f q I B) as [T [HT E]]. rewrite E. destruct (Lf j f q T I B ltac:(lra)) as [F1 [F2 [F3 [_ [_ F6]]]]]. cbv zeta in *.
      eapply Rle_trans; [|exact F6]. apply Rmult_le_compat_l; [exact F1|]. apply largest_mono; [exact F3|]. lra.
Qed.
Lemma heated_laws_wider m K F lo hi hi' top alpha g s : hi <= hi' -> heated_laws m K F lo hi top alpha g s -> heated_laws m K F lo hi' top alpha g s.
Proof.
  intros H [Lk Lf]. split; [exact Lk|]. intros j f q T I B HT. destruct (Lf j f q T I B HT) as [F1 [F2 [F3 [F4 [F5 F6]]]]]. cbv zeta in *. repeat split; try assumption; try (intros X; specialize (F4 X); lra); try (intros X; specialize (F5 X); lra); try (apply F4; assumption); try (apply F5; assumption).
  - apply Rle_trans with hi; [apply F4; assumption|exact H].
  - apply Rle_trans with hi; [apply F5; assumption|exact H].
Qed.
Lemma heated_boxes_many dim3 m (on : R -> bool) (K : R -> laws RNum) (F : R -> face_laws RNum) lo hi top alpha g s h dt t (y : list R) N : mesh_ok m -> massive m -> m_C m = [] -> exposed_boxes dim3 h m ->
  (forall u, heated_laws m (K u) (F u) lo hi top alpha g s) -> 0 <= g -> 0 <= s -> 0 < h -> 0 <= lo -> 0 <= dt -> hi + INR N * (dt * s) <= top ->
  dt * (even_factor dim3 true * (alpha / (h * h) + g / h)) <= 1 -> List.length y = m_n m -> between m lo hi y ->
  forall n, (n <= N)%nat -> between m lo (hi + INR n * (dt * s)) (snd (many ForwardEuler (fun _ u v => evaluate (N := RNum) dim3 (on u) false m (K u) (F u) v) dt n (t, y))).
Proof.
  intros Mok Ms C0 Ex Lw G0 S0 H0 Lo D0 Tp DL Ly Bt. set (f := fun (_ : nat) (u : R) (v : list R) => evaluate (N := RNum) dim3 (on u) false m (K u) (F u) v). assert (Ds : 0 <= dt * s) by (apply Rmult_le_pos; assumption).
  assert (X : forall n, (n <= N)%nat -> List.length (snd (many ForwardEuler f dt n (t, y))) = m_n m /\ between m lo (hi + INR n * (dt * s)) (snd (many ForwardEuler f dt n (t, y)))).
  { induction n as [|n IH]; intros Ln; [split; [exact Ly|]; intros j Fj; cbn [many snd INR]; specialize (Bt j Fj); lra|]. destruct (IH ltac:(lia)) as [IL IB]. cbn [many]. set (ty := many ForwardEuler f dt n (t, y)) in *. split.
    - destruct (evolve (N := RNum) ForwardEuler f (fst ty) dt (snd ty)) as [t1 y1] eqn:E. destruct (evolve_parts ForwardEuler _ _ _ _ t1 y1 E) as [_ Y1]. cbn [snd]. rewrite Y1. apply (step_length (m_n m)); [|exact IL]. intros; apply (rate_length dim3 _ false m _ _).
    - assert (E : hi + INR (S n) * (dt * s) = (hi + INR n * (dt * s)) + dt * s) by (rewrite S_INR; ring). rewrite E.
      assert (B1 : INR n * (dt * s) <= INR N * (dt * s)) by (apply Rmult_le_compat_r; [exact Ds|apply le_INR; lia]). assert (B0 : 0 <= INR n * (dt * s)) by (apply Rmult_le_pos; [apply pos_INR|exact Ds]).
      assert (St : between m lo ((hi + INR n * (dt * s)) + dt * s) (snd (evolve (N := RNum) ForwardEuler (fun _ _ v => evaluate (N := RNum) dim3 (on (fst ty)) false m (K (fst ty)) (F (fst ty)) v) (fst ty) dt (snd ty)))); [|exact St].
      apply (heated_boxes_step dim3 (on (fst ty)) m (K (fst ty)) (F (fst ty)) lo (hi + INR n * (dt * s)) top alpha g s h (fst ty) dt (snd ty)); try assumption; [|lra].
      apply (heated_laws_wider _ _ _ _ hi); [lra|apply Lw]. }
  intros n Ln. apply X. exact Ln.
Qed.
(** ** Runs with steps of different lengths *)
Lemma surroundings_wider ad m Q lo hi hi' : hi <= hi' -> surroundings ad m Q lo hi -> surroundings ad m Q lo hi'.
Proof.
  intros H Su A j f I B. destruct (Su A j f I B) as [S1 S2]. split; [exact S1|]. intros q. destruct (S2 q) as [F1 [F2 [F3 [F4 F5]]]]. repeat split; try assumption; try (apply F4; assumption); try (apply F5; assumption).
  - apply Rle_trans with hi; [apply F4; assumption|exact H].
  - apply Rle_trans with hi; [apply F5; assumption|exact H].
Qed.
Lemma run_time dim3 ad m lo env top s t (y : list R) t2 y2 : heated_run dim3 ad m lo env top s t y t2 y2 -> t <= t2.
Proof.
  induction 1 as [|t y y' t2 y2 _ _ _ IH|t dt y t1 y1 t2 y2 on K F P Q _ _ _ D0 _ E _ IH]; [apply Rle_refl|exact IH|].
  destruct (evolve_parts ForwardEuler _ t dt y t1 y1 E) as [T1 _]. lra.
Qed.
Lemma heated_run_between dim3 ad m lo env top s t (y : list R) t2 y2 : mesh_ok m -> massive m -> positive_weights (m_C m) -> positive_points m -> same_masses m -> 0 <= lo -> 0 <= s ->
  heated_run dim3 ad m lo env top s t y t2 y2 -> forall hi, List.length y = m_n m -> env <= hi -> between m lo hi y -> hi + (t2 - t) * s <= top -> between m lo (hi + (t2 - t) * s) y2.
Proof.
  intros Mok M W Pp Sm Lo S0 H. induction H as [t y|t y y' t2 y2 L' E _ IH|t dt y t1 y1 t2 y2 on K F P Q At Su Hd D0 Md E H IH]; intros hi L He Bt Tp.
  - replace (hi + (t - t) * s) with hi by ring. exact Bt.
  - apply IH; [congruence|exact He| |exact Tp]. intros k Fr. rewrite E by exact Fr. apply Bt. exact Fr.
  - pose proof (run_time _ _ _ _ _ _ _ _ _ _ _ H) as T2. destruct (evolve_parts ForwardEuler _ t dt y t1 y1 E) as [T1 Y1]. assert (Ds : 0 <= dt * s) by (apply Rmult_le_pos; assumption). assert (Rs : 0 <= (t2 - t1) * s) by (apply Rmult_le_pos; lra).
    assert (Eq : hi + (t2 - t) * s = (hi + dt * s) + (t2 - t1) * s) by (rewrite T1; ring). rewrite Eq in *.
    apply IH; [rewrite Y1; apply (step_length (m_n m)); [|exact L]; intros; apply (rate_length dim3 on ad m K F)|lra| |lra].
    assert (Bp : between m lo top y) by (intros j Fr; specialize (Bt j Fr); lra).
    pose proof (heated_between dim3 on ad m K P F Q lo hi s t dt y Mok M W Pp Sm L At (surroundings_wider ad m Q lo env hi He Su) Hd Lo D0) as B. rewrite E in B. apply B; [|exact Bt].
    apply (moderate_largest dim3 ad m P Q lo top dt y); try assumption. apply (surroundings_wider ad m Q lo env top); [lra|exact Su].
Qed.
