(** ComparisonProofs.v -- forward Euler: a part that is heated more is not colder anywhere. *)
From Coq Require Import Reals List Bool String ZArith Lra Lia.
From Verif Require Import Base MaterialModel MaterialSpec InputModel HeatModel HeatSpec MaterialProofs MaterialProofs2 HeatProofs HeatProofs2 HeatProofs3 HeatProofs4 HeatProofs5 HeatProofs7
  StabilitySpec StabilityProofs StabilityProofs2 StabilityProofs3 MaximumSpec MaximumProofs RadiationSpec RadiationProofs EnergyModel EnergySpec SuperpositionSpec SuperpositionProofs ComparisonSpec.
Import ListNotations.
Open Scope R_scope.

Lemma field_nonneg m c q (z : nat -> R) : mesh_ok m -> positive_weights (m_C m) -> shape_ok (m_n m) c -> In q (c_quads c) -> Forall (fun v : R => 0 <= v) (h_values q) ->
  (forall j, free m j -> 0 <= z j) -> 0 <= field (m_C m) c q z.
Proof.
  intros Mok W Sc I V Z. refine (proj1 (field_between m 0 (Sum (seq 0 (m_n m)) (fun k => Rabs (z k))) c q z Mok W Sc I V _)). intros j Fj. split; [exact (Z j Fj)|].
  rewrite <- (sum_hat (fun k => Rabs (z k)) j (m_n m) (proj1 Fj)) at 1 || idtac.
  assert (E : Sum (seq 0 (m_n m)) (fun k => z k * hat k j) = z j) by (apply sum_hat; exact (proj1 Fj)). rewrite <- E at 1. apply Sum_le. intros k _. pose proof (hat_range m k j Fj) as H. pose proof (Rle_abs (z k)) as A. pose proof (Rabs_pos (z k)) as B. nra.
Qed.
Lemma cells_form dim3 on m (K : laws RNum) (P : frozen) y z : (forall c q T, same_conduction (K c q T) (P c q)) ->
  cells_tested dim3 on (m_C m) (m_cells m) K y z = - conducted dim3 m P (entry y) z +
    Sum (indexed (m_cells m)) (fun ic => Sum (indexed (c_quads (snd ic))) (fun iq => h_jxw (snd iq) * (pl_inv (P (fst ic) (fst iq)) * heat_density on (K (fst ic) (fst iq) (field (m_C m) (snd ic) (snd iq) (entry y)))) * field (m_C m) (snd ic) (snd iq) z)).
Proof.
  intros S. unfold cells_tested, conducted. rewrite <- Sum_opp, <- Sum_plus. apply Sum_ext. intros ic _. rewrite <- Sum_opp, <- Sum_plus. apply Sum_ext. intros iq _. unfold cell_point. cbv zeta.
  destruct (S (fst ic) (fst iq) (field (m_C m) (snd ic) (snd iq) (entry y))) as (H1 & H2 & H3 & H4 & H5 & H6). unfold heat_density. cbn [num RNum] in *. rewrite H1, H2, H3, H4, H5, H6. destruct on; ring.
Qed.
Lemma outflux_order ty (k a b : face_law RNum) (TA TB hi : R) : 0 <= fl_h k -> 0 <= fl_emissivity k -> (fl_h a = fl_h k /\ fl_emissivity a = fl_emissivity k) -> (fl_h b = fl_h k /\ fl_emissivity b = fl_emissivity k) ->
  fl_conv a <= fl_conv b -> 0 <= fl_rad a <= fl_rad b -> TA <= TB -> (has_flag ty radiative = true -> 0 <= TA /\ TB <= hi) ->
  outflux (has_flag ty convective) (has_flag ty radiative) (fl_h b) (fl_conv b) (fl_emissivity b) (fl_rad b) TB <=
  outflux (has_flag ty convective) (has_flag ty radiative) (fl_h a) (fl_conv a) (fl_emissivity a) (fl_rad a) TA + largest_coef ty k hi * (TB - TA).
Proof.
  intros Hh He [A1 A2] [B1 B2] C Rd T Ra. unfold outflux, largest_coef. pose proof sigma_pos as Sg. cbn [num RNum] in *. rewrite A1, A2, B1, B2. rewrite Rmult_plus_distr_r.
  set (h := fl_h k) in *. set (e := fl_emissivity k) in *. set (ca := fl_conv a) in *. set (cb := fl_conv b) in *. set (ra := fl_rad a) in *. set (rb := fl_rad b) in *.
  assert (X : (if has_flag ty convective then h * (TB - cb) else 0) <= (if has_flag ty convective then h * (TA - ca) else 0) + (if has_flag ty convective then h else 0) * (TB - TA)) by (destruct (has_flag ty convective); nra).
  assert (Y : (if has_flag ty radiative then e * sigma * (TB ^ 4 - rb ^ 4) else 0) <= (if has_flag ty radiative then e * sigma * (TA ^ 4 - ra ^ 4) else 0) + (if has_flag ty radiative then e * sigma * (4 * hi ^ 3) else 0) * (TB - TA)).
  { destruct (has_flag ty radiative); [|lra]. destruct (Ra eq_refl) as [T0 Th].
    replace (e * sigma * (TA ^ 4 - ra ^ 4) + e * sigma * (4 * hi ^ 3) * (TB - TA)) with (e * sigma * (TA ^ 4 - ra ^ 4 + (4 * hi ^ 3) * (TB - TA))) by ring.
    apply Rmult_le_compat_l; [apply Rmult_le_pos; lra|].
    assert (R4 : ra ^ 4 <= rb ^ 4) by (apply pow_incr; lra).
    assert (D : TB ^ 4 - TA ^ 4 <= 4 * hi ^ 3 * (TB - TA)).
    { replace (TB ^ 4 - TA ^ 4) with ((TB + TA) * (TB * TB + TA * TA) * (TB - TA)) by ring. apply Rmult_le_compat_r; [lra|]. replace (4 * hi ^ 3) with ((hi + hi) * (hi * hi + hi * hi)) by ring. apply Rmult_le_compat; nra. }
    lra. }
  lra.
Qed.

Section Step.
  Variables (dim3 ad : bool) (m : heat_mesh RNum) (P : frozen) (Q : frozen_faces) (onA onB : bool) (KA KB : laws RNum) (FA FB : face_laws RNum) (hi : R) (y y' : list R).
  Hypotheses (Mok : mesh_ok m) (M : massive m) (W : positive_weights (m_C m)) (Pm : positive_mesh ad m) (Ph : physical ad P Q) (L : List.length y = m_n m) (L' : List.length y' = m_n m)
    (H : heated_more P onA onB KA KB) (A : ad = false -> warmer_air Q FA FB) (Le : no_colder m y y') (Ra : (ad = false -> no_radiation m) \/ (between m 0 hi y /\ between m 0 hi y')).
  Local Notation d := (fun k => entry y' k + -1 * entry y k).
  Lemma more_field c q : shape_ok (m_n m) c -> In q (c_quads c) -> Forall (fun v : R => 0 <= v) (h_values q) -> field (m_C m) c q (entry y) <= field (m_C m) c q (entry y') /\ field (m_C m) c q d = field (m_C m) c q (entry y') - field (m_C m) c q (entry y).
  Proof.
    intros Sc I V. assert (E : field (m_C m) c q d = field (m_C m) c q (entry y') + -1 * field (m_C m) c q (entry y)) by apply field_lin.
    pose proof (field_nonneg m c q d Mok W Sc I V ltac:(intros j Fj; specialize (Le j Fj); lra)). lra.
  Qed.
  Lemma more_cells i : - conducted dim3 m P (hat i) d <= cells_tested dim3 onB (m_C m) (m_cells m) KB y' (hat i) - cells_tested dim3 onA (m_C m) (m_cells m) KA y (hat i).
  Proof.
    rewrite (cells_form dim3 onB m KB P y' (hat i)) by (intros c q T; exact (proj1 (proj2 (H c q T T)))). rewrite (cells_form dim3 onA m KA P y (hat i)) by (intros c q T; exact (proj1 (H c q T T))).
    assert (E : conducted dim3 m P (hat i) d = conducted dim3 m P (entry y') (hat i) + -1 * conducted dim3 m P (entry y) (hat i)).
    { transitivity (exchange dim3 true m P noface (hat i) d); [unfold exchange; ring|]. rewrite ex_sym, ex_lin. unfold exchange. ring. }
    rewrite E. match goal with |- _ <= - _ + ?b - (- _ + ?a) => enough (a <= b) by lra end.
    apply Sum_le. intros [j c] I. apply Sum_le. intros [q x] Iq. cbn [fst snd]. pose proof (in_indexed _ _ I) as Ic. pose proof (in_indexed _ _ Iq) as Ix. cbn [fst snd] in *.
    pose proof (proj1 (Forall_forall _ _) (proj1 Pm) c Ic) as Pc. destruct (proj1 (Forall_forall _ _) Pc x Ix) as [J V].
    assert (Sc : shape_ok (m_n m) c) by exact (proj1 (Forall_forall _ _) (proj1 (proj2 Mok)) c Ic).
    pose proof (field_nonneg m c x (hat i) Mok W Sc Ix V (fun k F => proj1 (hat_range m i k F))) as N.
    pose proof (proj1 Ph j q) as Iv. destruct (H j q (field (m_C m) c x (entry y)) (field (m_C m) c x (entry y'))) as [_ [_ Hd]].
    apply Rmult_le_compat_r; [exact N|]. apply Rmult_le_compat_l; [exact J|]. apply Rmult_le_compat_l; [exact Iv|exact Hd].
  Qed.
  Lemma more_faces i : ad = false -> faces_tested (m_C m) (m_faces m) FB y' (hat i) <= faces_tested (m_C m) (m_faces m) FA y (hat i) + surface m (largest_losses Q hi) (hat i) d.
  Proof.
    intros Ad. unfold faces_tested, surface. rewrite <- Sum_plus. apply Sum_le. intros [j f] I. cbn [fst snd]. destruct (on_boundary f) eqn:B; [|lra]. rewrite <- Sum_plus. apply Sum_le. intros [q x] Iq.
    pose proof (active_ok m Mok (j, f) I) as Sc. pose proof (in_indexed _ _ I) as If. pose proof (in_indexed _ _ Iq) as Ix. cbn [fst snd] in *.
    pose proof (proj1 (Forall_forall _ _) (proj2 Pm Ad) f If B) as Pc. destruct (proj1 (Forall_forall _ _) Pc x Ix) as [J V].
    pose proof (field_nonneg m _ x (hat i) Mok W Sc Ix V (fun k F => proj1 (hat_range m i k F))) as N. destruct (more_field _ x Sc Ix V) as [Fm Fd].
    destruct (proj2 Ph Ad j q) as (P1 & P2 & P3). unfold face_point, largest_losses. cbv zeta. cbn [fst snd]. cbv beta in Fd. rewrite Fd.
    assert (Bd : has_flag (hf_type f) radiative = true -> 0 <= field (m_C m) (active_side f) x (entry y) /\ field (m_C m) (active_side f) x (entry y') <= hi).
    { intros Rd. destruct Ra as [Nr|[B1 B2]].
      - specialize (Nr Ad). pose proof (proj1 (Forall_forall _ _) Nr f If B) as Z. cbv beta in Z. congruence.
      - split; [exact (proj1 (field_between m 0 hi _ x (entry y) Mok W Sc Ix V B1))|exact (proj2 (field_between m 0 hi _ x (entry y') Mok W Sc Ix V B2))]. }
    set (TA := field (m_C m) (active_side f) x (entry y)) in *. set (TB := field (m_C m) (active_side f) x (entry y')) in *. set (w := field (m_C m) (active_side f) x (hat i)) in *.
    destruct (A Ad j q TA TB) as ((A1 & A2 & A3) & (B1 & B2 & B3) & C & Rr).
    pose proof (outflux_order (hf_type f) (Q j q) (FA j q TA) (FB j q TB) TA TB hi P2 P3 (conj A2 A3) (conj B2 B3) C Rr Fm Bd) as O.
    cbn [num RNum] in *. rewrite A1, B1. eapply Rle_trans; [apply (three_mul (h_jxw x) (fl_inv (Q j q)) _ _ w J P1 N O)|]. apply Req_le. ring.
  Qed.
  Lemma more_weak i : - exchange_with dim3 ad m P (largest_losses Q hi) (hat i) d <= weak dim3 onB ad m KB FB y' (hat i) - weak dim3 onA ad m KA FA y (hat i).
  Proof.
    pose proof (more_cells i) as C. pose proof (more_faces i) as F. cbv beta in *. unfold weak, exchange_with. destruct ad; [lra|]. specialize (F eq_refl). lra.
  Qed.
  Lemma more_step dt : 0 <= dt -> moderate dim3 ad m P (largest_losses Q hi) dt ->
    no_colder m (sadd (N := RNum) y dt (evaluate (N := RNum) dim3 onA ad m KA FA y)) (sadd (N := RNum) y' dt (evaluate (N := RNum) dim3 onB ad m KB FB y')).
  Proof.
    intros D0 Md j Fr.
    assert (E1 : entry (sadd (N := RNum) y dt (evaluate (N := RNum) dim3 onA ad m KA FA y)) j = entry y j + dt * (weak dim3 onA ad m KA FA y (hat j) / nodal_mass m j)).
    { etransitivity; [apply entry_sadd; exact (eq_trans L (eq_sym (rate_length dim3 onA ad m KA FA y)))|]. f_equal. f_equal. exact (rate_free dim3 onA ad m KA FA y Mok j Fr). }
    assert (E2 : entry (sadd (N := RNum) y' dt (evaluate (N := RNum) dim3 onB ad m KB FB y')) j = entry y' j + dt * (weak dim3 onB ad m KB FB y' (hat j) / nodal_mass m j)).
    { etransitivity; [apply entry_sadd; exact (eq_trans L' (eq_sym (rate_length dim3 onB ad m KB FB y')))|]. f_equal. f_equal. exact (rate_free dim3 onB ad m KB FB y' Mok j Fr). }
    rewrite E1, E2. pose proof (M j Fr) as Mj. pose proof (more_weak j) as Wd.
    pose proof (sink dim3 ad m P (largest_losses Q hi) Mok dt D0 Md (fun k => 0 + -1 * d k) j ltac:(intros k Fk; specialize (Le k Fk); cbv beta; lra) Fr) as Sk.
    pose proof (E_lin dim3 ad m P (largest_losses Q hi) (hat j) (fun _ => 0) d (-1)) as El. cbv beta in Sk, El. rewrite El in Sk. clear El. rewrite (L_zero m _ (E_lin dim3 ad m P (largest_losses Q hi) (hat j)) (E_ext dim3 ad m P (largest_losses Q hi) Mok (hat j))) in Sk. cbv beta in *.
    set (wa := weak dim3 onA ad m KA FA y (hat j)) in *. set (wb := weak dim3 onB ad m KB FB y' (hat j)) in *. set (e := exchange_with dim3 ad m P (largest_losses Q hi) (hat j) d) in *. set (mu := nodal_mass m j) in *.
    assert (Hd : dt * - e <= dt * (wb - wa)) by (apply Rmult_le_compat_l; lra).
    apply Rmult_le_reg_l with mu; [exact Mj|]. replace (mu * (entry y j + dt * (wa / mu))) with (mu * entry y j + dt * wa) by (field; lra). replace (mu * (entry y' j + dt * (wb / mu))) with (mu * entry y' j + dt * wb) by (field; lra). lra.
  Qed.
End Step.

Lemma more_temperatures dim3 ad m hi A B : mesh_ok m -> massive m -> positive_weights (m_C m) -> positive_mesh ad m ->
  forall dts n t (P : nat -> frozen) (Q : nat -> frozen_faces) (y y' : list R),
  (forall k, physical ad (P k) (Q k)) ->
  (forall k dt, nth_error dts k = Some dt -> 0 <= dt /\ moderate dim3 ad m (P (n + k)%nat) (largest_losses (Q (n + k)%nat) hi) dt) ->
  (forall k i, heated_more (P k) (sc_on A k i) (sc_on B k i) (sc_laws A k i) (sc_laws B k i)) -> (ad = false -> forall k i, warmer_air (Q k) (sc_faces A k i) (sc_faces B k i)) ->
  List.length y = m_n m -> List.length y' = m_n m -> no_colder m y y' ->
  ((ad = false -> no_radiation m) \/ forall k, between m 0 hi (temperatures dim3 ad ForwardEuler m A n t (firstn k dts) y) /\ between m 0 hi (temperatures dim3 ad ForwardEuler m B n t (firstn k dts) y')) ->
  no_colder m (temperatures dim3 ad ForwardEuler m A n t dts y) (temperatures dim3 ad ForwardEuler m B n t dts y').
Proof.
  intros Mok M W Pm. induction dts as [|dt dts IH]; intros n t P Q y y' Ph Sh H Ai L L' Le Ra; [exact Le|]. cbn [temperatures evolve].
  destruct (Sh 0%nat dt eq_refl) as [D0 Md]. rewrite Nat.add_0_r in Md.
  apply (IH (S n) _ P Q); try assumption.
  - intros k d E. replace (S n + k)%nat with (n + S k)%nat by lia. exact (Sh (S k) d E).
  - etransitivity; [apply (saddR_length y dt _); rewrite rate_length; exact L|exact L].
  - etransitivity; [apply (saddR_length y' dt _); rewrite rate_length; exact L'|exact L'].
  - apply (more_step dim3 ad m (P n) (Q n) _ _ _ _ _ _ hi); try assumption; [apply Ph|apply H|intros Z; apply (Ai Z)|]. destruct Ra as [Nr|Bd]; [left; exact Nr|right; exact (Bd 0%nat)].
  - destruct Ra as [Nr|Bd]; [left; exact Nr|right]. intros k. exact (Bd (S k)).
Qed.
Lemma more_run dim3 ad m (P : nat -> frozen) (Q : nat -> frozen_faces) hi A B dts : mesh_ok m -> massive m -> positive_weights (m_C m) -> positive_mesh ad m -> (forall n, physical ad (P n) (Q n)) ->
  hotter ad m P Q A B -> short_steps dim3 ad m P Q hi dts -> radiation_bounded dim3 ad m hi A B dts ->
  no_colder m (final dim3 ad ForwardEuler m A dts) (final dim3 ad ForwardEuler m B dts).
Proof.
  intros Mok M W Pm Ph (H1 & H2 & L & L' & Le) Sh Ra. unfold final in *. apply (more_temperatures dim3 ad m hi A B Mok M W Pm dts 0 0 P Q); try assumption.
Qed.

(** Boxes: a limit on the time step from the smallest edge, the diffusivity and the largest loss. *)
Definition still (Q : frozen_faces) : frozen_faces := fun j q => mkfl (N := RNum) (fl_inv (Q j q)) (fl_h (Q j q)) 0 (fl_emissivity (Q j q)) 0.
