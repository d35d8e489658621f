(** RadiationProofs.v -- forward Euler with convection and radiation stays between the extremes. *)
From Coq Require Import Reals List Bool String ZArith Lra Lia.
From Verif Require Import Base MaterialModel MaterialSpec InputModel HeatModel HeatSpec MaterialProofs MaterialProofs2 HeatProofs HeatProofs2 HeatProofs3 HeatProofs4 HeatProofs5 HeatProofs7
  StabilitySpec StabilityProofs StabilityProofs2 StabilityProofs3 MaximumSpec MaximumProofs RadiationSpec.
Import ListNotations.
Open Scope R_scope.

(** A linear functional of the free entries. *)
Section Linear.
  Variables (m : heat_mesh RNum) (L : (nat -> R) -> R).
  Hypothesis lin : forall u v a, L (fun k => u k + a * v k) = L u + a * L v.
  Hypothesis ext : forall u v, (forall k, free m k -> u k = v k) -> L u = L v.
  Lemma L_zero : L (fun _ => 0) = 0.
  Proof. pose proof (lin (fun _ => 0) (fun _ => 0) 1) as H. cbv beta in H. assert (H2 : L (fun _ => 0 + 1 * 0) = L (fun _ => 0)) by (apply ext; intros; cbv beta; ring). rewrite H2 in H. lra. Qed.
  Lemma L_sum {A} (l : list A) (f : A -> R) (g : A -> nat -> R) : L (fun k => Sum l (fun a => f a * g a k)) = Sum l (fun a => f a * L (g a)).
  Proof.
    induction l as [|a l IH]; [exact L_zero|]. rewrite Sum_cons, <- IH.
    rewrite (ext (fun k => Sum (a :: l) (fun a => f a * g a k)) (fun k => (fun k => Sum l (fun a => f a * g a k)) k + f a * g a k)) by (intros; rewrite Sum_cons; ring). rewrite lin. ring.
  Qed.
  Lemma L_hat z : L z = Sum (seq 0 (m_n m)) (fun j => z j * L (hat j)).
  Proof. rewrite <- (L_sum (seq 0 (m_n m)) z hat). apply ext. intros k [H _]. symmetry. apply sum_hat. exact H. Qed.
  Lemma L_hanging j : In j (map fst (m_C m)) -> L (hat j) = 0.
  Proof. intros I. rewrite <- L_zero. apply ext. intros k [_ N]. unfold hat. destruct (Nat.eqb_spec k j) as [->|]; [contradiction|reflexivity]. Qed.
End Linear.

Section Step.
  Variables (dim3 ad : bool) (m : heat_mesh RNum) (P : frozen) (c : coefficient).
  Hypothesis Mok : mesh_ok m.
  Local Notation E := (exchange_with dim3 ad m P c).
  Definition noface : frozen_faces := fun _ _ => mkfl (N := RNum) 0 0 0 0 0.
  Lemma E_split u z : E u z = exchange dim3 true m P noface u z + (if ad then 0 else surface m c u z).
  Proof. unfold exchange_with, exchange. ring. Qed.
  Lemma active_ok jf : In jf (indexed (m_faces m)) -> shape_ok (m_n m) (active_side (snd jf)).
  Proof. intros I. apply in_indexed in I. apply (proj1 (Forall_forall _ _) (m_faces_ok m Mok)) in I. unfold active_side. destruct (Nat.eqb _ 0); tauto. Qed.
  Lemma surface_lin w u v a : surface m c w (fun k => u k + a * v k) = surface m c w u + a * surface m c w v.
  Proof.
    unfold surface. rewrite <- Sum_scal, <- Sum_plus. apply Sum_ext. intros jf _. destruct (on_boundary (snd jf)); [|ring]. rewrite <- Sum_scal, <- Sum_plus. apply Sum_ext. intros iq _. rewrite field_lin. ring.
  Qed.
  Lemma surface_ext w u v : (forall k, free m k -> u k = v k) -> surface m c w u = surface m c w v.
  Proof.
    intros H. unfold surface. apply Sum_ext. intros jf I. destruct (on_boundary (snd jf)); [|reflexivity]. apply Sum_ext. intros iq _.
    rewrite (field_ext _ _ _ (snd iq) (m_C_ok m Mok) (active_ok jf I) u v) by (intros k L N; apply H; split; assumption). reflexivity.
  Qed.
  Lemma E_lin w u v a : E w (fun k => u k + a * v k) = E w u + a * E w v.
  Proof. rewrite !E_split, !(ex_sym dim3 true m P noface w), ex_lin. destruct ad; [ring|]. rewrite surface_lin. ring. Qed.
  Lemma E_ext w u v : (forall k, free m k -> u k = v k) -> E w u = E w v.
  Proof. intros H. rewrite !E_split, !(ex_sym dim3 true m P noface w), (ex_ext dim3 true m P noface u v w Mok H). destruct ad; [ring|]. rewrite (surface_ext w u v H). ring. Qed.
  Variable dt : R.
  Hypotheses (M : massive m) (D0 : 0 <= dt) (Md : moderate dim3 ad m P c dt).
  (** Where a nonpositive field is not larger after the step. *)
  Lemma sink z i : (forall j, free m j -> z j <= 0) -> free m i -> nodal_mass m i * z i - dt * E (hat i) z <= 0.
  Proof.
    intros Z Fr. rewrite (L_hat m (E (hat i)) (E_lin (hat i)) (E_ext (hat i)) z). set (a := fun j => E (hat i) (hat j)).
    assert (S1 : a i * z i <= Sum (seq 0 (m_n m)) (fun j => z j * a j)).
    { rewrite <- (sum_hat (fun j => a j * z j) i (m_n m) (proj1 Fr)). apply Sum_le. intros j I. apply in_seq in I. unfold hat at 1. destruct (Nat.eqb_spec i j) as [<-|Ne]; [lra|].
      destruct (in_dec Nat.eq_dec j (map fst (m_C m))) as [J|J].
      - assert (Ej : a j = 0) by (exact (L_hanging m (E (hat i)) (E_lin (hat i)) (E_ext (hat i)) j J)). rewrite Ej. lra.
      - assert (Fj : free m j) by (split; [lia|exact J]). destruct Md as [Off _]. specialize (Off i j Fr Fj Ne). specialize (Z j Fj). fold (a j) in Off. nra. }
    destruct Md as [_ Dg]. specialize (Dg i Fr). fold (a i) in Dg. specialize (Z i Fr). change (fun j => z j * E (hat i) (hat j)) with (fun j => z j * a j).
    assert (B2 : dt * (a i * z i) <= dt * Sum (seq 0 (m_n m)) (fun j => z j * a j)) by (apply Rmult_le_compat_l; assumption).
    assert (B3 : 0 <= (nodal_mass m i - dt * a i) * - z i) by (apply Rmult_le_pos; lra). lra.
  Qed.
End Step.

Lemma coef_nonneg ty (k : face_law RNum) (T : R) : 0 <= fl_h k -> 0 <= fl_emissivity k -> (has_flag ty radiative = true -> 0 <= fl_rad k) -> 0 <= T -> 0 <= loss_coef ty k T.
Proof.
  intros H E Rr T0. unfold loss_coef. pose proof sigma_pos as Sg. cbn [num RNum] in *. apply Rplus_le_le_0_compat.
  - destruct (has_flag ty convective); [exact H|lra].
  - destruct (has_flag ty radiative); [|lra]. specialize (Rr eq_refl). apply Rmult_le_pos; [apply Rmult_le_pos; lra|]. apply Rmult_le_pos; nra.
Qed.
(** The flux compared with that towards surroundings at the temperature [b]. *)
Lemma flux_above ty (k : face_law RNum) (T b : R) : 0 <= fl_h k -> 0 <= fl_emissivity k -> 0 <= T -> (has_flag ty convective = true -> fl_conv k <= b) -> (has_flag ty radiative = true -> 0 <= fl_rad k <= b) ->
  loss_coef ty k T * (T - b) <= outflux (has_flag ty convective) (has_flag ty radiative) (fl_h k) (fl_conv k) (fl_emissivity k) (fl_rad k) T.
Proof.
  intros H E T0 Hc Hr. unfold loss_coef, outflux. pose proof sigma_pos as Sg. cbn [num RNum] in *. rewrite Rmult_plus_distr_r. apply Rplus_le_compat.
  - destruct (has_flag ty convective); [|lra]. specialize (Hc eq_refl). nra.
  - destruct (has_flag ty radiative); [|lra]. specialize (Hr eq_refl). set (r := fl_rad k) in *. set (e := fl_emissivity k) in *.
    replace (e * sigma * (T ^ 4 - r ^ 4)) with (e * sigma * ((T + r) * (T * T + r * r)) * (T - r)) by ring. apply Rmult_le_compat_l; [|lra].
    apply Rmult_le_pos; [apply Rmult_le_pos; lra|]. apply Rmult_le_pos; nra.
Qed.
Lemma flux_below ty (k : face_law RNum) (T b : R) : 0 <= fl_h k -> 0 <= fl_emissivity k -> 0 <= T -> 0 <= b -> (has_flag ty convective = true -> b <= fl_conv k) -> (has_flag ty radiative = true -> b <= fl_rad k) ->
  outflux (has_flag ty convective) (has_flag ty radiative) (fl_h k) (fl_conv k) (fl_emissivity k) (fl_rad k) T <= loss_coef ty k T * (T - b).
Proof.
  intros H E T0 B0 Hc Hr. unfold loss_coef, outflux. pose proof sigma_pos as Sg. cbn [num RNum] in *. rewrite Rmult_plus_distr_r. apply Rplus_le_compat.
  - destruct (has_flag ty convective); [|lra]. specialize (Hc eq_refl). nra.
  - destruct (has_flag ty radiative); [|lra]. specialize (Hr eq_refl). set (r := fl_rad k) in *. set (e := fl_emissivity k) in *.
    replace (e * sigma * (T ^ 4 - r ^ 4)) with (e * sigma * ((T + r) * (T * T + r * r)) * (T - r)) by ring. apply Rmult_le_compat_l; [|lra].
    apply Rmult_le_pos; [apply Rmult_le_pos; lra|]. apply Rmult_le_pos; nra.
Qed.
Lemma largest_ok ty (k : face_law RNum) (T hi : R) : 0 <= fl_emissivity k -> 0 <= T <= hi -> (has_flag ty radiative = true -> 0 <= fl_rad k <= hi) -> loss_coef ty k T <= largest_coef ty k hi.
Proof.
  intros E HT Hr. unfold loss_coef, largest_coef. pose proof sigma_pos as Sg. cbn [num RNum] in *. apply Rplus_le_compat_l.
  destruct (has_flag ty radiative); [|lra]. specialize (Hr eq_refl). set (r := fl_rad k) in *. apply Rmult_le_compat_l; [apply Rmult_le_pos; lra|].
  replace (4 * hi ^ 3) with ((hi + hi) * (hi * hi + hi * hi)) by ring. apply Rmult_le_compat; nra.
Qed.
(** Fields between bounds. *)
Lemma field_between m lo hi c q (z : nat -> R) : mesh_ok m -> positive_weights (m_C m) -> shape_ok (m_n m) c -> In q (c_quads c) -> Forall (fun v : R => 0 <= v) (h_values q) ->
  (forall j, free m j -> lo <= z j <= hi) -> lo <= field (m_C m) c q z <= hi.
Proof.
  intros Mok W Sc Iq V Z. assert (Nd : forall j, (j < m_n m)%nat -> lo <= nodal (m_C m) z j <= hi).
  { intros j Lj. set (y := map z (seq 0 (m_n m))). assert (Ey : forall k, (k < m_n m)%nat -> entry y k = z k).
    { intros k Lk. unfold entry, y. rewrite (nth_indep _ 0 (z 0%nat)) by (rewrite map_length, seq_length; exact Lk). rewrite map_nth, seq_nth by exact Lk. reflexivity. }
    rewrite (nodal_ext (m_n m) (m_C m) z (entry y) j (m_C_ok m Mok)) by (intros; try (symmetry; apply Ey); assumption).
    apply hanging_between; try assumption. intros k Fk. rewrite Ey by exact (proj1 Fk). apply Z. exact Fk. }
  destruct Sc as [Sd Sq]. apply (proj1 (Forall_forall _ _) Sq) in Iq. destruct Iq as [L1 [_ [S1 _]]].
  assert (X : forall x, Sum (combine (h_values q) (c_dofs c)) (fun p => fst p * x) = x).
  { intros x. transitivity (x * Sum (h_values q) (fun v : R => v)); [|exact (eq_trans (f_equal (Rmult x) S1) (Rmult_1_r x))]. revert L1. generalize (c_dofs c). generalize (h_values q). intros l. clear. induction l as [|a l IH]; intros [|d ds] L; try discriminate L; cbn [combine]; rewrite ?Sum_nil, ?Sum_cons; [ring|]. injection L as L. rewrite (IH ds L). cbn [fst]. ring. }
  assert (Pos : forall p, In p (combine (h_values q) (c_dofs c)) -> 0 <= (fst p : R) /\ (snd p < m_n m)%nat).
  { intros [a d] I. split; [exact (proj1 (Forall_forall _ _) V a (in_combine_l _ _ _ _ I))|exact (proj1 (Forall_forall _ _) Sd d (in_combine_r _ _ _ _ I))]. }
  unfold field. split; [rewrite <- (X lo) at 1|rewrite <- (X hi) at 1]; apply Sum_le; intros p Ip; destruct (Pos p Ip) as [P1 P2]; specialize (Nd _ P2); apply Rmult_le_compat_l; tauto.
Qed.
Lemma hat_range m i : forall j, free m j -> 0 <= hat i j <= 1.
Proof. intros j _. unfold hat. destruct (Nat.eqb _ _); lra. Qed.

Section Euler.
  Variables (dim3 ad : bool) (m : heat_mesh RNum) (K : laws RNum) (P : frozen) (F : face_laws RNum) (Q : frozen_faces) (lo hi : R) (y : list R).
  Hypotheses (Mok : mesh_ok m) (M : massive m) (W : positive_weights (m_C m)) (Ly : List.length y = m_n m) (At : at_temperatures m K P F Q y) (Su : surroundings ad m Q lo hi) (Lo : 0 <= lo) (Bt : between m lo hi y).
  Local Notation c := (losses m Q y).
  Local Notation weak0 := (weak dim3 false ad m (fun i q _ => P i q) (fun i q _ => Q i q) y).
  Lemma shift_field x c0 q b : shape_ok (m_n m) c0 -> In q (c_quads c0) -> (forall k, x k = entry y k - b) -> field (m_C m) c0 q x = field (m_C m) c0 q (entry y) - b.
  Proof.
    intros Sc Iq X. rewrite (field_ext _ _ _ q (m_C_ok m Mok) Sc x (fun k => entry y k + - b * (fun _ => 1) k)) by (intros; rewrite X; ring). rewrite field_lin, (field_const _ _ c0 q (m_C_ok m Mok) Sc Iq (fun _ => 1) 1) by reflexivity. ring.
  Qed.
  Lemma cells_same z b : cells_tested dim3 false (m_C m) (m_cells m) (fun i q _ => P i q) y z = - conducted dim3 m P z (fun k => entry y k - b).
  Proof.
    transitivity (- exchange dim3 true m P noface (deviation b y) z).
    - pose proof (weak_exchange dim3 true m P noface (fun i q _ => P i q) (fun i q _ => noface i q) b y z Mok (conj (fun _ _ _ => eq_refl) (fun _ _ _ => eq_refl)) ltac:(discriminate)) as H. rewrite <- H. unfold weak. ring.
    - rewrite ex_sym. unfold exchange. replace (fun k => entry y k - b) with (deviation b y) by reflexivity. ring.
  Qed.
  Lemma face_facts jf iq : ad = false -> In jf (indexed (m_faces m)) -> on_boundary (snd jf) = true -> In iq (indexed (c_quads (active_side (snd jf)))) ->
    let k := Q (fst jf) (fst iq) in let ty := hf_type (snd jf) in let T := field (m_C m) (active_side (snd jf)) (snd iq) (entry y) in
    0 <= h_jxw (snd iq) /\ lo <= T <= hi /\ (forall i, 0 <= field (m_C m) (active_side (snd jf)) (snd iq) (hat i)) /\ 0 <= fl_inv k /\ 0 <= fl_h k /\ 0 <= fl_emissivity k /\
    (has_flag ty convective = true -> lo <= fl_conv k <= hi) /\ (has_flag ty radiative = true -> lo <= fl_rad k <= hi) /\ In (snd iq) (c_quads (active_side (snd jf))).
  Proof.
    intros A I B Iq. pose proof (active_ok m Mok jf I) as Sc. destruct jf as [j f]. cbn [fst snd] in *. destruct (Su A j f I B) as [S1 S2]. pose proof (in_indexed _ _ Iq) as Iq'. pose proof (proj1 (Forall_forall _ _) S1 _ Iq') as [J V].
    destruct (S2 (fst iq)) as [H1 [H2 [H3 [H4 H5]]]]. cbv zeta.
    repeat split; try assumption; try (apply (field_between m lo hi); assumption); try (intros; apply H4 || apply H5; assumption); try (apply H4; assumption); try (apply H5; assumption).
    intros i. exact (proj1 (field_between m 0 1 (active_side f) (snd iq) (hat i) Mok W Sc Iq' V (hat_range m i))).
  Qed.
  Lemma three_mul (a b x x' p : R) : 0 <= a -> 0 <= b -> 0 <= p -> x <= x' -> a * (b * x) * p <= a * (b * x') * p.
  Proof. intros A B Pp X. apply Rmult_le_compat_r; [exact Pp|]. apply Rmult_le_compat_l; [exact A|]. apply Rmult_le_compat_l; assumption. Qed.
  Lemma weak_above i : weak0 (hat i) <= - exchange_with dim3 ad m P c (hat i) (fun k => entry y k - hi).
  Proof.
    unfold weak, exchange_with. rewrite (cells_same (hat i) hi). assert (A : ad = true \/ ad = false) by (clear; destruct ad; auto). destruct A as [A|A]; rewrite A; [lra|]. enough (surface m c (hat i) (fun k => entry y k - hi) <= faces_tested (m_C m) (m_faces m) (fun i q _ => Q i q) y (hat i)) by lra.
    unfold surface, faces_tested. apply Sum_le. intros jf I. destruct (on_boundary (snd jf)) eqn:B; [|lra]. apply Sum_le. intros iq Iq. pose proof (active_ok m Mok jf I) as Sc.
    destruct (face_facts jf iq A I B Iq) as [J [T [Ph [Iv [Hh [He [Hc [Hr Iq']]]]]]]]. unfold face_point, losses. cbv zeta in *.
    rewrite (shift_field (fun k => entry y k - hi) _ _ hi Sc Iq') by reflexivity.
    set (T0 := field (m_C m) (active_side (snd jf)) (snd iq) (entry y)) in *. set (k := Q (fst jf) (fst iq)) in *. set (p := field (m_C m) (active_side (snd jf)) (snd iq) (hat i)) in *.
    pose proof (flux_above (hf_type (snd jf)) k T0 hi Hh He ltac:(lra) ltac:(intros X; specialize (Hc X); lra) ltac:(intros X; specialize (Hr X); lra)) as Fx.
    eapply Rle_trans; [|apply (three_mul (h_jxw (snd iq)) (fl_inv k) _ _ p J Iv (Ph i) Fx)]. apply Req_le. cbn [num RNum]. ring.
  Qed.
  Lemma weak_below i : exchange_with dim3 ad m P c (hat i) (fun k => lo - entry y k) <= weak0 (hat i).
  Proof.
    assert (N : exchange_with dim3 ad m P c (hat i) (fun k => lo - entry y k) = - exchange_with dim3 ad m P c (hat i) (fun k => entry y k - lo)).
    { rewrite (E_ext dim3 ad m P c Mok (hat i) (fun k => lo - entry y k) (fun k => (fun _ => 0) k + -1 * (entry y k - lo))) by (intros; ring). rewrite E_lin.
      rewrite (L_zero m (exchange_with dim3 ad m P c (hat i)) (E_lin dim3 ad m P c (hat i)) (E_ext dim3 ad m P c Mok (hat i))). ring. }
    rewrite N. unfold weak, exchange_with. rewrite (cells_same (hat i) lo). assert (A : ad = true \/ ad = false) by (clear; destruct ad; auto). destruct A as [A|A]; rewrite A; [lra|]. enough (faces_tested (m_C m) (m_faces m) (fun i q _ => Q i q) y (hat i) <= surface m c (hat i) (fun k => entry y k - lo)) by lra.
    unfold surface, faces_tested. apply Sum_le. intros jf I. destruct (on_boundary (snd jf)) eqn:B; [|lra]. apply Sum_le. intros iq Iq. pose proof (active_ok m Mok jf I) as Sc.
    destruct (face_facts jf iq A I B Iq) as [J [T [Ph [Iv [Hh [He [Hc [Hr Iq']]]]]]]]. unfold face_point, losses. cbv zeta in *.
    rewrite (shift_field (fun k => entry y k - lo) _ _ lo Sc Iq') by reflexivity.
    set (T0 := field (m_C m) (active_side (snd jf)) (snd iq) (entry y)) in *. set (k := Q (fst jf) (fst iq)) in *. set (p := field (m_C m) (active_side (snd jf)) (snd iq) (hat i)) in *.
    pose proof (flux_below (hf_type (snd jf)) k T0 lo Hh He ltac:(lra) Lo ltac:(intros X; specialize (Hc X); lra) ltac:(intros X; specialize (Hr X); lra)) as Fx.
    eapply Rle_trans; [apply (three_mul (h_jxw (snd iq)) (fl_inv k) _ _ p J Iv (Ph i) Fx)|]. apply Req_le. cbn [num RNum]. ring.
  Qed.
  Lemma euler_between t dt : 0 <= dt -> moderate dim3 ad m P c dt -> between m lo hi (snd (evolve (N := RNum) ForwardEuler (fun _ _ v => evaluate (N := RNum) dim3 false ad m K F v) t dt y)).
  Proof.
    intros D0 Md j Fr. cbn [evolve snd]. assert (Lr : List.length (evaluate (N := RNum) dim3 false ad m K F y) = m_n m) by apply (rate_length dim3 false ad m K F y).
    assert (E1 : entry (sadd (N := RNum) y dt (evaluate (N := RNum) dim3 false ad m K F y)) j = entry y j + dt * (weak0 (hat j) / nodal_mass m j)).
    { etransitivity; [apply entry_sadd; exact (eq_trans Ly (eq_sym Lr))|]. f_equal. f_equal. etransitivity; [exact (rate_free dim3 false ad m K F y Mok j Fr)|]. rewrite (weak_at dim3 ad m K P F Q y (hat j) At). reflexivity. }
    rewrite E1. pose proof (M j Fr) as Mj. pose proof (weak_above j) as Wa. pose proof (weak_below j) as Wb.
    pose proof (sink dim3 ad m P c Mok dt D0 Md (fun k => entry y k - hi) j ltac:(intros k Fk; specialize (Bt k Fk); lra) Fr) as Sa. cbv beta in Sa.
    pose proof (sink dim3 ad m P c Mok dt D0 Md (fun k => lo - entry y k) j ltac:(intros k Fk; specialize (Bt k Fk); lra) Fr) as Sb. cbv beta in Sb.
    set (w := weak0 (hat j)) in *. set (ea := exchange_with dim3 ad m P c (hat j) (fun k => entry y k - hi)) in *. set (eb := exchange_with dim3 ad m P c (hat j) (fun k => lo - entry y k)) in *. set (mu := nodal_mass m j) in *.
    assert (Ha : dt * w <= dt * - ea) by (apply Rmult_le_compat_l; lra). assert (Hb : dt * eb <= dt * w) by (apply Rmult_le_compat_l; lra).
    assert (Q1 : mu * (entry y j + dt * (w / mu)) = mu * entry y j + dt * w) by (field; lra).
    split; apply Rmult_le_reg_l with mu; try assumption; rewrite Q1; lra.
  Qed.
End Euler.
(** The largest coefficients suffice. *)
Lemma surface_mono m c c' u z : (forall jf iq, In jf (indexed (m_faces m)) -> on_boundary (snd jf) = true -> In iq (indexed (c_quads (active_side (snd jf)))) ->
  0 <= h_jxw (snd iq) /\ c jf iq <= c' jf iq /\ 0 <= field (m_C m) (active_side (snd jf)) (snd iq) u /\ 0 <= field (m_C m) (active_side (snd jf)) (snd iq) z) -> surface m c u z <= surface m c' u z.
Proof.
  intros H. unfold surface. apply Sum_le. intros jf I. destruct (on_boundary (snd jf)) eqn:B; [|lra]. apply Sum_le. intros iq Iq. destruct (H jf iq I B Iq) as [H1 [H2 [H3 H4]]].
  apply Rmult_le_compat_r; [apply Rmult_le_pos; assumption|]. apply Rmult_le_compat_l; assumption.
Qed.
Lemma moderate_largest dim3 ad m P Q lo hi dt (y : list R) : mesh_ok m -> positive_weights (m_C m) -> surroundings ad m Q lo hi -> 0 <= lo -> 0 <= dt -> between m lo hi y ->
  moderate dim3 ad m P (largest_losses Q hi) dt -> moderate dim3 ad m P (losses m Q y) dt.
Proof.
  intros Mok W Su Lo D0 Bt [Off Dg]. assert (Mo : forall i j, exchange_with dim3 ad m P (losses m Q y) (hat i) (hat j) <= exchange_with dim3 ad m P (largest_losses Q hi) (hat i) (hat j)).
  { intros i j. unfold exchange_with. apply Rplus_le_compat_l. destruct ad eqn:A; [lra|]. apply surface_mono. intros jf iq I B Iq.
    destruct (face_facts false m Q lo hi y Mok W Su Bt jf iq eq_refl I B Iq) as [J [T [Ph [Iv [Hh [He [Hc [Hr Iq']]]]]]]]. cbv zeta in *. split; [exact J|]. split; [|split; apply Ph].
    unfold losses, largest_losses. cbv zeta. apply Rmult_le_compat_l; [exact Iv|]. apply largest_ok; [exact He|lra|]. intros X. specialize (Hr X). lra. }
  split.
  - intros i j Fi Fj Ne. eapply Rle_trans; [apply Mo|]. apply Off; assumption.
  - intros i Fi. eapply Rle_trans; [apply Rmult_le_compat_l; [exact D0|apply Mo]|]. apply Dg. exact Fi.
Qed.
Lemma radiating_step dim3 ad m K P F Q lo hi t dt (y : list R) : mesh_ok m -> massive m -> positive_weights (m_C m) -> List.length y = m_n m -> at_temperatures m K P F Q y -> surroundings ad m Q lo hi -> 0 <= lo -> 0 <= dt ->
  moderate dim3 ad m P (largest_losses Q hi) dt -> between m lo hi y -> between m lo hi (snd (evolve (N := RNum) ForwardEuler (fun _ _ v => evaluate (N := RNum) dim3 false ad m K F v) t dt y)).
Proof.
  intros Mok M W Ly At Su Lo D0 Md Bt. apply euler_between with (P := P) (Q := Q); try assumption. apply moderate_largest with (lo := lo) (hi := hi); assumption.
Qed.
Lemma radiating_between dim3 ad m lo hi t (y : list R) t2 y2 : mesh_ok m -> massive m -> positive_weights (m_C m) -> List.length y = m_n m -> 0 <= lo -> between m lo hi y -> radiating_run dim3 ad m lo hi t y t2 y2 -> between m lo hi y2.
Proof.
  intros Mok M W L Lo Bt H. revert L Bt. induction H as [t y|t y y' t2 y2 L' E _ IH|t dt y t1 y1 t2 y2 K F P Q At Su D0 Md E _ IH]; intros L Bt; [exact Bt| |].
  - apply IH; [congruence|]. intros k Fr. rewrite E by exact Fr. apply Bt. exact Fr.
  - pose proof (radiating_step dim3 ad m K P F Q lo hi t dt y Mok M W L At Su Lo D0 Md Bt) as H. destruct (evolve_parts ForwardEuler _ t dt y t1 y1 E) as [T1 Y1].
    apply IH; [rewrite Y1; apply (step_length (m_n m)); [|exact L]; intros; apply (rate_length dim3 false ad m K F)|]. rewrite E in H. exact H.
Qed.

