(** SteadyProofs.v -- linear profiles are steady, or rise uniformly. *)
From Coq Require Import Reals List Bool String ZArith Lra Lia Permutation.
From Verif Require Import Base MaterialModel MaterialSpec InputModel HeatModel HeatSpec MaterialProofs MaterialProofs2 HeatProofs HeatProofs2 HeatProofs3 HeatProofs4 HeatProofs5 HeatProofs7
  StabilitySpec StabilityProofs RadiationSpec RadiationProofs RadiationProofs2 ParallelModel ParallelSpec ParallelProofs2 SteadySpec.
Import ListNotations.
Open Scope R_scope.

Lemma Sum_indexed_snd {A} (f : A -> R) (l : list A) : Sum (indexed l) (fun ia => f (snd ia)) = Sum l f.
Proof.
  unfold indexed. generalize 0%nat. induction l as [|a l IH]; intros s; [reflexivity|]. cbn [List.length seq combine]. rewrite !Sum_cons. cbn [snd]. now rewrite IH.
Qed.
Lemma flux_is dim3 (k : point_law RNum) (b : pt RNum) :
  conduction (N := RNum) dim3 (pl_inv k) (pl_kx k) (pl_ky k) (pl_kz k) (pl_cos k) (pl_sin k) b = heat_flux dim3 k b.
Proof. unfold conduction, heat_flux, pscale. destruct dim3; cbn [px py pz nopp nadd nsub nmul nofZ RNum num]; cbv zeta; f_equal; cbn [num RNum]; ring. Qed.
Lemma flux_in_plane dim3 k b : in_plane dim3 (heat_flux dim3 k b).
Proof. intros ->. reflexivity. Qed.

Section Rate.
  Variables (dim3 on ad : bool) (m : heat_mesh RNum) (pos normal : nat -> pt RNum) (K : laws RNum) (F : face_laws RNum) (k : point_law RNum) (a s : R) (b : pt RNum) (y : list R).
  Hypotheses (Mok : mesh_ok m) (G : exact_gradients dim3 m pos) (D : divergence dim3 m normal) (P2 : in_plane dim3 b) (H : homogeneous on K k s)
    (B : balanced dim3 ad m pos normal F k a b) (Y : has_profile m pos a b y).
  Local Notation C := (m_C m).
  Local Notation W := (heat_flux dim3 k b).
  Lemma same_free : forall j, (j < m_n m)%nat -> ~ In j (map fst C) -> entry y j = profile pos a b j.
  Proof. intros j L N. apply (proj2 Y). split; assumption. Qed.
  Lemma cells_profile j : cells_tested dim3 on C (m_cells m) K y (hat j) =
    Sum (m_cells m) (fun c : hcell RNum => Sum (c_quads c) (fun q : hquad RNum => h_jxw q * dot W (gradient C c q (hat j)))) + s * integral C (m_cells m) (hat j).
  Proof.
    unfold cells_tested, integral. rewrite <- Sum_scal, <- Sum_plus.
    rewrite <- (Sum_indexed_snd (fun c : hcell RNum => Sum (c_quads c) (fun q : hquad RNum => h_jxw q * dot W (gradient C c q (hat j))) + s * Sum (c_quads c) (fun q : hquad RNum => h_jxw q * field C c q (hat j)))).
    apply Sum_ext. intros ic I. apply in_indexed in I. pose proof (proj1 (Forall_forall _ _) (m_cells_ok m Mok) _ I) as Sok.
    rewrite <- Sum_scal, <- Sum_plus. rewrite <- (Sum_indexed_snd (fun q : hquad RNum => h_jxw q * dot W (gradient C (snd ic) q (hat j)) + s * (h_jxw q * field C (snd ic) q (hat j)))).
    apply Sum_ext. intros iq J. apply in_indexed in J. unfold cell_point.
    rewrite (gradient_ext (m_n m) C (snd ic) (snd iq) (m_C_ok m Mok) Sok (entry y) (profile pos a b) same_free). rewrite (G (snd ic) (snd iq) a b I J P2).
    destruct (H (fst ic) (fst iq) (field C (snd ic) (snd iq) (entry y))) as (E1 & E2 & E3 & E4 & E5 & E6 & E7). cbv zeta in *. rewrite E7.
    replace (conduction (N := RNum) dim3 _ _ _ _ _ _ b) with W by (rewrite <- flux_is; congruence). cbn [num RNum]. ring.
  Qed.
  Lemma faces_profile j : (if ad then 0 else faces_tested C (m_faces m) F y (hat j)) =
    Sum (indexed (m_faces m)) (fun jf => if on_boundary (snd jf) then Sum (c_quads (active_side (snd jf))) (fun q : hquad RNum => h_jxw q * (dot W (normal (fst jf)) * field C (active_side (snd jf)) q (hat j))) else 0).
  Proof.
    assert (E : forall jf, In jf (indexed (m_faces m)) -> on_boundary (snd jf) = true -> forall iq, In iq (indexed (c_quads (active_side (snd jf)))) ->
      dot W (normal (fst jf)) = if ad then 0 else let T := field C (active_side (snd jf)) (snd iq) (entry y) in let l := F (fst jf) (fst iq) T in
        fl_inv l * outflux (has_flag (hf_type (snd jf)) convective) (has_flag (hf_type (snd jf)) radiative) (fl_h l) (fl_conv l) (fl_emissivity l) (fl_rad l) T).
    { intros [i f] I Bf [q x] J. cbn [fst snd] in *. rewrite (B i f q x I Bf J). destruct ad; [reflexivity|]. cbv zeta.
      pose proof (field_ext (m_n m) C _ x (m_C_ok m Mok) (active_ok m Mok (i, f) I) (entry y) (profile pos a b) same_free) as Ef. cbn [snd] in Ef. rewrite Ef. reflexivity. }
    unfold faces_tested. transitivity (Sum (indexed (m_faces m)) (fun jf => if on_boundary (snd jf) then Sum (indexed (c_quads (active_side (snd jf)))) (fun iq : nat * hquad RNum => h_jxw (snd iq) * (dot W (normal (fst jf)) * field C (active_side (snd jf)) (snd iq) (hat j))) else 0)).
    - destruct ad.
      + symmetry. apply Sum_zero. intros jf I. destruct (on_boundary (snd jf)) eqn:Bf; [|reflexivity]. apply Sum_zero. intros iq J. rewrite (E jf I Bf iq J). cbn [num RNum]. ring.
      + apply Sum_ext. intros jf I. destruct (on_boundary (snd jf)) eqn:Bf; [|reflexivity]. apply Sum_ext. intros iq J. unfold face_point. rewrite (E jf I Bf iq J). cbv zeta. cbn [num RNum]. ring.
    - apply Sum_ext. intros jf _. destruct (on_boundary (snd jf)); [|reflexivity]. exact (Sum_indexed_snd (fun q : hquad RNum => h_jxw q * (dot W (normal (fst jf)) * field C (active_side (snd jf)) q (hat j))) _).
  Qed.
  Lemma profile_rate j : s = 0 \/ massive m /\ same_volumes m -> free m j -> entry (evaluate (N := RNum) dim3 on ad m K F y) j = s.
  Proof.
    intros V Fr. pose proof (rate_free dim3 on ad m K F y Mok j Fr) as A. unfold rate in A. rewrite A. unfold weak. rewrite cells_profile, faces_profile, (D j W Fr (flux_in_plane dim3 k b)).
    match goal with |- (?x + s * ?v - ?x) / _ = s => replace (x + s * v - x) with (s * v) by ring end.
    destruct V as [->|[M V]]; [unfold Rdiv; ring|]. rewrite (V j Fr). field. apply Rgt_not_eq. exact (M j Fr).
  Qed.
End Rate.
Section Steps.
  Variables (m : heat_mesh RNum) (pos : nat -> pt RNum) (b : pt RNum) (s : R).
  Local Notation P := (fun u y => has_profile m pos u b y).
  Definition rising (w : list R) : Prop := List.length w = m_n m /\ forall j, free m j -> entry w j = s.
  Lemma add_profile (u x : R) (y w : list R) : P u y -> rising w -> P (u + x * s) (sadd (N := RNum) y x w).
  Proof.
    intros [Ly Y] [Lw Wj]. split; [exact (eq_trans (saddR_len y x w (eq_trans Ly (eq_sym Lw))) Ly)|]. intros j Fr.
    rewrite (entry_sadd y w x j (eq_trans Ly (eq_sym Lw))) by (rewrite Ly; exact (proj1 Fr)). rewrite (Y j Fr), (Wj j Fr). unfold profile. ring.
  Qed.
  Lemma fold_profile (dt : R) : forall (row : list R) (ks : list (list R)) u y, P u y -> Forall rising ks ->
    P (u + dt * sumR (map fst (combine row ks)) * s) (fold_left (fun v ak => sadd (N := RNum) v (dt * fst ak) (snd ak)) (combine row ks) y).
  Proof.
    induction row as [|r row IH]; intros ks u y Y H; [cbn [combine map sumR fold_right fold_left]; rewrite Rmult_0_r, Rmult_0_l, Rplus_0_r; exact Y|].
    destruct H as [|kk ks Hk H]; [cbn [combine map sumR fold_right fold_left]; rewrite Rmult_0_r, Rmult_0_l, Rplus_0_r; exact Y|].
    cbn [combine map sumR fold_right fold_left fst snd]. fold (sumR (map fst (combine row ks))).
    replace (u + dt * (r + sumR (map fst (combine row ks))) * s) with ((u + dt * r * s) + dt * sumR (map fst (combine row ks)) * s) by ring.
    apply IH; [|exact H]. apply add_profile; assumption.
  Qed.
  Variables (ok : R -> Prop) (f : nat -> R -> list R -> list R).
  Hypotheses (Ok : forall u x, ok u -> ok (u + x * s)) (Hf : forall i t u v, ok u -> P u v -> rising (f i t v)).
  Lemma stages_rising (t dt : R) a : forall (c : list R) i u y ks, ok u -> P u y -> Forall rising ks -> Forall rising (stages (N := RNum) f t dt y a c i ks) /\
    List.length (stages (N := RNum) f t dt y a c i ks) = (List.length ks + List.length c)%nat.
  Proof.
    induction c as [|ci c IH]; intros i u y ks U Y H; [split; [exact H|cbn; lia]|]. cbn [stages].
    destruct (IH (S i) u y (ks ++ [f i (t + ci * dt) (fold_left (fun v ak => sadd (N := RNum) v (dt * fst ak) (snd ak)) (combine (match i with O => [] | S i' => nth i' a [] end) ks) y)]) U Y) as [A L].
    - apply Forall_app. split; [exact H|]. apply Forall_cons; [|constructor]. eapply Hf; [|apply fold_profile; [exact Y|exact H]]. apply Ok. exact U.
    - split; [exact A|]. etransitivity; [exact L|]. rewrite app_length. cbn. lia.
  Qed.
  Lemma evolve_profile sch (t dt : R) u (y : list R) : ok u -> P u y -> P (u + dt * s) (snd (evolve (N := RNum) sch f t dt y)).
  Proof.
    intros U Y. destruct sch; unfold evolve; cbn [snd].
    - apply add_profile; [exact Y|]. exact (Hf 0%nat t u y U Y).
    - destruct (stages_rising t dt (tableau_a (N := RNum) RungeKutta3) (tableau_c (N := RNum) RungeKutta3) 0 u y [] U Y (Forall_nil _)) as [A L].
      match type of A with Forall _ ?x => set (ks := x) in A, L; change (P (u + dt * s) (fold_left (fun v bk => sadd (N := RNum) v (dt * fst bk) (snd bk)) (combine (tableau_b (N := RNum) RungeKutta3) ks) y)) end. clearbody ks.
      replace (u + dt * s) with (u + dt * sumR (map fst (combine (tableau_b (N := RNum) RungeKutta3) ks)) * s); [apply fold_profile; assumption|].
      do 4 (destruct ks as [|? ks]; try discriminate L). cbn. field.
    - destruct (stages_rising t dt (tableau_a (N := RNum) RungeKutta4) (tableau_c (N := RNum) RungeKutta4) 0 u y [] U Y (Forall_nil _)) as [A L].
      match type of A with Forall _ ?x => set (ks := x) in A, L; change (P (u + dt * s) (fold_left (fun v bk => sadd (N := RNum) v (dt * fst bk) (snd bk)) (combine (tableau_b (N := RNum) RungeKutta4) ks) y)) end. clearbody ks.
      replace (u + dt * s) with (u + dt * sumR (map fst (combine (tableau_b (N := RNum) RungeKutta4) ks)) * s); [apply fold_profile; assumption|].
      do 5 (destruct ks as [|? ks]; try discriminate L). cbn. field.
  Qed.
End Steps.
Lemma profile_steps dim3 ad (m : heat_mesh RNum) (pos normal : nat -> pt RNum) (on : nat -> nat -> R -> bool) (K : nat -> nat -> R -> laws RNum) (F : nat -> nat -> R -> face_laws RNum) (a s : R) (b : pt RNum) sch (dts : list R) (t : R) (y : list R) :
  mesh_ok m -> exact_gradients dim3 m pos -> divergence dim3 m normal -> in_plane dim3 b -> s = 0 \/ massive m /\ same_volumes m ->
  (forall n i t, exists k, homogeneous (on n i t) (K n i t) k s /\ forall u, (s = 0 -> u = a) -> balanced dim3 ad m pos normal (F n i t) k u b) -> has_profile m pos a b y ->
  has_profile m pos (a + s * sumR dts) b (snd (steps sch (fun n i t v => evaluate (N := RNum) dim3 (on n i t) ad m (K n i t) (F n i t) v) dts t y)).
Proof.
  intros Mok G D P2 V H Y. unfold steps. set (ok := fun u : R => s = 0 -> u = a).
  assert (E : sumR dts = sumR (map snd (indexed dts))).
  { unfold indexed. generalize 0%nat. clear. induction dts as [|d dts IH]; intros n; [reflexivity|]. cbn [List.length seq combine map sumR fold_right snd]. fold (sumR dts). rewrite (IH (S n)). reflexivity. }
  rewrite E. clear E.
  enough (Q : forall l u, ok u -> forall t y, has_profile m pos u b y -> has_profile m pos (u + s * sumR (map snd l)) b
    (snd (fold_left (fun ty ndt => evolve (N := RNum) sch ((fun n i t v => evaluate (N := RNum) dim3 (on n i t) ad m (K n i t) (F n i t) v) (fst ndt)) (fst ty) (snd ndt) (snd ty)) l (t, y))))
    by (apply Q; [intro; reflexivity|exact Y]).
  clear Y t y dts.
  intros dts. induction dts as [|[n dt] dts IH]; intros u U t y Y; [cbn [map sumR fold_right fold_left snd]; rewrite Rmult_0_r, Rplus_0_r; exact Y|].
  cbn [map sumR fold_right fold_left fst snd]. fold (sumR (map snd dts)). replace (u + s * (dt + sumR (map snd dts))) with ((u + dt * s) + s * sumR (map snd dts)) by ring.
  match goal with |- context [fold_left ?g dts ?e] => destruct e as [t1 y1] eqn:E end.
  apply IH; [intros Z; rewrite Z, Rmult_0_r, Rplus_0_r; exact (U Z)|].
  change y1 with (snd (t1, y1)). rewrite <- E. apply (evolve_profile m pos b s ok).
  - intros v x Q Z. rewrite Z, Rmult_0_r, Rplus_0_r. exact (Q Z).
  - intros i t' v w Q Yw. split; [exact (rate_length dim3 (on n i t') ad m (K n i t') (F n i t') w)|]. intros j Fr. destruct (H n i t') as (k & Hk & Bk).
    exact (profile_rate dim3 (on n i t') ad m pos normal (K n i t') (F n i t') k v s b w Mok G D P2 Hk (Bk v Q) Yw j V Fr).
  - exact U.
  - exact Y.
Qed.
