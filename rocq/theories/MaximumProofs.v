(** MaximumProofs.v -- the maximum principle for every scheme. *)
From Coq Require Import Reals List Bool String ZArith Lra Lia.
From Verif Require Import Base MaterialModel MaterialSpec InputModel HeatModel HeatSpec MaterialProofs MaterialProofs2 HeatProofs HeatProofs2 HeatProofs3 HeatProofs4 HeatProofs5 HeatProofs7
  StabilitySpec StabilityProofs StabilityProofs2 StabilityProofs3 MaximumSpec.
Import ListNotations.
Open Scope R_scope.

Section Max.
  Variables (dim3 ad : bool) (m : heat_mesh RNum) (P : frozen) (Q : frozen_faces) (dt : R).
  Hypotheses (Mok : mesh_ok m) (M : massive m) (D0 : 0 <= dt) (Dn : downhill dim3 ad m P Q dt).
  Local Notation ex := (exchange dim3 ad m P Q).
  Lemma conducted_one u : conducted dim3 m P u (fun _ => 1) = 0.
  Proof.
    unfold conducted. apply Sum_zero. intros ic I. apply Sum_zero. intros iq Iq. cbv zeta. apply in_indexed in I. apply in_indexed in Iq. apply (proj1 (Forall_forall _ _) (m_cells_ok m Mok)) in I.
    rewrite (gradient_const (m_n m) (m_C m) (snd ic) (snd iq) (m_C_ok m Mok) I Iq (fun _ => 1) 1) by reflexivity. rewrite dot_zero_r. cbn [num RNum]. ring.
  Qed.
  Lemma row_nonneg i : free m i -> 0 <= ex (hat i) (fun _ => 1).
  Proof. intros Fr. destruct Dn as [_ [_ H]]. destruct ad eqn:E; [|apply H; [reflexivity|exact Fr]]. unfold exchange. rewrite conducted_one. lra. Qed.
  Definition opW (z : nat -> R) : nat -> R := fun j => z j - dt * opA dim3 ad m P Q z j.
  Lemma W_le b z : 0 <= b -> (forall j, free m j -> z j <= b) -> forall i, free m i -> opW z i <= b.
  Proof.
    intros B Z i Fr. pose proof (M i Fr) as Mi. unfold opW, opA. rewrite ex_sym, (ex_hat dim3 ad m P Q Mok (hat i) z).
    set (a := fun j => ex (hat i) (hat j)). assert (R0 : 0 <= Sum (seq 0 (m_n m)) a).
    { pose proof (row_nonneg i Fr) as H. rewrite (ex_hat dim3 ad m P Q Mok (hat i) (fun _ => 1)) in H. rewrite (Sum_ext a (fun j => 1 * ex (hat i) (hat j))) by (intros; unfold a; ring). exact H. }
    assert (S1 : b * Sum (seq 0 (m_n m)) a + a i * (z i - b) <= Sum (seq 0 (m_n m)) (fun j => z j * a j)).
    { rewrite <- (sum_hat (fun j => a j * (z j - b)) i (m_n m) (proj1 Fr)), <- Sum_scal, <- Sum_plus. apply Sum_le. intros j I. apply in_seq in I. unfold hat.
      destruct (Nat.eqb_spec i j) as [<-|Ne]; [lra|]. destruct (in_dec Nat.eq_dec j (map fst (m_C m))) as [J|J].
      - assert (E : a j = 0) by (unfold a; exact (hat_hanging dim3 ad m P Q Mok (hat i) j J)). rewrite E. lra.
      - assert (Fj : free m j) by (split; [lia|exact J]). destruct Dn as [Off _]. specialize (Off i j Fr Fj Ne). specialize (Z j Fj). fold (a j) in Off.
        assert (0 <= - a j * (b - z j)) by (apply Rmult_le_pos; lra). lra. }
    destruct Dn as [_ [Dg _]]. specialize (Dg i Fr). fold (a i) in Dg. specialize (Z i Fr). change (fun j => z j * ex (hat i) (hat j)) with (fun j => z j * a j).
    set (S0 := Sum (seq 0 (m_n m)) (fun j => z j * a j)) in *. set (r := Sum (seq 0 (m_n m)) a) in *.
    assert (B1 : 0 <= dt * (b * r)) by (apply Rmult_le_pos; [exact D0|apply Rmult_le_pos; assumption]).
    assert (B2 : dt * (b * r + a i * (z i - b)) <= dt * S0) by (apply Rmult_le_compat_l; assumption).
    assert (B3 : 0 <= (nodal_mass m i - dt * a i) * (b - z i)) by (apply Rmult_le_pos; lra).
    apply Rmult_le_reg_l with (nodal_mass m i); [exact Mi|]. replace (nodal_mass m i * (z i - dt * (S0 / nodal_mass m i))) with (nodal_mass m i * z i - dt * S0) by (field; lra). lra.
  Qed.
  Lemma W_neg z i : opW (fun j => - z j) i = - opW z i.
  Proof.
    unfold opW. rewrite (op_ext dim3 ad m P Q Mok (fun j => - z j) (fun j => (fun _ => 0) j + -1 * z j) i) by (intros; ring). rewrite op_lin, op_zero by assumption. ring.
  Qed.
  Lemma W_ge a z : a <= 0 -> (forall j, free m j -> a <= z j) -> forall i, free m i -> a <= opW z i.
  Proof. intros A Z i Fr. pose proof (W_le (- a) (fun j => - z j) ltac:(lra) ltac:(intros j Fj; specialize (Z j Fj); lra) i Fr) as H. rewrite W_neg in H. lra. Qed.
  Variables (e : nat -> R) (a b : R).
  Hypotheses (A0 : a <= 0) (B0 : 0 <= b).
  Local Notation pol := (poly dim3 ad m P Q dt e).
  Definition ranged (z : nat -> R) : Prop := forall j, free m j -> a <= z j <= b.
  Lemma W_poly c0 c1 c2 c3 : ranged (pol c0 c1 c2 c3 0) -> ranged (pol c0 (c1 - c0) (c2 - c1) (c3 - c2) (- c3)).
  Proof.
    intros H j Fr. assert (E : pol c0 (c1 - c0) (c2 - c1) (c3 - c2) (- c3) j = opW (pol c0 c1 c2 c3 0) j).
    { unfold opW. rewrite op_poly by assumption. unfold poly. ring. }
    rewrite E. split; [apply W_ge|apply W_le]; try assumption; intros k Fk; apply H; exact Fk.
  Qed.
  Lemma ranged_eq c0 c1 c2 c3 c4 d0 d1 d2 d3 d4 : ranged (pol c0 c1 c2 c3 c4) -> c0 = d0 -> c1 = d1 -> c2 = d2 -> c3 = d3 -> c4 = d4 -> ranged (pol d0 d1 d2 d3 d4).
  Proof. intros H -> -> -> -> ->. exact H. Qed.
  Lemma step_ranged s : ranged e -> ranged (pol 1 (-1) (c2 s) (c3 s) (c4 s)).
  Proof.
    intros H. assert (H0 : ranged (pol 1 0 0 0 0)) by (intros j Fr; unfold poly; cbn [pw]; specialize (H j Fr); lra).
    assert (H1 : ranged (pol 1 (-1) 0 0 0)) by (eapply ranged_eq; [exact (W_poly _ _ _ _ H0)|..]; lra).
    assert (H2 : ranged (pol 1 (-2) 1 0 0)) by (eapply ranged_eq; [exact (W_poly _ _ _ _ H1)|..]; lra).
    assert (H3 : ranged (pol 1 (-3) 3 (-1) 0)) by (eapply ranged_eq; [exact (W_poly _ _ _ _ H2)|..]; lra).
    assert (H4 : ranged (pol 1 (-4) 6 (-4) 1)) by (eapply ranged_eq; [exact (W_poly _ _ _ _ H3)|..]; lra).
    destruct s; cbn [c2 c3 c4]; [exact H1| |]; intros j Fr; specialize (H0 j Fr); specialize (H1 j Fr); specialize (H2 j Fr); specialize (H3 j Fr); specialize (H4 j Fr); unfold poly in *.
    - set (x0 := pw dim3 ad m P Q dt e 0 j) in *. set (x1 := pw dim3 ad m P Q dt e 1 j) in *. set (x2 := pw dim3 ad m P Q dt e 2 j) in *. set (x3 := pw dim3 ad m P Q dt e 3 j) in *. set (x4 := pw dim3 ad m P Q dt e 4 j) in *. lra.
    - set (x0 := pw dim3 ad m P Q dt e 0 j) in *. set (x1 := pw dim3 ad m P Q dt e 1 j) in *. set (x2 := pw dim3 ad m P Q dt e 2 j) in *. set (x3 := pw dim3 ad m P Q dt e 3 j) in *. set (x4 := pw dim3 ad m P Q dt e 4 j) in *. lra.
  Qed.
End Max.

(** The rate depends on the laws at the temperatures only. *)
Lemma weak_at dim3 ad m K P F Q (y : list R) z : at_temperatures m K P F Q y ->
  weak dim3 false ad m K F y z = weak dim3 false ad m (fun i q _ => P i q) (fun i q _ => Q i q) y z.
Proof.
  intros [HK HF]. unfold weak. f_equal; [|destruct ad; [reflexivity|]].
  - unfold cells_tested. apply Sum_ext. intros [i c] I. apply Sum_ext. intros [q x] Iq. unfold cell_point. cbn [fst snd] in *. rewrite (HK i c q x I Iq). reflexivity.
  - unfold faces_tested. apply Sum_ext. intros [j f] I. cbn [fst snd]. destruct (on_boundary f); [|reflexivity]. apply Sum_ext. intros [q x] Iq. unfold face_point. cbn [fst snd] in *. rewrite (HF j f q x I Iq). reflexivity.
Qed.
Lemma rate_at dim3 ad m K P F Q Tinf (y : list R) j : mesh_ok m -> at_temperatures m K P F Q y -> (ad = false -> aired m Q Tinf) -> free m j ->
  entry (evaluate (N := RNum) dim3 false ad m K F y) j = - opA dim3 ad m P Q (deviation Tinf y) j.
Proof.
  intros Mok At A Fr. etransitivity; [exact (rate_free dim3 false ad m K F y Mok j Fr)|]. rewrite (weak_at dim3 ad m K P F Q y (hat j) At).
  rewrite (weak_exchange dim3 ad m P Q _ _ Tinf y (hat j) Mok (conj (fun _ _ _ => eq_refl) (fun _ _ _ => eq_refl)) A). unfold opA, Rdiv. ring.
Qed.
Lemma step_between dim3 ad s m K P F Q lo hi t dt (y : list R) : mesh_ok m -> massive m -> List.length y = m_n m -> laws_of_step s m K P F Q y -> air_between ad m Q lo hi -> 0 <= dt -> downhill dim3 ad m P Q dt ->
  between m lo hi y -> between m lo hi (step s (fun _ _ v => evaluate (N := RNum) dim3 false ad m K F v) t dt y).
Proof.
  intros Mok M L Lw Air D0 Dn Bt j Fr.
  assert (T : exists Tinf, (ad = false -> aired m Q Tinf) /\ lo <= Tinf <= hi).
  { destruct ad; [|destruct (Air eq_refl) as [Ti [A1 A2]]; exists Ti; auto]. exists lo. split; [discriminate|]. specialize (Bt j Fr). lra. }
  destruct T as [Tinf [A [T1 T2]]]. set (e := deviation Tinf y).
  assert (Rg : ranged m (lo - Tinf) (hi - Tinf) e) by (intros k Fk; unfold e, deviation; specialize (Bt k Fk); lra).
  pose proof (step_ranged dim3 ad m P Q dt Mok M D0 Dn e (lo - Tinf) (hi - Tinf) ltac:(lra) ltac:(lra) s Rg j Fr) as H.
  assert (E : deviation Tinf (step s (fun _ _ v => evaluate (N := RNum) dim3 false ad m K F v) t dt y) j = poly dim3 ad m P Q dt e 1 (-1) (c2 s) (c3 s) (c4 s) j).
  { destruct s.
    - assert (Lr : List.length (evaluate (N := RNum) dim3 false ad m K F y) = m_n m) by apply (rate_length dim3 false ad m K F y).
      unfold step, deviation. rewrite entry_sadd by exact (eq_trans L (eq_sym Lr)). rewrite (rate_at dim3 ad m K P F Q Tinf y j Mok Lw A Fr). unfold poly. cbn [pw c2 c3 c4]. unfold opX. fold e. unfold e at 2, deviation. ring.
    - exact (proj2 (dev_step dim3 ad m P Q Mok dt K F Tinf e Lw A RungeKutta3 t y (dev_start dim3 ad m P Q dt Tinf e y L (fun _ _ => eq_refl))) j Fr).
    - exact (proj2 (dev_step dim3 ad m P Q Mok dt K F Tinf e Lw A RungeKutta4 t y (dev_start dim3 ad m P Q dt Tinf e y L (fun _ _ => eq_refl))) j Fr). }
  rewrite <- E in H. unfold deviation in H. lra.
Qed.
Lemma run_between dim3 ad s m lo hi t (y : list R) t2 y2 : mesh_ok m -> massive m -> List.length y = m_n m -> between m lo hi y -> downhill_run dim3 ad s m lo hi t y t2 y2 -> between m lo hi y2.
Proof.
  intros Mok M L Bt H. revert L Bt. induction H as [t y|t y y' t2 y2 L' E _ IH|t dt y t1 y1 t2 y2 K F P Q Lw Air D0 Dn E _ IH]; intros L Bt; [exact Bt| |].
  - apply IH; [congruence|]. intros k Fr. rewrite E by exact Fr. apply Bt. exact Fr.
  - destruct (evolve_parts s _ t dt y t1 y1 E) as [T1 Y1].
    apply IH; [rewrite Y1; apply (step_length (m_n m)); [|exact L]; intros; apply (rate_length dim3 false ad m K F)|]. rewrite Y1.
    exact (step_between dim3 ad s m K P F Q lo hi t dt y Mok M L Lw Air D0 Dn Bt).
Qed.
(** Hanging nodes. *)
Lemma hanging_between m lo hi (y : list R) j : mesh_ok m -> positive_weights (m_C m) -> between m lo hi y -> (j < m_n m)%nat -> lo <= nodal (m_C m) (entry y) j <= hi.
Proof.
  intros Mok W Bt L. unfold nodal. destruct (find _ (m_C m)) as [e|] eqn:E.
  - apply find_some in E as [I _]. destruct (m_C_ok m Mok) as [_ Ok]. pose proof (proj1 (Forall_forall _ _) Ok _ I) as [_ [Fr S1]]. pose proof (proj1 (Forall_forall _ _) W _ I) as We.
    assert (X : forall w, In w (snd e) -> 0 <= (snd w : R) /\ lo <= entry y (fst w) <= hi).
    { intros w Iw. split; [exact (proj1 (Forall_forall _ _) We w Iw)|]. pose proof (proj1 (Forall_forall _ _) Fr w Iw) as [Lw Nw]. apply Bt. split; assumption. }
    assert (G : forall c, Sum (snd e) (fun w => snd w * c) = c). { intros c. etransitivity; [apply Sum_mul|]. etransitivity; [apply Rmult_eq_compat_r; exact S1|]. apply Rmult_1_l. }
    split; [apply Rle_trans with (Sum (snd e) (fun w => snd w * lo)); [right; symmetry; apply G|]|apply Rle_trans with (Sum (snd e) (fun w => snd w * hi)); [|right; apply G]];
      apply Sum_le; intros w Iw; destruct (X w Iw) as [X1 X2]; apply Rmult_le_compat_l; tauto.
  - apply Bt. split; [exact L|]. exact (find_none_fst _ _ E).
Qed.
