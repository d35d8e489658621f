(** HeatProofs3.v -- consequences of the weak form: balance, equilibrium, dissipation, host and device. *)
From Coq Require Import Reals List Bool String ZArith Lra Lia.
From Verif Require Import Base MaterialModel MaterialSpec InputModel HeatModel HeatSpec MaterialProofs MaterialProofs2 HeatProofs HeatProofs2.
Import ListNotations.
Open Scope R_scope.

(** Testing with a field that vanishes on the free nodes. *)
Section Ext.
  Variables (n : nat) (C : constraints RNum) (z z' : nat -> R).
  Hypotheses (Cok : constraints_ok n C) (Z : forall k, (k < n)%nat -> ~ In k (map fst C) -> z k = z' k).
  Lemma cells_tested_ext dim3 on cells K y : Forall (shape_ok n) cells -> cells_tested dim3 on C cells K y z = cells_tested dim3 on C cells K y z'.
  Proof.
    intros H. unfold cells_tested. apply Sum_ext. intros ic I. apply Sum_ext. intros iq Iq. apply in_indexed in I. apply in_indexed in Iq. apply (proj1 (Forall_forall _ _) H) in I.
    unfold cell_point. rewrite (field_ext n C (snd ic) (snd iq) Cok I z z' Z), (gradient_ext n C (snd ic) (snd iq) Cok I z z' Z). reflexivity.
  Qed.
  Lemma faces_tested_ext faces F y : Forall (fun f => shape_ok n (hf_inner f) /\ shape_ok n (hf_outer f)) faces -> faces_tested C faces F y z = faces_tested C faces F y z'.
  Proof.
    intros H. unfold faces_tested. apply Sum_ext. intros jf I. destruct (on_boundary (snd jf)); [|reflexivity]. apply Sum_ext. intros iq Iq. apply in_indexed in I.
    apply (proj1 (Forall_forall _ _) H) in I. assert (A : shape_ok n (active_side (snd jf))) by (unfold active_side; destruct (Nat.eqb _ 0); tauto).
    unfold face_point. rewrite (field_ext n C _ (snd iq) Cok A z z' Z). reflexivity.
  Qed.
End Ext.
Lemma field_zero C c q : field C c q (fun _ => 0) = 0.
Proof.
  unfold field. apply Sum_zero. intros p _. cbn beta. replace (nodal C (fun _ => 0) (snd p)) with 0; [cbn [num RNum]; ring|].
  unfold nodal. destruct (find _ C); [|reflexivity]. symmetry. apply Sum_zero. intros; cbn [num RNum]; ring.
Qed.
Lemma gradient_zero C c q : gradient C c q (fun _ => 0) = mkpt (N := RNum) 0 0 0.
Proof.
  assert (E : forall j, nodal C (fun _ => 0) j = 0). { intros j. unfold nodal. destruct (find _ C); [|reflexivity]. apply Sum_zero. intros; cbn [num RNum]; ring. }
  unfold gradient. f_equal; apply Sum_zero; intros p _; rewrite E; cbn [num RNum]; ring.
Qed.
Lemma dot_zero_r (g : pt RNum) : dot g (mkpt (N := RNum) 0 0 0) = 0. Proof. unfold dot. cbn [px py pz num RNum]. ring. Qed.
Lemma cells_tested_zero dim3 on C cells K y : cells_tested dim3 on C cells K y (fun _ => 0) = 0.
Proof.
  unfold cells_tested. apply Sum_zero. intros ic _. apply Sum_zero. intros iq _. unfold cell_point. rewrite field_zero, gradient_zero, dot_zero_r. cbn [num RNum]. ring.
Qed.
Lemma faces_tested_zero C faces F y : faces_tested C faces F y (fun _ => 0) = 0.
Proof.
  unfold faces_tested. apply Sum_zero. intros jf _. destruct (on_boundary _); [|reflexivity]. apply Sum_zero. intros iq _. unfold face_point. rewrite field_zero. cbn [num RNum]. ring.
Qed.
Lemma integral_zero C cells : integral C cells (fun _ => 0) = 0.
Proof. unfold integral. apply Sum_zero. intros c _. apply Sum_zero. intros q _. rewrite field_zero. cbn [num RNum]. ring. Qed.
Lemma hat_zero C j : In j (map fst C) -> forall k, (k < 0 + k + 1)%nat -> ~ In k (map (@fst nat (list (nat * R))) C) -> hat j k = 0.
Proof. intros I k _ N. unfold hat. destruct (Nat.eqb_spec k j) as [->|]; [contradiction|reflexivity]. Qed.

(** ** The operator *)
Section Rate.
  Variables (dim3 on ad : bool) (m : heat_mesh RNum) (K : laws RNum) (F : face_laws RNum) (y : list R).
  Hypothesis (Mok : mesh_ok m).
  Local Notation n := (m_n m).
  Local Notation C := (m_C m).
  Lemma m_C_ok : constraints_ok n C. Proof. exact (proj1 Mok). Qed.
  Lemma m_cells_ok : Forall (shape_ok n) (m_cells m). Proof. exact (proj1 (proj2 Mok)). Qed.
  Lemma m_mass_ok : Forall (shape_ok n) (m_mass m). Proof. exact (proj1 (proj2 (proj2 Mok))). Qed.
  Lemma m_faces_ok : Forall (fun f => shape_ok n (hf_inner f) /\ shape_ok n (hf_outer f)) (m_faces m). Proof. exact (proj2 (proj2 (proj2 Mok))). Qed.
  Lemma m_cells_lens : Forall (lens n) (m_cells m). Proof. eapply Forall_impl; [|exact m_cells_ok]. apply shape_lens. Qed.
  Lemma m_faces_lens : Forall (fun f => lens n (active_side f)) (m_faces m).
  Proof. eapply Forall_impl; [|exact m_faces_ok]. intros f [A B]. unfold active_side. destruct (Nat.eqb _ 0); apply shape_lens; assumption. Qed.
  Definition weak (z : nat -> R) : R := cells_tested dim3 on C (m_cells m) K y z - (if ad then 0 else faces_tested C (m_faces m) F y z).
  Definition op_cells (o : bool) : list R := fold_left (local_applyR dim3 o C K y) (indexed (m_cells m)) (repeat 0 n).
  Definition op_raw : list R := if ad then op_cells on else fold_left (face_applyR C F y) (indexed (m_faces m)) (op_cells on).
  Lemma op_cells_length o : List.length (op_cells o) = n.
  Proof. unfold op_cells. rewrite loop_length; [apply repeat_length|]. intros; apply local_apply_length. Qed.
  Lemma ip_op_cells o z : ip z (op_cells o) = cells_tested dim3 o C (m_cells m) K y z.
  Proof.
    unfold op_cells. rewrite (ip_cells dim3 o C K y z n (m_cells m) (repeat 0 n) (constraints_targets _ _ m_C_ok) (repeat_length _ _) m_cells_lens), ip_zero. ring.
  Qed.
  Lemma op_raw_length : List.length op_raw = n.
  Proof. unfold op_raw. destruct ad; [apply op_cells_length|]. rewrite loop_length; [apply op_cells_length|]. intros; apply face_apply_length. Qed.
  Lemma ip_op_raw z : ip z op_raw = weak z.
  Proof.
    unfold op_raw, weak. destruct ad; [rewrite ip_op_cells; ring|].
    rewrite (ip_faces C F y z n (m_faces m) (op_cells on) (constraints_targets _ _ m_C_ok) (op_cells_length on) m_faces_lens), ip_op_cells. ring.
  Qed.
  Lemma constrained_lt : Forall (fun j => (j < n)%nat) (map fst C).
  Proof. apply Forall_forall. intros j I. apply in_map_iff in I. destruct I as [e [<- I]]. destruct m_C_ok as [_ H]. apply (proj1 (Forall_forall _ _) H) in I. tauto. Qed.
  Lemma nth_fold_vadd (g : nat -> R) (v : list R) (j : nat) : List.length v = n ->
    nth j (fold_left (fun v k => vaddR v k (g k)) (map fst C) v) 0 = nth j v 0 + (if in_dec Nat.eq_dec j (map fst C) then g j else 0).
  Proof.
    intros L. rewrite <- !ip_hat. rewrite (ip_fold_vadd (hat j) (fun k => k) g (map fst C) v) by (rewrite L; exact constrained_lt). f_equal.
    destruct m_C_ok as [ND _]. revert ND. generalize (map (@fst nat (list (nat * num RNum))) C). intros l ND.
    induction l as [|k l IH]; [reflexivity|]. inversion ND as [|? ? Nk ND']; subst. rewrite Sum_cons, (IH ND'). unfold hat at 1.
    destruct (Nat.eqb_spec k j) as [->|Ne].
    - destruct (in_dec Nat.eq_dec j l) as [I|_]; [contradiction|]. destruct (in_dec Nat.eq_dec j (j :: l)) as [_|Nn]; [ring|]. exfalso. apply Nn. apply in_eq.
    - destruct (in_dec Nat.eq_dec j l) as [I|I]; destruct (in_dec Nat.eq_dec j (k :: l)) as [I'|I']; try (cbn; ring).
      + exfalso. apply I'. apply in_cons. exact I.
      + destruct I' as [I'|I']; [congruence|contradiction].
  Qed.
  Lemma weak_constrained j : In j (map fst C) -> weak (hat j) = 0.
  Proof.
    intros I. assert (Z : forall k, (k < n)%nat -> ~ In k (map fst C) -> hat j k = 0).
    { intros k _ N. unfold hat. destruct (Nat.eqb_spec k j) as [->|]; [contradiction|reflexivity]. }
    unfold weak. rewrite (cells_tested_ext n C (hat j) (fun _ => 0) m_C_ok Z _ _ _ _ _ m_cells_ok), (faces_tested_ext n C (hat j) (fun _ => 0) m_C_ok Z _ _ _ m_faces_ok).
    rewrite cells_tested_zero, faces_tested_zero. destruct ad; ring.
  Qed.
  Lemma mass_constrained j : In j (map fst C) -> nodal_mass m j = 0.
  Proof.
    intros I. unfold nodal_mass. rewrite (integral_ext n C (m_mass m) (hat j) (fun _ => 0) m_C_ok m_mass_ok); [apply integral_zero|].
    intros k _ N. unfold hat. destruct (Nat.eqb_spec k j) as [->|]; [contradiction|reflexivity].
  Qed.
  Lemma mass_raw_nth j : nth j (mass_raw n C (m_mass m)) 0 = nodal_mass m j.
  Proof. rewrite <- ip_hat. apply ip_mass_raw; [exact m_C_ok|exact m_mass_ok]. Qed.
  Lemma integral_mass (u : nat -> R) : integral C (m_mass m) u = Sum (seq 0 n) (fun j => nodal_mass m j * u j).
  Proof.
    rewrite <- (ip_mass_raw n C (m_mass m) u m_C_ok m_mass_ok), ip_nth, mass_raw_length. apply Sum_ext. intros j _. rewrite mass_raw_nth. ring.
  Qed.
  Definition rate : list R := evaluate (N := RNum) dim3 on ad m K F y.
  Lemma nth_scale (v w : list R) j : List.length v = n -> List.length w = n -> nth j (scale (N := RNum) v w) 0 = nth j v 0 * nth j w 0.
  Proof.
    intros Lv Lw. change (nth j (map (fun p : R * R => fst p * snd p) (combine v w)) 0 = nth j v 0 * nth j w 0). destruct (Nat.lt_ge_cases j n) as [L|L].
    - rewrite (nth_indep _ 0 ((fun p : R * R => fst p * snd p) (0, 0))) by (rewrite map_length, combine_length, Lv, Lw, Nat.min_id; exact L).
      exact (eq_trans (map_nth (fun p : R * R => fst p * snd p) (combine v w) (0, 0) j) ltac:(rewrite combine_nth by congruence; reflexivity)).
    - rewrite !nth_overflow; try lia; [cbn; ring|]. rewrite map_length, combine_length, Lv, Lw, Nat.min_id. exact L.
  Qed.
  Lemma nth_inverse (v : list R) j : (j < List.length v)%nat -> nth j (map (fun x : R => 1 / x) v) 0 = 1 / nth j v 0.
  Proof.
    intros L. rewrite (nth_indep _ 0 ((fun x : R => 1 / x) 0)) by (rewrite map_length; exact L). exact (map_nth (fun x : R => 1 / x) v 0 j).
  Qed.
  Lemma evaluate_nth j : (j < n)%nat -> entry rate j =
    (weak (hat j) + (if in_dec Nat.eq_dec j (map fst C) then 1 * entry y j else 0)) / (nodal_mass m j + (if in_dec Nat.eq_dec j (map fst C) then 1 else 0)).
  Proof.
    intros L. unfold entry at 1, rate, evaluate, vmult_add, inverse_mass, mass.
    etransitivity; [apply (nth_scale (fold_left (fun v k => vaddR v k (1 * entry y k)) (map fst C) op_raw) (map (fun x : R => 1 / x) (fold_left (fun v k => vaddR v k 1) (map fst C) (mass_raw n C (m_mass m)))) j)|].
    - rewrite (fold_vadd_length (fun k => k) (fun k => 1 * entry y k)). apply op_raw_length.
    - rewrite map_length, (fold_vadd_length (fun k => k) (fun k => 1)). apply mass_raw_length.
    - rewrite (nth_fold_vadd (fun k => 1 * entry y k) op_raw j op_raw_length). rewrite nth_inverse by (rewrite (fold_vadd_length (fun k => k) (fun k => 1)), mass_raw_length; exact L).
      rewrite (nth_fold_vadd (fun _ => 1) (mass_raw n C (m_mass m)) j (mass_raw_length _ _ _)).
      rewrite mass_raw_nth, <- (ip_op_raw (hat j)), ip_hat. unfold Rdiv. ring.
  Qed.
  Lemma rate_free j : free m j -> entry rate j = weak (hat j) / nodal_mass m j.
  Proof.
    intros [L N]. rewrite evaluate_nth by exact L. destruct (in_dec Nat.eq_dec j (map fst C)) as [I|_]; [contradiction|]. rewrite !Rplus_0_r. reflexivity.
  Qed.
  Lemma rate_constrained j : In j (map fst C) -> entry rate j = entry y j.
  Proof.
    intros I. rewrite evaluate_nth by exact (proj1 (Forall_forall _ _) constrained_lt j I). destruct (in_dec Nat.eq_dec j (map fst C)) as [_|N]; [|contradiction].
    rewrite weak_constrained, mass_constrained by exact I. field.
  Qed.
  Lemma weak_sum z : weak z = Sum (seq 0 n) (fun j => z j * weak (hat j)).
  Proof. rewrite <- ip_op_raw, ip_nth, op_raw_length. apply Sum_ext. intros j _. rewrite <- ip_op_raw, ip_hat. reflexivity. Qed.
  Lemma weak_form z : massive m -> mass_product m z (entry rate) = weak z.
  Proof.
    intros M. rewrite weak_sum. unfold mass_product. apply Sum_ext. intros j I. apply in_seq in I. destruct (in_dec Nat.eq_dec j (map fst C)) as [J|J].
    - rewrite mass_constrained, weak_constrained by exact J. ring.
    - assert (Fr : free m j) by (split; [lia|exact J]). rewrite rate_free by exact Fr. pose proof (M j Fr). field. lra.
  Qed.
  Lemma weak_one : weak (fun _ => 1) = (if on then released m K y else 0) - (if ad then 0 else lost m F y).
  Proof.
    unfold weak. f_equal.
    - unfold cells_tested. rewrite (Sum_ext _ (fun ic => Sum (indexed (c_quads (snd ic))) (fun iq => if on then (let k := K (fst ic) (fst iq) (field C (snd ic) (snd iq) (entry y)) in h_jxw (snd iq) * (pl_inv k * Sum (pl_beams k) (fun b => b : R))) else 0))).
      + destruct on; [reflexivity|]. apply Sum_zero. intros; apply Sum_zero; reflexivity.
      + intros ic I. apply Sum_ext. intros iq Iq. apply in_indexed in I. apply in_indexed in Iq. apply (proj1 (Forall_forall _ _) m_cells_ok) in I. unfold cell_point.
        rewrite (field_const n C (snd ic) (snd iq) m_C_ok I Iq (fun _ => 1) 1) by reflexivity. rewrite (gradient_const n C (snd ic) (snd iq) m_C_ok I Iq (fun _ => 1) 1) by reflexivity.
        rewrite dot_zero_r. cbv zeta. destruct on; cbn [num RNum]; ring.
    - destruct ad; [reflexivity|]. unfold faces_tested, lost. apply Sum_ext. intros jf I. cbv zeta. destruct (on_boundary (snd jf)); [|reflexivity]. apply Sum_ext. intros iq Iq. apply in_indexed in I. apply in_indexed in Iq.
      apply (proj1 (Forall_forall _ _) m_faces_ok) in I. assert (A : shape_ok n (active_side (snd jf))) by (unfold active_side; destruct (Nat.eqb _ 0); tauto). unfold face_point.
      rewrite (field_const n C _ (snd iq) m_C_ok A Iq (fun _ => 1) 1) by reflexivity. cbn [num RNum]; ring.
  Qed.
  Lemma balance : massive m -> integral C (m_mass m) (entry rate) = (if on then released m K y else 0) - (if ad then 0 else lost m F y).
  Proof.
    intros M. rewrite <- weak_one, <- (weak_form (fun _ => 1) M), integral_mass. unfold mass_product. apply Sum_ext. intros; ring.
  Qed.
  Lemma rate_length : List.length rate = n.
  Proof.
    unfold rate, evaluate, scale. rewrite map_length, combine_length. unfold inverse_mass, mass. rewrite map_length. unfold vmult_add.
    etransitivity; [apply (f_equal2 Nat.min); [exact (eq_trans (fold_vadd_length (fun k => k) (fun k => 1 * entry y k) (map fst C) op_raw) op_raw_length)|exact (eq_trans (fold_vadd_length (fun k => k) (fun k => 1) (map fst C) (mass_raw n C (m_mass m))) (mass_raw_length _ _ _))]|]. apply Nat.min_id.
  Qed.
End Rate.
