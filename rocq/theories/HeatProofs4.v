(** HeatProofs4.v -- equilibrium, dissipation, the heat input that is printed, host and device. *)
From Coq Require Import Reals List Bool String ZArith Lra Lia.
From Verif Require Import Base MaterialModel MaterialSpec InputModel HeatModel HeatSpec MaterialProofs MaterialProofs2 HeatProofs HeatProofs2 HeatProofs3.
Import ListNotations.
Open Scope R_scope.

Lemma total_mass m : mesh_ok m -> Sum (seq 0 (m_n m)) (nodal_mass m) = volume (m_mass m).
Proof.
  intros Mok. rewrite (Sum_ext _ (fun j => nodal_mass m j * 1)) by (intros; ring). rewrite <- (integral_mass m Mok (fun _ => 1)). unfold integral, volume.
  apply Sum_ext. intros c Ic. apply Sum_ext. intros q Iq.
  rewrite (field_const (m_n m) (m_C m) c q (m_C_ok m Mok) (proj1 (Forall_forall _ _) (m_mass_ok m Mok) c Ic) Iq (fun _ => 1) 1) by reflexivity. cbn [num RNum]. ring.
Qed.

(** Only the free entries count. *)
Lemma rate_local dim3 on ad m (K : laws RNum) (F : face_laws RNum) (y y' : list R) j : mesh_ok m -> (forall k, free m k -> entry y k = entry y' k) -> free m j ->
  entry (evaluate (N := RNum) dim3 on ad m K F y) j = entry (evaluate (N := RNum) dim3 on ad m K F y') j.
Proof.
  intros Mok E Fr. pose proof (rate_free dim3 on ad m K F y Mok j Fr) as A. pose proof (rate_free dim3 on ad m K F y' Mok j Fr) as B. unfold rate in *. rewrite A, B. f_equal.
  assert (Z : forall k, (k < m_n m)%nat -> ~ In k (map fst (m_C m)) -> entry y k = entry y' k) by (intros k L N; apply E; split; assumption).
  unfold weak. f_equal.
  - unfold cells_tested. apply Sum_ext. intros ic I. apply Sum_ext. intros iq Iq. apply in_indexed in I. apply (proj1 (Forall_forall _ _) (m_cells_ok m Mok)) in I. unfold cell_point.
    rewrite (field_ext (m_n m) (m_C m) (snd ic) (snd iq) (m_C_ok m Mok) I (entry y) (entry y') Z), (gradient_ext (m_n m) (m_C m) (snd ic) (snd iq) (m_C_ok m Mok) I (entry y) (entry y') Z). reflexivity.
  - destruct ad; [reflexivity|]. unfold faces_tested. apply Sum_ext. intros jf I. destruct (on_boundary _); [|reflexivity]. apply Sum_ext. intros iq Iq. apply in_indexed in I.
    apply (proj1 (Forall_forall _ _) (m_faces_ok m Mok)) in I. assert (A' : shape_ok (m_n m) (active_side (snd jf))) by (unfold active_side; destruct (Nat.eqb _ 0); tauto).
    unfold face_point. rewrite (field_ext (m_n m) (m_C m) _ (snd iq) (m_C_ok m Mok) A' (entry y) (entry y') Z). reflexivity.
Qed.

(** Uniform temperature. *)
Lemma conduction_zero dim3 (inv kx ky kz c s : R) : conduction (N := RNum) dim3 inv kx ky kz c s (mkpt (N := RNum) 0 0 0) = mkpt (N := RNum) 0 0 0.
Proof. unfold conduction, pscale. destruct dim3; cbn; f_equal; ring. Qed.
Lemma rate_uniform dim3 ad m (K : laws RNum) (F : face_laws RNum) (y : list R) T j : mesh_ok m -> (forall k, free m k -> entry y k = T) ->
  (ad = false -> forall a b, fl_conv (F a b T) = T /\ fl_rad (F a b T) = T) -> free m j ->
  entry (evaluate (N := RNum) dim3 false ad m K F y) j = 0.
Proof.
  intros Mok U B Fr. pose proof (rate_free dim3 false ad m K F y Mok j Fr) as A. unfold rate in A. rewrite A.
  assert (Z : forall k, (k < m_n m)%nat -> ~ In k (map fst (m_C m)) -> entry y k = T) by (intros k L N; apply U; split; assumption).
  assert (W : weak dim3 false ad m K F y (hat j) = 0); [|rewrite W; unfold Rdiv; ring].
  unfold weak. replace (cells_tested _ _ _ _ _ _ _) with 0.
  - destruct ad; [ring|]. replace (faces_tested _ _ _ _ _) with 0; [ring|]. symmetry. unfold faces_tested. apply Sum_zero. intros jf I. destruct (on_boundary _); [|reflexivity].
    apply Sum_zero. intros iq Iq. apply in_indexed in I. apply in_indexed in Iq. apply (proj1 (Forall_forall _ _) (m_faces_ok m Mok)) in I.
    assert (A' : shape_ok (m_n m) (active_side (snd jf))) by (unfold active_side; destruct (Nat.eqb _ 0); tauto). unfold face_point.
    rewrite (field_const (m_n m) (m_C m) _ (snd iq) (m_C_ok m Mok) A' Iq (entry y) T Z). cbv zeta. destruct (B eq_refl (fst jf) (fst iq)) as [B1 B2]. rewrite B1, B2.
    unfold outflux. destruct (has_flag _ convective), (has_flag _ radiative); cbn [num RNum]; ring.
  - symmetry. unfold cells_tested. apply Sum_zero. intros ic I. apply Sum_zero. intros iq Iq. apply in_indexed in I. apply in_indexed in Iq. apply (proj1 (Forall_forall _ _) (m_cells_ok m Mok)) in I.
    unfold cell_point. rewrite (gradient_const (m_n m) (m_C m) (snd ic) (snd iq) (m_C_ok m Mok) I Iq (entry y) T Z), conduction_zero, dot_zero. cbn [num RNum]. ring.
Qed.

(** Conduction dissipates. *)
Lemma gradient_2d (C : constraints RNum) c q z : Forall (fun g : pt RNum => (py g : R) = 0) (h_grads q) -> (py (gradient C c q z) : R) = 0.
Proof.
  intros H. unfold gradient. cbn [py]. apply Sum_zero. intros [g j] I. apply in_combine_l in I. apply (proj1 (Forall_forall _ _) H) in I. cbn [fst snd]. rewrite I. apply Rmult_0_l.
Qed.
Lemma dot_nonneg (g : pt RNum) : 0 <= dot g g.
Proof. destruct g as [a b c]. unfold dot. cbn [px py pz num RNum] in *. assert (0 <= (a : R) * a) by apply Rle_0_sqr. assert (0 <= (b : R) * b) by apply Rle_0_sqr. assert (0 <= (c : R) * c) by apply Rle_0_sqr. lra. Qed.
Lemma cond_nonpos dim3 (inv kx ky kz c s : R) (g : pt RNum) : c * c + s * s = 1 -> 0 <= inv -> 0 <= kx -> 0 <= ky -> 0 <= kz -> (dim3 = false -> (py g : R) = 0) ->
  dot (conduction (N := RNum) dim3 inv kx ky kz c s g) g <= 0.
Proof.
  intros U I X Y Z D. pose proof (cond_bounds dim3 inv kx ky kz c s 0 (Rmax kx (Rmax ky kz)) g U I) as B.
  pose proof (Rmax_l kx (Rmax ky kz)). pose proof (Rmax_r kx (Rmax ky kz)). pose proof (Rmax_l ky kz). pose proof (Rmax_r ky kz).
  destruct B as [_ B]; try (split; lra); [exact D|]. pose proof (dot_nonneg g). lra.
Qed.
Lemma dissipation dim3 m (K : laws RNum) (F : face_laws RNum) (y : list R) : mesh_ok m -> massive m -> conducting dim3 m K ->
  mass_product m (entry y) (entry (evaluate (N := RNum) dim3 false true m K F y)) = dissipated dim3 m K y /\ dissipated dim3 m K y <= 0.
Proof.
  intros Mok M [P Q]. split.
  - etransitivity; [exact (weak_form dim3 false true m K F y Mok (entry y) M)|]. unfold weak. rewrite Rminus_0_r. unfold cells_tested, dissipated. apply Sum_ext. intros ic _. apply Sum_ext. intros iq _.
    unfold cell_point. cbv zeta. cbn [num RNum]. ring.
  - unfold dissipated. apply Rle_trans with (Sum (indexed (m_cells m)) (fun _ => 0)); [|rewrite Sum_zero by reflexivity; lra]. apply Sum_le. intros ic I.
    apply Rle_trans with (Sum (indexed (c_quads (snd ic))) (fun _ => 0)); [|rewrite Sum_zero by reflexivity; lra]. apply Sum_le. intros iq Iq. cbv zeta.
    apply in_indexed in I. apply in_indexed in Iq. apply (proj1 (Forall_forall _ _) Q) in I. apply (proj1 (Forall_forall _ _) I) in Iq. destruct Iq as [J D].
    specialize (P (fst ic) (fst iq) (field (m_C m) (snd ic) (snd iq) (entry y))). cbv zeta in P. destruct P as [P1 [P2 [P3 [P4 P5]]]].
    pose proof (cond_nonpos dim3 _ _ _ _ _ _ (gradient (m_C m) (snd ic) (snd iq) (entry y)) P5 P1 P2 P3 P4 (fun E => gradient_2d _ _ _ _ (D E))) as G.
    assert (X : forall a b : R, 0 <= a -> b <= 0 -> a * b <= 0) by (intros; nra). apply X; assumption.
Qed.
(** With coefficients that do not depend on the temperature, the conduction is symmetric. *)
Lemma symmetric dim3 m (K : laws RNum) (F : face_laws RNum) (y z : list R) : mesh_ok m -> massive m -> (forall i q T T', K i q T = K i q T') ->
  mass_product m (entry z) (entry (evaluate (N := RNum) dim3 false true m K F y)) = mass_product m (entry y) (entry (evaluate (N := RNum) dim3 false true m K F z)).
Proof.
  intros Mok M E. etransitivity; [exact (weak_form dim3 false true m K F y Mok (entry z) M)|]. symmetry. etransitivity; [exact (weak_form dim3 false true m K F z Mok (entry y) M)|].
  unfold weak. f_equal. unfold cells_tested. apply Sum_ext. intros ic _. apply Sum_ext. intros iq _. unfold cell_point. cbv zeta.
  rewrite (E (fst ic) (fst iq) (field (m_C m) (snd ic) (snd iq) (entry y)) (field (m_C m) (snd ic) (snd iq) (entry z))).
  rewrite !Rmult_0_l, !Rplus_0_r. apply Rmult_eq_compat_l. etransitivity; [apply cond_symmetric|]. unfold dot. cbn [num RNum]. ring.
Qed.

(** The heat input that is printed. *)
Lemma fold_nested {A} (g : R -> A -> R) (f : A -> R) l s : (forall s a, In a l -> g s a = s + f a) -> fold_left g l s = s + Sum l f.
Proof.
  revert s. induction l as [|a l IH]; intros s H; [rewrite Sum_nil; cbn; lra|]. cbn [fold_left]. rewrite IH by auto using in_cons. rewrite (H s a) by apply in_eq. rewrite Sum_cons. lra.
Qed.
Lemma Sum_seq_nth (l : list R) : Sum (seq 0 (List.length l)) (fun i => nth i l 0) = Sum l (fun x => x).
Proof.
  induction l as [|a l IH]; [reflexivity|]. cbn [List.length seq]. rewrite !Sum_cons. cbn [nth]. f_equal. rewrite <- seq_shift, Sum_map. exact IH.
Qed.
Lemma printed n cells (power : nat -> nat -> R) : Forall (shape_ok n) cells -> heat_input (N := RNum) cells power = power_in cells power.
Proof.
  intros H. unfold heat_input, power_in.
  etransitivity; [apply (fold_nested _ (fun ic : nat * hcell RNum => Sum (indexed (c_quads (snd ic))) (fun iq : nat * hquad RNum => h_jxw (snd iq) * power (fst ic) (fst iq))) (indexed cells) 0)|apply Rplus_0_l].
  intros s ic I. apply in_indexed in I. apply (proj1 (Forall_forall _ _) H) in I. destruct I as [_ Q].
  etransitivity; [apply (fold_nested _ (fun i => Sum (indexed (c_quads (snd ic))) (fun iq : nat * hquad RNum => power (fst ic) (fst iq) * nth i (h_values (snd iq)) 0 * h_jxw (snd iq))) (seq 0 (List.length (c_dofs (snd ic)))) s)|].
  - intros s' i _. exact (fold_Sum (fun iq : nat * hquad RNum => power (fst ic) (fst iq) * nth i (h_values (snd iq)) 0 * h_jxw (snd iq)) (indexed (c_quads (snd ic))) s').
  - f_equal. rewrite Sum_swap. apply Sum_ext. intros iq Iq. apply in_indexed in Iq. apply (proj1 (Forall_forall _ _) Q) in Iq. destruct Iq as [L [_ [S1 _]]]. rewrite <- L.
    transitivity (power (fst ic) (fst iq) * h_jxw (snd iq) * Sum (h_values (snd iq)) (fun x => x : R)); [|etransitivity; [apply Rmult_eq_compat_l; exact S1|]; cbn [num RNum]; ring].
    etransitivity; [|apply Rmult_eq_compat_l; exact (Sum_seq_nth (h_values (snd iq)))]. rewrite <- Sum_scal. apply Sum_ext. intros; cbn [num RNum]; ring.
Qed.

(** ** The device *)
Definition local_sourceR C (K : laws RNum) (src d : list R) (ic : nat * hcell RNum) : list R := local_source (N := RNum) C K src d ic.
Lemma local_source_length C K src d ic : List.length (local_sourceR C K src d ic) = List.length d. Proof. apply distribute_length. Qed.
Definition source_point (C : constraints RNum) (K : nat -> R -> point_law RNum) c (y : list R) (z : nat -> R) (iq : nat * hquad RNum) : R :=
  let k := K (fst iq) (field C c (snd iq) (entry y)) in h_jxw (snd iq) * ((pl_inv k * Sum (pl_beams k) (fun b => b : R)) * field C c (snd iq) z).
Lemma ip_local_source C K src z n d ic : targets_ok n C -> List.length d = n -> lens n (snd ic) ->
  ip z (local_sourceR C K src d ic) = ip z d + Sum (indexed (c_quads (snd ic))) (source_point C (K (fst ic)) (snd ic) src z).
Proof.
  intros T D [Ld Lq]. unfold local_sourceR, local_source. etransitivity; [apply ip_distribute|].
  - rewrite D. exact T.
  - rewrite D. exact Ld.
  - apply Forall_forall. intros qv I. apply in_map_iff in I. destruct I as [iq [<- I]]. cbn [fst]. apply (proj1 (Forall_forall _ _) Lq). exact (in_indexed _ _ I).
  - f_equal. etransitivity; [apply Sum_map|]. apply Sum_ext. intros iq _. unfold tested, source_point. cbn [fst snd].
    etransitivity; [apply Rmult_eq_compat_l; apply (f_equal2 Rplus (dot_zero _) eq_refl)|]. rewrite get_value_field. rewrite Rplus_0_l. cbn [nmul RNum].
    apply Rmult_eq_compat_l. apply Rmult_eq_compat_r. apply Rmult_eq_compat_l. unfold sum_list. etransitivity; [exact (fold_Sum (fun b : R => b) _ 0)|]. apply Rplus_0_l.
Qed.
Lemma nth_add2 (v w : list R) j : List.length v = List.length w -> nth j (map (fun p : R * R => fst p + snd p) (combine v w)) 0 = nth j v 0 + nth j w 0.
Proof.
  revert w j. induction v as [|a v IH]; intros [|b w] j L; try discriminate; [destruct j; cbn; ring|]. destruct j as [|j]; cbn [combine map nth fst snd]; [reflexivity|]. apply IH. cbn in L. lia.
Qed.
Definition vsetR (v : list R) j (x : R) : list R := vset (N := RNum) v j x.
Lemma fold_vset_length (g : nat -> R) l v : List.length (fold_left (fun v k => vsetR v k (g k)) l v) = List.length v.
Proof. revert v. induction l as [|k l IH]; intros v; [reflexivity|]. cbn [fold_left]. rewrite IH. apply set_nth_length. Qed.
Lemma fold_vset_other (g : nat -> R) l v j : ~ In j l -> nth j (fold_left (fun v k => vsetR v k (g k)) l v) 0 = nth j v 0.
Proof.
  revert v. induction l as [|k l IH]; intros v N; [reflexivity|]. cbn [fold_left]. rewrite IH by (intros I; apply N; apply in_cons; exact I). apply set_nth_other. intros ->. apply N. apply in_eq.
Qed.
Lemma tiny_R : tiny (N := RNum) = smallest_mass. Proof. unfold tiny, smallest_mass. cbn [nofZ ndiv RNum]. replace (10 ^ 15) with 1000000000000000 by ring. lra. Qed.
Lemma split_source (a b c d : R) : a * (b + 0 * d) + a * (c * d) = a * (b + c * d). Proof. ring. Qed.
Lemma device_rate dim3 m (K : laws RNum) (F : face_laws RNum) (y : list R) : mesh_ok m ->
  exists r : list R, evaluate_device (N := RNum) dim3 true m K y = Ok r /\ List.length r = m_n m /\
  (forall j, free m j -> smallest_mass < nodal_mass m j -> entry r j = entry (evaluate (N := RNum) dim3 true true m K F y) j) /\
  (forall j, free m j -> nodal_mass m j <= smallest_mass -> entry r j = 0).
Proof.
  intros Mok. set (n := m_n m). set (C := m_C m).
  pose (v := fold_left (fun v k => vsetR v k (entry y k)) (map fst C) (op_cells dim3 m K y false)).
  pose (s := fold_left (local_sourceR C K y) (indexed (m_cells m)) (repeat 0 n)).
  pose (inv := map (fun x : R => if Rltb (smallest_mass) x then 1 / x else 0) (mass_raw_device n C (m_mass m))).
  assert (Lv : List.length v = n) by (unfold v; rewrite fold_vset_length; apply op_cells_length).
  assert (Ls : List.length s = n) by (unfold s; rewrite loop_length; [apply repeat_length|intros; apply local_source_length]).
  assert (Li : List.length inv = n) by (unfold inv; rewrite map_length; apply mass_raw_device_length).
  assert (Lvs : List.length (map (fun p : R * R => fst p + snd p) (combine v s)) = n) by (rewrite map_length, combine_length, Lv, Ls; apply Nat.min_id).
  exists (scale (N := RNum) (map (fun p : R * R => fst p + snd p) (combine v s)) inv). split; [unfold evaluate_device, inverse_mass_device; rewrite tiny_R; reflexivity|].
  assert (Vj : forall j, ~ In j (map fst C) -> nth j v 0 = cells_tested dim3 false C (m_cells m) K y (hat j)).
  { intros j N. unfold v. rewrite fold_vset_other by exact N. rewrite <- ip_hat. apply ip_op_cells. exact Mok. }
  assert (Sj : forall j, nth j s 0 = Sum (indexed (m_cells m)) (fun ic => Sum (indexed (c_quads (snd ic))) (source_point C (K (fst ic)) (snd ic) y (hat j)))).
  { intros j. rewrite <- ip_hat. unfold s. rewrite (ip_loop (local_sourceR C K y) (fun ic => Sum (indexed (c_quads (snd ic))) (source_point C (K (fst ic)) (snd ic) y (hat j))) (fun ic => lens n (snd ic)) (hat j) n).
    - rewrite ip_zero. ring.
    - intros; apply local_source_length.
    - intros; apply ip_local_source with (n := n); auto. apply constraints_targets. exact (m_C_ok m Mok).
    - apply repeat_length.
    - intros ic I. apply (proj1 (Forall_forall _ _) (m_cells_lens m Mok)). exact (in_indexed _ _ I). }
  assert (Ij : forall j, free m j -> nth j inv 0 = if Rltb (smallest_mass) (nodal_mass m j) then 1 / nodal_mass m j else 0).
  { intros j [L N]. unfold inv. pose (f := fun x : R => if Rltb (smallest_mass) x then 1 / x else 0).
    rewrite (nth_indep _ 0 (f 0)) by (rewrite map_length, mass_raw_device_length; exact L). etransitivity; [exact (map_nth f _ 0 j)|]. unfold f.
    replace (nth j (mass_raw_device n C (m_mass m)) 0) with (nodal_mass m j); [reflexivity|]. rewrite <- ip_hat. symmetry. apply ip_mass_raw_device; [exact (m_C_ok m Mok)|exact (m_mass_ok m Mok)]. }
  assert (E : forall j, free m j -> entry (scale (N := RNum) (map (fun p : R * R => fst p + snd p) (combine v s)) inv) j = weak dim3 true true m K F y (hat j) * nth j inv 0).
  { intros j Fr. unfold entry. etransitivity; [exact (nth_scale m _ _ j Lvs Li)|]. rewrite nth_add2 by congruence. rewrite Vj by exact (proj2 Fr). rewrite Sj. f_equal. unfold weak, cells_tested. rewrite Rminus_0_r, <- Sum_plus.
    apply Sum_ext. intros ic _. rewrite <- Sum_plus. apply Sum_ext. intros iq _. unfold cell_point, source_point. cbv zeta. apply split_source. }
  split; [|split].
  - change (List.length (map (fun p : R * R => fst p * snd p) (combine (map (fun p : R * R => fst p + snd p) (combine v s)) inv)) = m_n m). rewrite map_length, combine_length, Lvs, Li. apply Nat.min_id.
  - intros j Fr L. rewrite (E j Fr), (Ij j Fr). pose proof (rate_free dim3 true true m K F y Mok j Fr) as A. unfold rate in A. rewrite A. unfold Rltb. destruct (Rlt_dec _ _); [|lra]. unfold Rdiv. ring.
  - intros j Fr L. rewrite (E j Fr), (Ij j Fr). unfold Rltb. destruct (Rlt_dec _ _); [lra|]. ring.
Qed.
Lemma device_throws dim3 m (K : laws RNum) (y : list R) : evaluate_device (N := RNum) dim3 false m K y = Throw. Proof. reflexivity. Qed.

(** ** Boundary conditions *)
Lemma no_loss dim3 on m (K : laws RNum) (F : face_laws RNum) (y : list R) : mesh_ok m -> Forall (fun f => has_flag (hf_type f) convective = false /\ has_flag (hf_type f) radiative = false) (m_faces m) ->
  forall j, free m j -> entry (evaluate (N := RNum) dim3 on false m K F y) j = entry (evaluate (N := RNum) dim3 on true m K F y) j.
Proof.
  intros Mok H j Fr. pose proof (rate_free dim3 on false m K F y Mok j Fr) as A. pose proof (rate_free dim3 on true m K F y Mok j Fr) as B. unfold rate in *. rewrite A, B. f_equal. unfold weak.
  replace (faces_tested _ _ _ _ _) with 0; [ring|]. symmetry. unfold faces_tested. apply Sum_zero. intros jf I. destruct (on_boundary _); [|reflexivity]. apply in_indexed in I. apply (proj1 (Forall_forall _ _) H) in I.
  destruct I as [I1 I2]. apply Sum_zero. intros iq _. unfold face_point. rewrite I1, I2. unfold outflux. cbn [num RNum]. ring.
Qed.
