(** HeatProofs2.v -- the rate of change of the temperature as a weak form. *)
From Coq Require Import Reals List Bool String ZArith Lra Lia.
From Verif Require Import Base MaterialModel MaterialSpec InputModel HeatModel HeatSpec MaterialProofs MaterialProofs2 HeatProofs.
Import ListNotations.
Open Scope R_scope.

Definition lens (n : nat) (c : hcell RNum) : Prop :=
  Forall (fun j => (j < n)%nat) (c_dofs c) /\ Forall (quad_ok (List.length (c_dofs c))) (c_quads c).
Lemma shape_lens n c : shape_ok n c -> lens n c.
Proof. intros [D Q]. split; [exact D|]. eapply Forall_impl; [|exact Q]. intros q H. cbn beta in H. split; tauto. Qed.
Lemma constraints_targets n C : constraints_ok n C -> targets_ok n C.
Proof. intros [_ H]. eapply Forall_impl; [|exact H]. intros e [_ [H1 _]]. eapply Forall_impl; [|exact H1]. intros w [L _]. exact L. Qed.
Lemma ip_loop {A} (f : list R -> A -> list R) (T : A -> R) (P : A -> Prop) z n : (forall d a, List.length (f d a) = List.length d) ->
  (forall d a, List.length d = n -> P a -> ip z (f d a) = ip z d + T a) ->
  forall l d, List.length d = n -> (forall a, In a l -> P a) -> ip z (fold_left f l d) = ip z d + Sum l T.
Proof.
  intros L H l. induction l as [|a l IH]; intros d D I; [rewrite Sum_nil; cbn; lra|]. cbn [fold_left]. rewrite IH; rewrite ?L; auto using in_cons.
  rewrite H; auto using in_eq. rewrite Sum_cons. lra.
Qed.
Lemma loop_length {A} (f : list R -> A -> list R) : (forall d a, List.length (f d a) = List.length d) -> forall l d, List.length (fold_left f l d) = List.length d.
Proof. intros L l. induction l as [|a l IH]; intros d; [reflexivity|]. cbn [fold_left]. rewrite IH. apply L. Qed.
Lemma in_indexed {A} (l : list A) ia : In ia (indexed l) -> In (snd ia) l.
Proof. destruct ia as [i a]. intros I. apply in_combine_r in I. exact I. Qed.

Definition local_applyR dim3 on C (K : laws RNum) (src d : list R) (ic : nat * hcell RNum) : list R := local_apply (N := RNum) dim3 on C K src d ic.
Lemma source_term_sum (inv : R) (beams : list R) : source_term (N := RNum) inv beams = inv * Sum beams (fun b => b).
Proof. unfold source_term. rewrite Rmult_comm. cbn [nmul RNum]. f_equal. etransitivity; [exact (fold_Sum (fun b : R => b) beams 0)|]. apply Rplus_0_l. Qed.
Lemma ip_local_apply dim3 on C K src z n d ic : targets_ok n C -> List.length d = n -> lens n (snd ic) ->
  ip z (local_applyR dim3 on C K src d ic) = ip z d + Sum (indexed (c_quads (snd ic))) (cell_point dim3 on C (K (fst ic)) (snd ic) src z).
Proof.
  intros T D [Ld Lq]. unfold local_applyR, local_apply. etransitivity; [apply ip_distribute|].
  - rewrite D. exact T.
  - rewrite D. exact Ld.
  - apply Forall_forall. intros qv I. apply in_map_iff in I. destruct I as [iq [<- I]]. cbn [fst submitted]. apply (proj1 (Forall_forall _ _) Lq). exact (in_indexed _ _ I).
  - f_equal. etransitivity; [apply Sum_map|]. apply Sum_ext. intros iq _. unfold tested, submitted, cell_point. cbn [fst snd].
    rewrite get_value_field, get_gradient_gradient. destruct on; [|reflexivity]. f_equal. f_equal. f_equal. apply source_term_sum.
Qed.
Lemma local_apply_length dim3 on C K src d ic : List.length (local_applyR dim3 on C K src d ic) = List.length d. Proof. apply distribute_length. Qed.
Lemma ip_cells dim3 on C K src z n cells d : targets_ok n C -> List.length d = n -> Forall (lens n) cells ->
  ip z (fold_left (local_applyR dim3 on C K src) (indexed cells) d) = ip z d + cells_tested dim3 on C cells K src z.
Proof.
  intros T D H. apply (ip_loop _ _ (fun ic => lens n (snd ic)) z n).
  - intros; apply local_apply_length.
  - intros; apply ip_local_apply with (n := n); assumption.
  - exact D.
  - intros ic I. apply (proj1 (Forall_forall _ _) H). exact (in_indexed _ _ I).
Qed.

(** Faces. *)
Definition face_applyR C (F : face_laws RNum) (src d : list R) (jf : nat * hface RNum) : list R := face_apply (N := RNum) C F src d jf.
Lemma face_done_boundary (f : hface RNum) : face_done f = negb (on_boundary f).
Proof.
  unfold face_done, on_boundary. destruct (Nat.eqb_spec (hf_first f) 0) as [A|A], (Nat.eqb_spec (hf_second f) 0) as [B|B], (Nat.eqb_spec (hf_first f) (hf_second f)); cbn; try reflexivity; congruence.
Qed.
Lemma face_apply_length C F src d jf : List.length (face_applyR C F src d jf) = List.length d.
Proof. unfold face_applyR, face_apply. destruct (face_done (snd jf)); [reflexivity|]. apply distribute_length. Qed.
Lemma dot_zero (g : pt RNum) : dot (mkpt (N := RNum) 0 0 0) g = 0. Proof. unfold dot. cbn [px py pz num RNum]. ring. Qed.
Lemma ip_face_apply C F src z n d jf : targets_ok n C -> List.length d = n -> lens n (active_side (snd jf)) ->
  ip z (face_applyR C F src d jf) = ip z d + - (if on_boundary (snd jf) then Sum (indexed (c_quads (active_side (snd jf)))) (face_point C (F (fst jf)) (hf_type (snd jf)) (active_side (snd jf)) src z) else 0).
Proof.
  intros T D [Ld Lq]. unfold face_applyR, face_apply. cbv zeta. rewrite face_done_boundary. destruct (on_boundary (snd jf)); cbn [negb]; [|lra].
  change (hf_cell (snd jf)) with (active_side (snd jf)).
  etransitivity; [apply ip_distribute|].
  - rewrite D. exact T.
  - rewrite D. exact Ld.
  - apply Forall_forall. intros qv I. apply in_map_iff in I. destruct I as [iq [<- I]]. cbn [fst face_value]. apply (proj1 (Forall_forall _ _) Lq). exact (in_indexed _ _ I).
  - f_equal. etransitivity; [apply Sum_map|]. replace (- _) with (-1 * Sum (indexed (c_quads (active_side (snd jf)))) (face_point C (F (fst jf)) (hf_type (snd jf)) (active_side (snd jf)) src z)) by ring.
    rewrite <- Sum_scal. apply Sum_ext. intros iq _. unfold tested, face_value, face_point. cbn [fst snd].
    rewrite get_value_field. etransitivity; [apply Rmult_eq_compat_l; apply (f_equal2 Rplus (dot_zero _) eq_refl)|].
    rewrite boundary_is_flux. ring.
Qed.
Lemma ip_faces C F src z n faces d : targets_ok n C -> List.length d = n -> Forall (fun f => lens n (active_side f)) faces ->
  ip z (fold_left (face_applyR C F src) (indexed faces) d) = ip z d + - faces_tested C faces F src z.
Proof.
  intros T D H. unfold faces_tested. replace (- _) with (-1 * faces_tested C faces F src z) by (unfold faces_tested; ring). unfold faces_tested. rewrite <- Sum_scal.
  rewrite (ip_loop (face_applyR C F src) (fun jf => - (if on_boundary (snd jf) then Sum (indexed (c_quads (active_side (snd jf)))) (face_point C (F (fst jf)) (hf_type (snd jf)) (active_side (snd jf)) src z) else 0)) (fun jf => lens n (active_side (snd jf))) z n).
  - f_equal. apply Sum_ext. intros jf _. ring.
  - intros; apply face_apply_length.
  - intros; apply ip_face_apply with (n := n); assumption.
  - exact D.
  - intros jf I. apply (proj1 (Forall_forall _ _) H). exact (in_indexed _ _ I).
Qed.

(** Constants. *)
Lemma find_none_fst (C : constraints RNum) j : find (fun e => Nat.eqb (fst e) j) C = None -> ~ In j (map fst C).
Proof.
  intros E I. apply in_map_iff in I. destruct I as [e [<- I]]. apply (find_none _ _ E) in I. cbn beta in I. rewrite Nat.eqb_refl in I. discriminate.
Qed.
Lemma nodal_const n C (z : nat -> R) x j : constraints_ok n C -> (forall k, (k < n)%nat -> ~ In k (map fst C) -> z k = x) -> (j < n)%nat -> nodal C z j = x.
Proof.
  intros [_ H] Z L. unfold nodal. destruct (find _ C) as [e|] eqn:E.
  - apply find_some in E. destruct E as [I _]. apply (proj1 (Forall_forall _ _) H) in I. destruct I as [_ [I S1]].
    rewrite (Sum_ext _ (fun w => x * snd w)); [etransitivity; [apply Sum_scal|]; etransitivity; [apply Rmult_eq_compat_l; exact S1|]; ring|]. intros w Iw. apply (proj1 (Forall_forall _ _) I) in Iw. rewrite Z by tauto. cbn [num RNum]. ring.
  - apply Z; [exact L|]. exact (find_none_fst _ _ E).
Qed.
Lemma nodal_ext n C (z z' : nat -> R) j : constraints_ok n C -> (forall k, (k < n)%nat -> ~ In k (map fst C) -> z k = z' k) -> (j < n)%nat -> nodal C z j = nodal C z' j.
Proof.
  intros [_ H] Z L. unfold nodal. destruct (find _ C) as [e|] eqn:E.
  - apply find_some in E. destruct E as [I _]. apply (proj1 (Forall_forall _ _) H) in I. destruct I as [_ [I S1]].
    apply Sum_ext. intros w Iw. apply (proj1 (Forall_forall _ _) I) in Iw. rewrite Z by tauto. reflexivity.
  - apply Z; [exact L|]. exact (find_none_fst _ _ E).
Qed.
Lemma Sum_combine_const {A} (f : A -> R) (g : nat -> R) x (l : list A) (js : list nat) : List.length l = List.length js -> (forall j, In j js -> g j = x) ->
  Sum (combine l js) (fun p => f (fst p) * g (snd p)) = Sum l f * x.
Proof.
  revert js. induction l as [|a l IH]; intros [|j js] L H; try discriminate; cbn [combine]; rewrite ?Sum_nil, ?Sum_cons; [ring|]. cbn [fst snd]. rewrite IH; [|cbn in L; lia|auto using in_cons]. rewrite (H j) by apply in_eq. ring.
Qed.
Section Const.
  Variables (n : nat) (C : constraints RNum) (c : hcell RNum) (q : hquad RNum).
  Hypotheses (Cok : constraints_ok n C) (Sok : shape_ok n c) (Iq : In q (c_quads c)).
  Lemma field_const (z : nat -> R) x : (forall k, (k < n)%nat -> ~ In k (map fst C) -> z k = x) -> field C c q z = x.
  Proof.
    intros Z. destruct Sok as [D Q]. apply (proj1 (Forall_forall _ _) Q) in Iq. destruct Iq as [L [_ [S1 _]]]. unfold field.
    etransitivity; [exact (Sum_combine_const (fun v : R => v) (nodal C z) x (h_values q) (c_dofs c) L (fun j I => nodal_const n C z x j Cok Z (proj1 (Forall_forall _ _) D j I)))|].
    etransitivity; [apply Rmult_eq_compat_r; exact S1|]. apply Rmult_1_l.
  Qed.
  Lemma gradient_const (z : nat -> R) x : (forall k, (k < n)%nat -> ~ In k (map fst C) -> z k = x) -> gradient C c q z = mkpt (N := RNum) 0 0 0.
  Proof.
    intros Z. destruct Sok as [D Q]. apply (proj1 (Forall_forall _ _) Q) in Iq. destruct Iq as [_ [L [_ [S1 [S2 S3]]]]]. unfold gradient.
    pose proof (fun j I => nodal_const n C z x j Cok Z (proj1 (Forall_forall _ _) D j I)) as G.
    f_equal.
    - etransitivity; [exact (Sum_combine_const (fun g : pt RNum => px g) (nodal C z) x (h_grads q) (c_dofs c) L G)|]. etransitivity; [apply Rmult_eq_compat_r; exact S1|]. apply Rmult_0_l.
    - etransitivity; [exact (Sum_combine_const (fun g : pt RNum => py g) (nodal C z) x (h_grads q) (c_dofs c) L G)|]. etransitivity; [apply Rmult_eq_compat_r; exact S2|]. apply Rmult_0_l.
    - etransitivity; [exact (Sum_combine_const (fun g : pt RNum => pz g) (nodal C z) x (h_grads q) (c_dofs c) L G)|]. etransitivity; [apply Rmult_eq_compat_r; exact S3|]. apply Rmult_0_l.
  Qed.
  Lemma Sum_combine_ext {A} (f : A -> R) (g g' : nat -> R) (l : list A) (js : list nat) : (forall j, In j js -> g j = g' j) ->
    Sum (combine l js) (fun p => f (fst p) * g (snd p)) = Sum (combine l js) (fun p => f (fst p) * g' (snd p)).
  Proof. clear. intros H. apply Sum_ext. intros [a j] I. cbn [fst snd]. rewrite H; [reflexivity|]. exact (in_combine_r _ _ _ _ I). Qed.
  Lemma field_ext (z z' : nat -> R) : (forall k, (k < n)%nat -> ~ In k (map fst C) -> z k = z' k) -> field C c q z = field C c q z'.
  Proof.
    intros Z. destruct Sok as [D _]. unfold field.
    exact (Sum_combine_ext (fun v : R => v) _ _ (h_values q) _ (fun j I => nodal_ext n C z z' j Cok Z (proj1 (Forall_forall _ _) D j I))).
  Qed.
  Lemma gradient_ext (z z' : nat -> R) : (forall k, (k < n)%nat -> ~ In k (map fst C) -> z k = z' k) -> gradient C c q z = gradient C c q z'.
  Proof.
    intros Z. destruct Sok as [D _]. unfold gradient. pose proof (fun j I => nodal_ext n C z z' j Cok Z (proj1 (Forall_forall _ _) D j I)) as G.
    f_equal.
    - exact (Sum_combine_ext (fun v : pt RNum => px v) _ _ (h_grads q) _ G).
    - exact (Sum_combine_ext (fun v : pt RNum => py v) _ _ (h_grads q) _ G).
    - exact (Sum_combine_ext (fun v : pt RNum => pz v) _ _ (h_grads q) _ G).
  Qed.
End Const.

(** Mass. *)
Definition local_massR C (src d : list R) (c : hcell RNum) : list R := local_mass (N := RNum) C src d c.
Definition local_mass_deviceR C (d : list R) (c : hcell RNum) : list R := local_mass_device (N := RNum) C d c.
Lemma local_mass_length C src d c : List.length (local_massR C src d c) = List.length d. Proof. apply distribute_length. Qed.
Lemma local_mass_device_length C d c : List.length (local_mass_deviceR C d c) = List.length d. Proof. apply distribute_length. Qed.
Lemma nth_repeat_lt (x : R) n k : (k < n)%nat -> nth k (repeat x n) 0 = x.
Proof. revert k. induction n as [|n IH]; intros [|k] L; try lia; cbn; auto. apply IH. lia. Qed.
Lemma ip_local_mass C n z d c : constraints_ok n C -> List.length d = n -> shape_ok n c ->
  ip z (local_massR C (repeat 1 n) d c) = ip z d + Sum (c_quads c) (fun q => h_jxw q * field C c q z).
Proof.
  intros Cok D Sok. pose proof (shape_lens _ _ Sok) as [Ld Lq]. unfold local_massR, local_mass. etransitivity; [apply ip_distribute|].
  - rewrite D. apply constraints_targets. exact Cok.
  - rewrite D. exact Ld.
  - apply Forall_forall. intros qv I. apply in_map_iff in I. destruct I as [q [<- I]]. cbn [fst]. apply (proj1 (Forall_forall _ _) Lq). exact I.
  - f_equal. etransitivity; [apply Sum_map|]. apply Sum_ext. intros q I. unfold tested. cbn [fst snd].
    etransitivity; [apply Rmult_eq_compat_l; apply (f_equal2 Rplus (dot_zero _) eq_refl)|]. rewrite get_value_field.
    rewrite (field_const n C c q Cok Sok I (entry (repeat 1 n)) 1); [ring|]. intros k L _. apply nth_repeat_lt. exact L.
Qed.
Lemma ip_local_mass_device C n z d c : constraints_ok n C -> List.length d = n -> shape_ok n c ->
  ip z (local_mass_deviceR C d c) = ip z d + Sum (c_quads c) (fun q => h_jxw q * field C c q z).
Proof.
  intros Cok D Sok. pose proof (shape_lens _ _ Sok) as [Ld Lq]. unfold local_mass_deviceR, local_mass_device. etransitivity; [apply ip_distribute|].
  - rewrite D. apply constraints_targets. exact Cok.
  - rewrite D. exact Ld.
  - apply Forall_forall. intros qv I. apply in_map_iff in I. destruct I as [q [<- I]]. cbn [fst]. apply (proj1 (Forall_forall _ _) Lq). exact I.
  - f_equal. etransitivity; [apply Sum_map|]. apply Sum_ext. intros q I. unfold tested. cbn [fst snd].
    etransitivity; [apply Rmult_eq_compat_l; apply (f_equal2 Rplus (dot_zero _) eq_refl)|]. cbn [nofZ RNum]. ring.
Qed.
Definition mass_raw n C cells : list R := fold_left (local_massR C (repeat 1 n)) cells (repeat 0 n).
Definition mass_raw_device n C cells : list R := fold_left (local_mass_deviceR C) cells (repeat 0 n).
Lemma mass_raw_length n C cells : List.length (mass_raw n C cells) = n.
Proof. unfold mass_raw. rewrite loop_length; [apply repeat_length|]. intros; apply local_mass_length. Qed.
Lemma mass_raw_device_length n C cells : List.length (mass_raw_device n C cells) = n.
Proof. unfold mass_raw_device. rewrite loop_length; [apply repeat_length|]. intros; apply local_mass_device_length. Qed.
Lemma ip_mass_raw n C cells z : constraints_ok n C -> Forall (shape_ok n) cells -> ip z (mass_raw n C cells) = integral C cells z.
Proof.
  intros Cok H. unfold mass_raw, integral. rewrite (ip_loop (local_massR C (repeat 1 n)) (fun c => Sum (c_quads c) (fun q => h_jxw q * field C c q z)) (shape_ok n) z n).
  - rewrite ip_zero. ring.
  - intros; apply local_mass_length.
  - intros; apply ip_local_mass with (n := n); assumption.
  - apply repeat_length.
  - apply Forall_forall. exact H.
Qed.
Lemma ip_mass_raw_device n C cells z : constraints_ok n C -> Forall (shape_ok n) cells -> ip z (mass_raw_device n C cells) = integral C cells z.
Proof.
  intros Cok H. unfold mass_raw_device, integral. rewrite (ip_loop (local_mass_deviceR C) (fun c => Sum (c_quads c) (fun q => h_jxw q * field C c q z)) (shape_ok n) z n).
  - rewrite ip_zero. ring.
  - intros; apply local_mass_device_length.
  - intros; apply ip_local_mass_device with (n := n); assumption.
  - apply repeat_length.
  - apply Forall_forall. exact H.
Qed.
(** Constrained degrees of freedom do not matter. *)
Lemma integral_ext n C cells (z z' : nat -> R) : constraints_ok n C -> Forall (shape_ok n) cells -> (forall k, (k < n)%nat -> ~ In k (map fst C) -> z k = z' k) ->
  integral C cells z = integral C cells z'.
Proof.
  intros Cok H Z. unfold integral. apply Sum_ext. intros c Ic. apply Sum_ext. intros q Iq. apply (proj1 (Forall_forall _ _) H) in Ic.
  rewrite (field_ext n C c q Cok Ic z z' Z). reflexivity.
Qed.
Lemma integral_scal C cells (z : nat -> R) x : integral C cells (fun j => x * z j) = x * integral C cells z.
Proof.
  unfold integral. rewrite <- Sum_scal. apply Sum_ext. intros c _. rewrite <- Sum_scal. apply Sum_ext. intros q _. unfold field.
  rewrite <- (Rmult_assoc x), (Rmult_comm x), Rmult_assoc. f_equal. rewrite <- Sum_scal. apply Sum_ext. intros [v j] _. cbn [fst snd].
  assert (E : nodal C (fun j => x * z j) j = x * nodal C z j).
  { unfold nodal. destruct (find _ C) as [e|]; [|reflexivity]. rewrite <- Sum_scal. apply Sum_ext. intros; cbn [num RNum]; ring. }
  rewrite E. cbn [num RNum]. ring.
Qed.
