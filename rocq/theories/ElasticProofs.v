(** ElasticProofs.v -- the assembled system tested with virtual displacements. *)
From Coq Require Import Reals ZArith Bool List Lia Lra.
From Verif Require Import Base BaseFacts CellModel InputModel AssimilationSpec AssimilationProofs AssimilationProofs3 StressModel StressSpec ElementModel ElementSpec ElementProofs ElementProofs2
  HeatModel HeatSpec HeatProofs HeatProofs2 ElasticModel ElasticSpec.
Import ListNotations.
Local Open Scope R_scope.

Lemma Sum_flat_map {A B} (f : A -> list B) (g : B -> R) l : Sum (flat_map f l) g = Sum l (fun a => Sum (f a) g).
Proof. induction l as [|a l IH]; [reflexivity|]. cbn [flat_map]. rewrite Sum_app, Sum_cons, IH. reflexivity. Qed.
Lemma Sum_numbered (F : nat -> nat -> R) (js : list nat) : Sum (numbered js) (fun ig => F (fst ig) (snd ig)) = Rsum_to (List.length js) (fun i => F i (nth i js O)).
Proof.
  unfold numbered, Rsum_to.
  assert (G : forall s, Sum (combine (seq s (List.length js)) js) (fun ig => F (fst ig) (snd ig)) = Rsum (map (fun i => F (s + i)%nat (nth i js O)) (seq 0 (List.length js)))).
  { induction js as [|j js IH]; intros s; [reflexivity|]. cbn [List.length seq combine map]. rewrite Sum_cons. unfold Rsum at 1. cbn [fold_right fst snd nth]. rewrite Nat.add_0_r. f_equal.
    rewrite IH. rewrite <- seq_shift, map_map. unfold Rsum. f_equal. apply map_ext. intros i. cbn [nth]. f_equal. lia. }
  rewrite (G O). reflexivity.
Qed.
Lemma line_of_find (C : constraints RNum) j : line_of C j = option_map snd (find (fun e => Nat.eqb (fst e) j) C). Proof. reflexivity. Qed.
Lemma line_none n (C : constraints RNum) j : closed_ok n C -> line_of C j = None <-> ~ In j (map fst C).
Proof.
  intros _. unfold line_of. destruct (find (fun e : nat * list (nat * RNum) => Nat.eqb (fst e) j) C) as [e|] eqn:E; cbn [option_map].
  - split; [discriminate|]. intros X. exfalso. apply X. apply find_some in E. destruct E as [I Q]. apply Nat.eqb_eq in Q. subst j. now apply in_map.
  - split; [|reflexivity]. intros _. now apply find_none_fst.
Qed.
Lemma targets_nodal (C : constraints RNum) z j : Sum (targets (N := RNum) C j) (fun w => snd w * z (fst w)) = nodal C z j.
Proof.
  unfold targets, nodal, line_of. destruct (find (fun e : nat * list (nat * RNum) => Nat.eqb (fst e) j) C) as [e|]; cbn [option_map]; [reflexivity|].
  rewrite Sum_cons, Sum_nil. cbn [fst snd]. change (nofZ RNum 1 : R) with 1. ring.
Qed.
Lemma closed_targets n C : closed_ok n C -> targets_ok n C.
Proof. intros [_ H]. eapply Forall_impl; [|exact H]. intros e [_ H1]. eapply Forall_impl; [|exact H1]. intros w [L _]. exact L. Qed.
Lemma closed_nodal_ext n C (z z' : nat -> R) j : closed_ok n C -> (forall k, (k < n)%nat -> ~ In k (map fst C) -> z k = z' k) -> (j < n)%nat -> nodal C z j = nodal C z' j.
Proof.
  intros [_ H] Z L. unfold nodal. destruct (find _ C) as [e|] eqn:E.
  - apply find_some in E. destruct E as [I _]. apply (proj1 (Forall_forall _ _) H) in I. destruct I as [_ I].
    apply Sum_ext. intros w Iw. apply (proj1 (Forall_forall _ _) I) in Iw. destruct Iw as [L1 F1]. now rewrite Z.
  - apply Z; [exact L|]. now apply find_none_fst.
Qed.

(** ** The matrix *)
Definition entries_ok (n : nat) (A : matrix RNum) : Prop := Forall (fun e : nat * nat * R => (fst (fst e) < n)%nat) A.
Definition mvmultR (n : nat) (A : matrix RNum) (x : list R) : list R := mvmult (N := RNum) n A x.
Lemma mvmult_length n A x : List.length (mvmultR n A x) = n.
Proof.
  unfold mvmultR, mvmult. etransitivity; [exact (fold_vadd_length (fun e : nat * nat * R => fst (fst e)) (fun e => snd e * nth (snd (fst e)) x 0) A (repeat 0 n))|]. apply repeat_length.
Qed.
Lemma ip_mvmult z n A x : entries_ok n A -> ip z (mvmultR n A x) = Sum A (fun e => z (fst (fst e)) * (snd e * nth (snd (fst e)) x 0)).
Proof.
  intros H. unfold mvmultR, mvmult.
  etransitivity; [exact (ip_fold_vadd z (fun e : nat * nat * R => fst (fst e)) (fun e => snd e * nth (snd (fst e)) x 0) A (repeat 0 n) ltac:(rewrite repeat_length; exact H))|].
  etransitivity; [apply Rplus_eq_compat_r, ip_zero|]. apply Rplus_0_l.
Qed.
Definition local_entryR (c : ecell RNum) (i j : nat) : R := local_entry (N := RNum) c i j.
Lemma Sum_blocks (C : constraints RNum) (c : ecell RNum) (z x : nat -> R) :
  Sum (flat_map (fun ig => flat_map (fun jg => flat_map (fun wi => map (fun wj => (fst wi, fst wj, snd wi * local_entryR c (fst ig) (fst jg) * snd wj))
      (targets (N := RNum) C (snd jg))) (targets (N := RNum) C (snd ig))) (numbered (ec_dofs c))) (numbered (ec_dofs c))) (fun e : nat * nat * R => z (fst (fst e)) * (snd e * x (snd (fst e)))) =
  Rsum_to (List.length (ec_dofs c)) (fun i => Rsum_to (List.length (ec_dofs c)) (fun j => local C z c i * local_entryR c i j * local C x c j)).
Proof.
  rewrite Sum_flat_map. unfold local. rewrite <- (Sum_numbered (fun i gi => Rsum_to (List.length (ec_dofs c)) (fun j => nodal C z gi * local_entryR c i j * nodal C x (nth j (ec_dofs c) O))) (ec_dofs c)).
  apply Sum_ext. intros ig _. rewrite Sum_flat_map. rewrite <- (Sum_numbered (fun j gj => nodal C z (snd ig) * local_entryR c (fst ig) j * nodal C x gj) (ec_dofs c)).
  apply Sum_ext. intros jg _. rewrite Sum_flat_map. rewrite <- (targets_nodal C z), <- (targets_nodal C x).
  rewrite Rmult_assoc, <- Sum_mul. apply Sum_ext. intros wi _. rewrite Sum_map. rewrite <- !Sum_scal. apply Sum_ext. intros wj _. cbn [fst snd]. cbn [num RNum]. ring.
Qed.
(** Virtual displacements that vanish at the constrained degrees of freedom. *)
Definition masked (C : constraints RNum) (z : nat -> R) (j : nat) : R := if existsb (Nat.eqb j) (map fst C) then 0 else z j.
Lemma masked_free C z j : ~ In j (map fst C) -> masked C z j = z j.
Proof. intros H. unfold masked. destruct (existsb (Nat.eqb j) (map fst C)) eqn:E; [|reflexivity]. exfalso. apply H. apply existsb_exists in E. destruct E as (k & I & Q). apply Nat.eqb_eq in Q. now subst. Qed.
Lemma masked_in C z j : In j (map fst C) -> masked C z j = 0.
Proof. intros H. unfold masked. rewrite (proj2 (existsb_exists _ _)); [reflexivity|]. exists j. split; [exact H| apply Nat.eqb_refl]. Qed.
Definition distribute_matrixR (C : constraints RNum) (c : ecell RNum) : list (nat * nat * R) := distribute_matrix (N := RNum) C c.
Lemma Sum_distribute n d C c (z x : nat -> R) : closed_ok n C -> cell_ok d n c -> (forall j, In j (map fst C) -> z j = 0) ->
  Sum (distribute_matrixR C c) (fun e => z (fst (fst e)) * (snd e * x (snd (fst e)))) =
  work d (List.length (ec_dofs c)) (lame1 (ec_plast c)) (lame2 (ec_plast c)) (ec_comps c) (ec_quads c) (local C z c) (local C x c).
Proof.
  intros Cok [EL _] Z. unfold distribute_matrixR, distribute_matrix. rewrite Sum_app. etransitivity; [apply Rplus_eq_compat_r; exact (Sum_blocks C c z x)|].
  rewrite <- (bilinear d _ _ _ EL). match goal with |- ?a + ?b = _ => replace b with 0 end; [apply Rplus_0_r|].
  symmetry. rewrite Sum_flat_map. apply Sum_zero. intros ig _. destruct (line_of C (snd ig)) as [l|] eqn:E; [|reflexivity].
  rewrite Sum_cons, Sum_nil. cbn [fst snd]. rewrite Z; [lra|].
  destruct (in_dec Nat.eq_dec (snd ig) (map fst C)) as [I|I]; [exact I|]. apply (line_none n C (snd ig) Cok) in I. congruence.
Qed.
Lemma targets_bound n C j w : closed_ok n C -> (j < n)%nat -> In w (targets (N := RNum) C j) -> (fst w < n)%nat.
Proof.
  intros [_ H] L I. unfold targets, line_of in I. destruct (find (fun e : nat * list (nat * RNum) => Nat.eqb (fst e) j) C) as [e|] eqn:E; cbn [option_map] in I.
  - apply find_some in E. destruct E as [Ie _]. apply (proj1 (Forall_forall _ _) H) in Ie. destruct Ie as [_ Ie]. apply (proj1 (Forall_forall _ _) Ie) in I. tauto.
  - destruct I as [<-|[]]. exact L.
Qed.
Lemma distribute_entries n d C c : closed_ok n C -> cell_ok d n c -> entries_ok n (distribute_matrixR C c).
Proof.
  intros Cok [_ D]. rewrite Forall_forall in D.
  assert (ND : forall ig : nat * nat, In ig (numbered (ec_dofs c)) -> (snd ig < n)%nat) by (intros ig I; apply D; destruct ig; apply in_combine_r in I; exact I).
  apply Forall_forall. intros e I. unfold distribute_matrixR, distribute_matrix in I. apply in_app_or in I. destruct I as [I|I].
  - apply in_flat_map in I. destruct I as (ig & Ig & I). apply in_flat_map in I. destruct I as (jg & _ & I). apply in_flat_map in I. destruct I as (wi & Iw & I). apply in_map_iff in I.
    destruct I as (wj & <- & _). cbn [fst]. apply (targets_bound n C (snd ig)); auto.
  - apply in_flat_map in I. destruct I as (ig & Ig & I). destruct (line_of C (snd ig)); [|destruct I]. destruct I as [<-|[]]. cbn [fst]. auto.
Qed.
Lemma assembled_entries n d C cells : closed_ok n C -> Forall (cell_ok d n) cells -> entries_ok n (assemble_matrix (N := RNum) C cells).
Proof.
  intros Cok H. apply Forall_forall. intros e I. apply in_flat_map in I. destruct I as (c & Ic & I). apply filter_In in Ic. destruct Ic as [Ic _]. rewrite Forall_forall in H.
  exact (proj1 (Forall_forall _ _) (distribute_entries n d C c Cok (H c Ic)) e I).
Qed.
Lemma local_ext n d C c (z z' : nat -> R) i : closed_ok n C -> cell_ok d n c -> (forall k, (k < n)%nat -> ~ In k (map fst C) -> z k = z' k) -> (i < List.length (ec_dofs c))%nat -> local C z c i = local C z' c i.
Proof. intros Cok [_ D] E L. unfold local. apply (closed_nodal_ext n C z z' _ Cok E). rewrite Forall_forall in D. apply D, nth_In, L. Qed.
Lemma gradient_local_ext m comps q (u u' : nat -> R) a b : (forall i, (i < m)%nat -> u i = u' i) -> ElementSpec.gradient m comps q u a b = ElementSpec.gradient m comps q u' a b.
Proof. intros H. apply Rsum_to_ext. intros i L. now rewrite H. Qed.
Lemma work_ext d m (lambda mu : R) comps qs v v' u u' : (forall i, (i < m)%nat -> v i = v' i) -> (forall i, (i < m)%nat -> u i = u' i) -> work d m lambda mu comps qs v u = work d m lambda mu comps qs v' u'.
Proof.
  intros V U. unfold work. apply Rsum_ext. intros q _. unfold divergence, ElementSpec.strain.
  assert (GV : forall a b, ElementSpec.gradient m comps q v a b = ElementSpec.gradient m comps q v' a b) by (intros; now apply gradient_local_ext).
  assert (GU : forall a b, ElementSpec.gradient m comps q u a b = ElementSpec.gradient m comps q u' a b) by (intros; now apply gradient_local_ext).
  f_equal. f_equal; [f_equal; [f_equal|]|].
  - apply Rsum_to_ext; intros; apply GV.
  - apply Rsum_to_ext; intros; apply GU.
  - f_equal. apply Rsum_to_ext; intros a _. apply Rsum_to_ext; intros b _. now rewrite !GV, !GU.
Qed.
Lemma internal_as_work d C cells v u : internal_work d C cells v u = Sum (solid cells) (fun c =>
  work d (List.length (ec_dofs c)) (lame1 (ec_plast c)) (lame2 (ec_plast c)) (ec_comps c) (ec_quads c) (local C v c) (local C u c)).
Proof. reflexivity. Qed.
Lemma internal_ext n d C cells (v v' u u' : nat -> R) : closed_ok n C -> Forall (cell_ok d n) cells -> (forall k, (k < n)%nat -> ~ In k (map fst C) -> v k = v' k) ->
  (forall k, (k < n)%nat -> ~ In k (map fst C) -> u k = u' k) -> internal_work d C cells v u = internal_work d C cells v' u'.
Proof.
  intros Cok H V U. rewrite !internal_as_work. apply Sum_ext. intros c I. apply filter_In in I. destruct I as [I _]. rewrite Forall_forall in H. specialize (H c I).
  apply work_ext; intros i L; eapply local_ext; eauto.
Qed.
(** The matrix is the virtual work. *)
Lemma matrix_work n d C cells (v : nat -> R) (x : list R) : closed_ok n C -> Forall (cell_ok d n) cells ->
  ip (masked C v) (mvmultR n (assemble_matrix (N := RNum) C cells) x) = internal_work d C cells v (HeatSpec.entry x).
Proof.
  intros Cok H. rewrite (ip_mvmult _ n _ x) by (eapply assembled_entries; eauto). unfold assemble_matrix. etransitivity; [apply Sum_flat_map|].
  transitivity (internal_work d C cells (masked C v) (HeatSpec.entry x)); [|apply (internal_ext n d C cells); auto; intros k _ F; now apply masked_free].
  rewrite internal_as_work. apply Sum_ext. intros c I. apply filter_In in I. destruct I as [I _]. rewrite Forall_forall in H.
  exact (Sum_distribute n d C c (masked C v) (HeatSpec.entry x) Cok (H c I) (fun j J => masked_in C v j J)).
Qed.
