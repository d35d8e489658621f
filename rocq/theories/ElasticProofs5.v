(** ElasticProofs5.v -- no load, small systems, clamped faces. *)
From Coq Require Import Reals ZArith Bool List Lia Lra.
From Verif Require Import Base BaseFacts CellModel InputModel AssimilationSpec AssimilationProofs AssimilationProofs3 MechProofs StressModel StressSpec StressProofs ElementModel ElementSpec ElementProofs ElementProofs2
  HeatModel HeatSpec HeatProofs HeatProofs2 ElasticModel ElasticSpec ElasticProofs ElasticProofs2 ElasticProofs3 ElasticProofs4.
Import ListNotations.
Local Open Scope R_scope.

(** ** The first check of the solver *)
Lemma mvmult_zero n A : entries_ok n A -> forall z, ip z (mvmultR n A (repeat 0 n)) = 0.
Proof.
  intros H z. rewrite (ip_mvmult z n A _ H). apply Sum_zero. intros e _. rewrite nth_repeat. ring.
Qed.
Lemma residual_zero n A (b : list R) : entries_ok n A -> List.length b = n -> residualR n A b (repeat 0 n) = b.
Proof.
  intros H L. apply nth_ext with (d := 0) (d' := 0); [rewrite (residual_length n A b _ L); now rewrite L|]. intros j _. rewrite <- !ip_hat. rewrite (ip_residual _ n A b _ L), (mvmult_zero n A H). apply Rminus_0_r.
Qed.
Lemma displacement_step n C A (b : list R) iterate : entries_ok n A -> List.length b = n ->
  displacementR n C A b iterate = if Rleb (l2R b) (accuracy * l2R b) then Ok (distributeR C (repeat 0 n)) else
    match max_iter n with O => Throw | S k => bind (cgR n A b (accuracy * l2R b) iterate k 1 (iterate O)) (fun x => Ok (distributeR C x)) end.
Proof.
  intros H L. unfold displacementR, displacement. rewrite (tolerance_R b).
  match goal with |- bind ?e _ = _ => change e with (cgR n A b (accuracy * l2R b) iterate (max_iter n) 0 (repeat 0 n)) end.
  assert (X : forall left, cgR n A b (accuracy * l2R b) iterate left 0 (repeat 0 n) = if Rleb (l2R b) (accuracy * l2R b) then Ok (repeat 0 n) else match left with O => Throw | S k => cgR n A b (accuracy * l2R b) iterate k 1 (iterate O) end).
  { intros left. destruct left; unfold cgR; cbn [cg]; match goal with |- (if ?c then _ else _) = _ => change c with (Rleb (l2R (residualR n A b (repeat 0 n))) (accuracy * l2R b)) end; rewrite (residual_zero n A b H L); reflexivity. }
  rewrite X. destruct (Rleb _ _); [reflexivity|]. destruct (max_iter n); reflexivity.
Qed.
Lemma accuracy_small : 0 < accuracy < 1.
Proof. unfold accuracy. split; [apply Rinv_0_lt_compat; lra|]. rewrite <- Rinv_1. apply Rinv_lt_contravar; lra. Qed.
Lemma no_load n C A (b : list R) iterate : entries_ok n A -> List.length b = n -> l2R b = 0 -> displacementR n C A b iterate = Ok (repeat 0 n).
Proof.
  intros H L Z. rewrite displacement_step by auto. rewrite Z. replace (Rleb 0 (accuracy * 0)) with true by (symmetry; apply Rleb_true; lra). f_equal.
  apply nth_ext with (d := 0) (d' := 0); [now rewrite distribute_length|]. intros j Lj. rewrite distribute_length in Lj. etransitivity; [exact (distribute_entry C (repeat 0 n) j Lj)|]. rewrite nth_repeat.
  rewrite <- targets_nodal. apply Sum_zero. intros w _. unfold HeatSpec.entry. rewrite nth_repeat. ring.
Qed.
Lemma small_system n C A (b : list R) iterate : entries_ok n A -> List.length b = n -> (n < 10)%nat -> 0 < l2R b -> displacementR n C A b iterate = Throw.
Proof.
  intros H L S P. rewrite displacement_step by auto. destruct accuracy_small as [A0 A1]. replace (Rleb (l2R b) (accuracy * l2R b)) with false by (symmetry; apply Rleb_false; nra).
  unfold max_iter. rewrite Nat.div_small by exact S. reflexivity.
Qed.
Lemma load_size_rhs n W (b : list R) : List.length b = n -> (forall z, ip z b = W z) -> l2R b = load_size n W.
Proof.
  intros L Wb. rewrite l2_size, L. unfold load_size, size. f_equal. apply Sum_ext. intros j _. rewrite <- !Wb, !ip_hat. reflexivity.
Qed.

(** ** Constraints *)
Lemma clamp_in (C : constraints RNum) j k : In k (map fst (clamp (N := RNum) C j)) <-> In k (map fst C) \/ k = j.
Proof.
  unfold clamp. destruct (line_of C j) as [l|] eqn:E.
  - split; [auto|]. intros [H|H]; [exact H|]. subst. unfold line_of in E. destruct (find _ C) as [e|] eqn:F; [|discriminate]. apply find_some in F. destruct F as [I Q]. apply Nat.eqb_eq in Q. subst. now apply in_map.
  - rewrite map_app, in_app_iff. cbn. intuition.
Qed.
Lemma line_app (C D : constraints RNum) j : line_of (C ++ D) j = match line_of C j with Some l => Some l | None => line_of D j end.
Proof. unfold line_of. induction C as [|e C IH]; [reflexivity|]. cbn [app find]. destruct (Nat.eqb (fst e) j); [reflexivity| exact IH]. Qed.
Lemma line_in (C : constraints RNum) j : line_of C j = None <-> ~ In j (map fst C).
Proof.
  unfold line_of. split.
  - intros H I. apply in_map_iff in I. destruct I as (e & <- & I). destruct (find _ C) as [e'|] eqn:F; [discriminate|]. pose proof (find_none _ _ F e I) as Q. cbn in Q. rewrite Nat.eqb_refl in Q. discriminate.
  - intros H. destruct (find _ C) as [e'|] eqn:F; [|reflexivity]. exfalso. apply find_some in F. destruct F as [I Q]. apply Nat.eqb_eq in Q. apply H. rewrite <- Q. now apply in_map.
Qed.
Lemma clamps_spec (js : list nat) : forall C : constraints RNum, NoDup (map fst C) -> let D := fold_left (clamp (N := RNum)) js C in
  NoDup (map fst D) /\ (forall k, In k (map fst D) <-> In k (map fst C) \/ In k js) /\ (forall e, In e D -> In e C \/ (In (fst e) js /\ snd e = [])) /\
  (forall j, line_of D j = match line_of C j with Some l => Some l | None => if existsb (Nat.eqb j) js then Some [] else None end).
Proof.
  induction js as [|j js IH]; intros C ND D.
  - cbn in D. subst D. repeat split; auto; try (intros [H|[]]; exact H). intros j. destruct (line_of C j); reflexivity.
  - cbn [fold_left] in D. assert (ND' : NoDup (map fst (clamp (N := RNum) C j))).
    { unfold clamp. destruct (line_of C j) as [l|] eqn:E; [exact ND|]. apply line_in in E. rewrite map_app. cbn. apply NoDup_Add with (a := j) (l := map fst C); [rewrite <- (app_nil_r (map fst C)) at 1; apply Add_app|]. split; assumption. }
    destruct (IH _ ND') as (A & B & E & F). fold D in A, B, E, F. repeat split.
    + exact A.
    + rewrite B, clamp_in. cbn. intuition.
    + intros H. apply B. rewrite clamp_in. cbn in H. intuition.
    + intros e I. destruct (E e I) as [H|[H1 H2]]; [|right; cbn; auto]. unfold clamp in H. destruct (line_of C j); [auto|]. apply in_app_or in H. destruct H as [H|[<-|[]]]; [auto|]. right. cbn. auto.
    + intros k. rewrite F. unfold clamp. destruct (line_of C j) as [l|] eqn:G.
      * destruct (line_of C k) eqn:K; [reflexivity|]. cbn [existsb]. destruct (Nat.eqb_spec k j) as [->|NE]; [congruence| reflexivity].
      * rewrite line_app. destruct (line_of C k) eqn:K; [reflexivity|]. cbn [existsb]. unfold line_of. cbn [find fst]. rewrite (Nat.eqb_sym j k). destruct (Nat.eqb k j); reflexivity.
Qed.
Lemma clamped_spec types faces k : In k (clamped_dofs types faces) <-> on_clamped types faces k.
Proof.
  unfold clamped_dofs, on_clamped. rewrite in_flat_map. split.
  - intros (f & I & K). apply filter_In in I. destruct I as [I F]. unfold clamped_face in F. apply andb_true_iff in F. destruct F as [A B]. exists f. repeat split; auto. apply existsb_exists in B. destruct B as (x & X & Q). apply Nat.eqb_eq in Q. now subst.
  - intros (f & I & A & B & K). exists f. split; [|exact K]. apply filter_In. split; [exact I|]. unfold clamped_face. rewrite A. cbn [andb]. apply existsb_exists. exists (bf_id f). split; [exact B| apply Nat.eqb_refl].
Qed.
Lemma line_map (g : nat * R -> list (nat * R)) (E : constraints RNum) j : line_of (map (fun e : nat * list (nat * R) => (fst e, flat_map g (snd e))) E : constraints RNum) j = option_map (flat_map g) (line_of E j).
Proof. unfold line_of. induction E as [|[k l] E IH]; [reflexivity|]. cbn [map find fst snd]. destruct (Nat.eqb k j); [reflexivity| exact IH]. Qed.
(** The constraints of the mechanical problem. *)
Section Closed.
  Variables (n : nat) (hanging : constraints RNum) (types : list BinNums.N) (faces : list bface).
  Hypothesis HO : closed_ok n hanging.
  Hypothesis FO : Forall (fun f => Forall (fun j => (j < n)%nat) (bf_dofs f)) faces.
  Local Notation js := (clamped_dofs types faces).
  Local Notation D := (fold_left (clamp (N := RNum)) js hanging).
  Lemma js_bound k : In k js -> (k < n)%nat.
  Proof. unfold clamped_dofs. rewrite in_flat_map. intros (f & I & K). apply filter_In in I. destruct I as [I _]. rewrite Forall_forall in FO. specialize (FO f I). rewrite Forall_forall in FO. auto. Qed.
  Lemma close_fst : map fst (close (N := RNum) D) = map fst D.
  Proof. unfold close. rewrite map_map. reflexivity. Qed.
  Lemma closed_result : closed_ok n (close (N := RNum) D).
  Proof.
    destruct HO as [ND T]. destruct (clamps_spec js hanging ND) as (A & B & E & F).  rewrite Forall_forall in T. split; rewrite close_fst; [exact A|].
    apply Forall_forall. intros e I. apply in_map_iff in I. destruct I as (e0 & <- & I). cbn [fst snd]. split.
    - destruct (E e0 I) as [H|[H _]]; [destruct (T e0 H); auto| now apply js_bound].
    - apply Forall_forall. intros w W. apply in_flat_map in W. destruct W as (w0 & I0 & W). destruct (line_of D (fst w0)) as [l|] eqn:G.
      + exfalso. destruct (E e0 I) as [H|[_ H]]; [|rewrite H in I0; destruct I0].
        destruct (T e0 H) as [_ T0]. rewrite Forall_forall in T0. destruct (T0 w0 I0) as [_ NH]. apply line_in in NH. rewrite F, NH in G. destruct (existsb _ js); [|discriminate]. injection G as <-. destruct W.
      + destruct W as [<-|[]]. destruct (E e0 I) as [H|[_ H]]; [|rewrite H in I0; destruct I0]. destruct (T e0 H) as [_ T0]. rewrite Forall_forall in T0. destruct (T0 w0 I0) as [Lw _]. split; [exact Lw|]. now apply line_in.
  Qed.
  Lemma closed_keys k : In k (map fst (close (N := RNum) D)) <-> In k (map fst hanging) \/ In k js.
  Proof. rewrite close_fst. destruct HO as [ND _]. destruct (clamps_spec js hanging ND) as (_ & B & _). apply B. Qed.
  Lemma closed_line j : line_of (close (N := RNum) D) j = option_map (flat_map (fun w : nat * R => match line_of D (fst w) with None => [w] | Some l => map (fun v : nat * R => (fst v, snd w * snd v)) l end)) (line_of D j).
  Proof.
    exact (line_map (fun w : nat * R => match line_of D (fst w) with None => [w] | Some l => map (fun v : nat * R => (fst v, snd w * snd v)) l end) D j).
  Qed.
  Lemma closed_nodal z j : nodal (close (N := RNum) D) z j = nodal hanging (fun k => if existsb (Nat.eqb k) js then 0 else z k) j.
  Proof.
    destruct HO as [ND T]. destruct (clamps_spec js hanging ND) as (A & B & E & F).  rewrite Forall_forall in T.
    rewrite <- !targets_nodal. unfold targets. rewrite closed_line, F. destruct (line_of hanging j) as [l|] eqn:G; cbn [option_map].
    - rewrite Sum_flat_map. apply Sum_ext. intros w Iw.
      assert (NH : line_of hanging (fst w) = None).
      { unfold line_of in G. destruct (find _ hanging) as [e|] eqn:Q; [|discriminate]. injection G as <-. apply find_some in Q. destruct Q as [Ie _]. destruct (T e Ie) as [_ T0]. rewrite Forall_forall in T0. apply line_in. apply T0. exact Iw. }
      cbn [num RNum] in *. rewrite F, NH. destruct (existsb _ js); [cbn [map]; rewrite Sum_nil; ring|]. rewrite Sum_cons, Sum_nil. ring.
    - destruct (existsb (Nat.eqb j) js) eqn:Q; cbn [flat_map].
      + rewrite Sum_cons. cbn [fst snd]. rewrite Q. cbn [Sum sumR map fold_right]. unfold Sum. cbn. ring.
      + rewrite !Sum_cons, !Sum_nil. cbn [fst snd]. rewrite Q. reflexivity.
  Qed.
End Closed.
