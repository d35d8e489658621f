(** ParallelProofs.v -- the distributed evaluation is the evaluation on one process. *)
From Coq Require Import Reals ZArith List Bool Lra Lia Permutation.
From Verif Require Import Base BaseFacts MaterialModel MaterialSpec InputModel HeatModel HeatSpec MaterialProofs HeatProofs HeatProofs2 HeatProofs3 HeatProofs4 RadiationProofs2 ElasticProofs ParallelModel ParallelSpec.
Import ListNotations.
Open Scope R_scope.

Lemma stores_known (s : share RNum) j : stores s j = true <-> known s j.
Proof.
  unfold stores, owns, known. rewrite orb_true_iff, !existsb_exists. split.
  - intros [(x & I & E)|(x & I & E)]; apply Nat.eqb_eq in E; subst x; auto.
  - intros [I|I]; [left|right]; exists j; (split; [exact I|apply Nat.eqb_refl]).
Qed.
Lemma entry_view (s : share RNum) (other y : list R) j : (j < List.length y)%nat -> known s j -> entry (local_view (N := RNum) s other y) j = entry y j.
Proof.
  intros L H. apply stores_known in H. unfold entry, local_view. set (g := fun j => if stores s j then vget (N := RNum) y j else vget (N := RNum) other j).
  change (nth j (map g (seq 0 (List.length y))) 0 = nth j y 0). rewrite (nth_indep _ 0 (g O)) by (rewrite map_length, seq_length; exact L).
  rewrite map_nth, seq_nth by exact L. unfold g. cbn [Nat.add]. rewrite H. reflexivity.
Qed.
Lemma read_view n C (s : share RNum) (other y : list R) c : targets_ok n C -> Forall (fun j => (j < n)%nat) (c_dofs c) -> List.length y = n -> workable C s c ->
  read_cell (N := RNum) C (local_view (N := RNum) s other y) c = read_cell (N := RNum) C y c.
Proof.
  intros T D L W. rewrite !read_cell_nodal. apply map_ext_in. intros k I. specialize (W k). unfold nodal, behind in *. unfold targets_ok in T.
  rewrite Forall_forall in T, D. destruct (find _ C) as [e|] eqn:E.
  - apply find_some in E. destruct E as [Ie _]. specialize (T e Ie). rewrite Forall_forall in T. apply Sum_ext. intros w Iw. f_equal. apply entry_view; [rewrite L; exact (T w Iw)|].
    apply W; [exact I|]. apply in_map. exact Iw.
  - apply entry_view; [rewrite L; exact (D k I)|]. apply W; auto.
Qed.
Lemma fold_ext_in {A B} (f g : A -> B -> A) l : forall a, (forall x b, In b l -> f x b = g x b) -> fold_left f l a = fold_left g l a.
Proof. induction l as [|b l IH]; intros a H; [reflexivity|]. cbn [fold_left]. rewrite H by apply in_eq. apply IH. intros; apply H. now apply in_cons. Qed.

(** What a process does not know it does not touch. *)
Lemma nodal_hat_zero C (s : share RNum) c k j : workable C s c -> In k (c_dofs c) -> ~ known s j -> nodal C (hat j) k = 0.
Proof.
  intros W I N. specialize (W k). unfold nodal, behind in *. destruct (find _ C) as [e|].
  - apply Sum_zero. intros w Iw. unfold hat. destruct (Nat.eqb_spec (fst w) j) as [E|]; [|ring]. exfalso. apply N. rewrite <- E. apply W; [exact I|]. now apply in_map.
  - unfold hat. destruct (Nat.eqb_spec k j) as [E|]; [|reflexivity]. exfalso. apply N. rewrite <- E. apply W; auto.
Qed.
Lemma field_untouched C (s : share RNum) c q j : workable C s c -> ~ known s j -> field C c q (hat j) = 0.
Proof.
  intros W N. unfold field. apply Sum_zero. intros [v k] I. cbn [fst snd]. apply in_combine_r in I. rewrite (nodal_hat_zero C s c k j W I N). ring.
Qed.
Lemma gradient_untouched C (s : share RNum) c q j : workable C s c -> ~ known s j -> gradient C c q (hat j) = mkpt (N := RNum) 0 0 0.
Proof.
  intros W N. unfold gradient. f_equal; apply Sum_zero; intros [v k] I; cbn [fst snd]; apply in_combine_r in I; rewrite (nodal_hat_zero C s c k j W I N); ring.
Qed.

Section Parallel.
  Variables (dim3 on ad : bool) (m : heat_mesh RNum) (K : laws RNum) (F : face_laws RNum) (y : list R) (ss : list (share RNum)).
  Hypothesis (Mok : mesh_ok m).
  Hypothesis (Dok : distributes m ss).
  Hypothesis (Ly : List.length y = m_n m).
  Local Notation n := (m_n m).
  Local Notation C := (m_C m).
  Definition cell_term (j : nat) (ic : nat * hcell RNum) : R := Sum (indexed (c_quads (snd ic))) (cell_point dim3 on C (K (fst ic)) (snd ic) y (hat j)).
  Definition face_term (j : nat) (jf : nat * hface RNum) : R :=
    if on_boundary (snd jf) then Sum (indexed (c_quads (active_side (snd jf)))) (face_point C (F (fst jf)) (hf_type (snd jf)) (active_side (snd jf)) y (hat j)) else 0.
  Definition mass_term (j : nat) (c : hcell RNum) : R := Sum (c_quads c) (fun q => h_jxw q * field C c q (hat j)).

  Lemma share_parts s : In s ss -> Forall (fun ic => workable C s (snd ic) /\ shape_ok n (snd ic)) (sh_cells s) /\
    Forall (fun jf => (on_boundary (snd jf) = true -> workable C s (active_side (snd jf))) /\ lens n (active_side (snd jf))) (sh_faces s) /\
    Forall (fun c => workable C s c /\ shape_ok n c) (sh_mass s).
  Proof.
    intros I. destruct Dok as (Pc & Pf & Pm & _ & W). rewrite Forall_forall in W. destruct (W s I) as (Wc & Wf & Wm). rewrite Forall_forall in Wc, Wf, Wm.
    split; [|split]; apply Forall_forall.
    - intros ic H. split; [exact (Wc ic H)|]. assert (J : In ic (indexed (m_cells m))). { apply (Permutation_in _ Pc). apply in_flat_map. eauto. }
      apply (proj1 (Forall_forall _ _) (m_cells_ok m Mok)). exact (in_indexed _ _ J).
    - intros jf H. split; [exact (Wf jf H)|]. assert (J : In jf (indexed (m_faces m))). { apply (Permutation_in _ Pf). apply in_flat_map. eauto. }
      apply (proj1 (Forall_forall _ _) (m_faces_lens m Mok)). exact (in_indexed _ _ J).
    - intros c H. split; [exact (Wm c H)|]. assert (J : In c (m_mass m)). { apply (Permutation_in _ Pm). apply in_flat_map. eauto. }
      exact (proj1 (Forall_forall _ _) (m_mass_ok m Mok) c J).
  Qed.
  Lemma targetsn : targets_ok n C. Proof. apply constraints_targets. exact (m_C_ok m Mok). Qed.

  (** One process. *)
  Lemma rank_length other s : List.length (rank_loop (N := RNum) dim3 on ad n C K F other y s : list R) = n.
  Proof.
    unfold rank_loop. cbv zeta. assert (A : List.length (fold_left (local_applyR dim3 on C K (local_view (N := RNum) s (other s) y)) (sh_cells s) (repeat 0 n)) = n).
    { rewrite loop_length; [apply repeat_length|]. intros; apply local_apply_length. }
    destruct ad; [exact A|]. etransitivity; [|exact A]. apply (loop_length (face_applyR C F (local_view (N := RNum) s (other s) y))). intros; apply face_apply_length.
  Qed.
  Lemma rank_entry other s j : In s ss -> entry (rank_loop (N := RNum) dim3 on ad n C K F other y s) j =
    Sum (sh_cells s) (cell_term j) - (if ad then 0 else Sum (sh_faces s) (face_term j)).
  Proof.
    intros I. destruct (share_parts s I) as (Hc & Hf & _). rewrite Forall_forall in Hc, Hf. unfold rank_loop. cbv zeta.
    set (src := local_view (N := RNum) s (other s) y).
    assert (EC : fold_left (local_apply (N := RNum) dim3 on C K src) (sh_cells s) (repeat 0 n) = fold_left (local_applyR dim3 on C K y) (sh_cells s) (repeat 0 n)).
    { apply fold_ext_in. intros d ic J. destruct (Hc ic J) as [W Sh]. unfold local_applyR, local_apply. unfold src. rewrite (read_view n) by (auto using targetsn; exact (proj1 Sh)). reflexivity. }
    assert (LC : List.length (fold_left (local_applyR dim3 on C K y) (sh_cells s) (repeat 0 n)) = n).
    { rewrite loop_length; [apply repeat_length|]. intros; apply local_apply_length. }
    assert (IC : ip (hat j) (fold_left (local_applyR dim3 on C K y) (sh_cells s) (repeat 0 n)) = Sum (sh_cells s) (cell_term j)).
    { rewrite (ip_loop (local_applyR dim3 on C K y) (cell_term j) (fun ic => lens n (snd ic)) (hat j) n).
      - rewrite ip_zero. ring.
      - intros; apply local_apply_length.
      - intros; apply ip_local_apply with (n := n); auto using targetsn.
      - apply repeat_length.
      - intros ic J. apply shape_lens. apply (Hc ic J). }
    assert (EF : forall d, fold_left (face_apply (N := RNum) C F src) (sh_faces s) d = fold_left (face_applyR C F y) (sh_faces s) d).
    { intros d0. apply fold_ext_in. intros d jf J. destruct (Hf jf J) as [W Ls]. unfold face_applyR, face_apply. destruct (face_done (snd jf)) eqn:E; [reflexivity|].
      rewrite face_done_boundary in E. apply negb_false_iff in E. unfold src. cbv zeta. change (hf_cell (snd jf)) with (active_side (snd jf)).
      rewrite (read_view n) by (auto using targetsn; exact (proj1 Ls)). reflexivity. }
    unfold entry. destruct ad.
    - etransitivity; [exact (f_equal (fun v => nth j v 0) EC)|]. rewrite <- ip_hat, IC. ring.
    - etransitivity; [exact (f_equal (fun v => nth j v 0) (eq_trans (EF _) (f_equal (fold_left (face_applyR C F y) (sh_faces s)) EC)))|].
      rewrite <- ip_hat. rewrite (ip_loop (face_applyR C F y) (fun jf => - face_term j jf) (fun jf => lens n (active_side (snd jf))) (hat j) n).
      + rewrite IC. unfold Rminus. f_equal. rewrite (Sum_ext _ (fun a => -1 * face_term j a)) by (intros; ring). rewrite Sum_scal. ring.
      + intros; apply face_apply_length.
      + intros; apply ip_face_apply with (n := n); auto using targetsn.
      + exact LC.
      + intros jf J. apply (Hf jf J).
  Qed.
  Lemma rank_untouched other s j : In s ss -> ~ known s j -> entry (rank_loop (N := RNum) dim3 on ad n C K F other y s) j = 0.
  Proof.
    intros I NK. rewrite rank_entry by exact I. destruct (share_parts s I) as (Hc & Hf & _). rewrite Forall_forall in Hc, Hf.
    rewrite (Sum_zero (cell_term j)). 2: { intros ic J. destruct (Hc ic J) as [W _]. apply Sum_zero. intros iq _. unfold cell_point.
      rewrite (field_untouched C s _ _ j W NK), (gradient_untouched C s _ _ j W NK), dot_zero_r. ring. }
    destruct ad; [ring|]. rewrite (Sum_zero (face_term j)); [ring|]. intros jf J. destruct (Hf jf J) as [W _]. unfold face_term.
    destruct (on_boundary (snd jf)) eqn:E; [|reflexivity]. apply Sum_zero. intros iq _. unfold face_point. rewrite (field_untouched C s _ _ j (W eq_refl) NK). ring.
  Qed.
  Lemma rank_mass_entry other s j : In s ss -> entry (rank_mass (N := RNum) n C other s) j = Sum (sh_mass s) (mass_term j).
  Proof.
    intros I. destruct (share_parts s I) as (_ & _ & Hm). rewrite Forall_forall in Hm. unfold rank_mass. change (nofZ RNum 0) with 0. change (nofZ RNum 1) with 1.
    rewrite (fold_ext_in _ (local_massR C (repeat 1 n))).
    2: { intros d c J. destruct (Hm c J) as [W Sh]. unfold local_massR, local_mass. rewrite (read_view n) by (auto using targetsn, repeat_length; exact (proj1 Sh)). reflexivity. }
    unfold entry. rewrite <- ip_hat. rewrite (ip_loop (local_massR C (repeat 1 n)) (mass_term j) (shape_ok n) (hat j) n).
    - rewrite ip_zero. ring.
    - intros; apply local_mass_length.
    - intros; apply ip_local_mass with (n := n); auto. exact (m_C_ok m Mok).
    - apply repeat_length.
    - intros c J. apply (Hm c J).
  Qed.
  Lemma rank_mass_untouched other s j : In s ss -> ~ known s j -> entry (rank_mass (N := RNum) n C other s) j = 0.
  Proof.
    intros I NK. rewrite rank_mass_entry by exact I. destruct (share_parts s I) as (_ & _ & Hm). rewrite Forall_forall in Hm.
    apply Sum_zero. intros c J. destruct (Hm c J) as [W _]. apply Sum_zero. intros q _. rewrite (field_untouched C s _ _ j W NK). ring.
  Qed.

  (** All processes. *)
  Lemma compress_entry (f : share RNum -> list R) j : (j < n)%nat -> (forall s, In s ss -> ~ known s j -> entry (f s) j = 0) ->
    entry (compress (N := RNum) n (map (fun s => (s, f s)) ss)) j = Sum ss (fun s => entry (f s) j).
  Proof.
    intros L U. unfold entry at 1, compress.
    set (g := fun j => fold_left (fun (t : R) (p : share RNum * list R) => if stores (fst p) j then t + vget (N := RNum) (snd p) j else t) (map (fun s => (s, f s)) ss) 0).
    change (nth j (map g (seq 0 n)) 0 = Sum ss (fun s => entry (f s) j)). rewrite (nth_indep _ 0 (g O)) by (rewrite map_length, seq_length; exact L).
    rewrite map_nth, seq_nth by exact L. cbn [Nat.add]. unfold g.
    enough (G : forall l t, (forall s, In s l -> In s ss) -> fold_left (fun (t : R) (p : share RNum * list R) => if stores (fst p) j then t + vget (N := RNum) (snd p) j else t) (map (fun s => (s, f s)) l) t = t + Sum l (fun s => entry (f s) j))
      by (etransitivity; [exact (G ss 0 (fun s H => H))|ring]).
    induction l as [|s l IH]; intros t H; [rewrite Sum_nil; cbn; ring|]. cbn [map fold_left fst snd]. rewrite IH by (intros; apply H; now apply in_cons). rewrite Sum_cons.
    destruct (stores s j) eqn:E; [change (vget (N := RNum) (f s) j) with (entry (f s) j); ring|].
    rewrite (U s) by (try (apply H, in_eq); intros A; apply stores_known in A; congruence). ring.
  Qed.
  Lemma fold_fold {A B D} (f : D -> B -> D) (g : A -> list B) l : forall d, fold_left (fun v s => fold_left f (g s) v) l d = fold_left f (flat_map g l) d.
  Proof. induction l as [|a l IH]; intros d; [reflexivity|]. cbn [fold_left flat_map]. rewrite fold_left_app. apply IH. Qed.
  Lemma owners j : (j < n)%nat -> Sum ss (fun s => if owns s j then 1 else 0) = 1.
  Proof.
    intros L. destruct Dok as (_ & _ & _ & Po & _). assert (ND : NoDup (flat_map sh_owned ss)) by (apply (Permutation_NoDup (Permutation_sym Po)), seq_NoDup).
    assert (I : In j (flat_map sh_owned ss)) by (apply (Permutation_in _ (Permutation_sym Po)), in_seq; lia). clear Po. revert ND I. generalize ss. clear -L.
    intros l0. induction l0 as [|s l IH]; intros ND I; [contradiction|]. cbn [flat_map] in ND, I. rewrite Sum_cons. apply in_app_iff in I.
    assert (Z : forall l', ~ In j (flat_map sh_owned l') -> Sum l' (fun s : share RNum => if owns s j then 1 else 0) = 0).
    { intros l' H. apply Sum_zero. intros a Ia. destruct (owns a j) eqn:E; [|reflexivity]. exfalso. apply H. apply in_flat_map. exists a. split; [exact Ia|].
      unfold owns in E. apply existsb_exists in E. destruct E as (x & Ix & Ex). apply Nat.eqb_eq in Ex. now subst x. }
    destruct (owns s j) eqn:E.
    - rewrite Z; [ring|]. unfold owns in E. apply existsb_exists in E. destruct E as (x & Ix & Ex). apply Nat.eqb_eq in Ex. subst x.
      intros J. clear -ND Ix J. induction (sh_owned s) as [|a o IH]; [contradiction|]. cbn [app] in ND. inversion ND as [|? ? Na ND']; subst. destruct Ix as [->|Ix]; [|exact (IH ND' Ix)].
      apply Na. apply in_app_iff. now right.
    - destruct I as [I|I].
      + exfalso. assert (owns s j = true); [|congruence]. unfold owns. apply existsb_exists. exists j. split; [exact I|apply Nat.eqb_refl].
      + rewrite IH; [ring| |exact I]. clear -ND. induction (sh_owned s) as [|a o IH]; [exact ND|]. cbn [app] in ND. inversion ND; subst. auto.
  Qed.
  Lemma constrained_entry (g : nat -> R) (v : list R) j : List.length v = n ->
    nth j (fold_left (fun v s => fold_left (fun v k => vaddR v k (g k)) (owned_constrained (N := RNum) C s) v) ss v) 0 = nth j v 0 + (if in_dec Nat.eq_dec j (map fst C) then g j else 0).
  Proof.
    intros L. rewrite <- (nth_fold_vadd m Mok g v j L). rewrite (fold_fold (fun v k => vaddR v k (g k)) (owned_constrained (N := RNum) C)). rewrite <- !ip_hat.
    rewrite (ip_fold_vadd (hat j) (fun k => k) g (map fst C) v) by (rewrite L; exact (constrained_lt m Mok)).
    rewrite (ip_fold_vadd (hat j) (fun k => k) g (flat_map (owned_constrained (N := RNum) C) ss) v).
    2: { apply Forall_forall. intros k I. apply in_flat_map in I. destruct I as (s & _ & I). apply filter_In in I. rewrite L. apply (proj1 (Forall_forall _ _) (constrained_lt m Mok)). apply I. }
    f_equal. rewrite Sum_flat_map. unfold owned_constrained.
    rewrite (Sum_ext _ (fun s => Sum (map fst C) (fun k => if owns s k then hat j k * g k else 0))) by (intros s _; apply RadiationProofs2.Sum_filter).
    rewrite Sum_swap. apply Sum_ext. intros k I.
    rewrite (Sum_ext _ (fun s => (hat j k * g k) * (if owns s k then 1 else 0))) by (intros s _; destruct (owns s k); ring). rewrite Sum_scal, owners; [ring|].
    apply (proj1 (Forall_forall _ _) (constrained_lt m Mok)). exact I.
  Qed.
  Lemma compress_length parts : List.length (compress (N := RNum) n parts) = n. Proof. unfold compress. rewrite map_length. apply seq_length. Qed.
  Lemma shares_length (g : nat -> R) l (v : list R) : List.length (fold_left (fun v s => fold_left (fun v k => vaddR v k (g k)) (owned_constrained (N := RNum) C s) v) l v) = List.length v.
  Proof. rewrite (fold_fold (fun v k => vaddR v k (g k)) (owned_constrained (N := RNum) C)). apply (fold_vadd_length (fun k => k) g). Qed.
  Lemma parallel_nth other other' j : (j < n)%nat -> entry (parallel_evaluate (N := RNum) dim3 on ad n C K F other other' ss y) j = entry (rate dim3 on ad m K F y) j.
  Proof.
    intros L. rewrite (evaluate_nth dim3 on ad m K F y Mok j L). unfold entry at 1, parallel_evaluate, parallel_vmult, parallel_inverse_mass, parallel_mass.
    set (V := compress (N := RNum) n (map (fun s => (s, rank_loop (N := RNum) dim3 on ad n C K F other y s)) ss)). set (M := compress (N := RNum) n (map (fun s => (s, rank_mass (N := RNum) n C other' s)) ss)).
    etransitivity; [apply (nth_scale m (fold_left (fun v s => fold_left (fun v k => vaddR v k (1 * entry y k)) (owned_constrained (N := RNum) C s) v) ss V) (map (fun x : R => 1 / x) (fold_left (fun v s => fold_left (fun v k => vaddR v k 1) (owned_constrained (N := RNum) C s) v) ss M)) j)|].
    - rewrite (shares_length (fun k => 1 * entry y k)). apply compress_length.
    - rewrite map_length, (shares_length (fun k => 1)). apply compress_length.
    - rewrite (constrained_entry (fun k => 1 * entry y k) V j (compress_length _)). rewrite nth_inverse by (rewrite (shares_length (fun k => 1)); unfold M; rewrite compress_length; exact L).
      rewrite (constrained_entry (fun _ => 1) M j (compress_length _)).
      assert (EV : nth j V 0 = weak dim3 on ad m K F y (hat j)).
      { unfold V. etransitivity; [apply (compress_entry (rank_loop (N := RNum) dim3 on ad n C K F other y) j L); intros; now apply rank_untouched|].
        rewrite (Sum_ext _ (fun s => Sum (sh_cells s) (cell_term j) - (if ad then 0 else Sum (sh_faces s) (face_term j)))) by (intros; now apply rank_entry).
        destruct Dok as (Pc & Pf & _). unfold weak.
        assert (A : cells_tested dim3 on C (m_cells m) K y (hat j) = Sum ss (fun s => Sum (sh_cells s) (cell_term j))).
        { rewrite <- Sum_flat_map, (Sum_perm (cell_term j) _ _ Pc). reflexivity. }
        assert (B : faces_tested C (m_faces m) F y (hat j) = Sum ss (fun s => Sum (sh_faces s) (face_term j))).
        { rewrite <- Sum_flat_map, (Sum_perm (face_term j) _ _ Pf). reflexivity. }
        rewrite A, B. destruct ad; [rewrite Rminus_0_r; apply Sum_ext; intros; ring|]. unfold Rminus. rewrite Sum_plus. f_equal.
        rewrite (Sum_ext _ (fun s => -1 * Sum (sh_faces s) (face_term j))) by (intros; ring). rewrite Sum_scal. ring. }
      assert (EM : nth j M 0 = nodal_mass m j).
      { unfold M. etransitivity; [apply (compress_entry (rank_mass (N := RNum) n C other') j L); intros; now apply rank_mass_untouched|].
        rewrite (Sum_ext _ (fun s => Sum (sh_mass s) (mass_term j))) by (intros; now apply rank_mass_entry).
        destruct Dok as (_ & _ & Pm & _). rewrite <- Sum_flat_map, (Sum_perm (mass_term j) _ _ Pm). reflexivity. }
      unfold entry. etransitivity; [exact (f_equal2 Rmult (f_equal2 Rplus EV eq_refl) (f_equal (fun x => 1 / x) (f_equal2 Rplus EM eq_refl)))|]. unfold Rdiv. ring.
  Qed.
  Lemma parallel_length other other' : List.length (parallel_evaluate (N := RNum) dim3 on ad n C K F other other' ss y : list R) = n.
  Proof.
    unfold parallel_evaluate, scale. rewrite map_length, combine_length. unfold parallel_vmult, parallel_inverse_mass, parallel_mass. rewrite map_length.
    etransitivity; [apply (f_equal2 Nat.min (shares_length (fun k => 1 * entry y k) ss _) (shares_length (fun _ => 1) ss _))|]. rewrite !compress_length. apply Nat.min_id.
  Qed.
  Theorem parallel_same other other' : parallel_evaluate (N := RNum) dim3 on ad n C K F other other' ss y = evaluate (N := RNum) dim3 on ad m K F y.
  Proof.
    apply (nth_ext _ _ 0 0); [etransitivity; [apply parallel_length|symmetry; exact (rate_length dim3 on ad m K F y)]|].
    intros j L. pose proof (parallel_length other other') as E. apply parallel_nth. eapply Nat.lt_le_trans; [exact L|]. apply Nat.eq_le_incl. exact E.
  Qed.
End Parallel.
