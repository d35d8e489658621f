(** ConvergenceProofs3.v -- linear systems: existence by power series, uniqueness; the heat equation. *)
From Coq Require Import Reals List Bool Lra Lia.
From Coquelicot Require Import Coquelicot.
From Verif Require Import Base BaseFacts ScanPathModel HeatSourceModel MaterialModel InputModel HeatModel HeatSpec HeatProofs HeatProofs2 HeatProofs3 HeatProofs4 HeatProofs5 SuperpositionSpec SuperpositionProofs ConvergenceSpec ConvergenceProofs ConvergenceProofs2.
Import ListNotations.
Local Open Scope R_scope.

(** ** Power series *)
Lemma one_term x k : 0 <= x -> x ^ k / INR (fact k) <= exp x.
Proof.
  intros P. pose proof (partial_exp k x P) as H. assert (Q : forall i, 0 <= x ^ i / INR (fact i)) by (intros i; unfold Rdiv; apply Rmult_le_pos; [apply pow_le; exact P|left; apply Rinv_0_lt_compat, INR_fact_lt_0]).
  destruct k as [|k]; [cbn [pow fact INR]; unfold Sum, sumR in H; cbn in H; lra|].
  assert (x ^ S k / INR (fact (S k)) <= Sum (seq 0 (S k)) (fun k => x ^ S k / INR (fact (S k)))) by (apply (Sum_member (seq 0 (S k)) (fun k => x ^ S k / INR (fact (S k))) k); [apply in_seq; lia|intros; apply Q]). lra.
Qed.
Lemma bounded_radius (a : nat -> R) B L : 0 <= L -> (forall k, Rabs (a k) <= B * L ^ k / INR (fact k)) -> CV_radius a = p_infty.
Proof.
  intros HL H. assert (B0 : 0 <= B) by (specialize (H O); cbn in H; pose proof (Rabs_pos (a O)); lra).
  destruct (CV_radius_bounded a) as [Up _]. assert (X : forall r : R, Rbar_le r (CV_radius a)).
  { intros r. apply Up. exists (B * exp (L * Rabs r)). intros k. rewrite Rabs_mult, <- RPow_abs. apply Rle_trans with (B * L ^ k / INR (fact k) * Rabs r ^ k).
    - apply Rmult_le_compat_r; [apply pow_le, Rabs_pos|apply H].
    - replace (B * L ^ k / INR (fact k) * Rabs r ^ k) with (B * ((L * Rabs r) ^ k / INR (fact k))) by (rewrite Rpow_mult_distr; unfold Rdiv; ring).
      apply Rmult_le_compat_l; [exact B0|]. apply one_term. apply Rmult_le_pos; [exact HL|apply Rabs_pos]. }
  destruct (CV_radius a) as [c| |]; [specialize (X (c + 1)); cbn in X; lra|reflexivity|destruct (X 0)].
Qed.
Lemma series_ex (a : nat -> R) t : CV_radius a = p_infty -> ex_pseries a t.
Proof. intros E. apply CV_radius_inside. rewrite E. exact I. Qed.
Lemma series_Sum {A} (l : list A) (c : A -> R) (g : A -> nat -> R) t : (forall x, In x l -> CV_radius (g x) = p_infty) ->
  ex_pseries (fun k => Sum l (fun x => c x * g x k)) t /\ PSeries (fun k => Sum l (fun x => c x * g x k)) t = Sum l (fun x => c x * PSeries (g x) t).
Proof.
  induction l as [|x l IH]; intros H.
  - split.
    + apply (ex_pseries_ext (fun _ => 0)); [intros k; rewrite Sum_nil; reflexivity|]. apply series_ex. apply (CV_radius_const_0).
    + rewrite Sum_nil. rewrite (PSeries_ext _ (fun _ => 0)) by (intros k; apply Sum_nil). apply PSeries_const_0.
  - destruct IH as [E P]; [intros; apply H; right; assumption|]. pose proof (series_ex (g x) t (H x (or_introl eq_refl))) as Ex.
    assert (Es : ex_pseries (PS_scal (c x) (g x)) t) by (apply ex_pseries_scal; [unfold mult; cbn; intros; ring|exact Ex]).
    split.
    + apply (ex_pseries_ext (PS_plus (PS_scal (c x) (g x)) (fun k => Sum l (fun x => c x * g x k)))); [intros k; rewrite Sum_cons; reflexivity|]. apply (ex_pseries_plus (K := R_AbsRing) (V := R_NormedModule)); assumption.
    + rewrite Sum_cons, <- P, <- PSeries_scal, <- PSeries_plus by assumption. apply PSeries_ext. intros k. rewrite Sum_cons. reflexivity.
Qed.

Section Exist.
  Variables (n : nat) (f : list R -> list R) (M : nat -> nat -> R) (b : nat -> R).
  Hypothesis (Lf : forall v, List.length v = n -> List.length (f v) = n).
  Hypothesis (Ef : forall v, List.length v = n -> forall j, entry (f v) j = b j + Sum (seq 0 n) (fun k => M j k * entry v k)).
  Local Notation ap := (ap n M).
  Local Notation pw := (pw n M).
  Local Notation lip := (lip n M).
  Variables (y0 : list R).
  Hypothesis (Ly : List.length y0 = n).
  Local Notation r0 := (entry (f y0)).
  Definition coef (j k : nat) : R := match k with O => entry y0 j | S k' => pw k' r0 j / INR (fact k) end.
  Definition rcoef (j k : nat) : R := pw k r0 j / INR (fact k).
  Definition size : R := Sum (seq 0 n) (fun k => Rabs (r0 k)).
  Lemma rcoef_radius j : (j < n)%nat -> CV_radius (rcoef j) = p_infty.
  Proof.
    intros L. apply (bounded_radius _ size lip); [apply lip_nonneg|]. intros k. unfold rcoef, Rdiv. rewrite Rabs_mult, (Rabs_pos_eq (/ _)) by (left; apply Rinv_0_lt_compat, INR_fact_lt_0).
    apply Rmult_le_compat_r; [left; apply Rinv_0_lt_compat, INR_fact_lt_0|]. rewrite Rmult_comm. apply pw_bound; [|exact L].
    intros i Li. apply (Sum_member (seq 0 n) (fun k => Rabs (r0 k)) i); [apply in_seq; lia|intros; apply Rabs_pos].
  Qed.
  Lemma coef_derive j k : PS_derive (coef j) k = rcoef j k.
  Proof. unfold PS_derive, coef, rcoef. rewrite fact_simpl, mult_INR. field. split; [apply INR_fact_neq_0|apply not_0_INR; lia]. Qed.
  Lemma coef_radius j : (j < n)%nat -> CV_radius (coef j) = p_infty.
  Proof. intros L. rewrite <- CV_radius_derive. rewrite (CV_radius_ext _ (rcoef j)) by (intros k; apply coef_derive). apply rcoef_radius. exact L. Qed.
  Definition solution (t : R) : list R := map (fun j => PSeries (coef j) t) (seq 0 n).
  Lemma solution_entry t j : (j < n)%nat -> entry (solution t) j = PSeries (coef j) t.
  Proof. intros L. unfold entry, solution. rewrite (nth_indep _ 0 (PSeries (coef 0) t)) by (rewrite map_length, seq_length; exact L). rewrite (map_nth (fun j => PSeries (coef j) t)), seq_nth by exact L. reflexivity. Qed.
  Lemma solution_size t : List.length (solution t) = n.
  Proof. unfold solution. rewrite map_length, seq_length. reflexivity. Qed.
  Lemma solution_start : solution 0 = y0.
  Proof.
    apply (nth_ext _ _ 0 0); [rewrite solution_size; symmetry; exact Ly|]. intros j L. rewrite solution_size in L. etransitivity; [exact (solution_entry 0 j L)|]. rewrite PSeries_0. reflexivity.
  Qed.
  Lemma solution_rate t j : (j < n)%nat -> entry (f (solution t)) j = PSeries (rcoef j) t.
  Proof.
    intros L. rewrite Ef by apply solution_size. set (c := fun (o : nat) => M j o).
    destruct (series_Sum (seq 0 n) (fun k => M j k) coef t) as [X P]; [intros k I; apply coef_radius; apply in_seq in I; lia|].
    rewrite (Sum_ext _ (fun k => M j k * PSeries (coef k) t)) by (intros k I; rewrite solution_entry by (apply in_seq in I; lia); reflexivity). rewrite <- P.
    assert (D : forall k, rcoef j k = PS_plus (fun k => match k with O => b j | _ => 0 end) (fun i => Sum (seq 0 n) (fun k => M j k * coef k i)) k).
    { intros [|k]; unfold PS_plus, plus; cbn.
      - unfold rcoef. cbn. rewrite Ef by exact Ly. field.
      - unfold rcoef. cbn [ConvergenceProofs.pw]. unfold ConvergenceProofs.ap. rewrite Rplus_0_l. unfold Rdiv. rewrite Rmult_comm, <- Sum_scal. apply Sum_ext. intros i _. change (fact k + k * fact k)%nat with (fact (S k)). unfold Rdiv. ring. }
    rewrite (PSeries_ext _ _ t D), PSeries_plus; [|apply series_ex; apply (bounded_radius _ (Rabs (b j)) 1 Rle_0_1)|exact X].
    - f_equal. rewrite PSeries_decr_1; [|apply series_ex; apply (bounded_radius _ (Rabs (b j)) 1 Rle_0_1)].
      + rewrite (PSeries_ext _ (fun _ => 0)) by reflexivity. rewrite PSeries_const_0. ring.
      + intros [|k]; [cbn; lra|]. rewrite Rabs_R0. apply Rmult_le_pos; [apply Rmult_le_pos; [apply Rabs_pos|apply pow_le; lra]|left; apply Rinv_0_lt_compat, INR_fact_lt_0].
    - intros [|k]; [cbn; lra|]. rewrite Rabs_R0. apply Rmult_le_pos; [apply Rmult_le_pos; [apply Rabs_pos|apply pow_le; lra]|left; apply Rinv_0_lt_compat, INR_fact_lt_0].
  Qed.
  Lemma solution_solves : solves n f solution.
  Proof.
    intros t. split; [apply solution_size|]. intros j L. rewrite (solution_rate t j L). apply (is_derive_ext (PSeries (coef j))); [intros u; symmetry; exact (solution_entry u j L)|].
    rewrite <- (PSeries_ext (PS_derive (coef j))) by (intros k; apply coef_derive). apply is_derive_PSeries. rewrite (coef_radius j L). exact I.
  Qed.
  Lemma halves t N : (0 < N)%nat -> 0 <= t -> steps_of (t / INR N) (repeat (t / INR N) N) /\ sumR (repeat (t / INR N) N) = t.
  Proof.
    intros HN Ht. assert (P : 0 < INR N) by (apply lt_0_INR; exact HN). assert (D : 0 <= t / INR N) by (apply Rmult_le_pos; [exact Ht|left; apply Rinv_0_lt_compat; exact P]). split.
    - apply List.Forall_forall. intros x I. apply repeat_spec in I. subst x. lra.
    - assert (G : forall d k, sumR (repeat d k) = INR k * d) by (intros d k; induction k as [|k IH]; [unfold sumR; cbn; ring|rewrite S_INR; cbn [repeat]; unfold sumR in *; cbn [fold_right]; rewrite IH; ring]). rewrite G. field. lra.
  Qed.
  Lemma uniqueness Y Z : solves n f Y -> solves n f Z -> Y 0 = Z 0 -> forall t, 0 <= t -> Y t = Z t.
  Proof.
    intros SY SZ E t Ht. apply (nth_ext _ _ 0 0); [rewrite (proj1 (SY t)), (proj1 (SZ t)); reflexivity|]. intros j L. rewrite (proj1 (SY t)) in L. change (entry (Y t) j = entry (Z t) j).
    destruct (converges n f M b Lf Ef Y SY ForwardEuler t Ht) as (C & C0 & HC). destruct (converges n f M b Lf Ef Z SZ ForwardEuler t Ht) as (D & D0 & HD).
    apply cond_eq. intros eps He. set (X := (C + D) * t).
    destruct (archimed_cor1 (eps / (X + 1))) as (N & HN & PN); [apply Rmult_lt_0_compat; [exact He|apply Rinv_0_lt_compat; unfold X; assert (0 <= (C + D) * t) by (apply Rmult_le_pos; lra); lra]|].
    destruct (halves t N PN Ht) as [St Sm]. specialize (HC _ _ St ltac:(lra) ltac:(inversion St as [|? ? Q]; [destruct N; [lia|discriminate]|lra]) j L).
    specialize (HD _ _ St ltac:(lra) ltac:(inversion St as [|? ? Q]; [destruct N; [lia|discriminate]|lra]) j L). rewrite Sm in *. rewrite <- E in HD. cbn [order] in HC, HD. rewrite pow_1 in HC, HD.
    set (w := entry (walk f ForwardEuler (repeat (t / INR N) N) (Y 0) 0) j) in *.
    assert (X0 : 0 <= X) by (unfold X; apply Rmult_le_pos; lra).
    assert (Q : Rabs (entry (Y t) j - entry (Z t) j) <= X * / INR N).
    { replace (entry (Y t) j - entry (Z t) j) with (- (w - entry (Y t) j) + (w - entry (Z t) j)) by ring. eapply Rle_trans; [apply Rabs_triang|]. rewrite Rabs_Ropp. unfold X. unfold Rdiv in HC, HD. lra. }
    eapply Rle_lt_trans; [exact Q|]. apply Rle_lt_trans with (X * (eps / (X + 1))); [apply Rmult_le_compat_l; [exact X0|lra]|].
    apply Rmult_lt_reg_r with (X + 1); [lra|]. unfold Rdiv. replace (X * (eps * / (X + 1)) * (X + 1)) with (X * eps) by (field; lra). lra.
  Qed.
End Exist.
