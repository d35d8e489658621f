(** ConvergenceProofs2.v -- linear systems: solutions, their Taylor polynomials, convergence. *)
From Coq Require Import Reals List Bool Lra Lia.
From Coquelicot Require Import Coquelicot.
From Verif Require Import Base BaseFacts MaterialModel HeatModel HeatSpec HeatProofs HeatProofs2 HeatProofs3 HeatProofs4 HeatProofs5 SuperpositionSpec SuperpositionProofs ConvergenceSpec ConvergenceProofs.
Import ListNotations.
Local Open Scope R_scope.

Lemma derive_Sum {A} (l : list A) (g g' : A -> R -> R) t : (forall a, In a l -> is_derive (g a) t (g' a t)) -> is_derive (fun u => Sum l (fun a => g a u)) t (Sum l (fun a => g' a t)).
Proof.
  induction l as [|a l IH]; intros H.
  - apply (is_derive_ext (fun _ => 0)); [intros u; rewrite Sum_nil; reflexivity|]. rewrite Sum_nil. apply (is_derive_const (V := R_NormedModule)).
  - apply (is_derive_ext (fun u => g a u + Sum l (fun a => g a u))); [intros u; rewrite Sum_cons; reflexivity|]. rewrite Sum_cons.
    apply (is_derive_plus (V := R_NormedModule)); [apply H; left; reflexivity|apply IH; intros; apply H; right; assumption].
Qed.
(** A common bound. *)
Lemma common_bound (n : nat) (P : R -> Prop) (g : nat -> R -> R) : (forall j, (j < n)%nat -> exists B, forall s, P s -> Rabs (g j s) <= B) ->
  exists B, 0 <= B /\ forall j s, (j < n)%nat -> P s -> Rabs (g j s) <= B.
Proof.
  induction n as [|n IH]; intros H; [exists 0; split; [lra|intros; lia]|].
  destruct IH as (B & B0 & HB); [intros j L; apply H; lia|]. destruct (H n ltac:(lia)) as (C & HC). exists (Rmax B C). split; [eapply Rle_trans; [exact B0|apply Rmax_l]|].
  intros j s L Ps. destruct (Nat.eq_dec j n) as [->|N]; [eapply Rle_trans; [exact (HC s Ps)|apply Rmax_r]|eapply Rle_trans; [apply HB; [lia|exact Ps]|apply Rmax_l]].
Qed.
Lemma bounded_on (g : R -> R) T : 0 <= T -> (forall s, 0 <= s <= T -> ex_derive g s) -> exists B, forall s, 0 <= s <= T -> Rabs (g s) <= B.
Proof.
  intros HT D. assert (C : forall s, 0 <= s <= T -> continuity_pt g s) by (intros s Hs; apply continuity_pt_filterlim; exact (ex_derive_continuous (V := R_NormedModule) g s (D s Hs))).
  destruct (continuity_ab_maj g 0 T HT C) as (a & Ha & _). destruct (continuity_ab_min g 0 T HT C) as (c & Hc & _).
  exists (Rmax (Rabs (g a)) (Rabs (g c))). intros s Hs. specialize (Ha s Hs). specialize (Hc s Hs). apply Rabs_le. split.
  - apply Rle_trans with (- Rabs (g c)); [apply Ropp_le_contravar, Rmax_r|]. pose proof (Rle_abs (- g c)) as X. rewrite Rabs_Ropp in X. lra.
  - eapply Rle_trans; [|apply Rmax_l]. pose proof (Rle_abs (g a)). lra.
Qed.

Section Solution.
  Variables (n : nat) (f : list R -> list R) (M : nat -> nat -> R) (b : nat -> R).
  Hypothesis (Lf : forall v, List.length v = n -> List.length (f v) = n).
  Hypothesis (Ef : forall v, List.length v = n -> forall j, entry (f v) j = b j + Sum (seq 0 n) (fun k => M j k * entry v k)).
  Local Notation ap := (ap n M).
  Local Notation pw := (pw n M).
  Local Notation lip := (lip n M).
  Variable Y : R -> list R.
  Hypothesis (SY : solves n f Y).
  Local Notation r := (fun t => entry (f (Y t))).
  Lemma derive_ap (g g' : nat -> R -> R) t : (forall k, (k < n)%nat -> is_derive (g k) t (g' k t)) -> forall j, is_derive (fun u => ap (fun k => g k u) j) t (ap (fun k => g' k t) j).
  Proof.
    intros H j. unfold ConvergenceProofs.ap. apply (derive_Sum (seq 0 n) (fun k u => M j k * g k u) (fun k u => M j k * g' k u)). intros k I. apply in_seq in I.
    apply (is_derive_scal (g k) t (M j k)). apply H. lia.
  Qed.
  Lemma derive_r t j : is_derive (fun u => r u j) t (ap (r t) j).
  Proof.
    apply (is_derive_ext (fun u => plus (b j) (ap (entry (Y u)) j))); [intros u; symmetry; apply Ef; apply (proj1 (SY u))|].
    replace (ap (r t) j) with (plus (0 : R) (ap (r t) j)) by (unfold plus; cbn; ring). apply (is_derive_plus (V := R_NormedModule)); [apply (is_derive_const (V := R_NormedModule))|].
    apply (derive_ap (fun k u => entry (Y u) k) (fun k u => r u k)). intros k L. exact (proj2 (SY t) k L).
  Qed.
  Lemma derive_pw k : forall t j, (j < n)%nat -> is_derive (fun u => pw k (r u) j) t (pw (S k) (r t) j).
  Proof.
    induction k as [|k IH]; intros t j L; [apply derive_r|]. cbn [ConvergenceProofs.pw]. apply (derive_ap (fun i u => pw k (r u) i) (fun i u => pw (S k) (r u) i)). intros i Li. apply IH. exact Li.
  Qed.
  Lemma derive_n k : forall j, (j < n)%nat -> forall t, Derive_n (fun u => entry (Y u) j) (S k) t = pw k (r t) j.
  Proof.
    induction k as [|k IH]; intros j L t; cbn [Derive_n].
    - apply is_derive_unique. exact (proj2 (SY t) j L).
    - rewrite (Derive_ext _ (fun u => pw k (r u) j)) by (intros u; exact (IH j L u)). apply is_derive_unique. apply derive_pw. exact L.
  Qed.
  Lemma ex_n k j t : (j < n)%nat -> ex_derive_n (fun u => entry (Y u) j) k t.
  Proof.
    intros L. destruct k as [|[|k]]; [exact I| |].
    - eexists. exact (proj2 (SY t) j L).
    - cbn [ex_derive_n]. apply (ex_derive_ext (fun u => pw k (r u) j)); [intros u; symmetry; exact (derive_n k j L u)|]. eexists. apply derive_pw. exact L.
  Qed.
  Lemma sum_Sum (g : nat -> R) p : sum_f_R0 g p = g O + Sum (seq 0 p) (fun k => g (S k)).
  Proof. induction p as [|p IH]; [unfold Sum, sumR; cbn; ring|]. rewrite seq_S, Sum_app, Sum_cons, Sum_nil. cbn [sum_f_R0 Nat.add]. rewrite IH. ring. Qed.
  Lemma consistent p t dt C j : (j < n)%nat -> 0 <= dt -> (forall s, t <= s <= t + dt -> Rabs (pw p (r s) j) <= C) ->
    Rabs (taylor_step n f M p dt (Y t) j - entry (Y (t + dt)) j) <= C * dt ^ S p.
  Proof.
    intros L D H. assert (C0 : 0 <= C) by (eapply Rle_trans; [apply Rabs_pos|apply (H t); lra]). destruct (Req_dec dt 0) as [->|N].
    - rewrite Rplus_0_r. unfold taylor_step. rewrite Sum_zero by (intros k _; cbn [pow]; unfold Rdiv; ring). rewrite Rplus_0_r. unfold Rminus. rewrite Rplus_opp_r, Rabs_R0. cbn [pow]. lra.
    - destruct (Taylor_Lagrange (fun u => entry (Y u) j) p t (t + dt)) as (z & Hz & E); [lra|intros s _ k _; apply ex_n; exact L|].
      replace (t + dt - t) with dt in E by ring. rewrite sum_Sum, (derive_n p j L z) in E.
      assert (Q : Sum (seq 0 p) (fun k => dt ^ S k / INR (fact (S k)) * Derive_n (fun u => entry (Y u) j) (S k) t) = Sum (seq 0 p) (fun k => dt ^ S k / INR (fact (S k)) * pw k (r t) j)) by (apply Sum_ext; intros k _; rewrite (derive_n k j L t); reflexivity).
      rewrite Q in E. change (Derive_n (fun u => entry (Y u) j) 0 t) with (entry (Y t) j) in E. change (entry (Y (t + dt)) j = dt ^ 0 / INR (fact 0) * entry (Y t) j + Sum (seq 0 p) (fun k => dt ^ S k / INR (fact (S k)) * pw k (r t) j) + dt ^ S p / INR (fact (S p)) * pw p (r z) j) in E.
      assert (One : dt ^ 0 / INR (fact 0) = 1) by (cbn; field). rewrite One in E. rewrite E. unfold taylor_step.
      match goal with |- Rabs ?x <= _ => replace x with (- (dt ^ S p / INR (fact (S p)) * pw p (r z) j)) by ring end.
      rewrite Rabs_Ropp, Rabs_mult. assert (P : 0 <= dt ^ S p) by (apply pow_le; lra).
      assert (I1 : 0 < / INR (fact (S p)) <= 1).
      { split; [apply Rinv_0_lt_compat, INR_fact_lt_0|]. rewrite <- Rinv_1. apply Rinv_le_contravar; [lra|]. change 1 with (INR 1). apply le_INR. apply lt_O_fact. }
      rewrite (Rabs_pos_eq (_ / _)) by (unfold Rdiv; apply Rmult_le_pos; lra). specialize (H z ltac:(lra)). unfold Rdiv.
      apply Rle_trans with (dt ^ S p * 1 * C); [|rewrite Rmult_1_r, Rmult_comm; apply Rle_refl]. apply Rmult_le_compat; [apply Rmult_le_pos; lra|apply Rabs_pos|apply Rmult_le_compat_l; lra|exact H].
  Qed.
  Fixpoint walk (s : scheme) (dts : list R) (v : list R) (t : R) : list R := match dts with [] => v | dt :: r => walk s r (step s (fun _ _ => f) t dt v) (t + dt) end.
  Lemma step_size s t dt v : List.length v = n -> List.length (step s (fun _ _ => f) t dt v) = n.
  Proof.
    intros L. assert (S1 : forall v w a, List.length v = n -> List.length w = n -> List.length (saddR v a w) = n) by (intros; rewrite saddR_length; congruence).
    destruct s; unfold step; cbv zeta; repeat (first [apply S1|apply Lf|exact L]).
  Qed.
  Lemma walk_close s h C : 0 <= h -> forall dts T t v E, steps_of h dts -> 0 <= t -> t + sumR dts <= T -> List.length v = n ->
    (forall j s', (j < n)%nat -> 0 <= s' <= T -> Rabs (pw (order s) (r s') j) <= C) -> 0 <= C -> 0 <= E ->
    (forall j, (j < n)%nat -> Rabs (entry v j - entry (Y t) j) <= E) ->
    forall j, (j < n)%nat -> Rabs (entry (walk s dts v t) j - entry (Y (t + sumR dts)) j) <= (E + C * h ^ order s * sumR dts) * exp (lip * sumR dts).
  Proof.
    intros Hh. induction dts as [|dt dts IH]; intros T t v E St T0 TT Lv HC C0 E0 H j L.
    - cbn [walk]. unfold sumR. cbn [fold_right]. rewrite Rplus_0_r, !Rmult_0_r, exp_0, Rplus_0_r, Rmult_1_r. exact (H j L).
    - inversion St as [|x l Hd St']; subst x l. assert (N : 0 <= sumR dts) by (clear - St'; induction St' as [|d l Hd St' IH]; [unfold sumR; cbn; lra|unfold sumR; cbn [fold_right]; unfold sumR in IH; lra]).
      assert (Es : sumR (dt :: dts) = dt + sumR dts) by reflexivity. rewrite Es in *. cbn [walk].
      assert (P : 0 <= h ^ order s) by (apply pow_le; exact Hh). set (E1 := E * exp (lip * dt) + C * h ^ order s * dt).
      assert (E10 : 0 <= E1) by (unfold E1; apply Rplus_le_le_0_compat; repeat apply Rmult_le_pos; try assumption; try lra; left; apply exp_pos).
      pose proof (IH T (t + dt) (step s (fun _ _ => f) t dt v) E1 St' ltac:(lra) ltac:(lra) (step_size s t dt v Lv) HC C0 E10) as X.
      rewrite <- Rplus_assoc. eapply Rle_trans; [apply X; [|exact L]|].
      + intros i Li. rewrite (step_entries n f M b Lf Ef s t dt v i Lv).
        replace (taylor_step n f M (order s) dt v i - entry (Y (t + dt)) i) with ((taylor_step n f M (order s) dt v i - taylor_step n f M (order s) dt (Y t) i) + (taylor_step n f M (order s) dt (Y t) i - entry (Y (t + dt)) i)) by ring.
        eapply Rle_trans; [apply Rabs_triang|]. unfold E1. apply Rplus_le_compat.
        * apply (step_stable n f M b Ef (order s) dt v (Y t) E); try assumption; [lra|apply (proj1 (SY t))].
        * eapply Rle_trans; [apply (consistent (order s) t dt C i Li); [lra|intros s' Hs; apply HC; [exact Li|lra]]|]. cbn [pow]. rewrite Rmult_assoc. apply Rmult_le_compat_l; [exact C0|]. rewrite Rmult_comm. apply Rmult_le_compat_r; [lra|]. apply pow_incr. lra.
      + unfold E1. replace (lip * (dt + sumR dts)) with (lip * dt + lip * sumR dts) by ring. rewrite exp_plus. set (a := exp (lip * dt)). set (c := exp (lip * sumR dts)). set (w := C * h ^ order s).
        assert (A1 : 1 <= a) by (unfold a; rewrite <- exp_0; apply exp_increasing_le || (destruct (Req_dec (lip * dt) 0) as [->|Nz]; [lra|left; apply exp_increasing; assert (0 <= lip * dt) by (apply Rmult_le_pos; [apply lip_nonneg|lra]); lra])).
        assert (C1 : 0 < c) by apply exp_pos. assert (W0 : 0 <= w) by (unfold w; apply Rmult_le_pos; assumption). rewrite <- Rmult_assoc. apply Rmult_le_compat_r; [lra|].
        assert (Z : 0 <= w * (dt + sumR dts)) by (apply Rmult_le_pos; lra). assert (Z' : w * (dt + sumR dts) <= w * (dt + sumR dts) * a) by (rewrite <- (Rmult_1_r (w * (dt + sumR dts))) at 1; apply Rmult_le_compat_l; assumption). lra.
  Qed.
  Lemma converges s T : 0 <= T -> exists C, 0 <= C /\ forall h dts, steps_of h dts -> sumR dts <= T -> 0 <= h ->
    forall j, (j < n)%nat -> Rabs (entry (walk s dts (Y 0) 0) j - entry (Y (sumR dts)) j) <= C * h ^ order s.
  Proof.
    intros HT. destruct (common_bound n (fun u => 0 <= u <= T) (fun j u => pw (order s) (r u) j)) as (B & B0 & HB).
    { intros j L. apply bounded_on; [exact HT|]. intros u _. eexists. apply derive_pw. exact L. }
    exists (B * T * exp (lip * T)). split; [repeat apply Rmult_le_pos; try assumption; left; apply exp_pos|]. intros h dts St Tl Hh j L.
    assert (N : 0 <= sumR dts) by (clear - St; induction St as [|d l Hd St' IH]; [unfold sumR; cbn; lra|unfold sumR; cbn [fold_right]; unfold sumR in IH; lra]).
    pose proof (walk_close s h B Hh dts T 0 (Y 0) 0 St (Rle_refl 0) ltac:(lra) (proj1 (SY 0)) HB B0 (Rle_refl 0) ltac:(intros; rewrite Rminus_eq_0, Rabs_R0; lra) j L) as X.
    rewrite !Rplus_0_l in X. eapply Rle_trans; [exact X|]. assert (P : 0 <= h ^ order s) by (apply pow_le; exact Hh).
    replace (B * T * exp (lip * T) * h ^ order s) with (B * h ^ order s * T * exp (lip * T)) by ring.
    assert (E : exp (lip * sumR dts) <= exp (lip * T)).
    { assert (Q : lip * sumR dts <= lip * T) by (apply Rmult_le_compat_l; [apply lip_nonneg|exact Tl]). destruct Q as [Q|Q]; [left; apply exp_increasing; exact Q|rewrite Q; apply Rle_refl]. }
    apply Rmult_le_compat; [repeat apply Rmult_le_pos; assumption|left; apply exp_pos| |exact E]. apply Rmult_le_compat_l; [apply Rmult_le_pos; assumption|exact Tl].
  Qed.
End Solution.
