(** ConvergenceProofs.v -- linear systems: steps, stability, consistency. *)
From Coq Require Import Reals List Bool Lra Lia.
From Coquelicot Require Import Coquelicot.
From Verif Require Import Base BaseFacts MaterialModel HeatModel HeatSpec HeatProofs HeatProofs2 HeatProofs3 HeatProofs4 HeatProofs5 SuperpositionSpec SuperpositionProofs ConvergenceSpec.
Import ListNotations.
Local Open Scope R_scope.

Lemma Sum_abs {A} (l : list A) f : Rabs (Sum l f) <= Sum l (fun a => Rabs (f a)).
Proof. induction l as [|a l IH]; [rewrite !Sum_nil, Rabs_R0; lra|]. rewrite !Sum_cons. eapply Rle_trans; [apply Rabs_triang|]. lra. Qed.
Lemma Sum_mono {A} (l : list A) f g : (forall a, In a l -> f a <= g a) -> Sum l f <= Sum l g.
Proof. induction l as [|a l IH]; intros H; [rewrite !Sum_nil; lra|]. rewrite !Sum_cons. pose proof (H a (or_introl eq_refl)). assert (Sum l f <= Sum l g) by (apply IH; intros; apply H; right; assumption). lra. Qed.
Lemma Sum_nonneg {A} (l : list A) f : (forall a, In a l -> 0 <= f a) -> 0 <= Sum l f.
Proof. intros H. replace 0 with (Sum l (fun _ : A => 0)) by (apply Sum_zero; intros; reflexivity). apply Sum_mono. exact H. Qed.
Lemma Sum_member {A} (l : list A) f a : In a l -> (forall b, In b l -> 0 <= f b) -> f a <= Sum l f.
Proof.
  induction l as [|b l IH]; intros I P; [destruct I|]. rewrite Sum_cons. destruct I as [->|I].
  - assert (0 <= Sum l f) by (apply Sum_nonneg; intros; apply P; right; assumption). lra.
  - pose proof (P b (or_introl eq_refl)). assert (f a <= Sum l f) by (apply IH; [exact I|intros; apply P; right; assumption]). lra.
Qed.

Section Linear.
  Variables (n : nat) (f : list R -> list R) (M : nat -> nat -> R) (b : nat -> R).
  Hypothesis (Lf : forall v, List.length v = n -> List.length (f v) = n).
  Hypothesis (Ef : forall v, List.length v = n -> forall j, entry (f v) j = b j + Sum (seq 0 n) (fun k => M j k * entry v k)).
  Definition ap (u : nat -> R) (j : nat) : R := Sum (seq 0 n) (fun k => M j k * u k).
  Fixpoint pw (k : nat) (u : nat -> R) : nat -> R := match k with O => u | S k' => ap (pw k' u) end.
  Lemma ap_ext u v : (forall k, (k < n)%nat -> u k = v k) -> forall j, ap u j = ap v j.
  Proof. intros E j. apply Sum_ext. intros k I. rewrite E; [reflexivity|apply in_seq in I; lia]. Qed.
  Lemma ap_lin u a v j : ap (fun k => u k + a * v k) j = ap u j + a * ap v j.
  Proof. unfold ap. rewrite <- Sum_scal, <- Sum_plus. apply Sum_ext. intros; ring. Qed.
  Lemma pw_ext k : forall u v, (forall j, (j < n)%nat -> u j = v j) -> forall j, (j < n)%nat -> pw k u j = pw k v j.
  Proof. induction k as [|k IH]; intros u v E j L; [exact (E j L)|]. cbn [pw]. apply ap_ext. intros; apply IH; assumption. Qed.
  Lemma pw_lin k : forall u a v j, pw k (fun k => u k + a * v k) j = pw k u j + a * pw k v j.
  Proof. induction k as [|k IH]; intros u a v j; [reflexivity|]. cbn [pw]. rewrite <- ap_lin. apply ap_ext. intros; apply IH. Qed.
  Lemma pw_ap k : forall u j, pw k (ap u) j = pw (S k) u j.
  Proof. induction k as [|k IH]; intros u j; [reflexivity|]. cbn [pw]. apply ap_ext. intros; rewrite IH; reflexivity. Qed.

  (** ** One step *)
  Definition taylor_step (p : nat) (dt : R) (v : list R) (j : nat) : R :=
    entry v j + Sum (seq 0 p) (fun k => dt ^ S k / INR (fact (S k)) * pw k (entry (f v)) j).
  Lemma f_sadd v a w : List.length v = n -> List.length w = n -> forall j, entry (f (saddR v a w)) j = entry (f v) j + a * ap (entry w) j.
  Proof.
    intros Lv Lw j. assert (E : List.length v = List.length w) by congruence. rewrite !Ef by (rewrite ?saddR_length by exact E; assumption).
    rewrite Rplus_assoc. f_equal. unfold ap. rewrite <- Sum_scal, <- Sum_plus. apply Sum_ext. intros k _. rewrite entry_sadd by exact E. ring.
  Qed.
  Lemma step_entries s t dt v j : List.length v = n -> entry (step s (fun _ _ => f) t dt v) j = taylor_step (order s) dt v j.
  Proof.
    intros L. assert (S1 : forall v w a, List.length v = n -> List.length w = n -> List.length (saddR v a w) = n) by (intros; rewrite saddR_length; congruence).
    set (r := entry (f v)).
    destruct s; unfold step, taylor_step; cbn [order]; cbv zeta.
    - rewrite entry_sadd by (rewrite Lf; assumption). unfold Sum, sumR. cbn [seq map fold_right pw fact INR pow Nat.mul Nat.add]. field.
    - set (k0 := f v). set (k1 := f (saddR v (dt * (1/2)) k0)). set (k2 := f (saddR (saddR v (dt * -1) k0) (dt * 2) k1)).
      assert (L0 : List.length k0 = n) by (apply Lf; exact L). assert (L1 : List.length k1 = n) by (apply Lf; apply S1; assumption). assert (L2 : List.length k2 = n) by (apply Lf; repeat apply S1; assumption).
      assert (E1 : forall j, entry k1 j = r j + (dt * (1/2)) * ap r j) by (intros; apply f_sadd; assumption).
      assert (E2 : forall j, entry k2 j = r j + dt * ap r j + dt * dt * ap (ap r) j).
      { intros i. unfold k2. rewrite f_sadd by (try apply S1; assumption). rewrite f_sadd by assumption. rewrite (ap_ext (entry k1) (fun j => r j + (dt * (1/2)) * ap r j)) by (intros; apply E1). rewrite ap_lin.
        change (entry (f v)) with r. change (entry k0) with r. field. }
      rewrite !entry_sadd by (rewrite ?saddR_length; rewrite ?saddR_length; congruence). rewrite E1, E2. change (entry k0 j) with (r j). fold k0. change (entry k0) with r.
      unfold Sum, sumR. cbn [seq map fold_right pw fact INR pow Nat.mul Nat.add]. field.
    - set (k0 := f v). set (k1 := f (saddR v (dt * (1/2)) k0)). set (k2 := f (saddR (saddR v (dt * 0) k0) (dt * (1/2)) k1)). set (k3 := f (saddR (saddR (saddR v (dt * 0) k0) (dt * 0) k1) (dt * 1) k2)).
      assert (L0 : List.length k0 = n) by (apply Lf; exact L). assert (L1 : List.length k1 = n) by (apply Lf; apply S1; assumption). assert (L2 : List.length k2 = n) by (apply Lf; repeat apply S1; assumption).
      assert (L3 : List.length k3 = n) by (apply Lf; repeat apply S1; assumption).
      assert (E1 : forall j, entry k1 j = r j + (dt * (1/2)) * ap r j) by (intros; apply f_sadd; assumption).
      assert (A1 : forall i, ap (entry k1) i = ap r i + (dt * (1/2)) * ap (ap r) i) by (intros i; rewrite (ap_ext (entry k1) (fun j => r j + (dt * (1/2)) * ap r j)) by (intros; apply E1); apply ap_lin).
      assert (E2 : forall j, entry k2 j = r j + (dt * (1/2)) * ap (entry k1) j).
      { intros i. unfold k2. rewrite f_sadd by (try apply S1; assumption). rewrite f_sadd by assumption. change (entry (f v)) with r. ring. }
      assert (A2 : forall i, ap (entry k2) i = ap r i + (dt * (1/2)) * (ap (ap r) i + (dt * (1/2)) * ap (ap (ap r)) i)).
      { intros i. rewrite (ap_ext (entry k2) (fun j => r j + (dt * (1/2)) * ap (entry k1) j)) by (intros; apply E2). rewrite ap_lin. f_equal. f_equal.
        rewrite (ap_ext (ap (entry k1)) (fun j => ap r j + (dt * (1/2)) * ap (ap r) j)) by (intros; apply A1). apply ap_lin. }
      assert (E3 : forall j, entry k3 j = r j + dt * ap (entry k2) j).
      { intros i. unfold k3. rewrite f_sadd by (repeat apply S1; assumption). rewrite f_sadd by (try apply S1; assumption). rewrite f_sadd by assumption. change (entry (f v)) with r. ring. }
      rewrite !entry_sadd by (rewrite ?saddR_length; rewrite ?saddR_length; rewrite ?saddR_length; congruence). rewrite E3, A2, E2, A1, E1. change (entry k0 j) with (r j). fold k0. change (entry k0) with r.
      unfold Sum, sumR. cbn [seq map fold_right pw fact INR pow Nat.mul Nat.add]. field.
  Qed.

  (** ** Stability *)
  Definition lip : R := Sum (seq 0 n) (fun j => Sum (seq 0 n) (fun k => Rabs (M j k))).
  Lemma lip_nonneg : 0 <= lip.
  Proof. apply Sum_nonneg. intros. apply Sum_nonneg. intros. apply Rabs_pos. Qed.
  Lemma ap_bound u E : (forall k, (k < n)%nat -> Rabs (u k) <= E) -> forall j, (j < n)%nat -> Rabs (ap u j) <= lip * E.
  Proof.
    intros H j L. assert (E0 : 0 <= E) by (eapply Rle_trans; [apply Rabs_pos|exact (H j L)]). unfold ap. eapply Rle_trans; [apply Sum_abs|].
    apply Rle_trans with (Sum (seq 0 n) (fun k => Rabs (M j k)) * E).
    - rewrite Rmult_comm, <- Sum_scal. apply Sum_mono. intros k I. rewrite Rabs_mult, Rmult_comm. apply Rmult_le_compat_r; [apply Rabs_pos|]. apply H. apply in_seq in I. lia.
    - apply Rmult_le_compat_r; [exact E0|]. unfold lip. apply (Sum_member (seq 0 n) (fun j => Sum (seq 0 n) (fun k => Rabs (M j k))) j); [apply in_seq; lia|].
      intros. apply Sum_nonneg. intros. apply Rabs_pos.
  Qed.
  Lemma pw_bound k : forall u E, (forall k, (k < n)%nat -> Rabs (u k) <= E) -> forall j, (j < n)%nat -> Rabs (pw k u j) <= lip ^ k * E.
  Proof.
    induction k as [|k IH]; intros u E H j L; [cbn [pw pow]; rewrite Rmult_1_l; exact (H j L)|]. cbn [pw pow]. rewrite Rmult_assoc. apply ap_bound; [|exact L]. intros; apply IH; assumption.
  Qed.
  Lemma partial_exp p x : 0 <= x -> 1 + Sum (seq 0 p) (fun k => x ^ S k / INR (fact (S k))) <= exp x.
  Proof.
    intros P. assert (E : 1 + Sum (seq 0 p) (fun k => x ^ S k / INR (fact (S k))) = sum_f_R0 (fun i => / INR (fact i) * x ^ i) p).
    { induction p as [|p IH]; [unfold Sum, sumR; cbn; field|]. rewrite seq_S, Sum_app, <- Rplus_assoc, IH. cbn [sum_f_R0]. f_equal. cbn [Nat.add]. rewrite Sum_cons, Sum_nil. unfold Rdiv. ring. }
    rewrite E. unfold exp. destruct (exist_exp x) as [l H]. cbn [proj1_sig]. unfold exp_in in H. apply (sum_incr (fun i => / INR (fact i) * x ^ i) p l).
    - intros eps He. destruct (H eps He) as [N HN]. exists N. intros m Hm. apply HN. exact Hm.
    - intros i. apply Rmult_le_pos; [apply Rlt_le, Rinv_0_lt_compat, INR_fact_lt_0|apply pow_le; exact P].
  Qed.
  Lemma step_stable p dt v w E : 0 <= dt -> List.length v = n -> List.length w = n -> (forall j, (j < n)%nat -> Rabs (entry v j - entry w j) <= E) ->
    forall j, (j < n)%nat -> Rabs (taylor_step p dt v j - taylor_step p dt w j) <= E * exp (lip * dt).
  Proof.
    intros D Lv Lw H j L. assert (E0 : 0 <= E) by (eapply Rle_trans; [apply Rabs_pos|exact (H j L)]).
    set (d := fun k => entry v k - entry w k).
    assert (X : taylor_step p dt v j - taylor_step p dt w j = d j + Sum (seq 0 p) (fun k => dt ^ S k / INR (fact (S k)) * pw (S k) d j)).
    { unfold taylor_step. replace (d j) with (entry v j - entry w j) by reflexivity.
      transitivity (entry v j - entry w j + (Sum (seq 0 p) (fun k => dt ^ S k / INR (fact (S k)) * pw k (entry (f v)) j) + -1 * Sum (seq 0 p) (fun k => dt ^ S k / INR (fact (S k)) * pw k (entry (f w)) j))); [ring|].
      f_equal. rewrite <- Sum_scal, <- Sum_plus. apply Sum_ext. intros k _. rewrite <- pw_ap.
      transitivity (dt ^ S k / INR (fact (S k)) * (pw k (entry (f v)) j + -1 * pw k (entry (f w)) j)); [ring|]. f_equal. rewrite <- pw_lin. apply pw_ext; [|exact L].
      intros i _. rewrite !Ef by assumption. unfold ap, d. transitivity (Sum (seq 0 n) (fun k => M i k * entry v k) + -1 * Sum (seq 0 n) (fun k => M i k * entry w k)); [ring|].
      rewrite <- Sum_scal, <- Sum_plus. apply Sum_ext. intros; ring. }
    rewrite X. eapply Rle_trans; [apply Rabs_triang|].
    apply Rle_trans with (E + E * Sum (seq 0 p) (fun k => (lip * dt) ^ S k / INR (fact (S k)))).
    - apply Rplus_le_compat; [exact (H j L)|]. eapply Rle_trans; [apply Sum_abs|]. rewrite <- Sum_scal. apply Sum_mono. intros k _.
      rewrite Rabs_mult. assert (P : 0 <= dt ^ S k / INR (fact (S k))) by (apply Rmult_le_pos; [apply pow_le; exact D|apply Rlt_le, Rinv_0_lt_compat, INR_fact_lt_0]).
      rewrite (Rabs_pos_eq _ P). eapply Rle_trans; [apply Rmult_le_compat_l; [exact P|apply pw_bound; [exact H|exact L]]|]. rewrite Rpow_mult_distr. unfold Rdiv. apply Req_le. ring.
    - replace (E + E * _) with (E * (1 + Sum (seq 0 p) (fun k => (lip * dt) ^ S k / INR (fact (S k))))) by ring. apply Rmult_le_compat_l; [exact E0|]. apply partial_exp. apply Rmult_le_pos; [apply lip_nonneg|exact D].
  Qed.
End Linear.
