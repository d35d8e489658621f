(** ConvergenceProofs4.v -- the heat equation is such a system. *)
From Coq Require Import Reals List Bool Lra Lia.
From Coquelicot Require Import Coquelicot.
From Verif Require Import Base BaseFacts ScanPathModel HeatSourceModel MaterialModel InputModel HeatModel HeatSpec HeatProofs HeatProofs2 HeatProofs3 HeatProofs4 HeatProofs5 SuperpositionSpec SuperpositionProofs ConvergenceSpec ConvergenceProofs ConvergenceProofs2 ConvergenceProofs3.
Import ListNotations.
Local Open Scope R_scope.

Lemma one_sum (A c : R) : (1 - A) * c + c * A = c.
Proof. ring. Qed.
Lemma two_sums (A B c : R) : (1 - A) * c + (B + c * A) = c + B.
Proof. ring. Qed.
Section Heat.
  Variables (dim3 on ad : bool) (m : heat_mesh RNum) (K : laws RNum) (F : face_laws RNum).
  Hypothesis (Mok : mesh_ok m).
  Hypothesis (NR : ad = false -> no_radiation m).
  Hypothesis (Ind : independent K F).
  Local Notation n := (m_n m).
  Definition rhs (v : list R) : list R := evaluate (N := RNum) dim3 on ad m K F v.
  Definition unit_vector (k : nat) : list R := map (hat k) (seq 0 n).
  Lemma unit_entry k j : (k < n)%nat -> entry (unit_vector k) j = hat k j.
  Proof.
    intros Lk. unfold entry, unit_vector. destruct (Nat.lt_ge_cases j n) as [L|L].
    - rewrite (nth_indep _ 0 (hat k 0)) by (rewrite map_length, seq_length; exact L). rewrite (map_nth (hat k)), seq_nth by exact L. reflexivity.
    - rewrite nth_overflow by (rewrite map_length, seq_length; exact L). unfold hat. destruct (Nat.eqb_spec j k); [lia|reflexivity].
  Qed.
  Definition matrix (j k : nat) : R := entry (rhs (unit_vector k)) j - entry (rhs (repeat 0 n)) j.
  Definition rhs0 (j : nat) : R := entry (rhs (repeat 0 n)) j.
  Lemma rhs_size v : List.length v = n -> List.length (rhs v) = n.
  Proof. intros _. apply rate_length. Qed.
  Definition parts (k : nat) : list R := if Nat.eqb k n then repeat 0 n else unit_vector k.
  Lemma Sum_hat (l : list nat) (g : nat -> R) j : NoDup l -> Sum l (fun k => g k * hat k j) = if in_dec Nat.eq_dec j l then g j else 0.
  Proof.
    induction l as [|a l IH]; intros N; [rewrite Sum_nil; reflexivity|]. inversion N as [|? ? Na Nl]; subst. rewrite Sum_cons, IH by exact Nl. unfold hat at 1.
    destruct (Nat.eqb_spec j a) as [->|Ne].
    - destruct (in_dec Nat.eq_dec a l); [contradiction|]. destruct (in_dec Nat.eq_dec a (a :: l)) as [_|X]; [ring|destruct X; left; reflexivity].
    - destruct (in_dec Nat.eq_dec j l) as [I|I]; destruct (in_dec Nat.eq_dec j (a :: l)) as [X|X]; try ring; [destruct X; right; exact I|destruct X as [X|X]; [congruence|contradiction]].
  Qed.
  Lemma rhs_linear v : List.length v = n -> forall j, entry (rhs v) j = rhs0 j + Sum (seq 0 n) (fun k => matrix j k * entry v k).
  Proof.
    intros L j. set (W := (1 - Sum (seq 0 n) (fun k => entry v k), n) :: map (fun k => (entry v k, k)) (seq 0 n)).
    assert (SW : forall g : nat -> R, Sum W (fun w => fst w * g (snd w)) = (1 - Sum (seq 0 n) (fun k => entry v k)) * g n + Sum (seq 0 n) (fun k => entry v k * g k)).
    { intros g. unfold W. rewrite Sum_cons, Sum_map. reflexivity. }
    assert (One : forall c : R, Sum W (fun w => fst w * c) = c).
    { intros c. rewrite (SW (fun _ => c)). transitivity ((1 - Sum (seq 0 n) (fun k => entry v k)) * c + Sum (seq 0 n) (fun k => c * entry v k)); [apply (f_equal (Rplus _)); apply Sum_ext; intros; apply Rmult_comm|]. rewrite Sum_scal. exact (one_sum _ c). }
    destruct (rate_comb nat W dim3 ad m (fun _ => on) (fun _ => K) (fun _ => F) on K F parts v Mok) as (_ & _ & E).
    - intros w c q T T' _. rewrite (proj1 Ind c q T T'). repeat split.
    - intros w k q T T' _. rewrite (proj2 Ind k q T T'). split; reflexivity.
    - intros c q T Ts. transitivity (Sum W (fun w => fst w * heat_density on (K c q T))); [symmetry; apply One|]. apply Sum_ext. intros w _. rewrite (proj1 Ind c q (Ts (snd w)) T). reflexivity.
    - intros k q T Ts. transitivity (Sum W (fun w => fst w * (fl_conv (F k q T) : R))); [symmetry; apply One|]. apply Sum_ext. intros w _. rewrite (proj2 Ind k q (Ts (snd w)) T). reflexivity.
    - exact NR.
    - split; [exact L|]. split.
      + intros w _. unfold parts. destruct (Nat.eqb _ _); [apply repeat_length|unfold unit_vector; rewrite map_length, seq_length; reflexivity].
      + intros i. rewrite (SW (fun k => entry (parts k) i)). unfold parts at 1. rewrite Nat.eqb_refl. replace (entry (repeat 0 n) i) with 0 by (unfold entry; symmetry; apply nth_repeat).
        rewrite Rmult_0_r, Rplus_0_l. rewrite (Sum_ext _ (fun k => entry v k * hat k i)) by (intros k I; apply in_seq in I; unfold parts; destruct (Nat.eqb_spec k n); [lia|]; rewrite unit_entry by lia; reflexivity).
        rewrite Sum_hat by apply seq_NoDup. destruct (in_dec Nat.eq_dec i (seq 0 n)) as [I|I]; [reflexivity|]. unfold entry. apply nth_overflow. rewrite L. destruct (Nat.lt_ge_cases i n); [destruct I; apply in_seq; lia|assumption].
    - specialize (E j). change (entry (rhs v) j = Sum W (fun w => fst w * entry (rhs (parts (snd w))) j)) in E. rewrite E. rewrite (SW (fun k => entry (rhs (parts k)) j)).
      unfold parts at 1. rewrite Nat.eqb_refl. fold (rhs0 j).
      rewrite (Sum_ext (fun k => entry v k * entry (rhs (parts k)) j) (fun k => matrix j k * entry v k + rhs0 j * entry v k)).
      + rewrite Sum_plus, Sum_scal. exact (two_sums _ _ _).
      + intros k I. apply in_seq in I. unfold parts. destruct (Nat.eqb_spec k n); [lia|]. unfold matrix, rhs0. ring.
  Qed.
  Lemma walk_run s dts : forall k t v, walk rhs s dts v t = temperatures dim3 ad s m (constant_run on K F v) k t dts v.
  Proof.
    assert (G : forall y0 k t v, walk rhs s dts v t = temperatures dim3 ad s m (constant_run on K F y0) k t dts v); [|intros; apply G]. intros y0. induction dts as [|dt dts IH]; intros k t v; [reflexivity|]. cbn [walk temperatures constant_run sc_on sc_laws sc_faces].
    change (walk rhs s dts (step s (fun _ _ => rhs) t dt v) (t + dt) = let '(t1, y1) := evolveR s (fun _ _ => rhs) t dt v in temperatures dim3 ad s m (constant_run on K F y0) (S k) t1 dts y1). rewrite evolve_step. apply IH.
  Qed.
  Lemma heat_solution (y0 : list R) : List.length y0 = n -> exists Y, Y 0 = y0 /\ solves n rhs Y.
  Proof. intros L. exists (solution n rhs matrix y0). split; [apply solution_start; exact L|]. exact (solution_solves n rhs matrix rhs0 rhs_linear y0 L). Qed.
  Lemma heat_unique Y Z : solves n rhs Y -> solves n rhs Z -> Y 0 = Z 0 -> forall t, 0 <= t -> Y t = Z t.
  Proof. intros SY. exact (uniqueness n rhs matrix rhs0 rhs_size rhs_linear (Y 0) (proj1 (SY 0)) Y Z SY). Qed.
  Lemma heat_converges Y : solves n rhs Y -> forall s T, 0 <= T -> exists C, 0 <= C /\ forall h dts, 0 <= h -> steps_of h dts -> sumR dts <= T -> forall j, (j < n)%nat ->
    Rabs (entry (final dim3 ad s m (constant_run on K F (Y 0)) dts) j - entry (Y (sumR dts)) j) <= C * h ^ order s.
  Proof.
    intros SY s T HT. destruct (converges n rhs matrix rhs0 rhs_size rhs_linear Y SY s T HT) as (C & C0 & HC). exists C. split; [exact C0|]. intros h dts Hh St Sm j L.
    unfold final. cbn [constant_run sc_start]. rewrite <- (walk_run s dts 0 0 (Y 0)). exact (HC h dts St Sm Hh j L).
  Qed.
  Lemma heat_limit Y : solves n rhs Y -> forall s T, 0 <= T -> forall j, (j < n)%nat ->
    is_lim_seq (fun N => entry (final dim3 ad s m (constant_run on K F (Y 0)) (repeat (T / INR (S N)) (S N))) j) (entry (Y T) j).
  Proof.
    intros SY s T HT j L. destruct (heat_converges Y SY s T HT) as (C & C0 & HC).
    apply is_lim_seq_spec. intros eps. set (X := C * (T + 1) ^ order s).
    assert (X0 : 0 <= X) by (unfold X; apply Rmult_le_pos; [exact C0|apply pow_le; lra]).
    destruct (archimed_cor1 (eps / (X + 1))) as (N0 & HN & PN); [apply Rmult_lt_0_compat; [apply cond_pos|apply Rinv_0_lt_compat; lra]|].
    exists N0. intros N LN. assert (P : 0 < INR (S N)) by (apply lt_0_INR; lia). destruct (halves T (S N) ltac:(lia) HT) as [St Sm].
    assert (H0 : 0 <= T / INR (S N)) by (apply Rmult_le_pos; [exact HT|left; apply Rinv_0_lt_compat; exact P]).
    pose proof (HC _ _ H0 St (Req_le _ _ Sm) j L) as Q. rewrite Sm in Q.
    assert (Oge : (1 <= order s)%nat) by (destruct s; cbn; lia).
    assert (B : (T / INR (S N)) ^ order s <= (T + 1) ^ order s * / INR (S N)).
    { unfold Rdiv. rewrite Rpow_mult_distr. apply Rmult_le_compat; [apply pow_le; exact HT|apply pow_le; left; apply Rinv_0_lt_compat; exact P|apply pow_incr; lra|].
      destruct (order s) as [|o]; [lia|]. cbn [pow]. rewrite <- (Rmult_1_r (/ INR (S N))) at 3. apply Rmult_le_compat_l; [left; apply Rinv_0_lt_compat; exact P|].
      rewrite <- (pow1 o). apply pow_incr. split; [left; apply Rinv_0_lt_compat; exact P|]. rewrite <- Rinv_1. apply Rinv_le_contravar; [lra|]. rewrite S_INR. pose proof (pos_INR N). lra. }
    eapply Rle_lt_trans; [exact Q|]. apply Rle_lt_trans with (X * / INR (S N)).
    - unfold X. rewrite Rmult_assoc. apply Rmult_le_compat_l; [exact C0|exact B].
    - assert (I0 : / INR (S N) <= / INR N0) by (apply Rinv_le_contravar; [apply lt_0_INR; exact PN|apply le_INR; lia]).
      apply Rle_lt_trans with (X * (eps / (X + 1))); [apply Rmult_le_compat_l; [exact X0|lra]|]. apply Rmult_lt_reg_r with (X + 1); [lra|].
      unfold Rdiv. replace (X * (eps * / (X + 1)) * (X + 1)) with (X * eps) by (field; lra). pose proof (cond_pos eps). lra.
  Qed.
End Heat.
