(** AnalysisProofs2.v -- analyses of the program: mean, spread, what all members agree on; the systems are solvable. *)
From Coq Require Import Reals ZArith Bool List Lia Lra.
From Verif Require Import Base AssimilationModel AssimilationSpec AssimilationProofs AssimilationProofs2 AssimilationProofs3 AssimilationProofs4 AnalysisSpec AnalysisProofs.
Import ListNotations.
Local Open Scope R_scope.

(** Positive definite systems are solvable: elimination of the last unknown. *)
Definition definite (n : nat) (B : nat -> nat -> R) : Prop := forall v, (exists i, (i < n)%nat /\ v i <> 0) -> 0 < quadratic n B v.
Lemma quadratic_rows n B v : quadratic n B v = Rsum_to n (fun i => v i * Rsum_to n (fun j => B i j * v j)).
Proof. unfold quadratic. apply Rsum_to_ext. intros i _. rewrite <- Rsum_to_scal. apply Rsum_to_ext. intros. ring. Qed.
Lemma definite_solvable n : forall B, definite n B -> forall b, exists w, forall i, (i < n)%nat -> Rsum_to n (fun j => B i j * w j) = b i.
Proof.
  induction n as [|n IH]; intros B D b; [exists (fun _ => 0); intros; lia|].
  assert (Hn : 0 < B n n).
  { assert (H0 : exists i, (i < S n)%nat /\ ind (Nat.eqb n i) <> 0) by (exists n; split; [lia|rewrite Nat.eqb_refl; unfold ind; lra]).
    pose proof (D (fun i => ind (Nat.eqb n i)) H0) as H. rewrite quadratic_rows in H.
    rewrite Rsum_pick in H by lia. rewrite (Rsum_to_ext (S n) _ (fun j => ind (Nat.eqb n j) * B n j)) in H by (intros; ring). rewrite Rsum_pick in H by lia. exact H. }
  set (B' := fun i j => B i j - B i n * B n j / B n n).
  assert (D' : definite n B').
  { intros v [i [Li Vi]]. set (t := - (Rsum_to n (fun j => B n j * v j)) / B n n). set (u := fun i => if Nat.eqb i n then t else v i).
    assert (Un : u n = t) by (unfold u; rewrite Nat.eqb_refl; reflexivity). assert (Uv : forall k, (k < n)%nat -> u k = v k) by (intros k Lk; unfold u; destruct (Nat.eqb_spec k n); [lia|reflexivity]).
    assert (H : 0 < quadratic (S n) B u) by (apply D; exists i; split; [lia|rewrite Uv by exact Li; exact Vi]). rewrite quadratic_rows, Rsum_to_S in H. rewrite quadratic_rows.
    rewrite (Rsum_to_S n (fun j => B n j * u j)), Un in H. rewrite (Rsum_to_ext n (fun j => B n j * u j) (fun j => B n j * v j)) in H by (intros k Lk; rewrite Uv by exact Lk; reflexivity).
    assert (Z : Rsum_to n (fun j => B n j * v j) + B n n * t = 0) by (unfold t; field; lra). rewrite Z, Rmult_0_r, Rplus_0_r in H.
    rewrite (Rsum_to_ext n _ (fun i => v i * Rsum_to n (fun j => B' i j * v j))) in H; [exact H|].
    intros k Lk. rewrite Uv by exact Lk. f_equal. rewrite Rsum_to_S, Un. unfold B'. rewrite (Rsum_to_ext n (fun j => (B k j - B k n * B n j / B n n) * v j) (fun j => B k j * u j + (- B k n / B n n) * (B n j * v j))).
    - rewrite Rsum_to_add, Rsum_to_scal. unfold t. field. lra.
    - intros j Lj. rewrite Uv by exact Lj. field. lra. }
  destruct (IH B' D' (fun i => b i - B i n * b n / B n n)) as [w W].
  set (t := (b n - Rsum_to n (fun j => B n j * w j)) / B n n). exists (fun i => if Nat.eqb i n then t else w i).
  assert (Sm : forall i, Rsum_to (S n) (fun j => B i j * (if Nat.eqb j n then t else w j)) = Rsum_to n (fun j => B i j * w j) + B i n * t).
  { intros i. rewrite Rsum_to_S, Nat.eqb_refl. f_equal. apply Rsum_to_ext. intros j Lj. destruct (Nat.eqb_spec j n); [lia|reflexivity]. }
  intros i Li. rewrite Sm. destruct (Nat.eq_dec i n) as [->|Ne]; [unfold t; field; lra|].
  assert (Li' : (i < n)%nat) by lia. pose proof (W i Li') as H. unfold B' in H.
  rewrite (Rsum_to_ext n _ (fun j => B i j * w j + (- B i n / B n n) * (B n j * w j))) in H by (intros; field; lra). rewrite Rsum_to_add, Rsum_to_scal in H.
  unfold t. replace (Rsum_to n (fun j => B i j * w j)) with (b i - B i n * b n / B n n - - B i n / B n n * Rsum_to n (fun j => B n j * w j)) by lra. field. lra.
Qed.
Lemma kalman_solvable E s n (P : nat -> nat -> R) u b : positive_semidefinite n P -> u <> 0 -> (forall e, (e < E)%nat -> (s e < n)%nat) -> exists w, solves_kalman E P s (observation_covariance (N := RNum) u) w b.
Proof.
  intros HP U Hs. assert (U2 : 0 < u * u) by nra.
  destruct (definite_solvable E (fun e f => P (s e) (s f) + observation_covariance (N := RNum) u e f)) with (b := b) as [w W].
  - intros v [i [Li Vi]]. rewrite quadratic_rows. rewrite (Rsum_to_ext E _ (fun e => v e * Rsum_to E (fun f => P (s e) (s f) * v f) + u * u * (v e * v e))).
    + rewrite Rsum_to_add, Rsum_to_scal, (quad_obs E s n P v Hs). pose proof (HP (apply (N := RNum) E (transpose (N := RNum) (calc_H (N := RNum) (obs E s))) v)) as H.
      destruct (Rle_lt_dec (Rsum_to E (fun e => v e * v e)) 0) as [Z|Z]; [exfalso; apply Vi; exact (squares_zero E v Z i Li)|]. assert (0 < u * u * Rsum_to E (fun e => v e * v e)) by (apply Rmult_lt_0_compat; assumption). lra.
    + intros e Le. rewrite (Rsum_to_ext E _ (fun f => P (s e) (s f) * v f + observation_covariance (N := RNum) u e f * v f)) by (intros; ring). rewrite Rsum_to_add, (obs_cov_apply E u v e Le). ring.
  - exists w. intros e Le. rewrite <- (W e Le), <- Rsum_to_add. apply Rsum_to_ext. intros. ring.
Qed.

Lemma Rsum_to_le n f g : (forall i, (i < n)%nat -> f i <= g i) -> Rsum_to n f <= Rsum_to n g.
Proof. intros H. enough (0 <= Rsum_to n g - Rsum_to n f) by lra. rewrite <- Rsum_to_minus. apply Rsum_to_nonneg. intros i L. specialize (H i L). lra. Qed.
(** Members by index. *)
Definition mem (ens : list (nat -> R)) (m : nat) : nat -> R := nth m ens (fun _ => 0).
Lemma mem_in ens m : (m < List.length ens)%nat -> In (mem ens m) ens. Proof. intros H. apply nth_In. exact H. Qed.
Lemma mem_of ens x : In x ens -> exists m, (m < List.length ens)%nat /\ mem ens m = x. Proof. intros H. exact (In_nth ens x (fun _ => 0) H). Qed.
Lemma mem_nth ens m : (m < List.length ens)%nat -> nth_error ens m = Some (mem ens m). Proof. intros H. apply nth_error_nth'. exact H. Qed.
Lemma sample_mean_av ens i : sample_mean ens i = av (List.length ens) (fun m => mem ens m i).
Proof. unfold sample_mean, av. rewrite (Rsum_nth (fun x : nat -> R => x i) ens (fun _ => 0)). reflexivity. Qed.
Lemma cov_cv ens i j : unbiased_covariance ens i j = cv (List.length ens) (mem ens) i j.
Proof. unfold unbiased_covariance, cv. rewrite (Rsum_nth _ ens (fun _ => 0)), !sample_mean_av. reflexivity. Qed.
Lemma average_av n v ens : average (map (along n v) ens) = av (List.length ens) (val n v (mem ens)).
Proof. unfold average, av. rewrite map_length, (Rsum_nth (along n v) ens (fun _ => 0)). reflexivity. Qed.
Lemma variance_val n v ens : sample_variance (map (along n v) ens) = Rsum_to (List.length ens) (fun m => Rsqr (val n v (mem ens) m - av (List.length ens) (val n v (mem ens)))) / (INR (List.length ens) - 1).
Proof. unfold sample_variance. rewrite average_av, map_length, map_map, (Rsum_nth _ ens (fun _ => 0)). reflexivity. Qed.
(** What [analysed] means. *)
Definition innov (u : R) (data : list R) (s : nat -> nat) (draws : nat -> R) (k m : nat) (x : nat -> R) : nat -> R :=
  perturbed_innovation (N := RNum) (obs (List.length data) s) (fun i => nth i data 0) (observation_covariance (N := RNum) u) draws (List.length data) k m x.
Lemma innov_value u data s draws k m x e : (e < List.length data)%nat -> innov u data s draws k m x e = perturbation u draws (List.length data) k m e + (nth e data 0 - x (s e)).
Proof.
  intros L. unfold innov. etransitivity; [exact (innovation_ok (N := RNum) (List.length data) s (fun i => nth i data 0) (observation_covariance (N := RNum) u) draws k m x e L)|].
  unfold perturbation. replace (observation_covariance (N := RNum) u e e) with (u * u); [reflexivity|]. unfold observation_covariance. rewrite Nat.eqb_refl. reflexivity.
Qed.
Lemma analysed_form fn cutoff pos owned hits sim par u data s draws k solve ens ens' :
  observed cutoff pos owned hits sim data s ens -> analysed fn cutoff pos owned hits sim par u data s draws k solve ens ens' ->
  List.length ens' = List.length ens /\
  forall m i, (m < List.length ens)%nat -> (i < sim + par)%nat -> mem ens' m i = mem ens m i + Rsum_to (List.length data) (fun e => localized_covariance fn cutoff pos sim ens i (s e) * solve (innov u data s draws k m (mem ens m)) e).
Proof.
  intros [L2 [C0 [HQ [HO Hs]]]] [m0 [m' [pat [E1 E2]]]].
  destruct (assimilate_ok fn cutoff pos owned hits sim par m0 ens (observation_covariance (N := RNum) u) data s draws k solve) as [m2 [pat2 [F1 [ens2 [F2 [F3 F4]]]]]]; try assumption; [intros ->; simpl in L2; lia|].
  rewrite E1 in F1. injection F1 as <- <-. rewrite E2 in F2. injection F2 as <-. split; [exact F3|]. intros m i Lm Li.
  destruct (F4 m (mem ens m) (mem_nth ens m Lm)) as [x' [G1 G2]]. assert (mem ens' m = x') as -> by (unfold mem; apply nth_error_nth; exact G1). exact (G2 i Li).
Qed.
Lemma analysis_exists fn cutoff pos owned hits sim par u data s draws k solve ens : observed cutoff pos owned hits sim data s ens -> exists ens', analysed fn cutoff pos owned hits sim par u data s draws k solve ens ens'.
Proof.
  intros [L2 [C0 [HQ [HO Hs]]]]. destruct (assimilate_ok fn cutoff pos owned hits sim par [] ens (observation_covariance (N := RNum) u) data s draws k solve) as [m2 [pat2 [F1 [ens2 [F2 [F3 F4]]]]]]; try assumption; [intros ->; simpl in L2; lia|].
  exists ens2, [], m2, pat2. split; assumption.
Qed.
Section Analysis.
  Variables (fn : cutoff_function) (cutoff : R) (pos : nat -> pt RNum) (owned : list (list nat)) (hits : list (list (list (nat * nat)))) (sim par : nat) (u : R) (data : list R) (s : nat -> nat) (draws : nat -> R) (k : nat) (solve : (nat -> R) -> nat -> R) (ens ens' : list (nat -> R)).
  Local Notation n := (sim + par)%nat. Local Notation E := (List.length data). Local Notation M := (List.length ens). Local Notation P := (localized_covariance fn cutoff pos sim ens).
  Local Notation Ro := (observation_covariance (N := RNum) u). Local Notation eta := (perturbation u draws E k). Local Notation w := (fun m => solve (innov u data s draws k m (mem ens m))).
  Hypothesis ob : observed cutoff pos owned hits sim data s ens.
  Hypothesis an : analysed fn cutoff pos owned hits sim par u data s draws k solve ens ens'.
  Lemma two : (2 <= M)%nat. Proof. exact (proj1 ob). Qed.
  Lemma ne : ens <> []. Proof. pose proof two as H. intros ->. simpl in H. lia. Qed.
  Lemma obs_n e : (e < E)%nat -> (s e < n)%nat. Proof. intros L. pose proof (proj2 (proj2 (proj2 (proj2 ob))) e L). lia. Qed.
  Lemma len' : List.length ens' = M. Proof. exact (proj1 (analysed_form _ _ _ _ _ _ _ _ _ _ _ _ _ _ _ ob an)). Qed.
  Lemma upd : forall m i, (m < M)%nat -> (i < n)%nat -> mem ens' m i = mem ens m i + Rsum_to E (fun e => P i (s e) * w m e).
  Proof. exact (proj2 (analysed_form _ _ _ _ _ _ _ _ _ _ _ _ _ _ _ ob an)). Qed.
  Lemma symP i j : P i j = P j i. Proof. exact (proj1 (localized_shape fn cutoff pos sim ens (proj1 (proj2 ob)) two) i j). Qed.
  Lemma symR i j : (i < E)%nat -> (j < E)%nat -> Ro i j = Ro j i. Proof. intros _ _. unfold observation_covariance. rewrite Nat.eqb_sym. reflexivity. Qed.
  Lemma agreed i a : (i < n)%nat -> (forall x, In x ens -> x i = a) -> forall x', In x' ens' -> x' i = a.
  Proof.
    intros Li H x' I. apply mem_of in I as [m [Lm <-]]. rewrite len' in Lm. rewrite (upd m i Lm Li), (H _ (mem_in ens m Lm)). rewrite Rsum_to_zero; [ring|]. intros e Le.
    destruct (proj1 (proj2 (proj2 (localized_shape fn cutoff pos sim ens (proj1 (proj2 ob)) two))) i (s e)) as [t [_ ->]]. rewrite (cov_identical ens i (s e) a ne H). ring.
  Qed.
  Section Exact.
    Hypothesis ex : exact_solver E P s u solve.
    Lemma sol m e : (m < M)%nat -> (e < E)%nat -> Rsum_to E (fun f => P (s e) (s f) * w m f) + Rsum_to E (fun f => Ro e f * w m f) = eta m e + (nth e data 0 - mem ens m (s e)).
    Proof. intros Lm Le. rewrite <- innov_value by exact Le. exact (ex (innov u data s draws k m (mem ens m)) e Le). Qed.
    Lemma mean_ok : exists wb, solves_kalman E P s Ro wb (fun e => mean_perturbation u draws E k M e + (nth e data 0 - sample_mean ens (s e))) /\
      forall i, (i < n)%nat -> sample_mean ens' i = sample_mean ens i + Rsum_to E (fun e => P i (s e) * wb e).
    Proof.
      exists (wbar M w). split.
      - intros e Le. rewrite (mean_solves E M s (mem ens) (fun e => nth e data 0) eta w P Ro two sol e Le). rewrite sample_mean_av. reflexivity.
      - intros i Li. rewrite !sample_mean_av, len'. exact (mean_update n E M s (mem ens) (mem ens') w P upd i Li).
    Qed.
    Lemma deviation_ok v c : solves_kalman E P s Ro c (fun e => Rsum_to n (fun i => v i * P i (s e))) -> forall m x x', nth_error ens m = Some x -> nth_error ens' m = Some x' ->
      along n v x' - average (map (along n v) ens') = along n v x - average (map (along n v) ens) +
        Rsum_to E (fun e => c e * ((eta m e - mean_perturbation u draws E k M e) - (x (s e) - sample_mean ens (s e)))).
    Proof.
      intros Hc m x x' X1 X2. assert (Lm : (m < M)%nat) by (apply nth_error_Some; congruence). rewrite <- (nth_error_nth ens m (fun _ => 0) X1), <- (nth_error_nth ens' m (fun _ => 0) X2). change (nth m ?l (fun _ => 0)) with (mem l m).
      rewrite !average_av, len'. rewrite (Rsum_to_ext E _ (fun e => c e * (dn M eta m e - A M s (mem ens) e m))).
      - exact (dev_update n E M s (mem ens) (mem ens') (fun e => nth e data 0) eta w P Ro two upd sol symP symR v c Hc m Lm).
      - intros e _. unfold A. rewrite sample_mean_av. reflexivity.
    Qed.
  End Exact.
End Analysis.
Section Wide.
  Variables (cutoff : R) (pos : nat -> pt RNum) (owned : list (list nat)) (hits : list (list (list (nat * nat)))) (sim par : nat) (u : R) (data : list R) (s : nat -> nat) (draws : nat -> R) (k : nat) (solve : (nat -> R) -> nat -> R) (ens ens' : list (nat -> R)).
  Local Notation n := (sim + par)%nat. Local Notation E := (List.length data). Local Notation M := (List.length ens). Local Notation P := (localized_covariance no_cutoff cutoff pos sim ens).
  Local Notation Ro := (observation_covariance (N := RNum) u). Local Notation eta := (perturbation u draws E k). Local Notation w := (fun m => solve (innov u data s draws k m (mem ens m))).
  Hypothesis ob : observed cutoff pos owned hits sim data s ens.
  Hypothesis an : analysed no_cutoff cutoff pos owned hits sim par u data s draws k solve ens ens'.
  Hypothesis wd : wide cutoff pos sim.
  Lemma Pw i j : P i j = unbiased_covariance ens i j. Proof. exact (proj1 (wide_cutoff cutoff pos sim ens (proj1 ob) wd) i j). Qed.
  Lemma Pcv i j : P i j = cv M (mem ens) i j. Proof. rewrite Pw. apply cov_cv. Qed.
  Lemma Ppsd m : positive_semidefinite m P. Proof. exact (proj2 (wide_cutoff cutoff pos sim ens (proj1 ob) wd) m). Qed.
  Lemma span v a : (forall x, In x ens -> along n v x = a) -> forall x', In x' ens' -> along n v x' = a.
  Proof.
    intros H x' I. apply mem_of in I as [m [Lm <-]]. rewrite (len' _ _ _ _ _ _ _ _ _ _ _ _ _ _ _ ob an) in Lm.
    pose proof (val_update n E M s (mem ens) (mem ens') w P (upd _ _ _ _ _ _ _ _ _ _ _ _ _ _ _ ob an) v m Lm) as V. unfold val in V. rewrite V, (H _ (mem_in ens m Lm)). rewrite Rsum_to_zero; [ring|]. intros e _.
    rewrite (gv_cov n M s (mem ens) P v Pcv e). assert (Z : forall m, (m < M)%nat -> val n v (mem ens) m = a) by (intros m' L'; apply H, mem_in, L').
    rewrite Rsum_to_zero; [unfold Rdiv; ring|]. intros m' L'. rewrite (Z m' L'). rewrite (av_ext M (val n v (mem ens)) (fun _ => a) Z), (av_const M (two _ _ _ _ _ _ _ _ ob)). ring.
  Qed.
  Section Exact.
    Hypothesis ex : exact_solver E P s u solve.
    Lemma closer : Rsum_to E (fun e => Rsqr (nth e data 0 + mean_perturbation u draws E k M e - sample_mean ens' (s e))) <= Rsum_to E (fun e => Rsqr (nth e data 0 + mean_perturbation u draws E k M e - sample_mean ens (s e))).
    Proof.
      destruct (mean_ok _ _ _ _ _ _ _ _ _ _ _ _ _ _ _ ob an ex) as [wb [W1 W2]].
      pose proof (residual_smaller E s n P u wb _ (Ppsd n) (obs_n _ _ _ _ _ par _ _ _ ob) W1) as H.
      rewrite (Rsum_to_ext E _ (fun e => (u * u * wb e) * (u * u * wb e))).
      - eapply Rle_trans; [exact H|]. apply Req_le. apply Rsum_to_ext. intros e _. unfold Rsqr. ring.
      - intros e Le. pose proof (residual_ok E s P Ro wb _ (sample_mean ens) (sample_mean ens') W1 (fun e L => W2 (s e) (obs_n _ _ _ _ _ par _ _ _ ob e L)) e Le) as R1. rewrite (obs_cov_apply E u wb e Le) in R1. rewrite <- R1. unfold Rsqr. ring.
    Qed.
    Lemma kalman_ok v c : ideal_perturbations n u draws E k ens -> solves_kalman E P s Ro c (fun e => Rsum_to n (fun i => v i * P i (s e))) ->
      sample_variance (map (along n v) ens') = sample_variance (map (along n v) ens) - Rsum_to E (fun e => c e * Rsum_to n (fun i => v i * P i (s e))).
    Proof.
      intros [I1 I2] Hc. rewrite !variance_val, (len' _ _ _ _ _ _ _ _ _ _ _ _ _ _ _ ob an).
      apply (variance_ideal n E M s (mem ens) (mem ens') (fun e => nth e data 0) eta w P Ro (proj1 ob) (obs_n _ _ _ _ _ par _ _ _ ob) (upd _ _ _ _ _ _ _ _ _ _ _ _ _ _ _ ob an) (sol _ _ _ _ _ _ _ _ _ _ _ ex) (symP _ _ _ _ _ _ _ _ _ ob) (symR u data) v c Hc Pcv).
      - exact I1.
      - intros e i Le Li. rewrite <- sample_mean_av. exact (I2 e i Le Li).
    Qed.
    Hypothesis same : same_perturbations u draws E k M.
    Lemma dn_zero m e : (m < M)%nat -> (e < E)%nat -> dn M eta m e = 0.
    Proof. intros Lm Le. unfold dn. rewrite (av_ext M _ (fun _ => eta m e)) by (intros m' L'; apply same; assumption). rewrite (av_const M (proj1 ob)). ring. Qed.
    Lemma same_variance v c : solves_kalman E P s Ro c (fun e => Rsum_to n (fun i => v i * P i (s e))) ->
      sample_variance (map (along n v) ens') = sample_variance (map (along n v) ens) - Pcc E s P c - 2 * Rcc E Ro c.
    Proof.
      intros Hc. rewrite !variance_val, (len' _ _ _ _ _ _ _ _ _ _ _ _ _ _ _ ob an).
      exact (variance_update n E M s (mem ens) (mem ens') (fun e => nth e data 0) eta w P Ro (proj1 ob) (upd _ _ _ _ _ _ _ _ _ _ _ _ _ _ _ ob an) (sol _ _ _ _ _ _ _ _ _ _ _ ex) (symP _ _ _ _ _ _ _ _ _ ob) (symR u data) v c Hc Pcv dn_zero).
    Qed.
    Lemma Rcc_value c : Rcc E Ro c = u * u * Rsum_to E (fun e => c e * c e).
    Proof. unfold Rcc. rewrite <- Rsum_to_scal. apply Rsum_to_ext. intros e Le. rewrite (obs_cov_apply E u c e Le). ring. Qed.
    Lemma spread v : u <> 0 -> sample_variance (map (along n v) ens') <= sample_variance (map (along n v) ens).
    Proof.
      intros U. destruct (kalman_solvable E s n P u (fun e => Rsum_to n (fun i => v i * P i (s e))) (Ppsd n) U (obs_n _ _ _ _ _ par _ _ _ ob)) as [c Hc].
      rewrite (same_variance v c Hc), Rcc_value. assert (0 <= Pcc E s P c).
      { unfold Pcc. rewrite (quad_obs E s n P c (obs_n _ _ _ _ _ par _ _ _ ob)). apply Ppsd. }
      assert (0 <= Rsum_to E (fun e => c e * c e)) by (apply Rsum_to_nonneg; intros; nra). nra.
    Qed.
    Lemma observed_spread e0 : u <> 0 -> (e0 < E)%nat -> sample_variance (map (fun x => x (s e0)) ens') <= u * u / 4.
    Proof.
      intros U L0. set (v := fun i => ind (Nat.eqb (s e0) i)). pose proof (obs_n _ _ _ _ _ par _ _ _ ob e0 L0) as Ln.
      assert (Hv : forall x, along n v x = x (s e0)) by (intros x; unfold along, v; apply Rsum_pick; exact Ln).
      rewrite (map_ext _ (along n v)) by (intros x; symmetry; apply Hv).
      destruct (kalman_solvable E s n P u (fun e => Rsum_to n (fun i => v i * P i (s e))) (Ppsd n) U (obs_n _ _ _ _ _ par _ _ _ ob)) as [c Hc].
      assert (G : forall e, Rsum_to n (fun i => v i * P i (s e)) = P (s e0) (s e)) by (intros e; unfold v; apply (Rsum_pick n (s e0) (fun i => P i (s e)) Ln)).
      assert (V : sample_variance (map (along n v) ens) = P (s e0) (s e0)).
      { rewrite variance_val, Pcv. unfold cv. f_equal. apply Rsum_to_ext. intros m Lm. unfold Rsqr, val. rewrite (Hv (mem ens m)), (av_ext M (fun m => along n v (mem ens m)) (fun m => mem ens m (s e0))) by (intros; apply Hv). reflexivity. }
      rewrite (same_variance v c Hc), V, Rcc_value. 
      assert (C1 : forall e, (e < E)%nat -> Rsum_to E (fun f => P (s e) (s f) * c f) = P (s e0) (s e) - u * u * c e).
      { intros e Le. pose proof (Hc e Le) as H. rewrite (obs_cov_apply E u c e Le), G in H. lra. }
      assert (C2 : Pcc E s P c = P (s e0) (s e0) - u * u * c e0 - u * u * Rsum_to E (fun e => c e * c e)).
      { unfold Pcc. rewrite (Rsum_to_ext E _ (fun e => P (s e0) (s e) * c e - u * u * (c e * c e))) by (intros e Le; rewrite (C1 e Le); ring). rewrite Rsum_to_minus, Rsum_to_scal, (C1 e0 L0). reflexivity. }
      rewrite C2. assert (C3 : c e0 * c e0 <= Rsum_to E (fun e => c e * c e)).
      { rewrite <- (Rsum_pick E e0 (fun e => c e * c e) L0). apply Rsum_to_le. intros e _. unfold ind. destruct (Nat.eqb e0 e); nra. }
      set (Sc := Rsum_to E (fun e => c e * c e)) in *. assert (C4 : c e0 - Sc <= / 4) by (pose proof (Rle_0_sqr (c e0 - / 2)) as Q; unfold Rsqr in Q; lra).
      assert (U2 : 0 <= u * u) by nra. pose proof (Rmult_le_compat_l _ _ _ U2 C4) as C5. lra.
    Qed.
  End Exact.
End Wide.
