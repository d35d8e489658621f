(** StabilityProofs3.v -- contraction of every scheme below its limit, runs of any number of steps, modes. *)
From Coq Require Import Reals List Bool String ZArith Lra Lia.
From Verif Require Import Base MaterialModel MaterialSpec InputModel HeatModel HeatSpec MaterialProofs MaterialProofs2 HeatProofs HeatProofs2 HeatProofs3 HeatProofs4 HeatProofs5 HeatProofs7
  StabilitySpec StabilityProofs StabilityProofs2.
Import ListNotations.
Open Scope R_scope.

Section Moments.
  (** Moments of a measure on the interval from 0 to [l]. *)
  Variables (b : nat -> R).
  Definition form (d0 d1 d2 d3 : R) (k : nat) : R := d0 * (d0 * b k + d1 * b (1 + k)%nat + d2 * b (2 + k)%nat + d3 * b (3 + k)%nat) + d1 * (d0 * b (1 + k)%nat + d1 * b (2 + k)%nat + d2 * b (3 + k)%nat + d3 * b (4 + k)%nat)
    + d2 * (d0 * b (2 + k)%nat + d1 * b (3 + k)%nat + d2 * b (4 + k)%nat + d3 * b (5 + k)%nat) + d3 * (d0 * b (3 + k)%nat + d1 * b (4 + k)%nat + d2 * b (5 + k)%nat + d3 * b (6 + k)%nat).
  Definition after (s : scheme) : R :=
    let d0 := 1 in let d1 := -1 in let d2 := c2 s in let d3 := c3 s in let d4 := c4 s in
    d0 * (d0 * b 0%nat + d1 * b 1%nat + d2 * b 2%nat + d3 * b 3%nat + d4 * b 4%nat) + d1 * (d0 * b 1%nat + d1 * b 2%nat + d2 * b 3%nat + d3 * b 4%nat + d4 * b 5%nat)
    + d2 * (d0 * b 2%nat + d1 * b 3%nat + d2 * b 4%nat + d3 * b 5%nat + d4 * b 6%nat) + d3 * (d0 * b 3%nat + d1 * b 4%nat + d2 * b 5%nat + d3 * b 6%nat + d4 * b 7%nat)
    + d4 * (d0 * b 4%nat + d1 * b 5%nat + d2 * b 6%nat + d3 * b 7%nat + d4 * b 8%nat).
  Lemma contraction s : (forall d0 d1 d2 d3, 0 <= form d0 d1 d2 d3 1) -> (forall d0 d1 d2 d3, 0 <= limit s * form d0 d1 d2 d3 1 - form d0 d1 d2 d3 2) ->
    after s <= b 0%nat - 1/100 * b 1%nat.
  Proof.
    intros N1 N2. unfold after, form, limit in *. cbn [Nat.add] in *. destruct s; cbn [c2 c3 c4]; cbv zeta.
    - pose proof (N2 1 0 0 0). lra.
    - pose proof (N2 (3/8) (-7/4) 1 0). pose proof (N2 (-3/2) 1 0 0). pose proof (N2 (-1/4) 1 0 0). pose proof (N2 1 0 0 0). pose proof (N1 (-3/2) 1 0 0). pose proof (N1 1 0 0 0). lra.
    - pose proof (N2 0 (5/4) (-21/8) 1). pose proof (N2 (15/16) (-17/8) 1 0). pose proof (N2 (-5/8) 1 0 0). pose proof (N2 0 (-2) 1 0). pose proof (N2 (-3/2) 1 0 0). pose proof (N2 1 0 0 0).
      pose proof (N1 0 (-2) 1 0). pose proof (N1 (-3/2) 1 0 0). pose proof (N1 1 0 0 0). lra.
  Qed.
End Moments.

Section Step.
  Variables (dim3 ad : bool) (m : heat_mesh RNum) (P : frozen) (Q : frozen_faces) (K : laws RNum) (F : face_laws RNum) (Tinf : R).
  Hypotheses (Mok : mesh_ok m) (M : massive m) (St : steady K P F Q).
  Local Notation f := (fun (_ : nat) (_ : R) v => evaluate (N := RNum) dim3 false ad m K F v).
  Lemma limit_pos s : 0 < limit s. Proof. destruct s; cbn; lra. Qed.
  Lemma step_contracts s t dt lam (y : list R) : cooled dim3 ad m P Q Tinf -> rate_at_most dim3 ad m P Q lam -> 0 <= dt -> dt * lam <= limit s -> List.length y = m_n m ->
    size2 m (deviation Tinf (step s f t dt y)) <= size2 m (deviation Tinf y) - 1/100 * (dt * exchange dim3 ad m P Q (deviation Tinf y) (deviation Tinf y)).
  Proof.
    intros Co Most D0 DL L. set (e := deviation Tinf y).
    pose proof (dev_step dim3 ad m P Q Mok dt K F Tinf e St (proj2 Co) s t y (dev_start dim3 ad m P Q dt Tinf e y L (fun _ _ => eq_refl))) as [_ D].
    set (b := mom dim3 ad m P Q dt e).
    pose proof (contraction b s (fun d0 d1 d2 d3 => N1 dim3 ad m P Q Mok M dt Tinf e Co D0 d0 d1 d2 d3)
      (fun d0 d1 d2 d3 => N2 dim3 ad m P Q Mok M dt Tinf e Co lam (limit s) Most D0 DL (limit_pos s) d0 d1 d2 d3)) as H.
    assert (E0 : b 0%nat = size2 m e) by reflexivity.
    assert (E1 : b 1%nat = dt * exchange dim3 ad m P Q e e) by (unfold b, mom; cbn [pw]; apply X_tested; assumption).
    assert (E2 : size2 m (deviation Tinf (step s f t dt y)) = after b s).
    { unfold size2. rewrite (mass_product_free m Mok _ (poly dim3 ad m P Q dt e 1 (-1) (c2 s) (c3 s) (c4 s)) _ (poly dim3 ad m P Q dt e 1 (-1) (c2 s) (c3 s) (c4 s))) by (intros j Fr; split; apply D; exact Fr).
      rewrite B_poly2 by assumption. reflexivity. }
    rewrite E2, <- E0, <- E1. exact H.
  Qed.
End Step.

(** Runs. *)
Lemma size2_free m u v : mesh_ok m -> (forall k, free m k -> u k = v k) -> size2 m u = size2 m v.
Proof. intros Mok H. unfold size2. apply mass_product_free; [exact Mok|]. intros j Fr. split; apply H; exact Fr. Qed.
Lemma integral_lin (C : constraints RNum) cells (u v : nat -> R) a : integral C cells (fun k => u k + a * v k) = integral C cells u + a * integral C cells v.
Proof.
  unfold integral. rewrite <- Sum_scal, <- Sum_plus. apply Sum_ext. intros c _. rewrite <- Sum_scal, <- Sum_plus. apply Sum_ext. intros q _. rewrite field_lin. cbn [num RNum]. ring.
Qed.
Lemma integral_deviation m Tinf (y : list R) : integral (m_C m) (m_mass m) (deviation Tinf y) = integral (m_C m) (m_mass m) (entry y) - Tinf * integral (m_C m) (m_mass m) (fun _ => 1).
Proof.
  assert (E : integral (m_C m) (m_mass m) (entry y) = integral (m_C m) (m_mass m) (fun k => deviation Tinf y k + Tinf * (fun _ : nat => 1) k)).
  { unfold integral. apply Sum_ext. intros c _. apply Sum_ext. intros q _. f_equal. unfold field. apply Sum_ext. intros p _. f_equal. unfold nodal. destruct (find _ _); [|unfold deviation; ring].
    apply Sum_ext. intros w _. unfold deviation. cbn [num RNum]. ring. }
  rewrite E, integral_lin. ring.
Qed.
Lemma run_cools dim3 ad s m Tinf mu t y t2 y2 : mesh_ok m -> massive m -> List.length y = m_n m -> cooling_run dim3 ad s m Tinf mu t y t2 y2 ->
  List.length y2 = m_n m /\ t <= t2 /\ size2 m (deviation Tinf y2) <= size2 m (deviation Tinf y).
Proof.
  intros Mok M L H. revert L. induction H as [t y|t y y' t2 y2 L' E _ IH|t dt y t1 y1 t2 y2 K F P Q lam St Co Mo Le D0 DL E _ IH]; intros L; [repeat split; [exact L|lra|lra]| |].
  - destruct IH as [A [B C]]; [congruence|]. split; [exact A|]. split; [exact B|]. rewrite (size2_free m (deviation Tinf y) (deviation Tinf y') Mok); [exact C|].
    intros k Fr. unfold deviation. rewrite E by exact Fr. reflexivity.
  - destruct (evolve_parts s _ t dt y t1 y1 E) as [T1 Y1].
    assert (L1 : List.length y1 = m_n m). { rewrite Y1. apply (step_length (m_n m)); [|exact L]. intros. apply (rate_length dim3 false ad m K F). }
    destruct (IH L1) as [A [B C]]. split; [exact A|]. split; [lra|].
    assert (H1 : size2 m (deviation Tinf y1) <= size2 m (deviation Tinf y) - 1/100 * (dt * exchange dim3 ad m P Q (deviation Tinf y) (deviation Tinf y)))
      by (rewrite Y1; exact (step_contracts dim3 ad m P Q K F Tinf Mok M St s t dt lam y Co Mo D0 DL L)).
    pose proof (ex_nonneg dim3 ad m P Q Tinf (deviation Tinf y) Co) as H2.
    assert (0 <= dt * exchange dim3 ad m P Q (deviation Tinf y) (deviation Tinf y)) by (apply Rmult_le_pos; assumption). lra.
Qed.
Lemma run_decays dim3 ad s m Tinf mu t y t2 y2 : mesh_ok m -> massive m -> List.length y = m_n m -> cooling_run dim3 ad s m Tinf mu t y t2 y2 ->
  0 <= mu -> (ad = true -> integral (m_C m) (m_mass m) (deviation Tinf y) = 0) ->
  size2 m (deviation Tinf y2) <= exp (- (mu * (t2 - t) / 100)) * size2 m (deviation Tinf y).
Proof.
  intros Mok M L H Mu. revert L. induction H as [t y|t y y' t2 y2 L' E _ IH|t dt y t1 y1 t2 y2 K F P Q lam St Co Mo Le D0 DL E _ IH]; intros L Z.
  - replace (- (mu * (t - t) / 100)) with 0 by field. rewrite exp_0. lra.
  - rewrite (size2_free m (deviation Tinf y) (deviation Tinf y') Mok) by (intros k Fr; unfold deviation; rewrite E by exact Fr; reflexivity).
    apply IH; [congruence|]. intros Ad. rewrite <- (Z Ad). apply (integral_ext (m_n m) (m_C m) (m_mass m) _ _ (m_C_ok m Mok) (m_mass_ok m Mok)). intros k Lk N. unfold deviation. rewrite E; [reflexivity|split; assumption].
  - destruct (evolve_parts s _ t dt y t1 y1 E) as [T1 Y1].
    assert (L1 : List.length y1 = m_n m). { rewrite Y1. apply (step_length (m_n m)); [|exact L]. intros. apply (rate_length dim3 false ad m K F). }
    assert (Z1 : ad = true -> integral (m_C m) (m_mass m) (deviation Tinf y1) = 0).
    { intros Ad. rewrite <- (Z Ad), !integral_deviation. f_equal. subst ad.
      pose proof (step_conserved dim3 m (fun _ _ => K) (fun _ _ => F) s t dt y Mok M L) as S1. rewrite evolve_step in S1. cbn [snd] in S1. rewrite Y1. exact S1. }
    specialize (IH L1 Z1).
    assert (H1 : size2 m (deviation Tinf y1) <= size2 m (deviation Tinf y) - 1/100 * (dt * exchange dim3 ad m P Q (deviation Tinf y) (deviation Tinf y)))
      by (rewrite Y1; exact (step_contracts dim3 ad m P Q K F Tinf Mok M St s t dt lam y Co Mo D0 DL L)).
    pose proof (Le (deviation Tinf y) Z) as H2. set (b := size2 m (deviation Tinf y)) in *. set (b1 := size2 m (deviation Tinf y1)) in *.
    assert (B0 : 0 <= b) by (apply mass_nonneg; assumption).
    assert (H3 : dt * (mu * b) <= dt * exchange dim3 ad m P Q (deviation Tinf y) (deviation Tinf y)) by (apply Rmult_le_compat_l; assumption).
    assert (H4 : 1 - mu * dt / 100 <= exp (- (mu * dt / 100))) by (pose proof (exp_ineq1_le (- (mu * dt / 100))); lra).
    assert (H5 : b1 <= exp (- (mu * dt / 100)) * b).
    { apply Rle_trans with ((1 - mu * dt / 100) * b); [lra|]. apply Rmult_le_compat_r; assumption. }
    replace (- (mu * (t2 - t) / 100)) with (- (mu * (t2 - t1) / 100) + - (mu * dt / 100)) by (rewrite T1; field). rewrite exp_plus, Rmult_assoc.
    eapply Rle_trans; [exact IH|]. apply Rmult_le_compat_l; [left; apply exp_pos|exact H5].
Qed.
(** Every node stays close to the ambient temperature. *)
Lemma node_size m z j : mesh_ok m -> massive m -> free m j -> nodal_mass m j * (z j * z j) <= size2 m z.
Proof.
  intros Mok M [L N]. unfold size2, mass_product. replace (seq 0 (m_n m)) with (seq 0 j ++ j :: seq (S j) (m_n m - S j)).
  - rewrite Sum_app, Sum_cons. assert (A : forall l, (forall k, In k l -> (k < m_n m)%nat) -> 0 <= Sum l (fun k => nodal_mass m k * (z k * z k))).
    { intros l H. apply Sum_nonneg. intros k I. destruct (in_dec Nat.eq_dec k (map fst (m_C m))) as [J|J]; [rewrite (mass_constrained m Mok k J); lra|].
      pose proof (M k (conj (H k I) J)). apply Rmult_le_pos; [lra|apply Rle_0_sqr]. }
    assert (0 <= Sum (seq 0 j) (fun k => nodal_mass m k * (z k * z k))) by (apply A; intros k I; apply in_seq in I; lia).
    assert (0 <= Sum (seq (S j) (m_n m - S j)) (fun k => nodal_mass m k * (z k * z k))) by (apply A; intros k I; apply in_seq in I; lia). lra.
  - change (j :: seq (S j) (m_n m - S j)) with (seq j (S (m_n m - S j))). replace (seq j) with (seq (0 + j)) by reflexivity. rewrite <- seq_app. f_equal. lia.
Qed.
Lemma run_bounded dim3 ad s m Tinf mu t y t2 y2 j : mesh_ok m -> massive m -> List.length y = m_n m -> cooling_run dim3 ad s m Tinf mu t y t2 y2 -> free m j ->
  Rabs (entry y2 j - Tinf) <= sqrt (size2 m (deviation Tinf y) / nodal_mass m j).
Proof.
  intros Mok M L H Fr. destruct (run_cools _ _ _ _ _ _ _ _ _ _ Mok M L H) as [_ [_ H1]]. pose proof (node_size m (deviation Tinf y2) j Mok M Fr) as H2. pose proof (M j Fr) as Mj.
  rewrite <- sqrt_Rsqr_abs. apply sqrt_le_1_alt. unfold Rsqr. fold (deviation Tinf y2 j). apply Rmult_le_reg_l with (nodal_mass m j); [exact Mj|].
  replace (nodal_mass m j * (size2 m (deviation Tinf y) / nodal_mass m j)) with (size2 m (deviation Tinf y)) by (field; lra). lra.
Qed.

(** Modes. *)
Section Mode.
  Variables (dim3 ad : bool) (m : heat_mesh RNum) (P : frozen) (Q : frozen_faces) (K : laws RNum) (F : face_laws RNum) (Tinf lam dt : R).
  Hypotheses (Mok : mesh_ok m) (M : massive m) (St : steady K P F Q) (Air : ad = false -> aired m Q Tinf).
  Local Notation f := (fun (_ : nat) (_ : R) v => evaluate (N := RNum) dim3 false ad m K F v).
  Lemma mass_hat z j : (j < m_n m)%nat -> mass_product m z (hat j) = nodal_mass m j * z j.
  Proof.
    intros L. unfold mass_product. rewrite <- (sum_hat (fun j => nodal_mass m j * z j) j (m_n m) L). apply Sum_ext. intros k _. unfold hat. rewrite (Nat.eqb_sym j k). ring.
  Qed.
  Lemma mode_op z j : (forall u, exchange dim3 ad m P Q z u = lam * mass_product m z u) -> free m j -> opA dim3 ad m P Q z j = lam * z j.
  Proof. intros H Fr. unfold opA. rewrite H, mass_hat by exact (proj1 Fr). pose proof (M j Fr). field. lra. Qed.
  Lemma mode_pw z k j : (forall u, exchange dim3 ad m P Q z u = lam * mass_product m z u) -> free m j -> pw dim3 ad m P Q dt z k j = (lam * dt) ^ k * z j.
  Proof.
    intros H. revert j. induction k as [|k IH]; intros j Fr; [cbn; ring|]. cbn [pw]. unfold opX.
    rewrite (op_ext dim3 ad m P Q Mok (pw dim3 ad m P Q dt z k) (fun i => (fun _ => 0) i + (lam * dt) ^ k * z i) j) by (intros i Fi; rewrite IH by exact Fi; ring).
    rewrite op_lin, op_zero, mode_op by assumption. cbn [pow]. ring.
  Qed.
  Lemma taylor_c s x : taylor (order s) (- x) = 1 - x + c2 s * x ^ 2 + c3 s * x ^ 3 + c4 s * x ^ 4.
  Proof. destruct s; cbn [order taylor c2 c3 c4 fact Nat.mul Nat.add INR]; cbn [pow]; field. Qed.
  Lemma mode_step s t y : List.length y = m_n m -> (forall u, exchange dim3 ad m P Q (deviation Tinf y) u = lam * mass_product m (deviation Tinf y) u) ->
    forall j, free m j -> deviation Tinf (step s f t dt y) j = taylor (order s) (- (lam * dt)) * deviation Tinf y j.
  Proof.
    intros L H j Fr.
    pose proof (dev_step dim3 ad m P Q Mok dt K F Tinf (deviation Tinf y) St Air s t y (dev_start dim3 ad m P Q dt Tinf (deviation Tinf y) y L (fun _ _ => eq_refl))) as [_ D].
    rewrite (D j Fr). unfold poly. rewrite !mode_pw by assumption. rewrite taylor_c. ring.
  Qed.
  Lemma steps_length s n t y : List.length y = m_n m -> List.length (snd (many s f dt n (t, y))) = m_n m.
  Proof.
    intros L. induction n as [|n IH]; [exact L|]. cbn [many]. change (List.length (snd (evolveR s f (fst (many s f dt n (t, y))) dt (snd (many s f dt n (t, y))))) = m_n m). rewrite evolve_step. cbn [snd].
    apply (step_length (m_n m)); [|exact IH]. intros. apply (rate_length dim3 false ad m K F).
  Qed.
  Lemma mode_steps s n t y : List.length y = m_n m -> (forall u, exchange dim3 ad m P Q (deviation Tinf y) u = lam * mass_product m (deviation Tinf y) u) ->
    forall j, free m j -> deviation Tinf (snd (many s f dt n (t, y))) j = taylor (order s) (- (lam * dt)) ^ n * deviation Tinf y j.
  Proof.
    intros L H. induction n as [|n IH]; intros j Fr; [cbn; ring|]. cbn [many].
    change (deviation Tinf (snd (evolveR s f (fst (many s f dt n (t, y))) dt (snd (many s f dt n (t, y))))) j = taylor (order s) (- (lam * dt)) ^ S n * deviation Tinf y j). rewrite evolve_step. cbn [snd].
    set (yn := snd (many s f dt n (t, y))) in *. set (g := taylor (order s) (- (lam * dt))) in *.
    assert (Hn : forall u, exchange dim3 ad m P Q (deviation Tinf yn) u = lam * mass_product m (deviation Tinf yn) u).
    { intros u. rewrite (ex_ext dim3 ad m P Q (deviation Tinf yn) (fun i => (fun _ => 0) i + g ^ n * deviation Tinf y i) u Mok) by (intros i Fi; rewrite IH by exact Fi; ring).
      rewrite ex_lin, ex_zero, H by assumption.
      rewrite (mass_product_free m Mok (deviation Tinf yn) (fun i => (fun _ => 0) i + g ^ n * deviation Tinf y i) u u) by (intros i Fi; split; [rewrite IH by exact Fi; ring|reflexivity]).
      rewrite mass_product_plus, B_zero. ring. }
    rewrite (mode_step s _ yn (steps_length s n t y L) Hn j Fr). fold g. rewrite IH by exact Fr. cbn [pow]. ring.
  Qed.
End Mode.
