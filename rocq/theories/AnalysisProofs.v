(** AnalysisProofs.v -- mean and deviations after a Kalman update. *)
From Coq Require Import Reals ZArith Bool List Lia Lra.
From Verif Require Import Base AssimilationModel AssimilationSpec AssimilationProofs AssimilationProofs2 AssimilationProofs3 AssimilationProofs4 AnalysisSpec.
Import ListNotations.
Local Open Scope R_scope.

Lemma Rsum_to_0 n : Rsum_to n (fun _ => 0) = 0. Proof. apply Rsum_zero. Qed.
Lemma Rsum_to_zero n f : (forall i, (i < n)%nat -> f i = 0) -> Rsum_to n f = 0.
Proof. intros H. rewrite (Rsum_to_ext n f (fun _ => 0) H). apply Rsum_to_0. Qed.
Lemma Rsum_to_minus n f g : Rsum_to n (fun i => f i - g i) = Rsum_to n f - Rsum_to n g.
Proof. rewrite (Rsum_to_ext n _ (fun i => f i + -1 * g i)) by (intros; ring). rewrite Rsum_to_add, Rsum_to_scal. ring. Qed.
Lemma Rsum_to_swap n m (f : nat -> nat -> R) : Rsum_to n (fun i => Rsum_to m (fun j => f i j)) = Rsum_to m (fun j => Rsum_to n (fun i => f i j)).
Proof. apply Rsum_swap. Qed.
Lemma Rsum_to_const n c : Rsum_to n (fun _ => c) = INR n * c.
Proof.
  unfold Rsum_to. rewrite <- (seq_length n 0) at 2. generalize (seq 0 n). intros l. induction l as [|a l IH]; [simpl; ring|]. cbn [map Rsum fold_right List.length]. fold (Rsum (map (fun _ : nat => c) l)). rewrite IH, S_INR. ring.
Qed.
Lemma Rsum_to_div n c f : Rsum_to n (fun i => f i / c) = Rsum_to n f / c.
Proof. unfold Rdiv. rewrite (Rsum_to_ext n _ (fun i => / c * f i)) by (intros; ring). rewrite Rsum_to_scal. ring. Qed.
Lemma Rsum_to_nonneg n f : (forall i, (i < n)%nat -> 0 <= f i) -> 0 <= Rsum_to n f.
Proof. intros H. apply Rsum_nonneg. apply Forall_forall. intros y I. apply in_map_iff in I as [i [<- I]]. apply in_seq in I. apply H. lia. Qed.
Lemma Rsum_nth {A} (f : A -> R) (l : list A) d : Rsum (map f l) = Rsum_to (List.length l) (fun m => f (nth m l d)).
Proof.
  unfold Rsum_to. induction l as [|a l IH]; [reflexivity|]. cbn [List.length seq map Rsum fold_right nth]. fold (Rsum (map f l)). rewrite IH, <- seq_shift, map_map. reflexivity.
Qed.
Lemma Rsum_to_S n f : Rsum_to (S n) f = Rsum_to n f + f n.
Proof.
  unfold Rsum_to. rewrite seq_S, map_app. cbn [map]. generalize (map f (seq 0 n)). intros l. cbn [Nat.add]. induction l as [|a l IH]; [simpl; ring|]. cbn [List.app Rsum fold_right]. fold (Rsum (l ++ [f n])). fold (Rsum l). rewrite IH. ring.
Qed.

Section Update.
  Variables (n E M : nat) (s : nat -> nat) (X X' : nat -> nat -> R) (y : nat -> R) (eta w : nat -> nat -> R) (P Ro : nat -> nat -> R).
  Hypothesis M2 : (2 <= M)%nat.
  Hypothesis Hs : forall e, (e < E)%nat -> (s e < n)%nat.
  Hypothesis upd : forall m i, (m < M)%nat -> (i < n)%nat -> X' m i = X m i + Rsum_to E (fun e => P i (s e) * w m e).
  Definition av (f : nat -> R) : R := Rsum_to M f / INR M.
  Lemma M0 : INR M <> 0. Proof. apply not_0_INR. lia. Qed.
  Lemma av_add f g : av (fun m => f m + g m) = av f + av g. Proof. unfold av, Rdiv. rewrite Rsum_to_add. ring. Qed.
  Lemma av_minus f g : av (fun m => f m - g m) = av f - av g. Proof. unfold av, Rdiv. rewrite Rsum_to_minus. ring. Qed.
  Lemma av_scal c f : av (fun m => c * f m) = c * av f. Proof. unfold av, Rdiv. rewrite Rsum_to_scal. ring. Qed.
  Lemma av_const c : av (fun _ => c) = c. Proof. unfold av. rewrite Rsum_to_const. field. exact M0. Qed.
  Lemma av_ext f g : (forall m, (m < M)%nat -> f m = g m) -> av f = av g. Proof. intros H. unfold av. rewrite (Rsum_to_ext M f g H). reflexivity. Qed.
  Lemma av_sum k (f : nat -> nat -> R) : av (fun m => Rsum_to k (fun e => f m e)) = Rsum_to k (fun e => av (fun m => f m e)).
  Proof. unfold av. rewrite Rsum_to_swap, <- Rsum_to_div. reflexivity. Qed.
  Definition wbar (e : nat) : R := av (fun m => w m e).
  Lemma mean_update i : (i < n)%nat -> av (fun m => X' m i) = av (fun m => X m i) + Rsum_to E (fun e => P i (s e) * wbar e).
  Proof.
    intros L. rewrite (av_ext _ (fun m => X m i + Rsum_to E (fun e => P i (s e) * w m e))) by (intros m Lm; apply upd; assumption). rewrite av_add, av_sum. f_equal. apply Rsum_to_ext. intros e _. apply av_scal.
  Qed.
  (** The solver is exact. *)
  Hypothesis sol : forall m e, (m < M)%nat -> (e < E)%nat -> Rsum_to E (fun f => P (s e) (s f) * w m f) + Rsum_to E (fun f => Ro e f * w m f) = eta m e + (y e - X m (s e)).
  Lemma mean_solves : solves_kalman E P s Ro wbar (fun e => av (fun m => eta m e) + (y e - av (fun m => X m (s e)))).
  Proof.
    intros e L. rewrite <- (av_const (y e)), <- av_minus, <- av_add. rewrite (av_ext _ (fun m => Rsum_to E (fun f => P (s e) (s f) * w m f) + Rsum_to E (fun f => Ro e f * w m f))) by (intros m Lm; symmetry; apply sol; assumption).
    rewrite av_add, !av_sum. f_equal; apply Rsum_to_ext; intros f _; symmetry; apply av_scal.
  Qed.
  (** Symmetric matrices. *)
  Hypothesis symP : forall i j, P i j = P j i.
  Hypothesis symR : forall i j, (i < E)%nat -> (j < E)%nat -> Ro i j = Ro j i.
  Definition del (m e : nat) : R := w m e - wbar e.
  Definition A (e m : nat) : R := X m (s e) - av (fun m => X m (s e)).
  Definition dn (m e : nat) : R := eta m e - av (fun m => eta m e).
  Lemma del_solves m e : (m < M)%nat -> (e < E)%nat -> Rsum_to E (fun f => P (s e) (s f) * del m f) + Rsum_to E (fun f => Ro e f * del m f) = dn m e - A e m.
  Proof.
    intros Lm Le. rewrite (Rsum_to_ext E (fun f => P (s e) (s f) * del m f) (fun f => P (s e) (s f) * w m f - P (s e) (s f) * wbar f)) by (intros; unfold del; ring).
    rewrite (Rsum_to_ext E (fun f => Ro e f * del m f) (fun f => Ro e f * w m f - Ro e f * wbar f)) by (intros; unfold del; ring). rewrite !Rsum_to_minus.
    pose proof (sol m e Lm Le) as H1. pose proof (mean_solves e Le) as H2. unfold dn, A. lra.
  Qed.
  Variables (v c : nat -> R).
  Definition val (Z : nat -> nat -> R) (m : nat) : R := along n v (Z m).
  Definition gv (e : nat) : R := Rsum_to n (fun i => v i * P i (s e)).
  Hypothesis csol : solves_kalman E P s Ro c gv.
  Lemma val_update m : (m < M)%nat -> val X' m = val X m + Rsum_to E (fun e => gv e * w m e).
  Proof.
    intros Lm. unfold val, along. rewrite (Rsum_to_ext n _ (fun i => v i * X m i + Rsum_to E (fun e => v i * P i (s e) * w m e))).
    - rewrite Rsum_to_add, Rsum_to_swap. f_equal. apply Rsum_to_ext. intros e _. unfold gv. rewrite (Rmult_comm (Rsum_to _ _)), <- Rsum_to_scal. apply Rsum_to_ext. intros. ring.
    - intros i Li. rewrite (upd m i Lm Li), Rmult_plus_distr_l. f_equal. rewrite <- Rsum_to_scal. apply Rsum_to_ext. intros. ring.
  Qed.
  Lemma dev_update m : (m < M)%nat -> val X' m - av (val X') = val X m - av (val X) + Rsum_to E (fun e => c e * (dn m e - A e m)).
  Proof.
    intros Lm. rewrite (av_ext (val X') (fun m => val X m + Rsum_to E (fun e => gv e * w m e))) by exact val_update. rewrite av_add, av_sum, (val_update m Lm).
    rewrite (Rsum_to_ext E (fun e => av (fun m => gv e * w m e)) (fun e => gv e * wbar e)) by (intros; apply av_scal).
    enough (H : Rsum_to E (fun e => gv e * del m e) = Rsum_to E (fun e => c e * (dn m e - A e m))).
    { rewrite <- H. rewrite (Rsum_to_ext E (fun e => gv e * del m e) (fun e => gv e * w m e - gv e * wbar e)) by (intros; unfold del; ring). rewrite Rsum_to_minus. ring. }
    rewrite (Rsum_to_ext E _ (fun e => Rsum_to E (fun f => (P (s e) (s f) * c f) * del m e) + Rsum_to E (fun f => (Ro e f * c f) * del m e))).
    2:{ intros e Le. rewrite <- (csol e Le), Rmult_plus_distr_r. f_equal; rewrite Rmult_comm, <- Rsum_to_scal; apply Rsum_to_ext; intros; ring. }
    rewrite Rsum_to_add, (Rsum_to_swap E E (fun e f => P (s e) (s f) * c f * del m e)), (Rsum_to_swap E E (fun e f => Ro e f * c f * del m e)), <- Rsum_to_add. apply Rsum_to_ext. intros f Lf.
    rewrite <- (del_solves m f Lm Lf), Rmult_plus_distr_l, <- !Rsum_to_scal. f_equal; apply Rsum_to_ext; intros e Le; [rewrite (symP (s f) (s e))|rewrite (symR f e Lf Le)]; ring.
  Qed.
  (** The covariance of the ensemble itself. *)
  Definition cv (i j : nat) : R := Rsum_to M (fun m => (X m i - av (fun m => X m i)) * (X m j - av (fun m => X m j))) / (INR M - 1).
  Hypothesis Pcov : forall i j, P i j = cv i j.
  Lemma M1 : 0 < INR M - 1. Proof. apply (le_INR 2 M) in M2. simpl in M2. lra. Qed.
  Lemma val_dev m : val X m - av (val X) = Rsum_to n (fun i => v i * (X m i - av (fun m => X m i))).
  Proof.
    unfold val, along. rewrite av_sum, <- Rsum_to_minus. apply Rsum_to_ext. intros i _. rewrite av_scal. ring.
  Qed.
  Lemma gv_cov e : gv e = Rsum_to M (fun m => (val X m - av (val X)) * A e m) / (INR M - 1).
  Proof.
    unfold gv. rewrite (Rsum_to_ext n _ (fun i => Rsum_to M (fun m => v i * (X m i - av (fun m => X m i)) * A e m) / (INR M - 1))).
    - rewrite Rsum_to_div, Rsum_to_swap. f_equal. apply Rsum_to_ext. intros m _. rewrite val_dev, (Rmult_comm (Rsum_to _ _)), <- Rsum_to_scal. apply Rsum_to_ext. intros. ring.
    - intros i _. rewrite Pcov. unfold cv, Rdiv. rewrite <- Rmult_assoc. f_equal. rewrite <- Rsum_to_scal. apply Rsum_to_ext. intros m _. unfold A. ring.
  Qed.
  Definition Pcc : R := Rsum_to E (fun e => c e * Rsum_to E (fun f => P (s e) (s f) * c f)).
  Definition Rcc : R := Rsum_to E (fun e => c e * Rsum_to E (fun f => Ro e f * c f)).
  Lemma cg : Rsum_to E (fun e => c e * gv e) = Pcc + Rcc.
  Proof. unfold Pcc, Rcc. rewrite <- Rsum_to_add. apply Rsum_to_ext. intros e Le. rewrite <- (csol e Le). ring. Qed.
  Lemma Pcc_squares : Pcc = Rsum_to M (fun m => Rsqr (Rsum_to E (fun e => c e * A e m))) / (INR M - 1).
  Proof.
    unfold Pcc. rewrite (Rsum_to_ext E _ (fun e => Rsum_to E (fun f => Rsum_to M (fun m => c e * A e m * (c f * A f m))) / (INR M - 1))).
    - rewrite Rsum_to_div. f_equal. rewrite (Rsum_to_ext E _ (fun e => Rsum_to M (fun m => Rsum_to E (fun f => c e * A e m * (c f * A f m))))) by (intros; apply Rsum_to_swap).
      rewrite Rsum_to_swap. apply Rsum_to_ext. intros m _. unfold Rsqr. rewrite <- Rsum_to_scal. apply Rsum_to_ext. intros e _. rewrite (Rmult_comm (Rsum_to _ _)), <- Rsum_to_scal. reflexivity.
    - intros e _. rewrite <- Rsum_to_scal, <- Rsum_to_div. apply Rsum_to_ext. intros f _. rewrite Pcov. unfold cv, Rdiv.
      rewrite (Rsum_to_ext M (fun m => c e * A e m * (c f * A f m)) (fun m => (c e * c f) * (A e m * A f m))) by (intros; ring). rewrite Rsum_to_scal. unfold A. ring.
  Qed.
  Lemma variance_update : (forall m e, (m < M)%nat -> (e < E)%nat -> dn m e = 0) ->
    Rsum_to M (fun m => Rsqr (val X' m - av (val X'))) / (INR M - 1) = Rsum_to M (fun m => Rsqr (val X m - av (val X))) / (INR M - 1) - Pcc - 2 * Rcc.
  Proof.
    intros Z. rewrite (Rsum_to_ext M _ (fun m => Rsqr (val X m - av (val X)) + -2 * (Rsum_to E (fun e => c e * ((val X m - av (val X)) * A e m))) + Rsqr (Rsum_to E (fun e => c e * A e m)))).
    - rewrite !Rsum_to_add, Rsum_to_scal. unfold Rdiv. rewrite !Rmult_plus_distr_r. pose proof Pcc_squares as H1. unfold Rdiv in H1. rewrite <- H1.
      assert (H2 : Rsum_to M (fun m => Rsum_to E (fun e => c e * ((val X m - av (val X)) * A e m))) * / (INR M - 1) = Pcc + Rcc).
      { rewrite <- cg, Rsum_to_swap. change (?a * / ?b) with (a / b). rewrite <- Rsum_to_div. apply Rsum_to_ext. intros e _. rewrite gv_cov, Rsum_to_scal. unfold Rdiv. ring. }
      rewrite Rmult_assoc, H2. ring.
    - intros m Lm. rewrite (dev_update m Lm). rewrite (Rsum_to_ext E (fun e => c e * (dn m e - A e m)) (fun e => -1 * (c e * A e m))) by (intros e Le; rewrite (Z m e Lm Le); ring). rewrite Rsum_to_scal.
      rewrite (Rsum_to_ext E (fun e => c e * ((val X m - av (val X)) * A e m)) (fun e => (val X m - av (val X)) * (c e * A e m))) by (intros; ring). rewrite Rsum_to_scal. unfold Rsqr. ring.
  Qed.
  (** Perturbations that are a sample of the errors of the observations: the covariance of the Kalman filter. *)
  Lemma product_sum (f g : nat -> nat -> R) : Rsum_to M (fun m => Rsum_to E (fun e => c e * f e m) * Rsum_to E (fun e => c e * g e m)) = Rsum_to E (fun e => Rsum_to E (fun e' => c e * c e' * Rsum_to M (fun m => f e m * g e' m))).
  Proof.
    rewrite (Rsum_to_ext M _ (fun m => Rsum_to E (fun e => Rsum_to E (fun e' => c e * f e m * (c e' * g e' m))))).
    - rewrite Rsum_to_swap. apply Rsum_to_ext. intros e _. rewrite Rsum_to_swap. apply Rsum_to_ext. intros e' _. rewrite <- Rsum_to_scal. apply Rsum_to_ext. intros. ring.
    - intros m _. rewrite Rmult_comm, <- Rsum_to_scal. apply Rsum_to_ext. intros e _. rewrite Rmult_comm, <- Rsum_to_scal. reflexivity.
  Qed.
  Lemma variance_ideal : (forall e f, (e < E)%nat -> (f < E)%nat -> Rsum_to M (fun m => dn m e * dn m f) / (INR M - 1) = Ro e f) ->
    (forall e i, (e < E)%nat -> (i < n)%nat -> Rsum_to M (fun m => dn m e * (X m i - av (fun m => X m i))) = 0) ->
    Rsum_to M (fun m => Rsqr (val X' m - av (val X'))) / (INR M - 1) = Rsum_to M (fun m => Rsqr (val X m - av (val X))) / (INR M - 1) - Rsum_to E (fun e => c e * gv e).
  Proof.
    intros Z1 Z2. rewrite cg. set (al := fun m => Rsum_to E (fun e => c e * dn m e)). set (be := fun m => Rsum_to E (fun e => c e * A e m)). set (d := fun m => val X m - av (val X)).
    assert (H1 : Rsum_to M (fun m => al m * al m) / (INR M - 1) = Rcc).
    { unfold al, Rcc. rewrite (product_sum (fun e m => dn m e) (fun e m => dn m e)), <- Rsum_to_div. apply Rsum_to_ext. intros e Le. rewrite <- Rsum_to_div, <- Rsum_to_scal. apply Rsum_to_ext. intros f Lf. rewrite <- (Z1 e f Le Lf). unfold Rdiv. ring. }
    assert (H2 : Rsum_to M (fun m => be m * be m) / (INR M - 1) = Pcc) by (rewrite Pcc_squares; reflexivity).
    assert (H3 : Rsum_to M (fun m => al m * be m) = 0).
    { unfold al, be. rewrite (product_sum (fun e m => dn m e) A). apply Rsum_to_zero. intros e Le. apply Rsum_to_zero. intros f Lf. unfold A. rewrite (Z2 e (s f) Le (Hs f Lf)). ring. }
    assert (H4 : Rsum_to M (fun m => d m * al m) = 0).
    { unfold al. rewrite (Rsum_to_ext M _ (fun m => Rsum_to E (fun e => Rsum_to n (fun i => c e * v i * (dn m e * (X m i - av (fun m => X m i))))))).
      - rewrite Rsum_to_swap. apply Rsum_to_zero. intros e Le. rewrite Rsum_to_swap. apply Rsum_to_zero. intros i Li. rewrite Rsum_to_scal, (Z2 e i Le Li). ring.
      - intros m _. rewrite <- Rsum_to_scal. apply Rsum_to_ext. intros e _. unfold d. rewrite val_dev, Rmult_comm, <- Rsum_to_scal. apply Rsum_to_ext. intros. ring. }
    assert (H5 : Rsum_to M (fun m => d m * be m) / (INR M - 1) = Pcc + Rcc).
    { rewrite <- cg. unfold be. rewrite (Rsum_to_ext M _ (fun m => Rsum_to E (fun e => c e * (d m * A e m)))) by (intros; rewrite <- Rsum_to_scal; apply Rsum_to_ext; intros; ring).
      rewrite Rsum_to_swap, <- Rsum_to_div. apply Rsum_to_ext. intros e _. rewrite gv_cov, Rsum_to_scal. unfold d, Rdiv. ring. }
    rewrite (Rsum_to_ext M _ (fun m => d m * d m + (al m * al m + (be m * be m + (2 * (d m * al m) + (-2 * (d m * be m) + -2 * (al m * be m))))))).
    - rewrite !Rsum_to_add, !Rsum_to_scal, H3, H4. unfold Rdiv in *. rewrite !Rmult_plus_distr_r, H1, H2. replace (-2 * Rsum_to M (fun m => d m * be m) * / (INR M - 1)) with (-2 * (Rsum_to M (fun m => d m * be m) * / (INR M - 1))) by ring. rewrite H5. change (fun m => Rsqr (val X m - av (val X))) with (fun m => d m * d m). ring.
    - intros m Lm. rewrite (dev_update m Lm). rewrite (Rsum_to_ext E (fun e => c e * (dn m e - A e m)) (fun e => c e * dn m e - c e * A e m)) by (intros; ring). rewrite Rsum_to_minus. unfold Rsqr, d, al, be. ring.
  Qed.
End Update.
