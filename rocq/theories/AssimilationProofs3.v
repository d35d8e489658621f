(** AssimilationProofs3.v -- C35, C56: observation operator, innovation, Kalman update. *)
From Coq Require Import Reals ZArith Bool List Lra Lia Psatz.
From Verif Require Import Base BaseFacts AssimilationModel AssimilationSpec AssimilationProofs.
Import ListNotations.
Local Open Scope R_scope.

Notation H_ := (calc_H (N := RNum)).
Notation app_ := (apply (N := RNum)).
Lemma nsum_R n (f : nat -> R) : nsum (N := RNum) n f = Rsum_to n f.
Proof. unfold nsum, Rsum_to. cbn [num RNum nadd nofZ]. rewrite (fold_plus f). lra. Qed.
Lemma apply_R n (A : nat -> nat -> R) (x : nat -> R) i : app_ n A x i = Rsum_to n (fun j => A i j * x j).
Proof. unfold apply. apply nsum_R. Qed.
Definition ind (b : bool) : R := if b then 1 else 0.
Lemma calc_H_sum mapping e s : H_ mapping e s = Rsum (map (fun p => ind (Nat.eqb (fst p) e && Nat.eqb (snd p) s)) mapping).
Proof.
  unfold calc_H. cbn [num RNum nadd nofZ].
  assert (G : forall a, fold_left (fun (h : R) (p : nat * nat) => if (fst p =? e)%nat && (snd p =? s)%nat then h + 1 else h) mapping a =
     a + Rsum (map (fun p => ind ((fst p =? e)%nat && (snd p =? s)%nat)) mapping)).
  { induction mapping as [|p l IH]; intros a; simpl; [lra|]. rewrite IH. unfold ind. destruct (_ && _); lra. }
  rewrite G. lra.
Qed.
Lemma Rsum_to_ext n f g : (forall i, (i < n)%nat -> f i = g i) -> Rsum_to n f = Rsum_to n g.
Proof. intros H. apply Rsum_ext. intros i Hi. apply in_seq in Hi. apply H. lia. Qed.
Lemma Rsum_scal_r {A} (f : A -> R) c l : Rsum (map (fun x => f x * c) l) = Rsum (map f l) * c.
Proof. induction l as [|x l IH]; simpl; [lra|]. rewrite IH. lra. Qed.
(** Picking one index. *)
Lemma Rsum_pick n k (f : nat -> R) : (k < n)%nat -> Rsum_to n (fun i => ind (Nat.eqb k i) * f i) = f k.
Proof.
  intros Hk. unfold Rsum_to. assert (G : forall a, (a <= k)%nat -> (k < a + n)%nat -> Rsum (map (fun i => ind (Nat.eqb k i) * f i) (seq a n)) = f k).
  { clear Hk. induction n as [|n IH]; intros a H1 H2; [lia|]. simpl. destruct (Nat.eqb_spec k a) as [->|Hn].
    - rewrite (Rsum_ext _ (fun _ => 0)).
      + rewrite Rsum_zero. unfold ind. lra.
      + intros i Hi. apply in_seq in Hi. destruct (Nat.eqb_spec a i); [lia|]. unfold ind. lra.
    - rewrite IH by lia. unfold ind. lra. }
  apply G; lia.
Qed.
Lemma ind_and a b : ind (a && b) = ind a * ind b.
Proof. destruct a, b; unfold ind; simpl; lra. Qed.
(** H applied to a vector: for every entry of the mapping of this point, the value at its degree of freedom. *)
Lemma H_apply mapping n (x : nat -> R) e : (forall p, In p mapping -> (snd p < n)%nat) ->
  app_ n (H_ mapping) x e = Rsum (map (fun p => ind (Nat.eqb (fst p) e) * x (snd p)) mapping).
Proof.
  intros Hn. rewrite apply_R. unfold Rsum_to.
  rewrite (Rsum_ext _ (fun j => Rsum (map (fun p => ind (Nat.eqb (fst p) e && Nat.eqb (snd p) j) * x j) mapping))).
  2: { intros j _. rewrite Rsum_scal_r. f_equal. apply calc_H_sum. }
  rewrite Rsum_swap. apply Rsum_ext. intros p Hp.
  rewrite (Rsum_ext _ (fun j => ind (Nat.eqb (fst p) e) * (ind (Nat.eqb (snd p) j) * x j))) by (intros; rewrite ind_and; lra).
  rewrite Rsum_scal. f_equal. apply (Rsum_pick n (snd p) x). auto.
Qed.
Lemma HT_apply mapping E (w : nat -> R) s : (forall p, In p mapping -> (fst p < E)%nat) ->
  app_ E (transpose (N := RNum) (H_ mapping)) w s = Rsum (map (fun p => ind (Nat.eqb (snd p) s) * w (fst p)) mapping).
Proof.
  intros Hn. rewrite apply_R. unfold Rsum_to, transpose.
  rewrite (Rsum_ext _ (fun j => Rsum (map (fun p => ind (Nat.eqb (fst p) j && Nat.eqb (snd p) s) * w j) mapping))).
  2: { intros j _. rewrite Rsum_scal_r. f_equal. apply calc_H_sum. }
  rewrite Rsum_swap. apply Rsum_ext. intros p Hp.
  rewrite (Rsum_ext _ (fun j => ind (Nat.eqb (snd p) s) * (ind (Nat.eqb (fst p) j) * w j))) by (intros; rewrite ind_and; lra).
  rewrite Rsum_scal. f_equal. apply (Rsum_pick E (fst p) w). auto.
Qed.
Lemma shift_sum mapping n E (P : nat -> nat -> R) (w : nat -> R) i : (forall p, In p mapping -> (fst p < E /\ snd p < n)%nat) ->
  forecast_shift (N := RNum) n E P mapping w i = Rsum (map (fun p => P i (snd p) * w (fst p)) mapping).
Proof.
  intros Hn. unfold forecast_shift. rewrite apply_R. unfold Rsum_to.
  rewrite (Rsum_ext _ (fun j => Rsum (map (fun p => ind (Nat.eqb (snd p) j) * (P i j * w (fst p))) mapping))).
  2: { intros j _. transitivity (P i j * Rsum (map (fun p => ind (Nat.eqb (snd p) j) * w (fst p)) mapping)).
       - f_equal. apply HT_apply. intros p Hp. now apply Hn.
       - rewrite <- Rsum_scal. apply Rsum_ext. intros. lra. }
  rewrite Rsum_swap. apply Rsum_ext. intros p Hp. apply (Rsum_pick n (snd p) (fun j => P i j * w (fst p))). now apply Hn.
Qed.

(** Distinct experimental indices. *)
Lemma pick_unique mapping e s (x : nat -> R) : NoDup (map fst mapping) -> In (e, s) mapping ->
  Rsum (map (fun p => ind (Nat.eqb (fst p) e) * x (snd p)) mapping) = x s.
Proof.
  induction mapping as [|p l IH]; intros Hd Hin; [easy|]. simpl in *. inversion Hd as [|? ? Hnot Hd']; subst. destruct Hin as [->|Hin].
  - simpl. rewrite Nat.eqb_refl. rewrite (Rsum_ext _ (fun _ => 0)).
    + rewrite Rsum_zero. unfold ind. lra.
    + intros q Hq. destruct (Nat.eqb_spec (fst q) e) as [E|E]; [|unfold ind; lra]. exfalso. apply Hnot. simpl. rewrite <- E. apply (in_map fst). exact Hq.
  - destruct (Nat.eqb_spec (fst p) e) as [E|E].
    + exfalso. apply Hnot. rewrite E. change e with (fst (e, s)). now apply in_map.
    + rewrite IH by assumption. unfold ind. lra.
Qed.
Lemma pick_none mapping e (x : nat -> R) : ~ In e (map fst mapping) -> Rsum (map (fun p => ind (Nat.eqb (fst p) e) * x (snd p)) mapping) = 0.
Proof.
  intros Hn. rewrite (Rsum_ext _ (fun _ => 0)); [apply Rsum_zero|]. intros q Hq. destruct (Nat.eqb_spec (fst q) e) as [E|E]; [|unfold ind; lra].
  exfalso. apply Hn. rewrite <- E. now apply in_map.
Qed.
Lemma Hx_unique {N : Num} mapping e s (x : nat -> N) : NoDup (map fst mapping) -> In (e, s) mapping -> calc_Hx mapping x e = x s.
Proof.
  intros Hd Hin. unfold calc_Hx.
  assert (K : forall l a, ~ In e (map fst l) -> fold_left (fun (out : N) (p : nat * nat) => if Nat.eqb (fst p) e then x (snd p) else out) l a = a).
  { induction l as [|p l IH]; intros a Hn; simpl in *; [reflexivity|]. destruct (Nat.eqb_spec (fst p) e); [tauto|]. apply IH. tauto. }
  generalize (nofZ N 0). induction mapping as [|p l IH]; intros a; [easy|]. simpl in *. inversion Hd as [|? ? Hnot Hd']; subst. destruct Hin as [->|Hin].
  - simpl. rewrite Nat.eqb_refl. apply K. exact Hnot.
  - now apply IH.
Qed.
Lemma Hx_none {N : Num} mapping e (x : nat -> N) : ~ In e (map fst mapping) -> calc_Hx mapping x e = nofZ N 0.
Proof.
  intros Hn. unfold calc_Hx. generalize (nofZ N 0). induction mapping as [|p l IH]; intros a; simpl in *; [reflexivity|]. destruct (Nat.eqb_spec (fst p) e); [tauto|]. apply IH. tauto.
Qed.
Lemma H_is_Hx mapping n (x : nat -> R) e : NoDup (map fst mapping) -> (forall p, In p mapping -> (snd p < n)%nat) ->
  app_ n (H_ mapping) x e = calc_Hx (N := RNum) mapping x e.
Proof.
  intros Hd Hn. transitivity (Rsum (map (fun p => ind (Nat.eqb (fst p) e) * x (snd p)) mapping)); [now apply H_apply|].
  destruct (in_dec Nat.eq_dec e (map fst mapping)) as [i|i].
  - apply in_map_iff in i as [[e' s] [E Hin]]. simpl in E. subst e'. rewrite (pick_unique mapping e s x Hd Hin). symmetry. now apply (@Hx_unique RNum).
  - rewrite (pick_none mapping e x i). symmetry. now apply (@Hx_none RNum).
Qed.

Lemma obs_fst E s : map fst (obs E s) = seq 0 E.
Proof. unfold obs. rewrite map_map. simpl. apply map_id. Qed.
Lemma obs_in E s e : (e < E)%nat -> In (e, s e) (obs E s).
Proof. intros H. unfold obs. apply in_map_iff. exists e. split; [reflexivity|]. apply in_seq. lia. Qed.
Lemma obs_nodup E s : NoDup (map fst (obs E s)).
Proof. rewrite obs_fst. apply seq_NoDup. Qed.
Lemma obs_bound E s n p : (forall e, (e < E)%nat -> (s e < n)%nat) -> In p (obs E s) -> (fst p < E /\ snd p < n)%nat.
Proof. intros H Hp. unfold obs in Hp. apply in_map_iff in Hp as [e [<- He]]. apply in_seq in He. simpl. split; [lia|]. apply H. lia. Qed.
Lemma obs_sum E s (f : nat * nat -> R) : Rsum (map f (obs E s)) = Rsum_to E (fun e => f (e, s e)).
Proof. unfold obs, Rsum_to. now rewrite map_map. Qed.

Lemma innovation_ok {N : Num} E s (y : nat -> N) Ro draws k m x i : (i < E)%nat ->
  perturbed_innovation (obs E s) y Ro draws E k m x i = nadd N (nmul N (draws (k + m * E + i)%nat) (nsqrt N (Ro i i))) (nsub N (y i) (x (s i))).
Proof. intros Hi. unfold perturbed_innovation, noise. rewrite (Hx_unique (obs E s) i (s i) x (obs_nodup E s) (obs_in E s i Hi)). reflexivity. Qed.
Lemma draws_distinct E k m m' i i' : (i < E)%nat -> (i' < E)%nat -> (k + m * E + i = k + m' * E + i')%nat -> m = m' /\ i = i'.
Proof.
  intros H1 H2 H3. assert (H4 : (m * E + i = m' * E + i')%nat) by lia. destruct (lt_eq_lt_dec m m') as [[l|l]|l].
  - exfalso. assert (S m * E <= m' * E)%nat by (apply Nat.mul_le_mono_r; lia). simpl in *. lia.
  - subst. lia.
  - exfalso. assert (S m' * E <= m * E)%nat by (apply Nat.mul_le_mono_r; lia). simpl in *. lia.
Qed.

Lemma shift_obs E s n (P : nat -> nat -> R) (w : nat -> R) i : (forall e, (e < E)%nat -> (s e < n)%nat) ->
  forecast_shift (N := RNum) n E P (obs E s) w i = Rsum_to E (fun e => P i (s e) * w e).
Proof. intros H. rewrite shift_sum by (intros; eapply obs_bound; eauto). now rewrite obs_sum. Qed.
Lemma system_obs E s n (P Ro : nat -> nat -> R) (w : nat -> R) e : (forall e, (e < E)%nat -> (s e < n)%nat) -> (e < E)%nat ->
  HPH_plus_R (N := RNum) n E P (obs E s) Ro w e = Rsum_to E (fun f => P (s e) (s f) * w f) + Rsum_to E (fun f => Ro e f * w f).
Proof.
  intros Hs He. unfold HPH_plus_R. cbn [num RNum nadd]. f_equal.
  - change (app_ n P (app_ E (transpose (N := RNum) (H_ (obs E s))) w)) with (forecast_shift (N := RNum) n E P (obs E s) w).
    transitivity (Rsum (map (fun p => ind (Nat.eqb (fst p) e) * forecast_shift (N := RNum) n E P (obs E s) w (snd p)) (obs E s))).
    + apply H_apply. intros p Hp. now apply (obs_bound E s n p Hs).
    + rewrite (pick_unique (obs E s) e (s e) (forecast_shift (N := RNum) n E P (obs E s) w) (obs_nodup E s) (obs_in E s e He)). now apply shift_obs.
  - apply apply_R.
Qed.

Lemma update_from_nth n E (P : nat -> nat -> R) mapping (Ro : nat -> nat -> R) y draws k solve : forall ens m0 m x, nth_error ens m = Some x ->
  exists x', nth_error (update_from (N := RNum) n E P mapping Ro y draws k solve m0 ens) m = Some x' /\
    forall i, x' i = x i + forecast_shift (N := RNum) n E P mapping (solve (perturbed_innovation (N := RNum) mapping y Ro draws E k (m0 + m) x)) i.
Proof.
  induction ens as [|x0 ens IH]; intros m0 m x H; destruct m as [|m]; simpl in *; try discriminate.
  - injection H as <-. eexists. split; [reflexivity|]. intros i. rewrite Nat.add_0_r. reflexivity.
  - destruct (IH (S m0) m x H) as [x' [E1 E2]]. exists x'. split; [assumption|]. intros i. rewrite E2. now rewrite Nat.add_succ_r.
Qed.
Lemma update_from_length {N : Num} n E (P : nat -> nat -> N) mapping Ro y draws k solve : forall ens m0, List.length (update_from n E P mapping Ro y draws k solve m0 ens) = List.length ens.
Proof. induction ens; intros; simpl; auto. Qed.
Lemma update_ok n (P Ro : nat -> nat -> R) (data : list R) s draws k solve (ens : list (nat -> R)) :
  (forall e, (e < List.length data)%nat -> (s e < n)%nat) ->
  exists ens', update_ensemble (N := RNum) n P (obs (List.length data) s) Ro data draws k solve ens = Ok ens' /\ List.length ens' = List.length ens /\
  forall m x, nth_error ens m = Some x -> exists x', nth_error ens' m = Some x' /\
    forall i, x' i = x i + Rsum_to (List.length data) (fun e => P i (s e) * solve (perturbed_innovation (N := RNum) (obs (List.length data) s) (fun i => nth i data 0) Ro draws (List.length data) k m x) e).
Proof.
  intros Hs. unfold update_ensemble. assert (L : List.length (obs (List.length data) s) = List.length data) by (unfold obs; now rewrite map_length, seq_length).
  rewrite L, Nat.eqb_refl. cbn [negb]. eexists. split; [reflexivity|]. split; [apply (@update_from_length RNum)|].
  intros m x Hx. destruct (update_from_nth n (List.length data) P (obs (List.length data) s) Ro (fun i => nth i data 0) draws k solve ens 0 m x Hx) as [x' [E1 E2]].
  exists x'. split; [exact E1|]. intros i. rewrite E2. cbn [Nat.add]. f_equal. now apply shift_obs.
Qed.
Lemma update_sizes {N : Num} n P mapping Ro (data : list N) draws k solve ens : List.length mapping <> List.length data -> update_ensemble n P mapping Ro data draws k solve ens = Throw.
Proof. intros H. unfold update_ensemble. apply Nat.eqb_neq in H. now rewrite H. Qed.

(** After the update, what is left of the innovation is R w. *)
Lemma residual_ok E s (P Ro : nat -> nat -> R) (w b x x' : nat -> R) : solves_kalman E P s Ro w b ->
  (forall e, (e < E)%nat -> x' (s e) = x (s e) + Rsum_to E (fun f => P (s e) (s f) * w f)) ->
  forall e, (e < E)%nat -> b e - (x' (s e) - x (s e)) = Rsum_to E (fun f => Ro e f * w f).
Proof. intros Hw Hx e He. rewrite (Hx e He), <- (Hw e He). lra. Qed.

Lemma quad_obs E s n (P : nat -> nat -> R) (z : nat -> R) : (forall e, (e < E)%nat -> (s e < n)%nat) ->
  Rsum_to E (fun e => z e * Rsum_to E (fun f => P (s e) (s f) * z f)) =
  quadratic n P (app_ E (transpose (N := RNum) (H_ (obs E s))) z).
Proof.
  intros Hs. set (v := app_ E (transpose (N := RNum) (H_ (obs E s))) z).
  assert (Hv : forall k, v k = Rsum_to E (fun e => ind (Nat.eqb (s e) k) * z e)).
  { intros k. unfold v. transitivity (Rsum (map (fun p => ind (Nat.eqb (snd p) k) * z (fst p)) (obs E s))); [apply HT_apply; intros p Hp; eapply obs_bound; eauto|]. apply obs_sum. }
  assert (Hg : forall g : nat -> R, Rsum_to n (fun k => v k * g k) = Rsum_to E (fun e => z e * g (s e))).
  { intros g. unfold Rsum_to at 1. rewrite (Rsum_ext _ (fun k => Rsum (map (fun e => z e * (ind (Nat.eqb (s e) k) * g k)) (seq 0 E)))).
    2: { intros k _. rewrite Hv. unfold Rsum_to. rewrite <- Rsum_scal_r. apply Rsum_ext. intros. lra. }
    rewrite Rsum_swap. apply Rsum_to_ext. intros e He. rewrite Rsum_scal. f_equal. apply (Rsum_pick n (s e) g). auto. }
  unfold quadratic. rewrite (Rsum_to_ext n _ (fun i => v i * Rsum_to n (fun j => v j * P i j))).
  2: { intros i _. unfold Rsum_to. rewrite <- Rsum_scal. apply Rsum_ext. intros. lra. }
  rewrite Hg. apply Rsum_to_ext. intros e He. rewrite Hg. f_equal. apply Rsum_to_ext. intros. lra.
Qed.
Lemma Rsum_to_scal n c f : Rsum_to n (fun i => c * f i) = c * Rsum_to n f.
Proof. apply Rsum_scal. Qed.
Lemma Rsum_to_add n f g : Rsum_to n (fun i => f i + g i) = Rsum_to n f + Rsum_to n g.
Proof. apply Rsum_add. Qed.
Lemma squares_zero n f : Rsum_to n (fun i => f i * f i) <= 0 -> forall i, (i < n)%nat -> f i = 0.
Proof.
  unfold Rsum_to. intros H i Hi. assert (Hin : In i (seq 0 n)) by (apply in_seq; lia). revert H Hin. generalize (seq 0 n). intros l.
  assert (P : forall l, 0 <= Rsum (map (fun i => f i * f i) l)).
  { intros l0. apply Rsum_nonneg. apply Forall_forall. intros y Hy. apply in_map_iff in Hy as [x [<- _]]. apply Rle_0_sqr. }
  induction l as [|a l IH]; intros H Hin; [easy|]. simpl in *. pose proof (P l). pose proof (Rle_0_sqr (f a)). unfold Rsqr in *. destruct Hin as [->|Hin].
  - nra.
  - apply IH; [lra|assumption].
Qed.
Lemma obs_cov_R u i j : observation_covariance (N := RNum) u i j = ind (Nat.eqb i j) * (u * u).
Proof. unfold observation_covariance, ind. cbn [num RNum nmul nofZ]. destruct (Nat.eqb i j); lra. Qed.
Lemma obs_cov_apply E u (w : nat -> R) e : (e < E)%nat -> Rsum_to E (fun f => observation_covariance (N := RNum) u e f * w f) = u * u * w e.
Proof.
  intros He. rewrite (Rsum_to_ext E _ (fun f => ind (Nat.eqb e f) * (u * u * w f))) by (intros; rewrite obs_cov_R; lra). now rewrite Rsum_pick.
Qed.
(** With a positive semidefinite covariance and some uncertainty, the system has at most one solution. *)
Lemma kalman_unique E s n (P : nat -> nat -> R) (u : R) (w w' b : nat -> R) : positive_semidefinite n P -> u <> 0 -> (forall e, (e < E)%nat -> (s e < n)%nat) ->
  solves_kalman E P s (observation_covariance (N := RNum) u) w b -> solves_kalman E P s (observation_covariance (N := RNum) u) w' b ->
  forall e, (e < E)%nat -> w e = w' e.
Proof.
  intros HP Hu Hs Hw Hw' e He. set (z := fun e => w e - w' e). enough (z e = 0) by (unfold z in *; lra). revert e He. apply squares_zero.
  assert (Z : forall e, (e < E)%nat -> Rsum_to E (fun f => P (s e) (s f) * z f) + u * u * z e = 0).
  { intros e He. pose proof (Hw e He) as A. pose proof (Hw' e He) as B. rewrite obs_cov_apply in A, B by assumption.
    rewrite (Rsum_to_ext E _ (fun f => P (s e) (s f) * w f + (-1) * (P (s e) (s f) * w' f))) by (intros; unfold z; lra).
    rewrite Rsum_to_add, Rsum_to_scal. unfold z. lra. }
  assert (Z2 : Rsum_to E (fun e => z e * Rsum_to E (fun f => P (s e) (s f) * z f)) + u * u * Rsum_to E (fun e => z e * z e) = 0).
  { rewrite <- Rsum_to_scal, <- Rsum_to_add. rewrite (Rsum_to_ext E _ (fun _ => 0)); [apply Rsum_zero|]. intros e He. pose proof (Z e He). nra. }
  rewrite (quad_obs E s n P z Hs) in Z2. pose proof (HP (app_ E (transpose (N := RNum) (H_ (obs E s))) z)).
  assert (0 < u * u) by nra. nra.
Qed.
(** Size of the correction at the observations: the innovation never grows in the sense of w. *)
Lemma kalman_energy E s n (P : nat -> nat -> R) (u : R) (w b : nat -> R) : positive_semidefinite n P -> (forall e, (e < E)%nat -> (s e < n)%nat) ->
  solves_kalman E P s (observation_covariance (N := RNum) u) w b -> u * u * Rsum_to E (fun e => w e * w e) <= Rsum_to E (fun e => w e * b e).
Proof.
  intros HP Hs Hw. assert (Z : Rsum_to E (fun e => w e * b e) = Rsum_to E (fun e => w e * Rsum_to E (fun f => P (s e) (s f) * w f)) + u * u * Rsum_to E (fun e => w e * w e)).
  { rewrite <- Rsum_to_scal, <- Rsum_to_add. apply Rsum_to_ext. intros e He. rewrite <- (Hw e He), obs_cov_apply by assumption. lra. }
  rewrite Z, (quad_obs E s n P w Hs). pose proof (HP (app_ E (transpose (N := RNum) (H_ (obs E s))) w)). lra.
Qed.
Lemma Cauchy n (f g : nat -> R) : Rsqr (Rsum_to n (fun i => f i * g i)) <= Rsum_to n (fun i => f i * f i) * Rsum_to n (fun i => g i * g i).
Proof.
  unfold Rsum_to. generalize (seq 0 n). intros l. unfold Rsqr. induction l as [|a l IH]; simpl; [lra|].
  assert (P : forall h : nat -> R, 0 <= Rsum (map (fun i => h i * h i) l)).
  { intros h. apply Rsum_nonneg. apply Forall_forall. intros y Hy. apply in_map_iff in Hy as [x [<- _]]. apply Rle_0_sqr. }
  pose proof (P f) as Pf. pose proof (P g) as Pg. pose proof (P (fun i => f i * g a - g i * f a)) as Pd. cbn beta in Pd.
  assert (X : Rsum (map (fun i => (f i * g a - g i * f a) * (f i * g a - g i * f a)) l) =
     g a * g a * Rsum (map (fun i => f i * f i) l) + (-2 * f a * g a) * Rsum (map (fun i => f i * g i) l) + f a * f a * Rsum (map (fun i => g i * g i) l)).
  { rewrite <- !Rsum_scal, <- !Rsum_add. apply Rsum_ext. intros. lra. }
  rewrite X in Pd. set (A := Rsum (map (fun i => f i * f i) l)) in *. set (B := Rsum (map (fun i => g i * g i) l)) in *. set (C := Rsum (map (fun i => f i * g i) l)) in *. nra.
Qed.
(** What remains after the update is at most the innovation, in the Euclidean norm. *)
Lemma residual_smaller E s n (P : nat -> nat -> R) (u : R) (w b : nat -> R) : positive_semidefinite n P -> (forall e, (e < E)%nat -> (s e < n)%nat) ->
  solves_kalman E P s (observation_covariance (N := RNum) u) w b ->
  Rsum_to E (fun e => (u * u * w e) * (u * u * w e)) <= Rsum_to E (fun e => b e * b e).
Proof.
  intros HP Hs Hw. pose proof (kalman_energy E s n P u w b HP Hs Hw) as K. pose proof (Cauchy E w b) as C. unfold Rsqr in C.
  set (W := Rsum_to E (fun e => w e * w e)) in *. set (B := Rsum_to E (fun e => b e * b e)) in *. set (D := Rsum_to E (fun e => w e * b e)) in *.
  assert (PW : 0 <= W) by (apply Rsum_nonneg, Forall_forall; intros y Hy; apply in_map_iff in Hy as [x [<- _]]; apply Rle_0_sqr).
  assert (PB : 0 <= B) by (apply Rsum_nonneg, Forall_forall; intros y Hy; apply in_map_iff in Hy as [x [<- _]]; apply Rle_0_sqr).
  rewrite (Rsum_to_ext E _ (fun e => (u * u) * (u * u) * (w e * w e))) by (intros; lra). rewrite Rsum_to_scal. fold W.
  set (U := u * u) in *. assert (0 <= U) by (unfold U; nra).
  destruct (Req_dec W 0) as [E0|E0]; [rewrite E0; lra|]. assert (0 < W) by lra.
  assert (0 <= U * W) by (apply Rmult_le_pos; assumption).
  assert ((U * W) * (U * W) <= D * D) by (apply Rmult_le_compat; lra).
  apply Rmult_le_reg_r with W; [assumption|]. replace (U * U * W * W) with ((U * W) * (U * W)) by ring. lra.
Qed.
(** One observation: the new value is a weighted mean of the old one and the perturbed observation. *)
Lemma single_observation n (P : nat -> nat -> R) (u : R) s (w b : nat -> R) (x : R) : (s 0 < n)%nat -> 0 <= P (s 0%nat) (s 0%nat) -> u <> 0 ->
  solves_kalman 1 P s (observation_covariance (N := RNum) u) w b ->
  x + Rsum_to 1 (fun f => P (s 0%nat) (s f) * w f) = (u * u * x + P (s 0%nat) (s 0%nat) * (x + b 0%nat)) / (P (s 0%nat) (s 0%nat) + u * u).
Proof.
  intros Hs HP Hu Hw. pose proof (Hw 0%nat ltac:(lia)) as A. rewrite obs_cov_apply in A by lia. unfold Rsum_to in *. simpl in *.
  assert (0 < u * u) by nra. set (p := P (s 0%nat) (s 0%nat)) in *. apply Rmult_eq_reg_r with (p + u * u); [|lra].
  unfold Rdiv. rewrite Rmult_assoc, Rinv_l by lra. rewrite <- A. ring.
Qed.
(** Degrees of freedom not correlated with an observed one are untouched; nothing moves when all the members agree. *)
Lemma uncorrelated E (s : nat -> nat) (P : nat -> nat -> R) (w : nat -> R) i : (forall e, (e < E)%nat -> P i (s e) = 0) -> Rsum_to E (fun e => P i (s e) * w e) = 0.
Proof. intros H. rewrite (Rsum_to_ext E _ (fun _ => 0)); [apply Rsum_zero|]. intros e He. rewrite (H e He). lra. Qed.
