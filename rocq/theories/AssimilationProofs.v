(** AssimilationProofs.v -- C33, C34: taper and covariance. *)
From Coq Require Import Reals ZArith Bool List Lra Lia Psatz Ranalysis.
From Verif Require Import Base BaseFacts AssimilationModel AssimilationSpec.
Import ListNotations.
Local Open Scope R_scope.

Definition gc1 (r : R) := 1 - 5 / 3 * r ^ 2 + 5 / 8 * r ^ 3 + 1 / 2 * r ^ 4 - 1 / 4 * r ^ 5.
Definition gc2 (r : R) := 4 - 5 * r + 5 / 3 * r ^ 2 + 5 / 8 * r ^ 3 - 1 / 2 * r ^ 4 + 1 / 12 * r ^ 5 - 2 / (3 * r).
Definition gc : R -> R := gaspari_cohn (N := RNum).

Lemma gc_eq (r : R) : gc r = if Rlt_dec r 1 then gc1 r else if Rlt_dec r 2 then gc2 r else 0.
Proof.
  unfold gc, gaspari_cohn, gc1, gc2. cbn [num RNum nltb nofZ nadd nsub nmul ndiv ipow]. unfold Rltb.
  destruct (Rlt_dec r 1); [simpl; field|]. destruct (Rlt_dec r 2); [|reflexivity].
  simpl. field. lra.
Qed.
Lemma gc2_factor r : r <> 0 -> gc2 r = (2 - r) ^ 4 * (r + 2 - / (2 * r)) / 12.
Proof. intros H. unfold gc2. field. lra. Qed.
Lemma gc_textbook (z c : R) : 0 < c -> gc (Rabs z / c) = gaspari_cohn_4_10 z c.
Proof.
  intros Hc. rewrite gc_eq. unfold gaspari_cohn_4_10. cbv zeta. set (t := Rabs z / c).
  assert (Ez : Rabs z = t * c) by (unfold t; field; lra). rewrite !Ez.
  assert (Ht : 0 <= t) by (unfold t; apply Rmult_le_pos; [apply Rabs_pos|left; now apply Rinv_0_lt_compat]).
  clear Ez. clearbody t.
  destruct (Rlt_dec t 1) as [h|h]; destruct (Rle_dec (t * c) c) as [h'|h']; try (exfalso; nra).
  - unfold gc1. lra.
  - assert (t = 1) by nra. subst t. destruct (Rlt_dec 1 2) as [g|g]; [|lra]. unfold gc2. cbn [num RNum]; field.
  - destruct (Rlt_dec t 2) as [k|k]; destruct (Rle_dec (t * c) (2 * c)) as [k'|k']; try (exfalso; nra).
    + unfold gc2. field. split; lra.
    + assert (E : t = 2) by nra. subst t. field. lra.
    + reflexivity.
Qed.
Lemma gc_zero : gc 0 = 1.
Proof. rewrite gc_eq. destruct (Rlt_dec 0 1); [unfold gc1; lra|lra]. Qed.
Lemma gc_beyond r : 2 <= r -> gc r = 0.
Proof. intros H. rewrite gc_eq. destruct (Rlt_dec r 1); [lra|]. destruct (Rlt_dec r 2); [lra|reflexivity]. Qed.

Lemma gc1_lim r : derivable_pt_lim gc1 r (- 10 / 3 * r + 15 / 8 * r ^ 2 + 2 * r ^ 3 - 5 / 4 * r ^ 4).
Proof.
  unfold gc1.
  replace (- 10 / 3 * r + 15 / 8 * r ^ 2 + 2 * r ^ 3 - 5 / 4 * r ^ 4) with
    (0 - 5 / 3 * (INR 2 * r ^ 1) + 5 / 8 * (INR 3 * r ^ 2) + 1 / 2 * (INR 4 * r ^ 3) - 1 / 4 * (INR 5 * r ^ 4)) by (simpl; field).
  apply derivable_pt_lim_minus; [|apply derivable_pt_lim_scal with (f := fun x => x ^ 5); apply derivable_pt_lim_pow].
  apply derivable_pt_lim_plus; [|apply derivable_pt_lim_scal with (f := fun x => x ^ 4); apply derivable_pt_lim_pow].
  apply derivable_pt_lim_plus; [|apply derivable_pt_lim_scal with (f := fun x => x ^ 3); apply derivable_pt_lim_pow].
  apply derivable_pt_lim_minus; [apply derivable_pt_lim_const|apply derivable_pt_lim_scal with (f := fun x => x ^ 2); apply derivable_pt_lim_pow].
Qed.
Lemma gc2_lim r : 0 < r -> derivable_pt_lim gc2 r (- 5 + 10 / 3 * r + 15 / 8 * r ^ 2 - 2 * r ^ 3 + 5 / 12 * r ^ 4 + 2 / (3 * r ^ 2)).
Proof.
  intros Hr. unfold gc2.
  replace (- 5 + 10 / 3 * r + 15 / 8 * r ^ 2 - 2 * r ^ 3 + 5 / 12 * r ^ 4 + 2 / (3 * r ^ 2)) with
    (0 - 5 * 1 + 5 / 3 * (INR 2 * r ^ 1) + 5 / 8 * (INR 3 * r ^ 2) - 1 / 2 * (INR 4 * r ^ 3) + 1 / 12 * (INR 5 * r ^ 4)
     - (0 * (3 * r) - (3 * 1) * 2) / Rsqr (3 * r)) by (unfold Rsqr; simpl; field; lra).
  apply derivable_pt_lim_minus.
  2: { apply derivable_pt_lim_div with (f1 := fun _ => 2) (f2 := fun x => 3 * x); [apply derivable_pt_lim_const| |lra].
       apply derivable_pt_lim_scal with (f := fun x => x); apply derivable_pt_lim_id. }
  apply derivable_pt_lim_plus; [|apply derivable_pt_lim_scal with (f := fun x => x ^ 5); apply derivable_pt_lim_pow].
  apply derivable_pt_lim_minus; [|apply derivable_pt_lim_scal with (f := fun x => x ^ 4); apply derivable_pt_lim_pow].
  apply derivable_pt_lim_plus; [|apply derivable_pt_lim_scal with (f := fun x => x ^ 3); apply derivable_pt_lim_pow].
  apply derivable_pt_lim_plus; [|apply derivable_pt_lim_scal with (f := fun x => x ^ 2); apply derivable_pt_lim_pow].
  apply derivable_pt_lim_minus; [apply derivable_pt_lim_const|apply derivable_pt_lim_scal with (f := fun x => x); apply derivable_pt_lim_id].
Qed.
Lemma gc1_dec x y : 0 <= x -> x < y -> y <= 1 -> gc1 y < gc1 x.
Proof.
  intros H0 H1 H2.
  destruct (MVT_cor2 gc1 _ x y H1 (fun c _ => gc1_lim c)) as [c [E [Hc1 Hc2]]].
  assert (- 10 / 3 * c + 15 / 8 * c ^ 2 + 2 * c ^ 3 - 5 / 4 * c ^ 4 < 0).
  { replace (- 10 / 3 * c + 15 / 8 * c ^ 2 + 2 * c ^ 3 - 5 / 4 * c ^ 4) with (- (c * (10 / 3 - 15 / 8 * c - 2 * c ^ 2 + 5 / 4 * c ^ 3))) by field.
    assert (0 < 10 / 3 - 15 / 8 * c - 2 * c ^ 2 + 5 / 4 * c ^ 3).
    { assert (c * c < 1) by nra. assert (0 < c * c * c) by (assert (0 < c * c) by nra; nra). simpl. nra. }
    nra. }
  nra.
Qed.
Lemma gc2_dec x y : 1 <= x -> x < y -> y <= 2 -> gc2 y < gc2 x.
Proof.
  intros H0 H1 H2.
  destruct (MVT_cor2 gc2 _ x y H1 (fun c (h : x <= c <= y) => gc2_lim c ltac:(lra))) as [c [E [Hc1 Hc2]]].
  assert (- 5 + 10 / 3 * c + 15 / 8 * c ^ 2 - 2 * c ^ 3 + 5 / 12 * c ^ 4 + 2 / (3 * c ^ 2) < 0).
  { replace (- 5 + 10 / 3 * c + 15 / 8 * c ^ 2 - 2 * c ^ 3 + 5 / 12 * c ^ 4 + 2 / (3 * c ^ 2)) with
      (- (((2 - c) * ((2 - c) * (2 - c))) * (5 * c ^ 3 + 6 * c ^ 2 - 3 / 2 * c - 1) / (12 * c ^ 2))) by (simpl; field; lra).
    assert (0 < 5 * c ^ 3 + 6 * c ^ 2 - 3 / 2 * c - 1) by (assert (1 < c * c) by nra; assert (1 < c * c * c) by nra; simpl; nra).
    assert (0 < (2 - c) * ((2 - c) * (2 - c))) by (assert (0 < 2 - c) by lra; assert (0 < (2 - c) * (2 - c)) by nra; nra).
    assert (0 < 12 * c ^ 2) by (simpl; nra).
    apply Ropp_lt_gt_0_contravar. apply Rmult_lt_0_compat; [now apply Rmult_lt_0_compat|now apply Rinv_0_lt_compat]. }
  nra.
Qed.
Lemma gc1_1 : gc1 1 = gc2 1. Proof. unfold gc1, gc2. field. Qed.
Lemma gc2_2 : gc2 2 = 0. Proof. unfold gc2. field. Qed.
Lemma gc_strict x y : 0 <= x -> x < y -> x < 2 -> gc y < gc x.
Proof.
  intros H0 H1 H2. rewrite !gc_eq. pose proof gc1_1. pose proof gc2_2.
  destruct (Rlt_dec x 1); [|destruct (Rlt_dec x 2); [|lra]].
  - destruct (Rlt_dec y 1); [apply gc1_dec; lra|]. pose proof (gc1_dec x 1 H0 r ltac:(lra)).
    destruct (Rlt_dec y 2).
    + destruct (Rle_lt_or_eq_dec 1 y) as [h|h]; [lra| |subst; lra]. pose proof (gc2_dec 1 y ltac:(lra) h ltac:(lra)). lra.
    + pose proof (gc2_dec 1 2 ltac:(lra) ltac:(lra) ltac:(lra)). lra.
  - destruct (Rlt_dec y 1); [lra|]. destruct (Rlt_dec y 2); [apply gc2_dec; lra|].
    pose proof (gc2_dec x 2 ltac:(lra) ltac:(lra) ltac:(lra)). lra.
Qed.
Lemma gc_nonincreasing x y : 0 <= x -> x <= y -> gc y <= gc x.
Proof.
  intros H0 H1. destruct (Req_dec x y) as [->|]; [lra|]. destruct (Rlt_dec x 2).
  - left. apply gc_strict; lra.
  - rewrite !gc_beyond by lra. lra.
Qed.
Lemma gc_positive r : 0 <= r -> r < 2 -> 0 < gc r.
Proof. intros. rewrite <- (gc_beyond 2) by lra. now apply gc_strict. Qed.
Lemma gc_range r : 0 <= r -> 0 <= gc r <= 1.
Proof.
  intros. split.
  - destruct (Rlt_dec r 2); [left; now apply gc_positive|rewrite gc_beyond; lra].
  - rewrite <- gc_zero. now apply gc_nonincreasing; [lra|].
Qed.

(** Continuity: the pieces agree at 1 and 2. *)
Lemma cont_glue f g h a x : (forall y, y < a -> f y = g y) -> (forall y, a <= y -> f y = h y) -> g a = h a ->
  (x <= a -> continuity_pt g x) -> (a <= x -> continuity_pt h x) -> continuity_pt f x.
Proof.
  intros Hg Hh E Cg Ch. unfold continuity_pt, continue_in, limit1_in, limit_in in *. simpl in *. unfold R_dist in *.
  intros eps Heps.
  destruct (Rlt_dec x a) as [l|l]; [|destruct (Rlt_dec a x) as [g'|g']].
  - destruct (Cg ltac:(lra) eps Heps) as [d [Hd H]]. exists (Rmin d (a - x)). split; [apply Rmin_pos; lra|].
    intros y [D Hy]. pose proof (Rmin_l d (a - x)). pose proof (Rmin_r d (a - x)). apply Rabs_def2 in Hy as Hy'.
    rewrite (Hg y), (Hg x) by lra. apply H. split; [assumption|lra].
  - destruct (Ch ltac:(lra) eps Heps) as [d [Hd H]]. exists (Rmin d (x - a)). split; [apply Rmin_pos; lra|].
    intros y [D Hy]. pose proof (Rmin_l d (x - a)). pose proof (Rmin_r d (x - a)). apply Rabs_def2 in Hy as Hy'.
    rewrite (Hh y), (Hh x) by lra. apply H. split; [assumption|lra].
  - assert (x = a) by lra. subst x.
    destruct (Cg ltac:(lra) eps Heps) as [d [Hd H]]. destruct (Ch ltac:(lra) eps Heps) as [d' [Hd' H']].
    exists (Rmin d d'). split; [apply Rmin_pos; lra|].
    intros y [D Hy]. pose proof (Rmin_l d d'). pose proof (Rmin_r d d'). rewrite (Hh a) by lra.
    destruct (Rlt_dec y a).
    + rewrite (Hg y) by lra. rewrite <- E. apply H. split; [assumption|lra].
    + rewrite (Hh y) by lra. apply H'. split; [assumption|lra].
Qed.
Lemma gc_continuous x : continuity_pt gc x.
Proof.
  apply cont_glue with (g := gc1) (h := fun r => if Rlt_dec r 2 then gc2 r else 0) (a := 1).
  - intros y Hy. rewrite gc_eq. destruct (Rlt_dec y 1); [reflexivity|lra].
  - intros y Hy. rewrite gc_eq. destruct (Rlt_dec y 1); [lra|reflexivity].
  - destruct (Rlt_dec 1 2); [apply gc1_1|lra].
  - intros _. apply derivable_continuous_pt. exists (- 10 / 3 * x + 15 / 8 * x ^ 2 + 2 * x ^ 3 - 5 / 4 * x ^ 4). apply gc1_lim.
  - intros Hx. apply cont_glue with (g := gc2) (h := fun _ => 0) (a := 2).
    + intros y Hy. destruct (Rlt_dec y 2); [reflexivity|lra].
    + intros y Hy. destruct (Rlt_dec y 2); [lra|reflexivity].
    + apply gc2_2.
    + intros _. apply derivable_continuous_pt. eexists. apply gc2_lim. lra.
    + intros _. apply continuity_pt_const. intros a b. reflexivity.
Qed.

(** As a factor of a covariance. *)
Lemma localization_ok fn (cutoff dist : R) : 0 < cutoff -> 0 <= dist ->
  0 <= localization (N := RNum) fn cutoff dist <= 1.
Proof.
  intros Hc Hd. unfold localization. destruct fn.
  - apply gc_range. cbn [num RNum nofZ nmul ndiv]. apply Rmult_le_pos; [nra|left; now apply Rinv_0_lt_compat].
  - cbn [num RNum nltb nofZ]. rcase; lra.
  - cbn [num RNum nofZ]. lra.
Qed.
Lemma localization_zero fn (cutoff : R) : 0 < cutoff -> localization (N := RNum) fn cutoff 0 = 1.
Proof.
  intros Hc. unfold localization. destruct fn.
  - cbn [num RNum nofZ nmul ndiv]. replace (2 * 0 / cutoff) with 0 by (field; lra). apply gc_zero.
  - cbn [num RNum nltb nofZ]. rcase; lra.
  - reflexivity.
Qed.
Lemma localization_beyond (cutoff dist : R) : 0 < cutoff -> cutoff <= dist -> localization (N := RNum) gaspari_cohn_cutoff cutoff dist = 0.
Proof.
  intros Hc Hd. apply gc_beyond. cbn [num RNum nofZ nmul ndiv].
  apply Rmult_le_reg_r with cutoff; [assumption|]. replace (2 * dist / cutoff * cutoff) with (2 * dist) by (field; lra). lra.
Qed.
Lemma localization_mono fn (cutoff d d' : R) : 0 < cutoff -> 0 <= d -> d <= d' ->
  localization (N := RNum) fn cutoff d' <= localization (N := RNum) fn cutoff d.
Proof.
  intros Hc H0 H. unfold localization. destruct fn.
  - assert (0 < / cutoff) by now apply Rinv_0_lt_compat.
    apply gc_nonincreasing; cbn [num RNum nofZ nmul ndiv]; unfold Rdiv; nra.
  - cbn [num RNum nltb nofZ]. repeat rcase; lra.
  - lra.
Qed.

(** ** Covariance *)
Lemma fold_plus {A} (f : A -> R) l : forall a, fold_left (fun s x => s + f x) l a = a + Rsum (map f l).
Proof. induction l as [|x l IH]; intros a; simpl; [lra|]. rewrite IH. lra. Qed.
Lemma INR_ofnat n : IZR (Z.of_nat n) = INR n. Proof. symmetry. apply INR_IZR_INZ. Qed.
Lemma mean_ok (ens : list (nat -> R)) i : ens <> [] -> mean (N := RNum) ens i = Ok (sample_mean ens i).
Proof.
  intros H. destruct ens as [|x rest]; [easy|]. unfold mean, sample_mean. f_equal. cbn [num RNum nadd ndiv nofZ].
  rewrite (fold_plus (fun y : nat -> R => y i) rest). rewrite INR_ofnat. reflexivity.
Qed.
Lemma cov_ok (ens : list (nat -> R)) i j : ens <> [] -> cov_element (N := RNum) ens i j = Ok (unbiased_covariance ens i j).
Proof.
  intros H. unfold cov_element. rewrite !mean_ok by assumption. cbn [bind]. unfold unbiased_covariance. f_equal.
  cbn [num RNum nadd nsub nmul ndiv nofZ].
  rewrite (fold_plus (fun x : nat -> R => (x i - sample_mean ens i) * (x j - sample_mean ens j)) ens). rewrite INR_ofnat.
  f_equal. lra.
Qed.
Lemma unbiased_sym ens i j : unbiased_covariance ens i j = unbiased_covariance ens j i.
Proof.
  unfold unbiased_covariance. f_equal. f_equal. apply map_ext. intros x. lra.
Qed.
Lemma Rsum_nonneg l : Forall (fun x => 0 <= x) l -> 0 <= Rsum l.
Proof. induction 1; simpl; lra. Qed.
Lemma Rsum_scal {A} (f : A -> R) c l : Rsum (map (fun x => c * f x) l) = c * Rsum (map f l).
Proof. induction l as [|x l IH]; simpl; [lra|]. rewrite IH. lra. Qed.
Lemma Rsum_add {A} (f g : A -> R) l : Rsum (map (fun x => f x + g x) l) = Rsum (map f l) + Rsum (map g l).
Proof. induction l as [|x l IH]; simpl; [lra|]. rewrite IH. lra. Qed.
Lemma Rsum_zero {A} (l : list A) : Rsum (map (fun _ => 0) l) = 0.
Proof. induction l as [|x l IH]; simpl; [lra|]. rewrite IH. lra. Qed.
Lemma Rsum_ext {A} (f g : A -> R) l : (forall x, In x l -> f x = g x) -> Rsum (map f l) = Rsum (map g l).
Proof. intros H. f_equal. now apply map_ext_in. Qed.
Lemma Rsum_swap {A B} (f : A -> B -> R) (l : list A) (l' : list B) :
  Rsum (map (fun x => Rsum (map (fun y => f x y) l')) l) = Rsum (map (fun y => Rsum (map (fun x => f x y) l)) l').
Proof.
  induction l as [|x l IH]; simpl.
  - now rewrite Rsum_zero.
  - rewrite IH. symmetry. apply (Rsum_add (fun y => f x y) (fun y => Rsum (map (fun x0 => f x0 y) l))).
Qed.
Lemma length_ge2 {A} (l : list A) : (2 <= List.length l)%nat -> 0 < INR (List.length l) - 1 /\ l <> [].
Proof.
  intros H. apply le_INR in H as H'. simpl in H'. split; [lra|]. now destruct l.
Qed.
Lemma diag_nonneg ens i : (2 <= List.length ens)%nat -> 0 <= unbiased_covariance ens i i.
Proof.
  intros H. apply length_ge2 in H as [H _]. unfold unbiased_covariance. apply Rmult_le_pos; [|left; now apply Rinv_0_lt_compat].
  apply Rsum_nonneg. apply Forall_forall. intros y Hy. apply in_map_iff in Hy as [x [<- _]]. apply Rle_0_sqr.
Qed.
Lemma cov_quadratic ens n v : (2 <= List.length ens)%nat ->
  quadratic n (unbiased_covariance ens) v =
  Rsum (map (fun x => Rsqr (Rsum_to n (fun i => v i * (x i - sample_mean ens i)))) ens) / (INR (List.length ens) - 1).
Proof.
  intros H. apply length_ge2 in H as [H _]. set (c := / (INR (List.length ens) - 1)).
  unfold quadratic, Rsum_to, Rdiv, unbiased_covariance. fold c.
  transitivity (c * Rsum (map (fun i => Rsum (map (fun j => Rsum (map (fun x => (v i * (x i - sample_mean ens i)) * (v j * (x j - sample_mean ens j))) ens)) (seq 0 n))) (seq 0 n))).
  - rewrite <- Rsum_scal. apply Rsum_ext. intros i _. rewrite <- Rsum_scal. apply Rsum_ext. intros j _.
    unfold Rdiv. fold c.
    rewrite (Rsum_ext (fun x : nat -> R => v i * (x i - sample_mean ens i) * (v j * (x j - sample_mean ens j)))
                      (fun x => (v i * v j) * ((x i - sample_mean ens i) * (x j - sample_mean ens j)))) by (intros; lra).
    rewrite Rsum_scal. lra.
  - rewrite Rmult_comm. f_equal.
    rewrite (Rsum_ext _ (fun i => Rsum (map (fun x => Rsum (map (fun j => v i * (x i - sample_mean ens i) * (v j * (x j - sample_mean ens j))) (seq 0 n))) ens))).
    2: { intros i _. apply Rsum_swap. }
    rewrite Rsum_swap. apply Rsum_ext. intros x _. unfold Rsqr.
    rewrite <- Rsum_scal. apply Rsum_ext. intros i _. rewrite Rsum_scal. lra.
Qed.
Lemma cov_psd ens n : (2 <= List.length ens)%nat -> positive_semidefinite n (unbiased_covariance ens).
Proof.
  intros H v. rewrite cov_quadratic by assumption. apply length_ge2 in H as [H _].
  apply Rmult_le_pos; [|left; now apply Rinv_0_lt_compat].
  apply Rsum_nonneg. apply Forall_forall. intros y Hy. apply in_map_iff in Hy as [x [<- _]]. apply Rle_0_sqr.
Qed.
Lemma mean_const ens i a : ens <> [] -> (forall x, In x ens -> x i = a) -> sample_mean ens i = a.
Proof.
  intros Hne H. unfold sample_mean. rewrite (Rsum_ext _ (fun _ => a)) by assumption.
  assert (E : Rsum (map (fun _ : nat -> R => a) ens) = INR (List.length ens) * a).
  { clear. induction ens as [|x l IH]; [simpl; lra|]. cbn [map Rsum fold_right List.length]. fold (Rsum (map (fun _ : nat -> R => a) l)).
    rewrite IH, S_INR. lra. }
  rewrite E. field. destruct ens; [easy|]. apply not_0_INR. discriminate.
Qed.
Lemma cov_identical ens i j a : ens <> [] -> (forall x, In x ens -> x i = a) -> unbiased_covariance ens i j = 0.
Proof.
  intros Hne H. unfold unbiased_covariance. rewrite (Rsum_ext _ (fun _ => 0)).
  - rewrite Rsum_zero. unfold Rdiv. lra.
  - intros x Hx. rewrite (mean_const ens i a Hne H), (H x Hx). lra.
Qed.
(** Adding a constant to a coordinate of every member changes nothing. *)
Lemma cov_shift ens i j (c : nat -> R) : ens <> [] -> unbiased_covariance (map (fun x k => x k + c k) ens) i j = unbiased_covariance ens i j.
Proof.
  intros Hne. assert (M : forall k, sample_mean (map (fun (x : nat -> R) k => x k + c k) ens) k = sample_mean ens k + c k).
  { intros k. unfold sample_mean. rewrite map_map, map_length. rewrite (Rsum_add (fun x : nat -> R => x k) (fun _ => c k)).
    assert (E : Rsum (map (fun _ : nat -> R => c k) ens) = INR (List.length ens) * c k).
    { clear. induction ens as [|x l IH]; [simpl; lra|]. cbn [map Rsum fold_right List.length]. fold (Rsum (map (fun _ : nat -> R => c k) l)).
      rewrite IH, S_INR. lra. }
    rewrite E. field. destruct ens; [easy|]. apply not_0_INR. discriminate. }
  unfold unbiased_covariance. rewrite map_map, map_length. f_equal. apply Rsum_ext. intros x _. rewrite !M. lra.
Qed.
