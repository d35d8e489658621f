(** StabilityProofs5.v -- the rates of linear elements on boxes. *)
From Coq Require Import Reals List Bool String ZArith Lra Lia.
From Verif Require Import Base MaterialModel MaterialSpec InputModel HeatModel HeatSpec MaterialProofs MaterialProofs2 HeatProofs HeatProofs2 HeatProofs3 HeatProofs4 HeatProofs5 HeatProofs7
  StabilitySpec StabilityProofs StabilityProofs2 StabilityProofs3 StabilityProofs4.
Import ListNotations.
Open Scope R_scope.

Definition pts (t : R) : list R := [1/2 - t; 1/2 + t].
Lemma gauss_pts : gauss = pts (/ (2 * sqrt 3)). Proof. reflexivity. Qed.
Lemma ends_pts : ends = pts (1/2). Proof. unfold ends, pts. f_equal; [lra|]. f_equal. lra. Qed.
Lemma gauss_sq : / (2 * sqrt 3) * / (2 * sqrt 3) = 1/12.
Proof.
  assert (S : 0 < sqrt 3) by (apply sqrt_lt_R0; lra). rewrite <- Rinv_mult. replace (2 * sqrt 3 * (2 * sqrt 3)) with (4 * (sqrt 3 * sqrt 3)) by ring. rewrite sqrt_sqrt by lra. lra.
Qed.
Lemma operator_pts lob : exists t, operator_points lob = pts t /\ 4 * (t * t) = if lob then 1 else 1/3.
Proof. destruct lob; [exists (1/2)|exists (/ (2 * sqrt 3))]; split; [apply ends_pts|lra|reflexivity|rewrite gauss_sq; lra]. Qed.

Definition dotR (g : pt RNum) : R := dot g g.
Lemma grad3 dx dy dz x y z v : dotR (local_gradient (point3 dx dy dz x y z) v) =
  (/ dx * ((1 - y) * (1 - z) * (v 1%nat - v 0%nat) + y * (1 - z) * (v 3%nat - v 2%nat) + (1 - y) * z * (v 5%nat - v 4%nat) + y * z * (v 7%nat - v 6%nat)))^2 +
  (/ dy * ((1 - x) * (1 - z) * (v 2%nat - v 0%nat) + x * (1 - z) * (v 3%nat - v 1%nat) + (1 - x) * z * (v 6%nat - v 4%nat) + x * z * (v 7%nat - v 5%nat)))^2 +
  (/ dz * ((1 - x) * (1 - y) * (v 4%nat - v 0%nat) + x * (1 - y) * (v 5%nat - v 1%nat) + (1 - x) * y * (v 6%nat - v 2%nat) + x * y * (v 7%nat - v 3%nat)))^2.
Proof.
  unfold dotR, dot, local_gradient, point3, Sum, sumR, corners3. cbn [px py pz h_grads map List.length seq fold_right nth lin slope fst snd num RNum]. unfold Rdiv. ring.
Qed.
Lemma grad2 dx dz x z v : dotR (local_gradient (point2 dx dz x z) v) =
  (/ dx * ((1 - z) * (v 1%nat - v 0%nat) + z * (v 3%nat - v 2%nat)))^2 + (/ dz * ((1 - x) * (v 2%nat - v 0%nat) + x * (v 3%nat - v 1%nat)))^2.
Proof.
  unfold dotR, dot, local_gradient, point2, Sum, sumR, corners2. cbn [px py pz h_grads map List.length seq fold_right nth lin slope fst snd num RNum]. unfold Rdiv. ring.
Qed.
Lemma grad2_y dx dz x z v : (py (local_gradient (point2 dx dz x z) v) : R) = 0.
Proof. unfold local_gradient, point2, Sum, sumR, corners2. cbn [px py pz h_grads map List.length seq fold_right nth lin slope fst snd num RNum]. ring. Qed.
Section Modes.
  Variables (v : nat -> R).
  Local Notation v0 := (v 0%nat). Local Notation v1 := (v 1%nat). Local Notation v2 := (v 2%nat). Local Notation v3 := (v 3%nat).
  Local Notation v4 := (v 4%nat). Local Notation v5 := (v 5%nat). Local Notation v6 := (v 6%nat). Local Notation v7 := (v 7%nat).
  Definition mode (a b c : R) : R := v0 + a * v1 + b * v2 + a * b * v3 + c * v4 + a * c * v5 + b * c * v6 + a * b * c * v7.
  Definition mS := v0 + v1 + v2 + v3 + v4 + v5 + v6 + v7.
  Definition mX := - v0 + v1 - v2 + v3 - v4 + v5 - v6 + v7.
  Definition mY := - v0 - v1 + v2 + v3 - v4 - v5 + v6 + v7.
  Definition mZ := - v0 - v1 - v2 - v3 + v4 + v5 + v6 + v7.
  Definition mXY := v0 - v1 - v2 + v3 + v4 - v5 - v6 + v7.
  Definition mXZ := v0 - v1 + v2 - v3 - v4 + v5 - v6 + v7.
  Definition mYZ := v0 + v1 - v2 - v3 - v4 - v5 + v6 + v7.
  Definition mXYZ := - v0 + v1 + v2 - v3 + v4 - v5 - v6 + v7.
  Lemma parseval : mS^2 + mX^2 + mY^2 + mZ^2 + mXY^2 + mXZ^2 + mYZ^2 + mXYZ^2 = 8 * Sum (seq 0 8) (fun i => v i * v i).
  Proof. unfold Sum, sumR. cbn [seq map fold_right]. unfold mS, mX, mY, mZ, mXY, mXZ, mYZ, mXYZ. ring. Qed.
  Definition four (f : R -> R -> R) (t : R) : R := f (1/2 - t) (1/2 - t) + f (1/2 + t) (1/2 - t) + f (1/2 - t) (1/2 + t) + f (1/2 + t) (1/2 + t).
  Lemma four_x i t : four (fun y z => (i * ((1 - y) * (1 - z) * (v1 - v0) + y * (1 - z) * (v3 - v2) + (1 - y) * z * (v5 - v4) + y * z * (v7 - v6)))^2) t =
    / 4 * (i * i) * (mX^2 + 4 * (t * t) * (mXY^2 + mXZ^2) + 4 * (t * t) * (4 * (t * t)) * mXYZ^2).
  Proof. unfold four, mX, mXY, mXZ, mXYZ. field. Qed.
  Lemma four_y i t : four (fun x z => (i * ((1 - x) * (1 - z) * (v2 - v0) + x * (1 - z) * (v3 - v1) + (1 - x) * z * (v6 - v4) + x * z * (v7 - v5)))^2) t =
    / 4 * (i * i) * (mY^2 + 4 * (t * t) * (mXY^2 + mYZ^2) + 4 * (t * t) * (4 * (t * t)) * mXYZ^2).
  Proof. unfold four, mY, mXY, mYZ, mXYZ. field. Qed.
  Lemma four_z i t : four (fun x y => (i * ((1 - x) * (1 - y) * (v4 - v0) + x * (1 - y) * (v5 - v1) + (1 - x) * y * (v6 - v2) + x * y * (v7 - v3)))^2) t =
    / 4 * (i * i) * (mZ^2 + 4 * (t * t) * (mXZ^2 + mYZ^2) + 4 * (t * t) * (4 * (t * t)) * mXYZ^2).
  Proof. unfold four, mZ, mXZ, mYZ, mXYZ. field. Qed.
  Lemma eight dx dy dz dofs t : Sum (c_quads (brick (pts t) dx dy dz dofs)) (fun q => dotR (local_gradient q v)) =
    / 2 * (/ dx * / dx * (mX^2 + 4 * (t * t) * (mXY^2 + mXZ^2) + 4 * (t * t) * (4 * (t * t)) * mXYZ^2)
         + / dy * / dy * (mY^2 + 4 * (t * t) * (mXY^2 + mYZ^2) + 4 * (t * t) * (4 * (t * t)) * mXYZ^2)
         + / dz * / dz * (mZ^2 + 4 * (t * t) * (mXZ^2 + mYZ^2) + 4 * (t * t) * (4 * (t * t)) * mXYZ^2)).
  Proof.
    transitivity (2 * four (fun y z => (/ dx * ((1 - y) * (1 - z) * (v1 - v0) + y * (1 - z) * (v3 - v2) + (1 - y) * z * (v5 - v4) + y * z * (v7 - v6)))^2) t
      + 2 * four (fun x z => (/ dy * ((1 - x) * (1 - z) * (v2 - v0) + x * (1 - z) * (v3 - v1) + (1 - x) * z * (v6 - v4) + x * z * (v7 - v5)))^2) t
      + 2 * four (fun x y => (/ dz * ((1 - x) * (1 - y) * (v4 - v0) + x * (1 - y) * (v5 - v1) + (1 - x) * y * (v6 - v2) + x * y * (v7 - v3)))^2) t).
    - unfold brick, pts. cbn [c_quads flat_map map List.app]. rewrite !Sum_cons, Sum_nil, !grad3. unfold four. cbv beta. lra.
    - rewrite four_x, four_y, four_z. generalize (/ dx) (/ dy) (/ dz). intros ix iy iz. field.
  Qed.
  (** Two dimensions. *)
  Definition nS := v0 + v1 + v2 + v3.
  Definition nX := - v0 + v1 - v2 + v3.
  Definition nZ := - v0 - v1 + v2 + v3.
  Definition nXZ := v0 - v1 - v2 + v3.
  Lemma parseval2 : nS^2 + nX^2 + nZ^2 + nXZ^2 = 4 * Sum (seq 0 4) (fun i => v i * v i).
  Proof. unfold Sum, sumR. cbn [seq map fold_right]. unfold nS, nX, nZ, nXZ. ring. Qed.
  Lemma four2 dx dz dofs t : Sum (c_quads (rectangle (pts t) dx dz dofs)) (fun q => dotR (local_gradient q v)) =
    / dx * / dx * (nX^2 + 4 * (t * t) * nXZ^2) + / dz * / dz * (nZ^2 + 4 * (t * t) * nXZ^2).
  Proof.
    unfold rectangle, pts. cbn [c_quads flat_map map List.app]. rewrite !Sum_cons, Sum_nil, !grad2. unfold nX, nZ, nXZ. generalize (/ dx) (/ dz). intros ix iz. field.
  Qed.
End Modes.

Lemma local_mass3 dx dy dz dofs i : local_mass_of (brick ends dx dy dz dofs) i = if Nat.ltb i 8 then dx * dy * dz / 8 else 0.
Proof.
  unfold local_mass_of, brick, ends, Sum, sumR. cbn [c_quads flat_map map List.app fold_right]. unfold point3. cbn [h_jxw h_values].
  do 8 (destruct i as [|i]; [cbn [Nat.ltb Nat.leb corners3 map nth lin fst snd]; field|]). cbn [corners3 map nth]. destruct i; cbn [nth Nat.ltb Nat.leb]; ring.
Qed.
Lemma local_mass2 dx dz dofs i : local_mass_of (rectangle ends dx dz dofs) i = if Nat.ltb i 4 then dx * dz / 4 else 0.
Proof.
  unfold local_mass_of, rectangle, ends, Sum, sumR. cbn [c_quads flat_map map List.app fold_right]. unfold point2. cbn [h_jxw h_values].
  do 4 (destruct i as [|i]; [cbn [Nat.ltb Nat.leb corners2 map nth lin fst snd]; field|]). cbn [corners2 map nth]. destruct i; cbn [nth Nat.ltb Nat.leb]; ring.
Qed.
Lemma Sum_indexed {A} (f : A -> R) l : Sum (indexed l) (fun ia => f (snd ia)) = Sum l f.
Proof. unfold indexed. generalize 0%nat. induction l as [|a l IH]; intros s; [reflexivity|]. cbn [List.length seq combine]. rewrite !Sum_cons, IH. reflexivity. Qed.
Lemma inv_sq h d : 0 < h -> h <= d -> / d * / d <= / h * / h.
Proof. intros H D. assert (/ d <= / h) by (apply Rinv_le_contravar; assumption). assert (0 < / d) by (apply Rinv_0_lt_compat; lra). assert (0 < / h) by (apply Rinv_0_lt_compat; lra). nra. Qed.
Lemma scaled (j w x y : R) : j = w -> 0 <= w -> x <= y -> j * x <= w * y.
Proof. intros -> W H. apply Rmult_le_compat_l; assumption. Qed.
(** The conduction of a cell whose quadrature points have the same weight. *)
Lemma conducted_bound dim3 (P : nat -> point_law RNum) alpha c w v :
  (forall q, let k := P q in 0 <= pl_inv k /\ 0 <= pl_kx k /\ 0 <= pl_ky k /\ 0 <= pl_kz k /\ (pl_cos k : R) * pl_cos k + pl_sin k * pl_sin k = 1 /\
    (pl_inv k : R) * pl_kx k <= alpha /\ (pl_inv k : R) * pl_ky k <= alpha /\ (pl_inv k : R) * pl_kz k <= alpha) ->
  0 <= w -> Forall (fun q : hquad RNum => (h_jxw q : R) = w /\ (dim3 = false -> (py (local_gradient q v) : R) = 0)) (c_quads c) ->
  conducted_in dim3 P c v <= w * (alpha * Sum (c_quads c) (fun q => dotR (local_gradient q v))).
Proof.
  intros H W Fq. rewrite <- Sum_scal, <- Sum_scal, <- (Sum_indexed _ (c_quads c)). unfold conducted_in. apply Sum_le. intros iq Iq. cbv zeta. apply in_indexed in Iq.
  apply (proj1 (Forall_forall _ _) Fq) in Iq as [J D]. specialize (H (fst iq)). cbv zeta in H. destruct H as [H1 [H2 [H3 [H4 [H5 [H6 [H7 H8]]]]]]].
  pose proof (diffused dim3 (P (fst iq)) alpha (local_gradient (snd iq) v) H1 H2 H3 H4 H5 H6 H7 H8 D) as X. fold (dotR (local_gradient (snd iq) v)) in X.
  exact (scaled _ _ _ _ J W X).
Qed.
Definition factor (lob : bool) : R := if lob then 1 else 1/3.
Lemma modes_bound (lob dim3 : bool) (a b c x y z xy xz yz xyz n q : R) : let s := factor lob in 0 <= a <= q -> 0 <= b <= q -> 0 <= c <= q ->
  a * (x^2 + s * (xy^2 + xz^2) + s * s * xyz^2) + b * (y^2 + s * (xy^2 + yz^2) + s * s * xyz^2) + c * (z^2 + s * (xz^2 + yz^2) + s * s * xyz^2)
  <= q * ((if lob then 3 else 1) * (n^2 + x^2 + y^2 + z^2 + xy^2 + xz^2 + yz^2 + xyz^2)).
Proof.
  intros s A B C.
  assert (X : forall u : R, 0 <= u^2) by (intros u; simpl; rewrite Rmult_1_r; apply Rle_0_sqr).
  assert (S0 : 0 <= s /\ 0 <= s * s) by (unfold s, factor; destruct lob; lra). destruct S0 as [S0 S1].
  assert (Y : forall d u w r, 0 <= d <= q -> 0 <= u -> 0 <= w -> 0 <= r -> d * (u + s * w + s * s * r) <= q * (u + s * w + s * s * r)).
  { intros d u w r D U W R0. apply Rmult_le_compat_r; [|lra]. assert (0 <= s * w) by (apply Rmult_le_pos; assumption). assert (0 <= s * s * r) by (apply Rmult_le_pos; assumption). lra. }
  pose proof (X n) as X0. pose proof (X x) as X1. pose proof (X y) as X2. pose proof (X z) as X3. pose proof (X xy) as X4. pose proof (X xz) as X5. pose proof (X yz) as X6. pose proof (X xyz) as X7.
  pose proof (Y a (x^2) (xy^2 + xz^2) (xyz^2) A X1 ltac:(lra) X7) as Y1. pose proof (Y b (y^2) (xy^2 + yz^2) (xyz^2) B X2 ltac:(lra) X7) as Y2. pose proof (Y c (z^2) (xz^2 + yz^2) (xyz^2) C X3 ltac:(lra) X7) as Y3.
  eapply Rle_trans; [apply Rplus_le_compat; [apply Rplus_le_compat; [exact Y1|exact Y2]|exact Y3]|]. rewrite <- !Rmult_plus_distr_l. apply Rmult_le_compat_l; [lra|].
  unfold s, factor. destruct lob; lra.
Qed.
Lemma inv_sq_range h d : 0 < h -> h <= d -> 0 <= / d * / d <= / h * / h.
Proof. intros H D. split; [|apply inv_sq; assumption]. apply Rle_0_sqr. Qed.
Lemma diffusivity_pos P alpha : diffusivity_at_most P alpha -> 0 <= alpha.
Proof. intros H. destruct (H 0%nat 0%nat) as [H1 [H2 [_ [_ [_ [H3 _]]]]]]. apply Rle_trans with (pl_inv (P 0%nat 0%nat) * pl_kx (P 0%nat 0%nat)); [apply Rmult_le_pos; assumption|exact H3]. Qed.
Lemma box_bound (dim3 lob : bool) (P : nat -> point_law RNum) alpha h c cm :
  (forall q, let k := P q in 0 <= pl_inv k /\ 0 <= pl_kx k /\ 0 <= pl_ky k /\ 0 <= pl_kz k /\ (pl_cos k : R) * pl_cos k + pl_sin k * pl_sin k = 1 /\
    (pl_inv k : R) * pl_kx k <= alpha /\ (pl_inv k : R) * pl_ky k <= alpha /\ (pl_inv k : R) * pl_kz k <= alpha) -> 0 <= alpha ->
  0 < h -> box dim3 lob h c cm -> cell_at_most dim3 P (box_factor dim3 lob * alpha / (h * h)) c cm.
Proof.
  intros H A0 H0 B. assert (IH : / (h * h) = / h * / h) by (apply Rinv_mult). unfold Rdiv. rewrite IH. destruct (operator_pts lob) as [t [Et Tt]]. fold (factor lob) in Tt. destruct dim3; cbn [box] in B.
  - destruct B as [dx [dy [dz [dofs [Hx [Hy [Hz [Ld [-> ->]]]]]]]]]. rewrite Et. split; [reflexivity|].
    assert (V : 0 < dx * dy * dz) by (apply Rmult_lt_0_compat; [apply Rmult_lt_0_compat|]; lra). split.
    { intros i. rewrite local_mass3. destruct (Nat.ltb i 8); lra. }
    intros v. eapply Rle_trans; [apply (conducted_bound true P alpha _ (dx * dy * dz / 8) v H); [lra|]|].
    + unfold brick, pts. cbn [c_quads flat_map map List.app]. repeat (apply Forall_cons; [split; [reflexivity|discriminate]|]). apply Forall_nil.
    + rewrite eight, Tt. cbn [brick c_dofs]. rewrite Ld.
      rewrite (Sum_ext (fun i => local_mass_of (brick ends dx dy dz dofs) i * (v i * v i)) (fun i => dx * dy * dz / 8 * (v i * v i))).
      2:{ intros i I. rewrite local_mass3. apply in_seq in I. destruct (Nat.ltb_spec i 8); [reflexivity|lia]. }
      rewrite Sum_scal. pose proof (parseval v) as Pv. set (S8 := Sum (seq 0 8) (fun i => v i * v i)) in *.
      pose proof (modes_bound lob true (/ dx * / dx) (/ dy * / dy) (/ dz * / dz) (mX v) (mY v) (mZ v) (mXY v) (mXZ v) (mYZ v) (mXYZ v) (mS v) (/ h * / h)
        (inv_sq_range h dx H0 Hx) (inv_sq_range h dy H0 Hy) (inv_sq_range h dz H0 Hz)) as Mb. cbv zeta in Mb. rewrite Pv in Mb.
      match type of Mb with ?l <= _ => set (L := l) in * end.
      apply Rle_trans with (dx * dy * dz / 8 * (alpha * (/ 2 * (/ h * / h * ((if lob then 3 else 1) * (8 * S8)))))).
      * apply Rmult_le_compat_l; [lra|]. apply Rmult_le_compat_l; [exact A0|]. apply Rmult_le_compat_l; [lra|exact Mb].
      * right. unfold box_factor. destruct lob; field; lra.
  - destruct B as [dx [dz [dofs [Hx [Hz [Ld [-> ->]]]]]]]. rewrite Et. split; [reflexivity|].
    assert (V : 0 < dx * dz) by (apply Rmult_lt_0_compat; lra). split.
    { intros i. rewrite local_mass2. destruct (Nat.ltb i 4); lra. }
    intros v. eapply Rle_trans; [apply (conducted_bound false P alpha _ (dx * dz / 4) v H); [lra|]|].
    + unfold rectangle, pts. cbn [c_quads flat_map map List.app]. repeat (apply Forall_cons; [split; [reflexivity|intros _; apply grad2_y]|]). apply Forall_nil.
    + rewrite four2, Tt. cbn [rectangle c_dofs]. rewrite Ld.
      rewrite (Sum_ext (fun i => local_mass_of (rectangle ends dx dz dofs) i * (v i * v i)) (fun i => dx * dz / 4 * (v i * v i))).
      2:{ intros i I. rewrite local_mass2. apply in_seq in I. destruct (Nat.ltb_spec i 4); [reflexivity|lia]. }
      rewrite Sum_scal. pose proof (parseval2 v) as Pv. set (S4 := Sum (seq 0 4) (fun i => v i * v i)) in *.
      destruct (inv_sq_range h dx H0 Hx) as [X0 X1]. destruct (inv_sq_range h dz H0 Hz) as [Z0 Z1].
      assert (Mb : / dx * / dx * (nX v ^ 2 + factor lob * nXZ v ^ 2) + / dz * / dz * (nZ v ^ 2 + factor lob * nXZ v ^ 2) <= / h * / h * ((if lob then 2 else 1) * (4 * S4))).
      { assert (X : forall u : R, 0 <= u^2) by (intros u; simpl; rewrite Rmult_1_r; apply Rle_0_sqr). pose proof (X (nX v)) as Q1. pose proof (X (nZ v)) as Q2. pose proof (X (nXZ v)) as Q3. pose proof (X (nS v)) as Q4.
        assert (0 <= factor lob) by (unfold factor; destruct lob; lra). assert (0 <= factor lob * nXZ v ^ 2) by (apply Rmult_le_pos; assumption).
        apply Rle_trans with (/ h * / h * (nX v ^ 2 + factor lob * nXZ v ^ 2) + / h * / h * (nZ v ^ 2 + factor lob * nXZ v ^ 2)).
        - apply Rplus_le_compat; apply Rmult_le_compat_r; lra.
        - rewrite <- Rmult_plus_distr_l. apply Rmult_le_compat_l; [lra|]. rewrite <- Pv. unfold factor. destruct lob; lra. }
      apply Rle_trans with (dx * dz / 4 * (alpha * (/ h * / h * ((if lob then 2 else 1) * (4 * S4))))).
      * apply Rmult_le_compat_l; [lra|]. apply Rmult_le_compat_l; [exact A0|exact Mb].
      * right. unfold box_factor. destruct lob; field; lra.
Qed.
Lemma indexed_forall2 {A B} (Rel : A -> B -> Prop) la lb : Forall2 Rel la lb -> forall i a b, In (i, (a, b)) (indexed (combine la lb)) -> Rel a b.
Proof.
  intros H i a b I. apply in_indexed in I. cbn [snd] in I. induction H as [|x y la lb R0 _ IH]; [destruct I|]. destruct I as [E|I]; [injection E as <- <-; exact R0|exact (IH I)].
Qed.
Lemma boxes_bound (dim3 lob : bool) m P Q alpha h : mesh_ok m -> positive_weights (m_C m) -> diffusivity_at_most P alpha -> 0 < h -> boxes dim3 lob h m ->
  rate_at_most dim3 true m P Q (box_factor dim3 lob * alpha / (h * h)).
Proof.
  intros Mok W D H B. pose proof (diffusivity_pos P alpha D) as A0. apply (rate_adiabatic dim3 m P (fun _ _ => mkfl (N := RNum) 0 0 0 0 0)). apply cells_bound; [exact Mok|exact W| |].
  - unfold Rdiv. apply Rmult_le_pos; [apply Rmult_le_pos; [unfold box_factor; destruct lob, dim3; lra|exact A0]|]. left. apply Rinv_0_lt_compat. apply Rmult_lt_0_compat; exact H.
  - split.
    + clear - B. unfold boxes in B. induction B; [reflexivity|]. cbn [List.length]. rewrite IHB. reflexivity.
    + intros i c cm I. apply box_bound; [intros q; apply D|exact A0|exact H|]. exact (indexed_forall2 _ _ _ B i c cm I).
Qed.
