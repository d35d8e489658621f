(** MaximumProofs2.v -- cubes with Gauss points and boxes with Gauss-Lobatto points: heat flows downhill. *)
From Coq Require Import Reals List Bool String ZArith Lra Lia.
From Verif Require Import Base MaterialModel MaterialSpec InputModel HeatModel HeatSpec MaterialProofs MaterialProofs2 HeatProofs HeatProofs2 HeatProofs3 HeatProofs4 HeatProofs5 HeatProofs7
  StabilitySpec StabilityProofs StabilityProofs2 StabilityProofs3 StabilityProofs4 StabilityProofs5 MaximumSpec MaximumProofs.
Import ListNotations.
Open Scope R_scope.

Definition dotR2 (g h : pt RNum) : R := dot g h.
Lemma grad3b dx dy dz x y z v w : dotR2 (local_gradient (point3 dx dy dz x y z) v) (local_gradient (point3 dx dy dz x y z) w) =
  (/ dx * ((1 - y) * (1 - z) * (v 1%nat - v 0%nat) + y * (1 - z) * (v 3%nat - v 2%nat) + (1 - y) * z * (v 5%nat - v 4%nat) + y * z * (v 7%nat - v 6%nat))) *
  (/ dx * ((1 - y) * (1 - z) * (w 1%nat - w 0%nat) + y * (1 - z) * (w 3%nat - w 2%nat) + (1 - y) * z * (w 5%nat - w 4%nat) + y * z * (w 7%nat - w 6%nat))) +
  (/ dy * ((1 - x) * (1 - z) * (v 2%nat - v 0%nat) + x * (1 - z) * (v 3%nat - v 1%nat) + (1 - x) * z * (v 6%nat - v 4%nat) + x * z * (v 7%nat - v 5%nat))) *
  (/ dy * ((1 - x) * (1 - z) * (w 2%nat - w 0%nat) + x * (1 - z) * (w 3%nat - w 1%nat) + (1 - x) * z * (w 6%nat - w 4%nat) + x * z * (w 7%nat - w 5%nat))) +
  (/ dz * ((1 - x) * (1 - y) * (v 4%nat - v 0%nat) + x * (1 - y) * (v 5%nat - v 1%nat) + (1 - x) * y * (v 6%nat - v 2%nat) + x * y * (v 7%nat - v 3%nat))) *
  (/ dz * ((1 - x) * (1 - y) * (w 4%nat - w 0%nat) + x * (1 - y) * (w 5%nat - w 1%nat) + (1 - x) * y * (w 6%nat - w 2%nat) + x * y * (w 7%nat - w 3%nat))).
Proof.
  unfold dotR2, dot, local_gradient, point3, Sum, sumR, corners3. cbn [px py pz h_grads map List.length seq fold_right nth lin slope fst snd num RNum]. unfold Rdiv. ring.
Qed.
Lemma grad2b dx dz x z v w : dotR2 (local_gradient (point2 dx dz x z) v) (local_gradient (point2 dx dz x z) w) =
  (/ dx * ((1 - z) * (v 1%nat - v 0%nat) + z * (v 3%nat - v 2%nat))) * (/ dx * ((1 - z) * (w 1%nat - w 0%nat) + z * (w 3%nat - w 2%nat))) +
  (/ dz * ((1 - x) * (v 2%nat - v 0%nat) + x * (v 3%nat - v 1%nat))) * (/ dz * ((1 - x) * (w 2%nat - w 0%nat) + x * (w 3%nat - w 1%nat))).
Proof.
  unfold dotR2, dot, local_gradient, point2, Sum, sumR, corners2. cbn [px py pz h_grads map List.length seq fold_right nth lin slope fst snd num RNum]. unfold Rdiv. ring.
Qed.
Definition form3 (ix iy iz s : R) (v w : nat -> R) : R :=
  / 2 * (ix * (mX v * mX w + s * (mXY v * mXY w + mXZ v * mXZ w) + s * s * (mXYZ v * mXYZ w))
       + iy * (mY v * mY w + s * (mXY v * mXY w + mYZ v * mYZ w) + s * s * (mXYZ v * mXYZ w))
       + iz * (mZ v * mZ w + s * (mXZ v * mXZ w + mYZ v * mYZ w) + s * s * (mXYZ v * mXYZ w))).
Definition form2 (ix iz s : R) (v w : nat -> R) : R :=
  ix * (nX v * nX w + s * (nXZ v * nXZ w)) + iz * (nZ v * nZ w + s * (nXZ v * nXZ w)).
(** The squares polarised. *)
Definition plus1 (c : R) (v w : nat -> R) : nat -> R := fun i => v i + c * w i.
Lemma polar3 dx dy dz x y z v w : dotR2 (local_gradient (point3 dx dy dz x y z) v) (local_gradient (point3 dx dy dz x y z) w) =
  / 4 * (dotR (local_gradient (point3 dx dy dz x y z) (plus1 1 v w)) - dotR (local_gradient (point3 dx dy dz x y z) (plus1 (-1) v w))).
Proof. rewrite grad3b, !grad3. unfold plus1. generalize (/ dx) (/ dy) (/ dz). intros. field. Qed.
Lemma polar2 dx dz x z v w : dotR2 (local_gradient (point2 dx dz x z) v) (local_gradient (point2 dx dz x z) w) =
  / 4 * (dotR (local_gradient (point2 dx dz x z) (plus1 1 v w)) - dotR (local_gradient (point2 dx dz x z) (plus1 (-1) v w))).
Proof. rewrite grad2b, !grad2. unfold plus1. generalize (/ dx) (/ dz). intros. field. Qed.
Lemma Sum_polar {A} (l : list A) (f g h : A -> R) : (forall q, In q l -> f q = / 4 * (g q - h q)) -> Sum l f = / 4 * (Sum l g - Sum l h).
Proof. intros H. induction l as [|a l IH]; [rewrite !Sum_nil; lra|]. rewrite !Sum_cons, (H a (or_introl eq_refl)), IH by (intros q I; apply H; right; exact I). ring. Qed.
Lemma eight_b dx dy dz dofs t v w : Sum (c_quads (brick (pts t) dx dy dz dofs)) (fun q => dotR2 (local_gradient q v) (local_gradient q w)) =
  form3 (/ dx * / dx) (/ dy * / dy) (/ dz * / dz) (4 * (t * t)) v w.
Proof.
  rewrite (Sum_polar _ _ (fun q => dotR (local_gradient q (plus1 1 v w))) (fun q => dotR (local_gradient q (plus1 (-1) v w)))).
  - rewrite !eight. unfold form3, plus1, mX, mY, mZ, mXY, mXZ, mYZ, mXYZ. generalize (/ dx) (/ dy) (/ dz) (4 * (t * t)). intros. field.
  - intros q I. unfold brick in I. cbn [c_quads] in I. apply in_flat_map in I as [z [_ I]]. apply in_flat_map in I as [y [_ I]]. apply in_map_iff in I as [x [<- _]]. apply polar3.
Qed.
Lemma four2_b dx dz dofs t v w : Sum (c_quads (rectangle (pts t) dx dz dofs)) (fun q => dotR2 (local_gradient q v) (local_gradient q w)) =
  form2 (/ dx * / dx) (/ dz * / dz) (4 * (t * t)) v w.
Proof.
  rewrite (Sum_polar _ _ (fun q => dotR (local_gradient q (plus1 1 v w))) (fun q => dotR (local_gradient q (plus1 (-1) v w)))).
  - rewrite !four2. unfold form2, plus1, nX, nZ, nXZ. generalize (/ dx) (/ dz) (4 * (t * t)). intros. field.
  - intros q I. unfold rectangle in I. cbn [c_quads] in I. apply in_flat_map in I as [z [_ I]]. apply in_map_iff in I as [x [<- _]]. apply polar2.
Qed.
(** Two local nodes. *)
Definition one (a : nat) : nat -> R := fun k => if Nat.eqb k a then 1 else 0.
Lemma below8 (P : nat -> Prop) : P 0%nat -> P 1%nat -> P 2%nat -> P 3%nat -> P 4%nat -> P 5%nat -> P 6%nat -> P 7%nat -> forall a, (a < 8)%nat -> P a.
Proof. intros. do 8 (destruct a as [|a]; [assumption|]). lia. Qed.
Lemma below4 (P : nat -> Prop) : P 0%nat -> P 1%nat -> P 2%nat -> P 3%nat -> forall a, (a < 4)%nat -> P a.
Proof. intros. do 4 (destruct a as [|a]; [assumption|]). lia. Qed.
Lemma form3_off lob ix iy iz q a b : 0 <= ix <= q -> 0 <= iy <= q -> 0 <= iz <= q -> (lob = false -> ix = iy /\ iy = iz) -> (a < 8)%nat -> (b < 8)%nat -> a <> b -> form3 ix iy iz (factor lob) (one a) (one b) <= 0.
Proof.
  intros X Y Z E A B N.
  assert (H : (lob = true /\ factor lob = 1) \/ (iy = ix /\ iz = ix /\ factor lob = 1/3)). { destruct lob; [left; split; reflexivity|right]. destruct (E eq_refl) as [<- <-]. repeat split. }
  unfold form3, mX, mY, mZ, mXY, mXZ, mYZ, mXYZ, one. clear E.
  destruct H as [[_ ->]|[-> [-> ->]]]; revert b B N; revert a A; refine (below8 _ _ _ _ _ _ _ _ _); refine (below8 _ _ _ _ _ _ _ _ _); intros N; try (exfalso; apply N; reflexivity); cbn [Nat.eqb]; lra.
Qed.
Lemma form3_diag lob ix iy iz q a : 0 <= ix <= q -> 0 <= iy <= q -> 0 <= iz <= q -> (a < 8)%nat -> form3 ix iy iz (factor lob) (one a) (one a) <= even_factor true lob * q.
Proof.
  intros X Y Z A. unfold form3, mX, mY, mZ, mXY, mXZ, mYZ, mXYZ, one, factor, even_factor. destruct lob; revert a A; refine (below8 _ _ _ _ _ _ _ _ _); cbn [Nat.eqb]; lra.
Qed.
Lemma form2_off lob ix iz q a b : 0 <= ix <= q -> 0 <= iz <= q -> (lob = false -> ix = iz) -> (a < 4)%nat -> (b < 4)%nat -> a <> b -> form2 ix iz (factor lob) (one a) (one b) <= 0.
Proof.
  intros X Z E A B N.
  assert (H : (lob = true /\ factor lob = 1) \/ (iz = ix /\ factor lob = 1/3)). { destruct lob; [left; split; reflexivity|right]. rewrite (E eq_refl). split; reflexivity. }
  unfold form2, nX, nZ, nXZ, one. clear E.
  destruct H as [[_ ->]|[-> ->]]; revert b B N; revert a A; refine (below4 _ _ _ _ _); refine (below4 _ _ _ _ _); intros N; try (exfalso; apply N; reflexivity); cbn [Nat.eqb]; lra.
Qed.
Lemma form2_diag lob ix iz q a : 0 <= ix <= q -> 0 <= iz <= q -> (a < 4)%nat -> form2 ix iz (factor lob) (one a) (one a) <= even_factor false lob * q.
Proof.
  intros X Z A. unfold form2, nX, nZ, nXZ, one, factor, even_factor. destruct lob; revert a A; refine (below4 _ _ _ _ _); cbn [Nat.eqb]; lra.
Qed.
(** The values of a hat at the nodes of a cell. *)
Lemma hat_local dofs i : NoDup dofs -> (exists a, (a < List.length dofs)%nat /\ nth a dofs 0%nat = i /\ forall k, (k < List.length dofs)%nat -> hat i (nth k dofs 0%nat) = one a k) \/
  (forall k, (k < List.length dofs)%nat -> hat i (nth k dofs 0%nat) = 0).
Proof.
  intros Nd. destruct (in_dec Nat.eq_dec i dofs) as [I|I].
  - left. destruct (In_nth _ _ 0%nat I) as [a [La Ea]]. exists a. split; [exact La|]. split; [exact Ea|]. intros k Lk. unfold hat, one. destruct (Nat.eqb_spec k a) as [->|Ne]; [rewrite Ea, Nat.eqb_refl; reflexivity|].
    destruct (Nat.eqb_spec (nth k dofs 0%nat) i) as [E|]; [|reflexivity]. exfalso. apply Ne. apply (proj1 (NoDup_nth dofs 0%nat) Nd k a Lk La). congruence.
  - right. intros k Lk. unfold hat. destruct (Nat.eqb_spec (nth k dofs 0%nat) i) as [E|]; [|reflexivity]. exfalso. apply I. rewrite <- E. apply nth_In. exact Lk.
Qed.
Lemma form3_ext ix iy iz s v v' w w' : (forall k, (k < 8)%nat -> v k = v' k) -> (forall k, (k < 8)%nat -> w k = w' k) -> form3 ix iy iz s v w = form3 ix iy iz s v' w'.
Proof. intros V W. unfold form3, mX, mY, mZ, mXY, mXZ, mYZ, mXYZ. rewrite !V, !W by lia. reflexivity. Qed.
Lemma form2_ext ix iz s v v' w w' : (forall k, (k < 4)%nat -> v k = v' k) -> (forall k, (k < 4)%nat -> w k = w' k) -> form2 ix iz s v w = form2 ix iz s v' w'.
Proof. intros V W. unfold form2, nX, nZ, nXZ. rewrite !V, !W by lia. reflexivity. Qed.
Lemma form3_0l ix iy iz s w : form3 ix iy iz s (fun _ => 0) w = 0. Proof. unfold form3, mX, mY, mZ, mXY, mXZ, mYZ, mXYZ. ring. Qed.
Lemma form3_0r ix iy iz s w : form3 ix iy iz s w (fun _ => 0) = 0. Proof. unfold form3, mX, mY, mZ, mXY, mXZ, mYZ, mXYZ. ring. Qed.
Lemma form2_0l ix iz s w : form2 ix iz s (fun _ => 0) w = 0. Proof. unfold form2, nX, nZ, nXZ. ring. Qed.
Lemma form2_0r ix iz s w : form2 ix iz s w (fun _ => 0) = 0. Proof. unfold form2, nX, nZ, nXZ. ring. Qed.

(** The conduction of an isotropic material. *)
Lemma iso_dot dim3 (k : point_law RNum) (a : R) (g h : pt RNum) : (pl_cos k : R) * pl_cos k + pl_sin k * pl_sin k = 1 -> (pl_inv k : R) * pl_kx k = a -> (pl_inv k : R) * pl_ky k = a -> (pl_inv k : R) * pl_kz k = a ->
  (dim3 = false -> (py g : R) = 0) -> - dot (conduction (N := RNum) dim3 (pl_inv k) (pl_kx k) (pl_ky k) (pl_kz k) (pl_cos k) (pl_sin k) g) h = a * dotR2 g h.
Proof.
  destruct k as [inv kx ky kz c s bs]. destruct g as [gx gy gz]. destruct h as [hx hy hz]. cbn [pl_inv pl_kx pl_ky pl_kz pl_cos pl_sin px py pz]. intros U AX AY AZ D.
  unfold dotR2, conduction, dot, pscale. destruct dim3.
  - cbn [px py pz num RNum nmul nsub nadd nopp nofZ] in *. simpl in *.
    transitivity (((inv * kx) * (c * c) + (inv * ky) * (s * s)) * gx * hx + ((inv * kx) * (s * s) + (inv * ky) * (c * c)) * gy * hy + ((inv * kx) - (inv * ky)) * (c * s) * (gy * hx + gx * hy) + (inv * kz) * (gz * hz)); [ring|].
    rewrite AX, AY, AZ. transitivity (a * ((c * c + s * s) * (gx * hx + gy * hy) + gz * hz)); [ring|]. rewrite U. ring.
  - specialize (D eq_refl). cbn [px py pz num RNum nmul nsub nadd nopp nofZ] in *. simpl in *. subst gy. rewrite <- AX at 1.
    transitivity ((inv * kx) * (gx * hx) + (inv * kz) * (gz * hz)); [ring|]. rewrite AX, AZ. ring.
Qed.
(** A cell. *)
Definition conducted_pair (dim3 : bool) (P : nat -> point_law RNum) (c : hcell RNum) (v w : nat -> R) : R :=
  Sum (indexed (c_quads c)) (fun iq => let k := P (fst iq) in
    h_jxw (snd iq) * - dot (conduction (N := RNum) dim3 (pl_inv k) (pl_kx k) (pl_ky k) (pl_kz k) (pl_cos k) (pl_sin k) (local_gradient (snd iq) v)) (local_gradient (snd iq) w)).
Lemma conducted_iso dim3 (P : nat -> point_law RNum) a c w v z :
  (forall q, let k := P q in (pl_cos k : R) * pl_cos k + pl_sin k * pl_sin k = 1 /\ (pl_inv k : R) * pl_kx k = a /\ (pl_inv k : R) * pl_ky k = a /\ (pl_inv k : R) * pl_kz k = a) ->
  Forall (fun q : hquad RNum => (h_jxw q : R) = w /\ (dim3 = false -> (py (local_gradient q v) : R) = 0)) (c_quads c) ->
  conducted_pair dim3 P c v z = w * (a * Sum (c_quads c) (fun q => dotR2 (local_gradient q v) (local_gradient q z))).
Proof.
  intros H Fq. rewrite <- Sum_scal, <- Sum_scal, <- (Sum_indexed _ (c_quads c)). unfold conducted_pair. apply Sum_ext. intros iq Iq. cbv zeta. apply in_indexed in Iq.
  apply (proj1 (Forall_forall _ _) Fq) in Iq as [J D]. specialize (H (fst iq)). cbv zeta in H. destruct H as [H1 [H2 [H3 H4]]].
  etransitivity; [apply Rmult_eq_compat_l; exact (iso_dot dim3 (P (fst iq)) a (local_gradient (snd iq) v) (local_gradient (snd iq) z) H1 H2 H3 H4 D)|].
  exact (f_equal (fun x : R => x * (a * dotR2 (local_gradient (snd iq) v) (local_gradient (snd iq) z))) J).
Qed.
Lemma mass_local n C cm z : shape_ok n cm -> Sum (c_quads cm) (fun q => h_jxw q * field C cm q z) =
  Sum (seq 0 (List.length (c_dofs cm))) (fun i => local_mass_of cm i * nodal C z (nth i (c_dofs cm) 0%nat)).
Proof.
  intros [_ Sh]. transitivity (Sum (c_quads cm) (fun q => Sum (seq 0 (List.length (c_dofs cm))) (fun i => h_jxw q * nth i (h_values q : list R) 0 * nodal C z (nth i (c_dofs cm) 0%nat)))).
  - apply Sum_ext. intros q Iq. apply (proj1 (Forall_forall _ _) Sh) in Iq. destruct Iq as [Lq _]. unfold field.
    etransitivity; [apply Rmult_eq_compat_l; exact (Sum_combine_seq 0 (fun (v : R) j => v * nodal C z j) (h_values q) (c_dofs cm) Lq)|].
    rewrite <- Sum_scal. apply Sum_ext. intros k _. cbn [num RNum]. ring.
  - rewrite Sum_swap. apply Sum_ext. intros k _. unfold local_mass_of. rewrite <- Sum_mul. reflexivity.
Qed.
Lemma one_sum a n (f : nat -> R) : (a < n)%nat -> Sum (seq 0 n) (fun k => f k * one a k) = f a.
Proof.
  intros L. rewrite (Sum_ext (fun k => f k * one a k) (fun k => f k * hat k a)); [apply sum_hat; exact L|]. intros k _. unfold one, hat. rewrite Nat.eqb_sym. reflexivity.
Qed.
Lemma cell_downhill dim3 lob (P : nat -> point_law RNum) a alpha h c cm n :
  (forall q, let k := P q in (pl_cos k : R) * pl_cos k + pl_sin k * pl_sin k = 1 /\ (pl_inv k : R) * pl_kx k = a /\ (pl_inv k : R) * pl_ky k = a /\ (pl_inv k : R) * pl_kz k = a) ->
  0 <= a <= alpha -> 0 < h -> even_box dim3 lob h c cm -> shape_ok n cm ->
  (forall i j, i <> j -> conducted_pair dim3 P c (fun k => hat i (nth k (c_dofs c) 0%nat)) (fun k => hat j (nth k (c_dofs c) 0%nat)) <= 0) /\
  (forall i, conducted_pair dim3 P c (fun k => hat i (nth k (c_dofs c) 0%nat)) (fun k => hat i (nth k (c_dofs c) 0%nat))
     <= even_factor dim3 lob * alpha / (h * h) * Sum (c_quads cm) (fun q => h_jxw q * field [] cm q (hat i))).
Proof.
  intros H [A0 A1] H0 [Nd B] Sh. assert (IH : / (h * h) = / h * / h) by (apply Rinv_mult). unfold Rdiv. rewrite IH. destruct (operator_pts lob) as [t [Et Tt]]. fold (factor lob) in Tt. destruct dim3.
  - destruct B as [dx [dy [dz [dofs [Hx [Hy [Hz [Ev [Ld [-> ->]]]]]]]]]]. rewrite Et. cbn [brick c_dofs] in Nd |- *.
    assert (V : 0 < dx * dy * dz) by (apply Rmult_lt_0_compat; [apply Rmult_lt_0_compat|]; lra).
    assert (F : forall v z, conducted_pair true P (brick (pts t) dx dy dz dofs) v z = dx * dy * dz / 8 * (a * form3 (/ dx * / dx) (/ dy * / dy) (/ dz * / dz) (factor lob) v z)).
    { intros v z. rewrite (conducted_iso true P a _ (dx * dy * dz / 8) v z H); [rewrite eight_b, Tt; reflexivity|].
      unfold brick, pts. cbn [c_quads flat_map map List.app]. repeat (apply Forall_cons; [split; [reflexivity|discriminate]|]). apply Forall_nil. }
    pose proof (inv_sq_range h dx H0 Hx) as Rx. pose proof (inv_sq_range h dy H0 Hy) as Ry. pose proof (inv_sq_range h dz H0 Hz) as Rz.
    assert (Ev' : lob = false -> / dx * / dx = / dy * / dy /\ / dy * / dy = / dz * / dz) by (intros L; destruct (Ev L) as [<- <-]; split; reflexivity).
    split.
    + intros i j Ne. rewrite F. destruct (hat_local dofs i Nd) as [[p [Lp [Ep Hp]]]|Hp]; rewrite Ld in *.
      * destruct (hat_local dofs j Nd) as [[r [Lr [Er Hr]]]|Hr]; rewrite Ld in *.
        -- rewrite (form3_ext _ _ _ _ _ (one p) _ (one r) Hp Hr).
           assert (X : form3 (/ dx * / dx) (/ dy * / dy) (/ dz * / dz) (factor lob) (one p) (one r) <= 0) by (apply (form3_off lob _ _ _ (/ h * / h)); try assumption; congruence).
           set (f := form3 _ _ _ _ _ _) in *. assert (0 <= a * - f) by (apply Rmult_le_pos; lra). assert (0 <= dx * dy * dz / 8 * (a * - f)) by (apply Rmult_le_pos; lra). lra.
        -- rewrite (form3_ext _ _ _ _ _ (one p) _ (fun _ => 0) Hp Hr), form3_0r. lra.
      * rewrite (form3_ext _ _ _ _ _ (fun _ => 0) _ (fun k => hat j (nth k dofs 0%nat)) Hp) by reflexivity. rewrite form3_0l. lra.
    + intros i. rewrite F, (mass_local n [] _ _ Sh). cbn [brick c_dofs]. rewrite Ld. fold (brick ends dx dy dz dofs).
      rewrite (Sum_ext _ (fun k => dx * dy * dz / 8 * hat i (nth k dofs 0%nat))).
      2:{ intros k I. rewrite local_mass3. apply in_seq in I. destruct (Nat.ltb_spec k 8); [reflexivity|lia]. }
      destruct (hat_local dofs i Nd) as [[p [Lp [Ep Hp]]]|Hp]; rewrite Ld in *.
      * rewrite (form3_ext _ _ _ _ _ (one p) _ (one p) Hp Hp). rewrite (Sum_ext _ (fun k => dx * dy * dz / 8 * one p k)) by (intros k I; apply in_seq in I; rewrite Hp by lia; reflexivity).
        eapply Rle_trans; [|right; apply Rmult_eq_compat_l; symmetry; exact (one_sum p 8 (fun _ => dx * dy * dz / 8) Lp)].
        pose proof (form3_diag lob _ _ _ _ p Rx Ry Rz Lp) as X. set (f := form3 _ _ _ _ _ _) in *.
        assert (E0 : 0 <= even_factor true lob * (/ h * / h)) by (apply Rmult_le_pos; [unfold even_factor; destruct lob; lra|apply Rle_0_sqr]).
        apply Rle_trans with (dx * dy * dz / 8 * (alpha * (even_factor true lob * (/ h * / h)))); [|right; ring].
        apply Rmult_le_compat_l; [lra|]. apply Rle_trans with (a * (even_factor true lob * (/ h * / h))); [apply Rmult_le_compat_l; lra|apply Rmult_le_compat_r; lra].
      * rewrite (form3_ext _ _ _ _ _ (fun _ => 0) _ (fun _ => 0) Hp Hp), form3_0l. rewrite Sum_zero; [lra|]. intros k I. apply in_seq in I. rewrite Hp by lia. lra.
  - destruct B as [dx [dz [dofs [Hx [Hz [Ev [Ld [-> ->]]]]]]]]. rewrite Et. cbn [rectangle c_dofs] in Nd |- *.
    assert (V : 0 < dx * dz) by (apply Rmult_lt_0_compat; lra).
    assert (F : forall v z, conducted_pair false P (rectangle (pts t) dx dz dofs) v z = dx * dz / 4 * (a * form2 (/ dx * / dx) (/ dz * / dz) (factor lob) v z)).
    { intros v z. rewrite (conducted_iso false P a _ (dx * dz / 4) v z H); [rewrite four2_b, Tt; reflexivity|].
      unfold rectangle, pts. cbn [c_quads flat_map map List.app]. repeat (apply Forall_cons; [split; [reflexivity|intros _; apply grad2_y]|]). apply Forall_nil. }
    pose proof (inv_sq_range h dx H0 Hx) as Rx. pose proof (inv_sq_range h dz H0 Hz) as Rz.
    assert (Ev' : lob = false -> / dx * / dx = / dz * / dz) by (intros L; rewrite (Ev L); reflexivity).
    split.
    + intros i j Ne. rewrite F. destruct (hat_local dofs i Nd) as [[p [Lp [Ep Hp]]]|Hp]; rewrite Ld in *.
      * destruct (hat_local dofs j Nd) as [[r [Lr [Er Hr]]]|Hr]; rewrite Ld in *.
        -- rewrite (form2_ext _ _ _ _ (one p) _ (one r) Hp Hr).
           assert (X : form2 (/ dx * / dx) (/ dz * / dz) (factor lob) (one p) (one r) <= 0) by (apply (form2_off lob _ _ (/ h * / h)); try assumption; congruence).
           set (f := form2 _ _ _ _ _) in *. assert (0 <= a * - f) by (apply Rmult_le_pos; lra). assert (0 <= dx * dz / 4 * (a * - f)) by (apply Rmult_le_pos; lra). lra.
        -- rewrite (form2_ext _ _ _ _ (one p) _ (fun _ => 0) Hp Hr), form2_0r. lra.
      * rewrite (form2_ext _ _ _ _ (fun _ => 0) _ (fun k => hat j (nth k dofs 0%nat)) Hp) by reflexivity. rewrite form2_0l. lra.
    + intros i. rewrite F, (mass_local n [] _ _ Sh). cbn [rectangle c_dofs]. rewrite Ld. fold (rectangle ends dx dz dofs).
      rewrite (Sum_ext _ (fun k => dx * dz / 4 * hat i (nth k dofs 0%nat))).
      2:{ intros k I. rewrite local_mass2. apply in_seq in I. destruct (Nat.ltb_spec k 4); [reflexivity|lia]. }
      destruct (hat_local dofs i Nd) as [[p [Lp [Ep Hp]]]|Hp]; rewrite Ld in *.
      * rewrite (form2_ext _ _ _ _ (one p) _ (one p) Hp Hp). rewrite (Sum_ext _ (fun k => dx * dz / 4 * one p k)) by (intros k I; apply in_seq in I; rewrite Hp by lia; reflexivity).
        eapply Rle_trans; [|right; apply Rmult_eq_compat_l; symmetry; exact (one_sum p 4 (fun _ => dx * dz / 4) Lp)].
        pose proof (form2_diag lob _ _ _ p Rx Rz Lp) as X. set (f := form2 _ _ _ _ _) in *.
        assert (E0 : 0 <= even_factor false lob * (/ h * / h)) by (apply Rmult_le_pos; [unfold even_factor; destruct lob; lra|apply Rle_0_sqr]).
        apply Rle_trans with (dx * dz / 4 * (alpha * (even_factor false lob * (/ h * / h)))); [|right; ring].
        apply Rmult_le_compat_l; [lra|]. apply Rle_trans with (a * (even_factor false lob * (/ h * / h))); [apply Rmult_le_compat_l; lra|apply Rmult_le_compat_r; lra].
      * rewrite (form2_ext _ _ _ _ (fun _ => 0) _ (fun _ => 0) Hp Hp), form2_0l. rewrite Sum_zero; [lra|]. intros k I. apply in_seq in I. rewrite Hp by lia. lra.
Qed.
Lemma conducted_cells dim3 m P u z : mesh_ok m -> conducted dim3 m P u z =
  Sum (indexed (m_cells m)) (fun ic => conducted_pair dim3 (P (fst ic)) (snd ic) (fun k => nodal (m_C m) u (nth k (c_dofs (snd ic)) 0%nat)) (fun k => nodal (m_C m) z (nth k (c_dofs (snd ic)) 0%nat))).
Proof.
  intros Mok. unfold conducted. apply Sum_ext. intros ic I. apply in_indexed in I. apply (proj1 (Forall_forall _ _) (m_cells_ok m Mok)) in I as [_ I].
  unfold conducted_pair. apply Sum_ext. intros iq Iq. cbv zeta. apply in_indexed in Iq. apply (proj1 (Forall_forall _ _) I) in Iq. rewrite !gradient_local by tauto. reflexivity.
Qed.
Lemma Sum_indexed_zero {A B} (f : nat * A -> R) (la : list A) (lb : list B) : List.length la = List.length lb ->
  (forall i a b, In (i, (a, b)) (indexed (combine la lb)) -> f (i, a) <= 0) -> Sum (indexed la) f <= 0.
Proof.
  intros L H. eapply Rle_trans; [exact (indexed_combine f (fun _ => 0) la lb (fun _ => 0) L H)|]. right. apply Sum_zero. reflexivity.
Qed.
Lemma boxes_downhill dim3 lob m P Q alpha h dt : mesh_ok m -> m_C m = [] -> even_boxes dim3 lob h m -> isotropic P alpha -> 0 < h -> 0 <= dt -> dt * (even_factor dim3 lob * alpha / (h * h)) <= 1 ->
  massive m -> downhill dim3 true m P Q dt.
Proof.
  intros Mok C0 B [a [Ha Hk]] H0 D0 DL Ms.
  assert (Len : List.length (m_cells m) = List.length (m_mass m)). { clear - B. unfold even_boxes in B. induction B; [reflexivity|]. cbn [List.length]. rewrite IHB. reflexivity. }
  assert (Cell : forall i c cm, In (i, (c, cm)) (indexed (combine (m_cells m) (m_mass m))) ->
    (forall k j, k <> j -> conducted_pair dim3 (P i) c (fun l => hat k (nth l (c_dofs c) 0%nat)) (fun l => hat j (nth l (c_dofs c) 0%nat)) <= 0) /\
    (forall k, conducted_pair dim3 (P i) c (fun l => hat k (nth l (c_dofs c) 0%nat)) (fun l => hat k (nth l (c_dofs c) 0%nat)) <= even_factor dim3 lob * alpha / (h * h) * Sum (c_quads cm) (fun q => h_jxw q * field [] cm q (hat k)))).
  { intros i c cm I. apply (cell_downhill dim3 lob (P i) (a i) alpha h c cm (m_n m)); [intros q; apply Hk|apply Ha|exact H0|exact (indexed_forall2 _ _ _ B i c cm I)|].
    apply in_indexed in I. cbn [snd] in I. apply in_combine_r in I. exact (proj1 (Forall_forall _ _) (m_mass_ok m Mok) _ I). }
  split; [|split; [|discriminate]].
  - intros i j _ _ Ne. unfold exchange. rewrite Rplus_0_r, (conducted_cells dim3 m P _ _ Mok), C0. apply (Sum_indexed_zero _ _ (m_mass m) Len). intros k c cm I. exact (proj1 (Cell k c cm I) i j Ne).
  - intros i Fr. unfold exchange. rewrite Rplus_0_r, (conducted_cells dim3 m P _ _ Mok). unfold nodal_mass, integral.
    assert (X : Sum (indexed (m_cells m)) (fun ic => conducted_pair dim3 (P (fst ic)) (snd ic) (fun k => nodal (m_C m) (hat i) (nth k (c_dofs (snd ic)) 0%nat)) (fun k => nodal (m_C m) (hat i) (nth k (c_dofs (snd ic)) 0%nat)))
      <= even_factor dim3 lob * alpha / (h * h) * nodal_mass m i).
    { unfold nodal_mass, integral. rewrite <- Sum_scal. apply (indexed_combine _ (fun _ => 0)); [exact Len|]. intros k c cm I. rewrite C0. exact (proj2 (Cell k c cm I) i). }
    pose proof (Ms i Fr) as Mi. fold (integral (m_C m) (m_mass m) (hat i)). fold (nodal_mass m i). apply Rle_trans with (dt * (even_factor dim3 lob * alpha / (h * h) * nodal_mass m i)); [apply Rmult_le_compat_l; assumption|].
    rewrite <- Rmult_assoc. rewrite <- (Rmult_1_l (nodal_mass m i)) at 2. apply Rmult_le_compat_r; lra.
Qed.
