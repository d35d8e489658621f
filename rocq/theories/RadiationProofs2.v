(** RadiationProofs2.v -- boxes with Gauss-Lobatto points that lose heat through their sides. *)
From Coq Require Import Reals List Bool String ZArith Lra Lia Permutation.
From Verif Require Import Base MaterialModel MaterialSpec InputModel HeatModel HeatSpec MaterialProofs MaterialProofs2 HeatProofs HeatProofs2 HeatProofs3 HeatProofs4 HeatProofs5 HeatProofs7
  StabilitySpec StabilityProofs StabilityProofs2 StabilityProofs3 StabilityProofs4 StabilityProofs5 MaximumSpec MaximumProofs MaximumProofs2 RadiationSpec RadiationProofs.
Import ListNotations.
Open Scope R_scope.

Definition seen (c : hcell RNum) (u z : nat -> R) : R := Sum (c_quads c) (fun q => h_jxw q * (field [] c q u * field [] c q z)).
Lemma Sum_map_eq {A B} (f : A -> B) (g : B -> R) l : Sum (map f l) g = Sum l (fun a => g (f a)).
Proof. induction l as [|a l IH]; [reflexivity|]. cbn [map]. rewrite !Sum_cons, IH. reflexivity. Qed.
Lemma Sum_app_eq {A} (g : A -> R) l l' : Sum (l ++ l') g = Sum l g + Sum l' g.
Proof. induction l as [|a l IH]; cbn [List.app]; rewrite ?Sum_nil, ?Sum_cons; [ring|]. rewrite IH. ring. Qed.
Lemma Sum_perm {A} (g : A -> R) l l' : Permutation l l' -> Sum l g = Sum l' g.
Proof. induction 1; rewrite ?Sum_cons; lra. Qed.
Lemma Sum_concat_eq {A} (g : A -> R) l : Sum (List.concat l) g = Sum l (fun x => Sum x g).
Proof. induction l as [|a l IH]; [reflexivity|]. cbn [List.concat]. rewrite Sum_app_eq, Sum_cons, IH. reflexivity. Qed.
Lemma nodal_none z j : nodal [] z j = z j. Proof. reflexivity. Qed.
Lemma indicator_field n dofs a z : List.length dofs = n -> (a < n)%nat -> Sum (combine (map (fun k => if Nat.eqb k a then 1 else 0) (seq 0 n)) dofs) (fun p => fst p * nodal [] z (snd p)) = z (nth a dofs 0%nat).
Proof.
  intros L A. rewrite (Sum_combine_seq 0 (fun (v : R) j => v * nodal [] z j)) by (rewrite map_length, seq_length; symmetry; exact L).
  rewrite L. etransitivity; [|exact (one_sum a n (fun k => z (nth k dofs 0%nat)) A)]. apply Sum_ext. intros k I. apply in_seq in I.
  assert (E : nth k (map (fun k => if Nat.eqb k a then 1 else 0) (seq 0 n)) 0 = one a k).
  { rewrite (nth_indep _ 0 (one a 0%nat)) by (rewrite map_length, seq_length; lia). etransitivity; [exact (map_nth (one a) (seq 0 n) 0%nat k)|]. rewrite seq_nth by lia. reflexivity. }
  cbv beta. rewrite E, nodal_none. ring.
Qed.
Lemma seen_side n dofs wc c u z : List.length dofs = n -> Forall (fun a => (a < n)%nat) (snd wc) -> side n dofs wc c -> seen c u z = Sum (snd wc) (fun a => fst wc * (u (nth a dofs 0%nat) * z (nth a dofs 0%nat))).
Proof.
  intros L Fa [D E].
  transitivity (Sum (map (fun q : hquad RNum => ((h_jxw q : R), (h_values q : list R))) (c_quads c)) (fun p => fst p * (Sum (combine (snd p) dofs) (fun p => fst p * nodal [] u (snd p)) * Sum (combine (snd p) dofs) (fun p => fst p * nodal [] z (snd p))))).
  - unfold seen, field. rewrite D. rewrite Sum_map_eq. reflexivity.
  - rewrite E, Sum_map_eq. apply Sum_ext. intros a I. pose proof (proj1 (Forall_forall _ _) Fa a I) as A. cbn [fst snd]. rewrite !(indicator_field n dofs a) by assumption. reflexivity.
Qed.
Lemma seen_sides n dofs W cs u z : List.length dofs = n -> Forall (fun wc => Forall (fun a => (a < n)%nat) (snd wc)) W -> Forall2 (side n dofs) W cs -> Sum cs (fun c => seen c u z) = Sum W (fun wc => Sum (snd wc) (fun a => fst wc * (u (nth a dofs 0%nat) * z (nth a dofs 0%nat)))).
Proof.
  intros L Fa H. revert Fa. induction H as [|wc c W cs S1 _ IH]; intros Fa; [reflexivity|]. inversion Fa as [|? ? F1 F2]. subst. rewrite !Sum_cons, IH by assumption. f_equal. exact (seen_side _ dofs wc c u z eq_refl F1 S1).
Qed.
Lemma in3 dx dy dz : Forall (fun wc => Forall (fun a => (a < 8)%nat) (snd wc)) (sides3 dx dy dz).
Proof. unfold sides3. repeat (apply Forall_cons; [cbn [snd]; repeat constructor|]). apply Forall_nil. Qed.
Lemma in2 dx dz : Forall (fun wc => Forall (fun a => (a < 4)%nat) (snd wc)) (sides2 dx dz).
Proof. unfold sides2. repeat (apply Forall_cons; [cbn [snd]; repeat constructor|]). apply Forall_nil. Qed.
Lemma hat_pair i j (k : nat) : i <> j -> hat i k * hat j k = 0.
Proof. intros N. unfold hat. destruct (Nat.eqb_spec k i), (Nat.eqb_spec k j); subst; try ring. contradiction. Qed.
Lemma hat_sq i (k : nat) : hat i k * hat i k = hat i k.
Proof. unfold hat. destruct (Nat.eqb k i); ring. Qed.
Lemma inv_le h d : 0 < h -> h <= d -> 1 <= d * / h.
Proof. intros H D. assert (0 < / h) by (apply Rinv_0_lt_compat; assumption). replace 1 with (h * / h) by (field; lra). apply Rmult_le_compat_r; lra. Qed.
(** What a box can lose through its sides. *)
Lemma box_sides dim3 h c cs n : 0 < h -> box_with_sides dim3 h c cs -> shape_ok n c ->
  (forall s u, In s cs -> 0 <= seen s u u) /\ (forall s i j, In s cs -> i <> j -> seen s (hat i) (hat j) = 0) /\
  forall i, Sum cs (fun s => seen s (hat i) (hat i)) <= even_factor dim3 true / h * Sum (c_quads c) (fun q => h_jxw q * field [] c q (hat i)).
Proof.
  intros H0 [Nd B] Sh. assert (Each : forall n dofs W, List.length dofs = n -> Forall (fun wc => 0 <= fst wc /\ Forall (fun a => (a < n)%nat) (snd wc)) W -> Forall2 (side n dofs) W cs -> (forall s u, In s cs -> 0 <= seen s u u) /\ (forall s i j, In s cs -> i <> j -> seen s (hat i) (hat j) = 0)).
  { clear. intros n dofs W L Fa H. revert Fa. induction H as [|wc c W cs S1 _ IH]; intros Fa; [split; [intros ? ? []|intros ? ? ? []]|inversion Fa as [|? ? [W0 F1] F2]; subst].
    destruct (IH F2) as [I1 I2]. split.
    - intros s u [<-|I]; [|apply I1; exact I]. rewrite (seen_side _ dofs wc c u u eq_refl F1 S1). apply Sum_nonneg. intros a _. apply Rmult_le_pos; [exact W0|apply Rle_0_sqr].
    - intros s i j [<-|I] Ne; [|apply I2; assumption]. rewrite (seen_side _ dofs wc c _ _ eq_refl F1 S1). apply Sum_zero. intros a _. rewrite hat_pair by exact Ne. ring. }
  destruct dim3.
  - destruct B as [dx [dy [dz [dofs [Hx [Hy [Hz [Ld [-> Sd]]]]]]]]]. split; [|split].
    1,2: apply (Each 8%nat dofs (sides3 dx dy dz) Ld); [|exact Sd]; pose proof (in3 dx dy dz) as I3; apply Forall_forall; intros wc I; split; [|exact (proj1 (Forall_forall _ _) I3 wc I)]; unfold sides3 in I; cbn [In] in I; decompose [or] I; try contradiction; subst; cbn [fst]; nra.
    intros i. rewrite (seen_sides 8 dofs _ cs _ _ Ld (in3 dx dy dz) Sd), (mass_local n [] _ _ Sh). cbn [brick c_dofs] in Nd |- *. rewrite Ld. fold (brick ends dx dy dz dofs).
    rewrite (Sum_ext _ (fun k => dx * dy * dz / 8 * hat i (nth k dofs 0%nat))).
    2:{ intros k I. rewrite local_mass3. apply in_seq in I. destruct (Nat.ltb_spec k 8); [reflexivity|lia]. }
    unfold sides3, Sum, sumR. cbn [map fold_right fst snd seq]. rewrite !hat_sq. unfold even_factor, Rdiv.
    pose proof (inv_le h dx H0 Hx) as Ix. pose proof (inv_le h dy H0 Hy) as Iy. pose proof (inv_le h dz H0 Hz) as Iz.
    assert (K0 : (dy * dz + dx * dz + dx * dy) * / 4 <= 6 * / h * (dx * dy * dz * / 8)).
    { assert (dy * dz <= dy * dz * (dx * / h)) by (rewrite <- (Rmult_1_r (dy * dz)) at 1; apply Rmult_le_compat_l; nra).
      assert (dx * dz <= dx * dz * (dy * / h)) by (rewrite <- (Rmult_1_r (dx * dz)) at 1; apply Rmult_le_compat_l; nra).
      assert (dx * dy <= dx * dy * (dz * / h)) by (rewrite <- (Rmult_1_r (dx * dy)) at 1; apply Rmult_le_compat_l; nra). lra. }
    assert (Hp : forall k, 0 <= hat i k) by (intros k; unfold hat; destruct (Nat.eqb _ _); lra).
    generalize (Hp (nth 0 dofs 0%nat)) (Hp (nth 1 dofs 0%nat)) (Hp (nth 2 dofs 0%nat)) (Hp (nth 3 dofs 0%nat)) (Hp (nth 4 dofs 0%nat)) (Hp (nth 5 dofs 0%nat)) (Hp (nth 6 dofs 0%nat)) (Hp (nth 7 dofs 0%nat)).
    generalize (hat i (nth 0 dofs 0%nat)) (hat i (nth 1 dofs 0%nat)) (hat i (nth 2 dofs 0%nat)) (hat i (nth 3 dofs 0%nat)) (hat i (nth 4 dofs 0%nat)) (hat i (nth 5 dofs 0%nat)) (hat i (nth 6 dofs 0%nat)) (hat i (nth 7 dofs 0%nat)).
    intros a0 a1 a2 a3 a4 a5 a6 a7 P0 P1 P2 P3 P4 P5 P6 P7.
    assert (K1 : (dy * dz + dx * dz + dx * dy) * / 4 * (a0 + a1 + a2 + a3 + a4 + a5 + a6 + a7) <= 6 * / h * (dx * dy * dz * / 8) * (a0 + a1 + a2 + a3 + a4 + a5 + a6 + a7)) by (apply Rmult_le_compat_r; [lra|exact K0]).
    eapply Rle_trans; [|eapply Rle_trans; [exact K1|]]; right; ring.
  - destruct B as [dx [dz [dofs [Hx [Hz [Ld [-> Sd]]]]]]]. split; [|split].
    1,2: apply (Each 4%nat dofs (sides2 dx dz) Ld); [|exact Sd]; pose proof (in2 dx dz) as I3; apply Forall_forall; intros wc I; split; [|exact (proj1 (Forall_forall _ _) I3 wc I)]; unfold sides2 in I; cbn [In] in I; decompose [or] I; try contradiction; subst; cbn [fst]; lra.
    intros i. rewrite (seen_sides 4 dofs _ cs _ _ Ld (in2 dx dz) Sd), (mass_local n [] _ _ Sh). cbn [rectangle c_dofs] in Nd |- *. rewrite Ld. fold (rectangle ends dx dz dofs).
    rewrite (Sum_ext _ (fun k => dx * dz / 4 * hat i (nth k dofs 0%nat))).
    2:{ intros k I. rewrite local_mass2. apply in_seq in I. destruct (Nat.ltb_spec k 4); [reflexivity|lia]. }
    unfold sides2, Sum, sumR. cbn [map fold_right fst snd seq]. rewrite !hat_sq. unfold even_factor, Rdiv.
    pose proof (inv_le h dx H0 Hx) as Ix. pose proof (inv_le h dz H0 Hz) as Iz.
    assert (K0 : (dz + dx) * / 2 <= 4 * / h * (dx * dz * / 4)).
    { assert (dz <= dz * (dx * / h)) by (rewrite <- (Rmult_1_r dz) at 1; apply Rmult_le_compat_l; lra).
      assert (dx <= dx * (dz * / h)) by (rewrite <- (Rmult_1_r dx) at 1; apply Rmult_le_compat_l; lra). lra. }
    assert (Hp : forall k, 0 <= hat i k) by (intros k; unfold hat; destruct (Nat.eqb _ _); lra).
    generalize (Hp (nth 0 dofs 0%nat)) (Hp (nth 1 dofs 0%nat)) (Hp (nth 2 dofs 0%nat)) (Hp (nth 3 dofs 0%nat)).
    generalize (hat i (nth 0 dofs 0%nat)) (hat i (nth 1 dofs 0%nat)) (hat i (nth 2 dofs 0%nat)) (hat i (nth 3 dofs 0%nat)).
    intros a0 a1 a2 a3 P0 P1 P2 P3.
    assert (K1 : (dz + dx) * / 2 * (a0 + a1 + a2 + a3) <= 4 * / h * (dx * dz * / 4) * (a0 + a1 + a2 + a3)) by (apply Rmult_le_compat_r; [lra|exact K0]).
    eapply Rle_trans; [|eapply Rle_trans; [exact K1|]]; right; ring.
Qed.

Lemma Rplus_le_0 (a b : R) : a <= 0 -> b <= 0 -> a + b <= 0. Proof. lra. Qed.
Lemma nonpos_mul (w A B C x y z : R) : 0 <= w -> 0 <= A -> 0 <= B -> 0 <= C -> x <= 0 -> y <= 0 -> z <= 0 -> w * (A * x + B * y + C * z) <= 0.
Proof. intros. assert (0 <= A * - x) by (apply Rmult_le_pos; lra). assert (0 <= B * - y) by (apply Rmult_le_pos; lra). assert (0 <= C * - z) by (apply Rmult_le_pos; lra). assert (0 <= w * - (A * x + B * y + C * z)) by (apply Rmult_le_pos; lra). lra. Qed.
Lemma square_le (A B C alpha x y z : R) : 0 <= A <= alpha -> 0 <= B <= alpha -> 0 <= C <= alpha -> A * (x * x) + B * (y * y) + C * (z * z) <= alpha * (x * x + y * y + z * z).
Proof. intros. assert (0 <= (alpha - A) * (x * x)) by (apply Rmult_le_pos; [lra|apply Rle_0_sqr]). assert (0 <= (alpha - B) * (y * y)) by (apply Rmult_le_pos; [lra|apply Rle_0_sqr]). assert (0 <= (alpha - C) * (z * z)) by (apply Rmult_le_pos; [lra|apply Rle_0_sqr]). lra. Qed.

(** Conduction with different diffusivities at the points. *)
Lemma aligned_dot dim3 (k : point_law RNum) (alpha : R) : aligned_law k alpha -> exists A B C, 0 <= A <= alpha /\ 0 <= B <= alpha /\ 0 <= C <= alpha /\
  forall g h : pt RNum, (dim3 = false -> (py g : R) = 0) -> - dot (conduction (N := RNum) dim3 (pl_inv k) (pl_kx k) (pl_ky k) (pl_kz k) (pl_cos k) (pl_sin k) g) h = A * (px g * px h) + B * (py g * py h) + C * (pz g * pz h).
Proof.
  destruct k as [inv kx ky kz c s bs]. unfold aligned_law. cbn [pl_inv pl_kx pl_ky pl_kz pl_cos pl_sin]. intros [U [Z [X [Y Zz]]]]. destruct dim3.
  - exists ((inv * kx) * (c * c) + (inv * ky) * (s * s)), ((inv * kx) * (s * s) + (inv * ky) * (c * c)), (inv * kz).
    assert (Bd : forall a b x y : R, 0 <= a <= alpha -> 0 <= b <= alpha -> 0 <= x -> 0 <= y -> x + y = 1 -> 0 <= a * x + b * y <= alpha) by (clear; intros; split; nra).
    split; [apply Bd; try assumption; try apply Rle_0_sqr|]. split; [apply Bd; try assumption; try apply Rle_0_sqr; rewrite Rplus_comm; exact U|]. split; [exact Zz|].
    intros [gx gy gz] [hx hy hz] _. unfold conduction, dot, pscale. cbn [px py pz num RNum nmul nsub nadd nopp nofZ] in *. simpl in *.
    transitivity (((inv * kx) * (c * c) + (inv * ky) * (s * s)) * (gx * hx) + ((inv * kx) * (s * s) + (inv * ky) * (c * c)) * (gy * hy) + (inv * kz) * (gz * hz) + c * s * (inv * kx - inv * ky) * (gy * hx + gx * hy)); [ring|]. rewrite Z. ring.
  - exists (inv * kx), (inv * ky), (inv * kz). split; [exact X|]. split; [exact Y|]. split; [exact Zz|].
    intros [gx gy gz] [hx hy hz] D. specialize (D eq_refl). unfold conduction, dot, pscale. cbn [px py pz num RNum nmul nsub nadd nopp nofZ] in *. simpl in *. subst gy. ring.
Qed.
Lemma edge a b p q : a <> b -> (one a p - one a q) * (one b p - one b q) <= 0.
Proof. intros N. unfold one. destruct (Nat.eqb_spec p a), (Nat.eqb_spec q a), (Nat.eqb_spec p b), (Nat.eqb_spec q b); subst; try contradiction; lra. Qed.
Definition two (x : R) : Prop := x = 0 \/ x = 1.
Lemma prods (i a b x y : R) : a = i * x -> b = i * y -> x * y <= 0 -> a * b <= 0.
Proof. intros -> -> H. replace (i * x * (i * y)) with (- ((i * i) * - (x * y))) by ring. assert (0 <= (i * i) * - (x * y)) by (apply Rmult_le_pos; [apply Rle_0_sqr|lra]). lra. Qed.
Definition pxR (g : pt RNum) : R := px g. Definition pyR (g : pt RNum) : R := py g. Definition pzR (g : pt RNum) : R := pz g.
Lemma lg3x dx dy dz x y z v : pxR (local_gradient (point3 dx dy dz x y z) v) = / dx * ((1 - y) * (1 - z) * (v 1%nat - v 0%nat) + y * (1 - z) * (v 3%nat - v 2%nat) + (1 - y) * z * (v 5%nat - v 4%nat) + y * z * (v 7%nat - v 6%nat)).
Proof. unfold pxR, local_gradient, point3, Sum, sumR, corners3. cbn [px py pz h_grads map List.length seq fold_right nth lin slope fst snd num RNum]. unfold Rdiv. ring. Qed.
Lemma lg3y dx dy dz x y z v : pyR (local_gradient (point3 dx dy dz x y z) v) = / dy * ((1 - x) * (1 - z) * (v 2%nat - v 0%nat) + x * (1 - z) * (v 3%nat - v 1%nat) + (1 - x) * z * (v 6%nat - v 4%nat) + x * z * (v 7%nat - v 5%nat)).
Proof. unfold pyR, local_gradient, point3, Sum, sumR, corners3. cbn [px py pz h_grads map List.length seq fold_right nth lin slope fst snd num RNum]. unfold Rdiv. ring. Qed.
Lemma lg3z dx dy dz x y z v : pzR (local_gradient (point3 dx dy dz x y z) v) = / dz * ((1 - x) * (1 - y) * (v 4%nat - v 0%nat) + x * (1 - y) * (v 5%nat - v 1%nat) + (1 - x) * y * (v 6%nat - v 2%nat) + x * y * (v 7%nat - v 3%nat)).
Proof. unfold pzR, local_gradient, point3, Sum, sumR, corners3. cbn [px py pz h_grads map List.length seq fold_right nth lin slope fst snd num RNum]. unfold Rdiv. ring. Qed.
Lemma lg2x dx dz x z v : pxR (local_gradient (point2 dx dz x z) v) = / dx * ((1 - z) * (v 1%nat - v 0%nat) + z * (v 3%nat - v 2%nat)).
Proof. unfold pxR, local_gradient, point2, Sum, sumR, corners2. cbn [px py pz h_grads map List.length seq fold_right nth lin slope fst snd num RNum]. unfold Rdiv. ring. Qed.
Lemma lg2z dx dz x z v : pzR (local_gradient (point2 dx dz x z) v) = / dz * ((1 - x) * (v 2%nat - v 0%nat) + x * (v 3%nat - v 1%nat)).
Proof. unfold pzR, local_gradient, point2, Sum, sumR, corners2. cbn [px py pz h_grads map List.length seq fold_right nth lin slope fst snd num RNum]. unfold Rdiv. ring. Qed.
(** At a corner the derivatives are differences along the edges. *)
Lemma pick4 (y z e0 e1 e2 e3 f0 f1 f2 f3 : R) : two y -> two z -> e0 * f0 <= 0 -> e1 * f1 <= 0 -> e2 * f2 <= 0 -> e3 * f3 <= 0 ->
  ((1 - y) * (1 - z) * e0 + y * (1 - z) * e1 + (1 - y) * z * e2 + y * z * e3) * ((1 - y) * (1 - z) * f0 + y * (1 - z) * f1 + (1 - y) * z * f2 + y * z * f3) <= 0.
Proof. intros [-> | ->] [-> | ->]; intros; ring_simplify; lra. Qed.
Lemma pick2 (z e0 e1 f0 f1 : R) : two z -> e0 * f0 <= 0 -> e1 * f1 <= 0 -> ((1 - z) * e0 + z * e1) * ((1 - z) * f0 + z * f1) <= 0.
Proof. intros [-> | ->]; intros; ring_simplify; lra. Qed.
Lemma corner3 dx dy dz x y z a b : two x -> two y -> two z -> a <> b -> let g v := local_gradient (point3 dx dy dz x y z) v in
  pxR (g (one a)) * pxR (g (one b)) <= 0 /\ pyR (g (one a)) * pyR (g (one b)) <= 0 /\ pzR (g (one a)) * pzR (g (one b)) <= 0.
Proof.
  intros X Y Z N g. split; [|split].
  - apply (prods (/ dx) _ _ _ _ (lg3x _ _ _ _ _ _ _) (lg3x _ _ _ _ _ _ _)). apply pick4; try assumption; apply edge; exact N.
  - apply (prods (/ dy) _ _ _ _ (lg3y _ _ _ _ _ _ _) (lg3y _ _ _ _ _ _ _)). apply pick4; try assumption; apply edge; exact N.
  - apply (prods (/ dz) _ _ _ _ (lg3z _ _ _ _ _ _ _) (lg3z _ _ _ _ _ _ _)). apply pick4; try assumption; apply edge; exact N.
Qed.
Lemma corner2 dx dz x z a b : two x -> two z -> a <> b -> let g v := local_gradient (point2 dx dz x z) v in
  pxR (g (one a)) * pxR (g (one b)) <= 0 /\ pzR (g (one a)) * pzR (g (one b)) <= 0.
Proof.
  intros X Z N g. split.
  - apply (prods (/ dx) _ _ _ _ (lg2x _ _ _ _ _) (lg2x _ _ _ _ _)). apply pick2; try assumption; apply edge; exact N.
  - apply (prods (/ dz) _ _ _ _ (lg2z _ _ _ _ _) (lg2z _ _ _ _ _)). apply pick2; try assumption; apply edge; exact N.
Qed.
Lemma ends_two x : In x ends -> two x.
Proof. intros [<-|[<-|[]]]; [left|right]; reflexivity. Qed.
(** The two inequalities for a cell, from those at its points. *)
Lemma pair_points dim3 (P : nat -> point_law RNum) alpha c w : (forall q, aligned_law (P q) alpha) -> 0 <= w ->
  Forall (fun q : hquad RNum => (h_jxw q : R) = w /\ (dim3 = false -> forall v, (py (local_gradient q v) : R) = 0)) (c_quads c) ->
  (forall v z, Forall (fun q : hquad RNum => pxR (local_gradient q v) * pxR (local_gradient q z) <= 0 /\ pyR (local_gradient q v) * pyR (local_gradient q z) <= 0 /\ pzR (local_gradient q v) * pzR (local_gradient q z) <= 0) (c_quads c) -> conducted_pair dim3 P c v z <= 0) /\
  (forall v, conducted_pair dim3 P c v v <= w * (alpha * Sum (c_quads c) (fun q => dotR2 (local_gradient q v) (local_gradient q v)))).
Proof.
  intros H W0 Fq. split.
  - intros v z Fz. unfold conducted_pair. assert (X : forall l : list (nat * hquad RNum), (forall iq, In iq l -> In (snd iq) (c_quads c)) -> Sum l (fun iq => let k := P (fst iq) in
      h_jxw (snd iq) * - dot (conduction (N := RNum) dim3 (pl_inv k) (pl_kx k) (pl_ky k) (pl_kz k) (pl_cos k) (pl_sin k) (local_gradient (snd iq) v)) (local_gradient (snd iq) z)) <= 0).
    { induction l as [|iq l IH]; intros K; [rewrite Sum_nil; lra|]. rewrite Sum_cons. specialize (IH (fun x I => K x (or_intror I))). cbv zeta in *. pose proof (K iq (or_introl eq_refl)) as Iq.
      pose proof (proj1 (Forall_forall _ _) Fq _ Iq) as [J D]. pose proof (proj1 (Forall_forall _ _) Fz _ Iq) as [Hx [Hy Hz]]. destruct (aligned_dot dim3 (P (fst iq)) alpha (H (fst iq))) as [A [B [C [HA [HB [HC E]]]]]].
      specialize (E (local_gradient (snd iq) v) (local_gradient (snd iq) z) (fun e => D e v)). unfold pxR, pyR, pzR in *.
      enough (h_jxw (snd iq) * - dot (conduction (N := RNum) dim3 (pl_inv (P (fst iq))) (pl_kx (P (fst iq))) (pl_ky (P (fst iq))) (pl_kz (P (fst iq))) (pl_cos (P (fst iq))) (pl_sin (P (fst iq))) (local_gradient (snd iq) v)) (local_gradient (snd iq) z) <= 0) by (apply Rplus_le_0; assumption).
      eapply Rle_trans; [right; apply Rmult_eq_compat_l; exact E|]. eapply Rle_trans; [right; apply (f_equal (fun j : R => j * _) J)|].
      set (x1 := px (local_gradient (snd iq) v) * px (local_gradient (snd iq) z)) in *. set (y1 := py (local_gradient (snd iq) v) * py (local_gradient (snd iq) z)) in *. set (z1 := pz (local_gradient (snd iq) v) * pz (local_gradient (snd iq) z)) in *.
      apply (nonpos_mul w A B C x1 y1 z1); try assumption; tauto. }
    apply X. intros iq I. exact (in_indexed _ _ I).
  - intros v. rewrite <- Sum_scal, <- Sum_scal, <- (Sum_indexed _ (c_quads c)). unfold conducted_pair. apply Sum_le. intros iq Iq. cbv zeta. apply in_indexed in Iq.
    pose proof (proj1 (Forall_forall _ _) Fq _ Iq) as [J D]. destruct (aligned_dot dim3 (P (fst iq)) alpha (H (fst iq))) as [A [B [C [HA [HB [HC E]]]]]]. specialize (E (local_gradient (snd iq) v) (local_gradient (snd iq) v) (fun e => D e v)).
    eapply Rle_trans; [right; apply Rmult_eq_compat_l; exact E|]. eapply Rle_trans; [right; apply (f_equal (fun j : R => j * _) J)|]. apply Rmult_le_compat_l; [exact W0|]. unfold dotR2, dot.
    generalize (px (local_gradient (snd iq) v)) (py (local_gradient (snd iq) v)) (pz (local_gradient (snd iq) v)). cbn [num RNum nadd nmul]. intros gx gy gz. exact (square_le A B C alpha gx gy gz HA HB HC).
Qed.
Lemma aligned_cell dim3 (P : nat -> point_law RNum) alpha h c n : (forall q, aligned_law (P q) alpha) -> 0 < h -> even_box dim3 true h c c -> shape_ok n c ->
  (forall i j, i <> j -> conducted_pair dim3 P c (fun k => hat i (nth k (c_dofs c) 0%nat)) (fun k => hat j (nth k (c_dofs c) 0%nat)) <= 0) /\
  (forall i, conducted_pair dim3 P c (fun k => hat i (nth k (c_dofs c) 0%nat)) (fun k => hat i (nth k (c_dofs c) 0%nat))
     <= even_factor dim3 true * alpha / (h * h) * Sum (c_quads c) (fun q => h_jxw q * field [] c q (hat i))).
Proof.
  intros H H0 [Nd B] Sh. assert (IH : / (h * h) = / h * / h) by (apply Rinv_mult). unfold Rdiv. rewrite IH. assert (Ep : operator_points true = pts (1/2)) by apply ends_pts.
  assert (A0 : 0 <= alpha) by (destruct (H 0%nat) as [_ [_ [HH _]]]; lra). destruct dim3.
  - destruct B as [dx [dy [dz [dofs [Hx [Hy [Hz [_ [Ld [E1 _]]]]]]]]]]. cbn [operator_points] in E1. subst c. cbn [brick c_dofs] in Nd |- *. fold (brick ends dx dy dz dofs).
    assert (V : 0 < dx * dy * dz) by (apply Rmult_lt_0_compat; [apply Rmult_lt_0_compat|]; lra).
    destruct (pair_points true P alpha (brick ends dx dy dz dofs) (dx * dy * dz / 8) H) as [Off Dg]; [lra| |].
    { unfold brick, ends. cbn [c_quads flat_map map List.app]. repeat (apply Forall_cons; [split; [reflexivity|discriminate]|]). apply Forall_nil. }
    pose proof (inv_sq_range h dx H0 Hx) as Rx. pose proof (inv_sq_range h dy H0 Hy) as Ry. pose proof (inv_sq_range h dz H0 Hz) as Rz.
    assert (Lg : forall v v' : nat -> R, (forall k, (k < 8)%nat -> v k = v' k) -> forall q, In q (c_quads (brick ends dx dy dz dofs)) -> local_gradient q v = local_gradient q v').
    { intros v v' Vv q I. assert (Lq : List.length (h_grads q) = 8%nat). { unfold brick in I. cbn [c_quads] in I. apply in_flat_map in I as [z [_ I]]. apply in_flat_map in I as [y [_ I]]. apply in_map_iff in I as [x [<- _]]. reflexivity. }
      unfold local_gradient. rewrite Lq. cbv zeta. f_equal; apply Sum_ext; intros k Ik; apply in_seq in Ik; rewrite Vv by lia; reflexivity. }
    split.
    + intros i j Ne. apply Off. apply Forall_forall. intros q I. pose proof I as I'. unfold brick in I. cbn [c_quads] in I. apply in_flat_map in I as [z [Iz I]]. apply in_flat_map in I as [y [Iy I]]. apply in_map_iff in I as [x [Eq Ix]].
      destruct (hat_local dofs i Nd) as [[p [Lp [Ep' Hp]]]|Hp]; rewrite Ld in *.
      * destruct (hat_local dofs j Nd) as [[r [Lr [Er Hr]]]|Hr]; rewrite Ld in *.
        -- rewrite (Lg _ (one p) Hp q I'), (Lg _ (one r) Hr q I'). subst q. apply corner3; try (apply ends_two; assumption). congruence.
        -- rewrite (Lg _ (fun _ => 0) Hr q I'). subst q. rewrite !lg3x, !lg3y, !lg3z. repeat split; right; ring.
      * rewrite (Lg _ (fun _ => 0) Hp q I'). subst q. rewrite !lg3x, !lg3y, !lg3z. repeat split; right; ring.
    + intros i. rewrite (mass_local n [] _ _ Sh). cbn [brick c_dofs]. rewrite Ld. fold (brick ends dx dy dz dofs).
      rewrite (Sum_ext _ (fun k => dx * dy * dz / 8 * hat i (nth k dofs 0%nat))).
      2:{ intros k I. rewrite local_mass3. apply in_seq in I. destruct (Nat.ltb_spec k 8); [reflexivity|lia]. }
      eapply Rle_trans; [apply Dg|]. cbn [operator_points] in Ep. rewrite Ep, eight_b. replace (4 * (1 / 2 * (1 / 2))) with (factor true) by (unfold factor; lra).
      destruct (hat_local dofs i Nd) as [[p [Lp [Ep' Hp]]]|Hp]; rewrite Ld in *.
      * rewrite (form3_ext _ _ _ _ _ (one p) _ (one p) Hp Hp). rewrite (Sum_ext _ (fun k => dx * dy * dz / 8 * one p k)) by (intros k I; apply in_seq in I; rewrite Hp by lia; reflexivity).
        eapply Rle_trans; [|right; apply Rmult_eq_compat_l; symmetry; exact (one_sum p 8 (fun _ => dx * dy * dz / 8) Lp)].
        pose proof (form3_diag true _ _ _ _ p Rx Ry Rz Lp) as X. set (f := form3 _ _ _ _ _ _) in *.
        apply Rle_trans with (dx * dy * dz / 8 * (alpha * (even_factor true true * (/ h * / h)))); [|right; ring].
        apply Rmult_le_compat_l; [lra|]. apply Rmult_le_compat_l; lra.
      * rewrite (form3_ext _ _ _ _ _ (fun _ => 0) _ (fun _ => 0) Hp Hp), form3_0l. rewrite Sum_zero; [lra|]. intros k I. apply in_seq in I. rewrite Hp by lia. lra.
  - destruct B as [dx [dz [dofs [Hx [Hz [_ [Ld [E1 _]]]]]]]]. cbn [operator_points] in E1. subst c. cbn [rectangle c_dofs] in Nd |- *. fold (rectangle ends dx dz dofs).
    assert (V : 0 < dx * dz) by (apply Rmult_lt_0_compat; lra).
    destruct (pair_points false P alpha (rectangle ends dx dz dofs) (dx * dz / 4) H) as [Off Dg]; [lra| |].
    { unfold rectangle, ends. cbn [c_quads flat_map map List.app]. repeat (apply Forall_cons; [split; [reflexivity|intros _ v; apply grad2_y]|]). apply Forall_nil. }
    pose proof (inv_sq_range h dx H0 Hx) as Rx. pose proof (inv_sq_range h dz H0 Hz) as Rz.
    assert (Lg : forall v v' : nat -> R, (forall k, (k < 4)%nat -> v k = v' k) -> forall q, In q (c_quads (rectangle ends dx dz dofs)) -> local_gradient q v = local_gradient q v').
    { intros v v' Vv q I. assert (Lq : List.length (h_grads q) = 4%nat). { unfold rectangle in I. cbn [c_quads] in I. apply in_flat_map in I as [z [_ I]]. apply in_map_iff in I as [x [<- _]]. reflexivity. }
      unfold local_gradient. rewrite Lq. cbv zeta. f_equal; apply Sum_ext; intros k Ik; apply in_seq in Ik; rewrite Vv by lia; reflexivity. }
    assert (Py : forall q v, In q (c_quads (rectangle ends dx dz dofs)) -> pyR (local_gradient q v) = 0).
    { intros q v I. unfold rectangle in I. cbn [c_quads] in I. apply in_flat_map in I as [z [_ I]]. apply in_map_iff in I as [x [<- _]]. unfold pyR. apply grad2_y. }
    split.
    + intros i j Ne. apply Off. apply Forall_forall. intros q I. pose proof I as I'. rewrite !(Py q _ I'). unfold rectangle in I. cbn [c_quads] in I. apply in_flat_map in I as [z [Iz I]]. apply in_map_iff in I as [x [Eq Ix]].
      destruct (hat_local dofs i Nd) as [[p [Lp [Ep' Hp]]]|Hp]; rewrite Ld in *.
      * destruct (hat_local dofs j Nd) as [[r [Lr [Er Hr]]]|Hr]; rewrite Ld in *.
        -- rewrite (Lg _ (one p) Hp q I'), (Lg _ (one r) Hr q I'). subst q. destruct (corner2 dx dz x z p r) as [C1 C2]; try (apply ends_two; assumption); [congruence|]. repeat split; [exact C1|right; ring|exact C2].
        -- rewrite (Lg _ (fun _ => 0) Hr q I'). subst q. rewrite !lg2x, !lg2z. repeat split; right; ring.
      * rewrite (Lg _ (fun _ => 0) Hp q I'). subst q. rewrite !lg2x, !lg2z. repeat split; right; ring.
    + intros i. rewrite (mass_local n [] _ _ Sh). cbn [rectangle c_dofs]. rewrite Ld. fold (rectangle ends dx dz dofs).
      rewrite (Sum_ext _ (fun k => dx * dz / 4 * hat i (nth k dofs 0%nat))).
      2:{ intros k I. rewrite local_mass2. apply in_seq in I. destruct (Nat.ltb_spec k 4); [reflexivity|lia]. }
      eapply Rle_trans; [apply Dg|]. cbn [operator_points] in Ep. rewrite Ep, four2_b. replace (4 * (1 / 2 * (1 / 2))) with (factor true) by (unfold factor; lra).
      destruct (hat_local dofs i Nd) as [[p [Lp [Ep' Hp]]]|Hp]; rewrite Ld in *.
      * rewrite (form2_ext _ _ _ _ (one p) _ (one p) Hp Hp). rewrite (Sum_ext _ (fun k => dx * dz / 4 * one p k)) by (intros k I; apply in_seq in I; rewrite Hp by lia; reflexivity).
        eapply Rle_trans; [|right; apply Rmult_eq_compat_l; symmetry; exact (one_sum p 4 (fun _ => dx * dz / 4) Lp)].
        pose proof (form2_diag true _ _ _ p Rx Rz Lp) as X. set (f := form2 _ _ _ _ _) in *.
        apply Rle_trans with (dx * dz / 4 * (alpha * (even_factor false true * (/ h * / h)))); [|right; ring].
        apply Rmult_le_compat_l; [lra|]. apply Rmult_le_compat_l; lra.
      * rewrite (form2_ext _ _ _ _ (fun _ => 0) _ (fun _ => 0) Hp Hp), form2_0l. rewrite Sum_zero; [lra|]. intros k I. apply in_seq in I. rewrite Hp by lia. lra.
Qed.
Lemma even_of dim3 h m : exposed_boxes dim3 h m -> forall c, In c (m_cells m) -> even_box dim3 true h c c.
Proof.
  intros [_ [sides [rest [F2 _]]]]. clear - F2. induction F2 as [|c s cs ss H _ IH]; intros c0 I; [destruct I|]. destruct I as [<-|I]; [|exact (IH c0 I)]. destruct H as [Nd B]. split; [exact Nd|]. destruct dim3.
  - destruct B as [dx [dy [dz [dofs [Hx [Hy [Hz [Ld [E _]]]]]]]]]. exists dx, dy, dz, dofs. repeat split; try assumption; discriminate.
  - destruct B as [dx [dz [dofs [Hx [Hz [Ld [E _]]]]]]]. exists dx, dz, dofs. repeat split; try assumption; discriminate.
Qed.
Lemma Sum_filter {A} (p : A -> bool) (f : A -> R) l : Sum (filter p l) f = Sum l (fun a => if p a then f a else 0).
Proof. induction l as [|a l IH]; [reflexivity|]. cbn [filter]. rewrite Sum_cons. destruct (p a); rewrite ?Sum_cons, IH; ring. Qed.
Lemma Sum_le_f2 {A B} (Rel : A -> B -> Prop) la lb (f : B -> R) (g : A -> R) : Forall2 Rel la lb -> (forall a b, In a la -> Rel a b -> f b <= g a) -> Sum lb f <= Sum la g.
Proof. induction 1 as [|a b la lb H _ IH]; intros K; [rewrite !Sum_nil; apply Rle_refl|]. rewrite !Sum_cons. apply Rplus_le_compat; [apply K; [left; reflexivity|exact H]|]. apply IH. intros; apply K; [right|]; assumption. Qed.
Lemma boxes_moderate dim3 m P Q alpha g lo hi h dt : mesh_ok m -> massive m -> m_C m = [] -> exposed_boxes dim3 h m -> aligned P alpha -> losses_at_most m Q hi g -> surroundings false m Q lo hi -> 0 < h -> 0 <= dt ->
  dt * (even_factor dim3 true * (alpha / (h * h) + g / h)) <= 1 -> moderate dim3 false m P (largest_losses Q hi) dt.
Proof.
  intros Mok Ms C0 Ex Al [G0 Lg] Su H0 D0 DL. pose proof (even_of dim3 h m Ex) as Evc. destruct Ex as [Em [sides [rest [F2 Pm]]]].
  assert (Sides : forall s, In s (List.concat sides) -> (forall u, 0 <= seen s u u) /\ (forall i j, i <> j -> seen s (hat i) (hat j) = 0)).
  { intros s I. apply in_concat in I as [cs [I1 I2]]. assert (exists c, In c (m_cells m) /\ box_with_sides dim3 h c cs) as [c [Ic Bc]].
    { clear - F2 I1. induction F2 as [|c s0 l l' H _ IH]; [destruct I1|]. destruct I1 as [<-|I1]; [exists c; split; [left; reflexivity|exact H]|]. destruct (IH I1) as [c0 [J K]]. exists c0. split; [right; exact J|exact K]. }
    pose proof (proj1 (Forall_forall _ _) (m_cells_ok m Mok) c Ic) as Sh. destruct (box_sides dim3 h c cs (m_n m) H0 Bc Sh) as [B1 [B2 _]]. split; [intros u; apply B1; exact I2|intros i j Ne; apply B2; assumption]. }
  assert (Act : forall jf, In jf (indexed (m_faces m)) -> on_boundary (snd jf) = true -> In (active_side (snd jf)) (List.concat sides)).
  { intros jf I B. apply (Permutation_in _ Pm). apply in_or_app. left. apply in_map. apply filter_In. split; [exact (in_indexed _ _ I)|exact B]. }
  (* conduction *)
  assert (EF : 0 <= even_factor dim3 true) by (unfold even_factor; destruct dim3; lra).
  set (x := even_factor dim3 true * alpha / (h * h)).
  assert (Cells : forall ic, In ic (indexed (m_cells m)) ->
    (forall k j, k <> j -> conducted_pair dim3 (P (fst ic)) (snd ic) (fun l => hat k (nth l (c_dofs (snd ic)) 0%nat)) (fun l => hat j (nth l (c_dofs (snd ic)) 0%nat)) <= 0) /\
    (forall k, conducted_pair dim3 (P (fst ic)) (snd ic) (fun l => hat k (nth l (c_dofs (snd ic)) 0%nat)) (fun l => hat k (nth l (c_dofs (snd ic)) 0%nat)) <= x * Sum (c_quads (snd ic)) (fun q => h_jxw q * field [] (snd ic) q (hat k)))).
  { intros ic I. apply in_indexed in I. apply (aligned_cell dim3 (P (fst ic)) alpha h (snd ic) (m_n m)); [intros q; apply Al|exact H0| |exact (proj1 (Forall_forall _ _) (m_cells_ok m Mok) _ I)].
    exact (Evc _ I). }
  assert (Cd : forall i, conducted dim3 m P (hat i) (hat i) <= x * nodal_mass m i).
  { intros i. rewrite (conducted_cells dim3 m P _ _ Mok), C0. unfold nodal_mass, integral. rewrite Em, C0, <- Sum_scal, <- (Sum_indexed _ (m_cells m)). apply Sum_le. intros ic I. exact (proj2 (Cells ic I) i). }
  assert (Co : forall i j, i <> j -> conducted dim3 m P (hat i) (hat j) <= 0).
  { intros i j Ne. rewrite (conducted_cells dim3 m P _ _ Mok), C0. rewrite <- (Sum_zero (fun _ => 0) (indexed (m_cells m))) by reflexivity. apply Sum_le. intros ic I. exact (proj1 (Cells ic I) i j Ne). }
  (* the surface *)
  assert (Pt : forall jf iq, In jf (indexed (m_faces m)) -> on_boundary (snd jf) = true -> In iq (indexed (c_quads (active_side (snd jf)))) -> 0 <= h_jxw (snd iq)).
  { intros [j f] iq I B Iq. destruct (Su eq_refl j f I B) as [S1 _]. apply in_indexed in Iq. exact (proj1 (proj1 (Forall_forall _ _) S1 _ Iq)). }
  assert (Sf : forall i, surface m (largest_losses Q hi) (hat i) (hat i) <= g * (even_factor dim3 true / h * nodal_mass m i)).
  { intros i. apply Rle_trans with (g * Sum (map active_side (filter on_boundary (m_faces m))) (fun s => seen s (hat i) (hat i))).
    - rewrite Sum_map_eq, Sum_filter, <- Sum_indexed, <- Sum_scal. unfold surface. apply Sum_le. intros jf I. destruct (on_boundary (snd jf)) eqn:B; [|lra].
      unfold seen. rewrite <- (Sum_indexed _ (c_quads (active_side (snd jf)))), <- Sum_scal. apply Sum_le. intros iq Iq. rewrite C0. pose proof (Pt jf iq I B Iq) as J. destruct jf as [j f]. pose proof (Lg j f (fst iq) I B) as Lgq. unfold largest_losses. cbv zeta. cbn [fst snd] in *.
      set (p := field [] (active_side f) (snd iq) (hat i)). replace (g * (h_jxw (snd iq) * (p * p))) with (h_jxw (snd iq) * g * (p * p)) by (cbn [num RNum]; ring).
      apply Rmult_le_compat_r; [apply Rle_0_sqr|]. apply Rmult_le_compat_l; assumption.
    - apply Rmult_le_compat_l; [exact G0|]. apply Rle_trans with (Sum (List.concat sides) (fun s => seen s (hat i) (hat i))).
      + rewrite <- (Sum_perm _ _ _ Pm), Sum_app_eq. assert (0 <= Sum rest (fun s => seen s (hat i) (hat i))); [|lra]. apply Sum_nonneg. intros s I. apply Sides. apply (Permutation_in _ Pm). apply in_or_app. right. exact I.
      + rewrite Sum_concat_eq. unfold nodal_mass, integral. rewrite Em, C0, <- Sum_scal. apply (Sum_le_f2 (box_with_sides dim3 h) _ _ _ _ F2). intros c cs Ic Bc.
        pose proof (proj1 (Forall_forall _ _) (m_cells_ok m Mok) c Ic) as Sh. exact (proj2 (proj2 (box_sides dim3 h c cs (m_n m) H0 Bc Sh)) i). }
  assert (So : forall i j, i <> j -> surface m (largest_losses Q hi) (hat i) (hat j) = 0).
  { intros i j Ne. unfold surface. apply Sum_zero. intros jf I. destruct (on_boundary (snd jf)) eqn:B; [|reflexivity]. pose proof (Act jf I B) as Ia. apply in_concat in Ia as [cs [I1 I2]].
    assert (Wc : exists c wc n dofs, In c (m_cells m) /\ List.length dofs = n /\ Forall (fun a => (a < n)%nat) (snd wc) /\ side n dofs wc (active_side (snd jf))).
    { clear - F2 I1 I2. induction F2 as [|c s0 l l' H _ IH]; [destruct I1|]. destruct I1 as [->|I1]; [|destruct (IH I1) as [c0 [wc [n [dofs [J K]]]]]; exists c0, wc, n, dofs; split; [right; exact J|exact K]].
      destruct H as [_ H]. assert (Pick : forall n dofs W cs, Forall (fun wc => Forall (fun a => (a < n)%nat) (snd wc)) W -> Forall2 (side n dofs) W cs -> In (active_side (snd jf)) cs -> exists wc, Forall (fun a => (a < n)%nat) (snd wc) /\ side n dofs wc (active_side (snd jf))).
      { clear. intros n dofs W cs Fa H. induction H as [|wc c W cs S1 _ IH]; intros I; [destruct I|]. inversion Fa; subst. destruct I as [<-|I]; [exists wc; split; assumption|apply IH; assumption]. }
      destruct dim3.
      - destruct H as [dx [dy [dz [dofs [_ [_ [_ [Ld [_ Sd]]]]]]]]]. destruct (Pick 8%nat dofs _ cs (in3 dx dy dz) Sd I2) as [wc [K1 K2]]. exists c, wc, 8%nat, dofs. repeat split; try assumption; try (left; reflexivity); apply K2.
      - destruct H as [dx [dz [dofs [_ [_ [Ld [_ Sd]]]]]]]. destruct (Pick 4%nat dofs _ cs (in2 dx dz) Sd I2) as [wc [K1 K2]]. exists c, wc, 4%nat, dofs. repeat split; try assumption; try (left; reflexivity); apply K2. }
    destruct Wc as [c [wc [n [dofs [_ [Ld [Fa [Sd Sq]]]]]]]]. apply Sum_zero. intros iq Iq. apply in_indexed in Iq. rewrite C0.
    assert (exists a, (a < n)%nat /\ (h_values (snd iq) : list R) = map (fun k => if Nat.eqb k a then 1 else 0) (seq 0 n)) as [a [A Ev']].
    { assert (K : In ((h_jxw (snd iq) : R), (h_values (snd iq) : list R)) (map (fun a => (fst wc, map (fun k => if Nat.eqb k a then 1 else 0) (seq 0 n))) (snd wc))) by (rewrite <- Sq; exact (in_map (fun q : hquad RNum => ((h_jxw q : R), (h_values q : list R))) _ _ Iq)).
      apply in_map_iff in K as [a [E I3]]. exists a. split; [exact (proj1 (Forall_forall _ _) Fa a I3)|]. injection E as _ E. symmetry. exact E. }
    assert (Fz : forall z, field [] (active_side (snd jf)) (snd iq) z = z (nth a dofs 0%nat)).
    { intros z. unfold field. rewrite Sd. etransitivity; [|exact (indicator_field n dofs a z Ld A)]. exact (f_equal (fun v => Sum (combine v dofs) (fun p => fst p * nodal [] z (snd p))) Ev'). }
    rewrite !Fz, hat_pair by exact Ne. cbn [num RNum]. ring. }
  split.
  - intros i j Fi Fj Ne. unfold exchange_with. rewrite (So i j Ne). specialize (Co i j Ne). lra.
  - intros i Fi. unfold exchange_with. specialize (Cd i). specialize (Sf i). pose proof (Ms i Fi) as Mi.
    apply Rle_trans with (dt * (even_factor dim3 true * (alpha / (h * h) + g / h)) * nodal_mass m i); [|rewrite <- (Rmult_1_l (nodal_mass m i)) at 2; apply Rmult_le_compat_r; lra].
    apply Rle_trans with (dt * (x * nodal_mass m i + g * (even_factor dim3 true / h * nodal_mass m i))); [apply Rmult_le_compat_l; lra|]. right. unfold x. field. lra.
Qed.
