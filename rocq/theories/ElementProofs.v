(** ElementProofs.v *)
From Coq Require Import Reals ZArith Bool List Lia Lra.
From Verif Require Import Base BaseFacts CellModel CellProofs2 AssimilationSpec AssimilationProofs AssimilationProofs3 StressModel StressSpec StressProofs StressProofs2 ElementModel ElementSpec.
Import ListNotations.
Local Open Scope R_scope.

Lemma fold_sum {A} (f : A -> R) l (a : R) : fold_left (fun s x => s + f x) l a = a + Rsum (map f l).
Proof. revert a. induction l as [|x l IH]; intros a; cbn [fold_left map]; [unfold Rsum; cbn; lra|]. rewrite IH. unfold Rsum. cbn. lra. Qed.
Lemma Rsum_to_swap n m (f : nat -> nat -> R) : Rsum_to n (fun i => Rsum_to m (fun j => f i j)) = Rsum_to m (fun j => Rsum_to n (fun i => f i j)).
Proof. unfold Rsum_to. apply Rsum_swap. Qed.
Lemma Rsum_to_prod n m f g : Rsum_to n f * Rsum_to m g = Rsum_to n (fun i => Rsum_to m (fun j => f i * g j)).
Proof.
  unfold Rsum_to at 1 3. rewrite <- Rsum_scal_r. apply Rsum_ext. intros i _. unfold Rsum_to. now rewrite <- Rsum_scal.
Qed.
Lemma Rsum_to_zero n : Rsum_to n (fun _ => 0) = 0.
Proof. apply Rsum_zero. Qed.

(** ** One quadrature point *)
Section Point.
  Variables (d n : nat) (c : nat -> nat) (G : nat -> nat -> R).
  Hypothesis HC : forall i, (i < n)%nat -> (c i < d)%nat.
  Let A (u : nat -> R) (a b : nat) : R := Rsum_to n (fun i => ind (Nat.eqb (c i) a) * (u i * G i b)).
  Lemma div_sum u : Rsum_to d (fun a => A u a a) = Rsum_to n (fun i => u i * G i (c i)).
  Proof.
    unfold A. rewrite Rsum_to_swap. apply Rsum_to_ext. intros i Hi. exact (Rsum_pick d (c i) (fun a => u i * G i a) (HC i Hi)).
  Qed.
  Lemma four n1 n2 d1 d2 (f : nat -> nat -> nat -> nat -> R) :
    Rsum_to d1 (fun a => Rsum_to d2 (fun b => Rsum_to n1 (fun i => Rsum_to n2 (fun j => f a b i j)))) =
    Rsum_to n1 (fun i => Rsum_to n2 (fun j => Rsum_to d1 (fun a => Rsum_to d2 (fun b => f a b i j)))).
  Proof.
    rewrite (Rsum_to_ext d1 _ (fun a => Rsum_to n1 (fun i => Rsum_to n2 (fun j => Rsum_to d2 (fun b => f a b i j))))).
    - rewrite Rsum_to_swap. apply Rsum_to_ext. intros i _. apply Rsum_to_swap.
    - intros a _. rewrite Rsum_to_swap. apply Rsum_to_ext. intros i _. apply Rsum_to_swap.
  Qed.
  Lemma full_product v u : Rsum_to d (fun a => Rsum_to d (fun b => A v a b * A u a b)) =
    Rsum_to n (fun i => Rsum_to n (fun j => v i * (ind (Nat.eqb (c i) (c j)) * Rsum_to d (fun b => G i b * G j b)) * u j)).
  Proof.
    unfold A. rewrite (Rsum_to_ext d _ (fun a => Rsum_to d (fun b => Rsum_to n (fun i => Rsum_to n (fun j => ind (Nat.eqb (c i) a) * (v i * G i b) * (ind (Nat.eqb (c j) a) * (u j * G j b))))))).
    2:{ intros a _. apply Rsum_to_ext. intros b _. now rewrite Rsum_to_prod. }
    rewrite four. apply Rsum_to_ext. intros i Hi. apply Rsum_to_ext. intros j Hj.
    rewrite (Rsum_to_ext d _ (fun a => ind (Nat.eqb (c i) a) * Rsum_to d (fun b => v i * G i b * (ind (Nat.eqb (c j) a) * (u j * G j b))))).
    2:{ intros a _. rewrite <- Rsum_to_scal. apply Rsum_to_ext. intros b _. ring. }
    rewrite (Rsum_pick d (c i) (fun a => Rsum_to d (fun b => v i * G i b * (ind (Nat.eqb (c j) a) * (u j * G j b)))) (HC i Hi)).
    rewrite (Nat.eqb_sym (c i) (c j)).
    replace (v i * (ind (Nat.eqb (c j) (c i)) * Rsum_to d (fun b => G i b * G j b)) * u j) with (v i * ind (Nat.eqb (c j) (c i)) * u j * Rsum_to d (fun b => G i b * G j b)) by ring.
    rewrite <- Rsum_to_scal. apply Rsum_to_ext. intros b _. ring.
  Qed.
  Lemma cross_product v u : Rsum_to d (fun a => Rsum_to d (fun b => A v a b * A u b a)) =
    Rsum_to n (fun i => Rsum_to n (fun j => v i * (G i (c j) * G j (c i)) * u j)).
  Proof.
    unfold A. rewrite (Rsum_to_ext d _ (fun a => Rsum_to d (fun b => Rsum_to n (fun i => Rsum_to n (fun j => ind (Nat.eqb (c i) a) * (v i * G i b) * (ind (Nat.eqb (c j) b) * (u j * G j a))))))).
    2:{ intros a _. apply Rsum_to_ext. intros b _. now rewrite Rsum_to_prod. }
    rewrite four. apply Rsum_to_ext. intros i Hi. apply Rsum_to_ext. intros j Hj.
    rewrite (Rsum_to_ext d _ (fun a => ind (Nat.eqb (c i) a) * Rsum_to d (fun b => ind (Nat.eqb (c j) b) * (v i * G i b * u j * G j a)))).
    2:{ intros a _. rewrite <- Rsum_to_scal. apply Rsum_to_ext. intros b _. ring. }
    rewrite (Rsum_pick d (c i) (fun a => Rsum_to d (fun b => ind (Nat.eqb (c j) b) * (v i * G i b * u j * G j a))) (HC i Hi)).
    rewrite (Rsum_pick d (c j) (fun b => v i * G i b * u j * G j (c i)) (HC j Hj)). ring.
  Qed.
  Lemma point_form lambda mu v u :
    Rsum_to n (fun i => Rsum_to n (fun j => v i * (G i (c i) * G j (c j) * lambda + G i (c j) * G j (c i) * mu + ind (Nat.eqb (c i) (c j)) * (mu * Rsum_to d (fun b => G i b * G j b))) * u j)) =
    lambda * Rsum_to d (fun a => A v a a) * Rsum_to d (fun a => A u a a) +
    2 * mu * Rsum_to d (fun a => Rsum_to d (fun b => ((A v a b + A v b a) / 2) * ((A u a b + A u b a) / 2))).
  Proof.
    rewrite !div_sum.
    assert (Rsum_to d (fun a => Rsum_to d (fun b => ((A v a b + A v b a) / 2) * ((A u a b + A u b a) / 2))) =
            / 2 * (Rsum_to d (fun a => Rsum_to d (fun b => A v a b * A u a b)) + Rsum_to d (fun a => Rsum_to d (fun b => A v a b * A u b a)))) as ->.
    { rewrite (Rsum_to_ext d _ (fun a => Rsum_to d (fun b => / 4 * (A v a b * A u a b)) + Rsum_to d (fun b => / 4 * (A v a b * A u b a)) +
                                          (Rsum_to d (fun b => / 4 * (A v b a * A u b a)) + Rsum_to d (fun b => / 4 * (A v b a * A u a b))))).
      2:{ intros a _. rewrite <- !Rsum_to_add. apply Rsum_to_ext. intros b _. field. }
      rewrite !Rsum_to_add.
      rewrite (Rsum_to_swap d d (fun a b => / 4 * (A v b a * A u b a))), (Rsum_to_swap d d (fun a b => / 4 * (A v b a * A u a b))).
      assert (forall f, Rsum_to d (fun a => Rsum_to d (fun b => / 4 * f a b)) = / 4 * Rsum_to d (fun a => Rsum_to d (fun b => f a b))) as S4.
      { intros f. rewrite <- Rsum_to_scal. apply Rsum_to_ext. intros a _. apply Rsum_to_scal. }
      rewrite (S4 (fun a b => A v a b * A u a b)), (S4 (fun a b => A v a b * A u b a)). field. }
    rewrite full_product, cross_product.
    rewrite Rmult_assoc, Rsum_to_prod.
    rewrite <- (Rsum_to_scal n lambda). rewrite <- Rsum_to_add. 
    replace (2 * mu * (/ 2 * Rsum_to n (fun i => Rsum_to n (fun j => v i * (ind (c i =? c j)%nat * Rsum_to d (fun b => G i b * G j b)) * u j) + Rsum_to n (fun j => v i * (G i (c j) * G j (c i)) * u j))))
      with (Rsum_to n (fun i => mu * (Rsum_to n (fun j => v i * (ind (c i =? c j)%nat * Rsum_to d (fun b => G i b * G j b)) * u j) + Rsum_to n (fun j => v i * (G i (c j) * G j (c i)) * u j)))) by (rewrite Rsum_to_scal; field).
    rewrite <- Rsum_to_add. apply Rsum_to_ext. intros i Hi. rewrite <- Rsum_to_add, <- !Rsum_to_scal, <- Rsum_to_add. apply Rsum_to_ext. intros j Hj. ring.
  Qed.
End Point.

(** ** The element *)
Section Elem.
  Variables (d n : nat) (comps : list nat) (qs : list (quad RNum)).
  Hypothesis EL : element d n comps qs.
  Let c (i : nat) : nat := nth i comps O.
  Let G (q : quad RNum) (i b : nat) : R := nth b (nth i (q_grads q) []) 0.
  Lemma c_bound i : (i < n)%nat -> (c i < d)%nat.
  Proof. destruct EL as (L & F & _). intros Hi. rewrite Forall_forall in F. apply F, nth_In. now rewrite L. Qed.
  Lemma grad_length q i : In q qs -> (i < n)%nat -> List.length (nth i (q_grads q) []) = d.
  Proof.
    destruct EL as (_ & _ & F). intros HI Hi. rewrite Forall_forall in F. destruct (F q HI) as (L & FG & _). rewrite Forall_forall in FG. apply FG, nth_In. cbn [num RNum] in *. now rewrite L.
  Qed.
  Lemma dot_sum (x y : list R) (mu : R) : List.length x = d -> List.length y = d -> dot (N := RNum) (map (fun z : R => mu * z) x) y = mu * Rsum_to d (fun b => nth b x 0 * nth b y 0).
  Proof.
    intros Lx Ly. unfold dot. cbn [num RNum nadd nmul]. rewrite (fold_sum (fun xy : R * R => fst xy * snd xy)). change (nofZ RNum 0 : R) with 0.
    rewrite prod_sum by now rewrite map_length, Lx, Ly. rewrite map_length, Lx, Rplus_0_l, <- Rsum_to_scal. apply Rsum_to_ext. intros b Hb. rewrite nth_map_R by lia. ring.
  Qed.
  Definition kq (lambda mu : R) (q : quad RNum) (i j : nat) : R :=
    G q i (c i) * G q j (c j) * lambda + G q i (c j) * G q j (c i) * mu + ind (Nat.eqb (c i) (c j)) * (mu * Rsum_to d (fun b => G q i b * G q j b)).
  Lemma entry_sum (lambda mu : R) i j : (i < n)%nat -> (j < n)%nat -> matrix_entry (N := RNum) lambda mu comps qs i j = Rsum (map (fun q => kq lambda mu q i j * q_jxw q) qs).
  Proof.
    intros Hi Hj. unfold matrix_entry. cbn [num RNum nadd nmul]. 
    match goal with |- fold_left (fun m q => m + @?e q) qs _ = _ => rewrite (fold_sum e) end. change (nofZ RNum 0 : R) with 0. rewrite Rplus_0_l. apply Rsum_ext. intros q HI. f_equal.
    unfold kq, sgrad, comp. fold (c i) (c j). change (nofZ RNum 0 : R) with 0. fold (G q i (c i)) (G q j (c j)) (G q i (c j)) (G q j (c i)).
    pose proof (dot_sum (nth i (q_grads q) []) (nth j (q_grads q) []) mu (grad_length q i HI Hi) (grad_length q j HI Hj)) as DS.
    destruct (Nat.eqb (c i) (c j)); unfold ind; [|ring]. cbn [num RNum] in *. rewrite DS. unfold G. ring.
  Qed.
  Lemma gradient_A q u a b : gradient n comps q u a b = Rsum_to n (fun i => ind (Nat.eqb (c i) a) * (u i * G q i b)).
  Proof. unfold gradient. apply Rsum_to_ext. intros i _. fold (c i). destruct (Nat.eqb (c i) a); unfold ind, G; ring. Qed.
  Lemma bilinear (lambda mu : R) (v u : nat -> R) :
    Rsum_to n (fun i => Rsum_to n (fun j => v i * matrix_entry (N := RNum) lambda mu comps qs i j * u j)) = work d n lambda mu comps qs v u.
  Proof.
    rewrite (Rsum_to_ext n _ (fun i => Rsum (map (fun q => Rsum_to n (fun j => v i * kq lambda mu q i j * u j) * q_jxw q) qs))).
    2:{ intros i Hi. rewrite (Rsum_to_ext n _ (fun j => Rsum (map (fun q => v i * kq lambda mu q i j * u j * q_jxw q) qs))).
        - unfold Rsum_to at 1. rewrite Rsum_swap. apply Rsum_ext. intros q _. unfold Rsum_to. now rewrite <- Rsum_scal_r.
        - intros j Hj. rewrite (entry_sum lambda mu i j Hi Hj). rewrite <- Rsum_scal, <- Rsum_scal_r. apply Rsum_ext. intros q _. ring. }
    unfold Rsum_to at 1. rewrite Rsum_swap. unfold work. apply Rsum_ext. intros q HI. rewrite Rsum_scal_r. f_equal.
    pose proof (point_form d n c (G q) c_bound lambda mu v u) as P. unfold Rsum_to at 1 in P. unfold kq. rewrite P. clear P. f_equal; [f_equal; [f_equal|]|].
    - unfold divergence. apply Rsum_to_ext. intros a _. now rewrite gradient_A.
    - unfold divergence. apply Rsum_to_ext. intros a _. now rewrite gradient_A.
    - f_equal. apply Rsum_to_ext. intros a _. apply Rsum_to_ext. intros b _. unfold strain. now rewrite !gradient_A.
  Qed.
  Lemma symmetric (lambda mu : R) i j : (i < n)%nat -> (j < n)%nat -> matrix_entry (N := RNum) lambda mu comps qs i j = matrix_entry (N := RNum) lambda mu comps qs j i.
  Proof.
    intros Hi Hj. rewrite !entry_sum by assumption. apply Rsum_ext. intros q _. f_equal. unfold kq. rewrite (Nat.eqb_sym (c j) (c i)).
    rewrite (Rsum_to_ext d (fun b => G q j b * G q i b) (fun b => G q i b * G q j b)) by (intros; ring). ring.
  Qed.
End Elem.

(** The work of a strain on itself is nonnegative if the bulk modulus is. *)
Lemma trace_bound d (e : nat -> nat -> R) : Rsqr (Rsum_to d (fun a => e a a)) <= INR d * Rsum_to d (fun a => Rsum_to d (fun b => e a b * e a b)).
Proof.
  assert (Rsqr (Rsum_to d (fun a => e a a)) <= INR d * Rsum_to d (fun a => e a a * e a a)) as H1.
  { assert (forall n (f : nat -> R), Rsqr (Rsum_to n f) <= INR n * Rsum_to n (fun a => f a * f a)) as CS; [|apply (CS d (fun a => e a a))].
    intros n f. destruct (Nat.eq_dec n 0) as [->|NZ]; [unfold Rsum_to, Rsum, Rsqr; cbn; lra|].
    set (m := Rsum_to n f / INR n). assert (0 < INR n) as P by (apply lt_0_INR; lia).
    assert (0 <= Rsum_to n (fun a => (f a - m) * (f a - m))) as Q.
    { apply Rsum_nonneg, Forall_forall. intros x HX. apply in_map_iff in HX. destruct HX as (a & <- & _). exact (Rle_0_sqr (f a - m)). }
    rewrite (Rsum_to_ext n _ (fun a => (f a * f a + (- (2 * m)) * f a) + m * m)) in Q by (intros; ring).
    rewrite Rsum_to_add, Rsum_to_const, (Rsum_to_lin n (- (2 * m)) (fun a => f a * f a) f) in Q.
    set (S := Rsum_to n f) in *. set (T := Rsum_to n (fun a => f a * f a)) in *. assert (S = m * INR n) as ES by (unfold m; field; lra).
    rewrite ES in Q |- *. unfold Rsqr. nra. }
  eapply Rle_trans; [exact H1|]. apply Rmult_le_compat_l; [apply pos_INR|].
  assert (forall n (f g : nat -> R), (forall i, (i < n)%nat -> f i <= g i) -> Rsum_to n f <= Rsum_to n g) as MONO.
  { intros n f g H. assert (0 <= Rsum_to n (fun i => g i + (-1) * f i)) as Q; [|rewrite Rsum_to_lin in Q; lra].
    apply Rsum_nonneg, Forall_forall. intros x HX. apply in_map_iff in HX. destruct HX as (a & <- & HI). apply in_seq in HI. specialize (H a ltac:(lia)). lra. }
  apply MONO. intros a Ha. rewrite <- (Rsum_pick d a (fun b => e a b * e a b) Ha). apply MONO. intros b Hb. unfold ind. destruct (Nat.eqb a b); nra.
Qed.
Lemma work_nonneg d n (lambda mu : R) comps qs u : 0 <= mu -> 0 <= INR d * lambda + 2 * mu -> Forall (fun q : quad RNum => 0 <= q_jxw q) qs -> (0 < d)%nat ->
  0 <= work d n lambda mu comps qs u u.
Proof.
  intros Hm Hl HW Hd. unfold work. apply Rsum_nonneg, Forall_forall. intros x HX. apply in_map_iff in HX. destruct HX as (q & <- & HI). rewrite Forall_forall in HW. specialize (HW q HI).
  apply Rmult_le_pos; [|exact HW].
  set (E := Rsum_to d (fun a => Rsum_to d (fun b => strain n comps q u a b * strain n comps q u a b))).
  assert (divergence d n comps q u = Rsum_to d (fun a => strain n comps q u a a)) as DV by (unfold divergence; apply Rsum_to_ext; intros a _; unfold strain; field).
  pose proof (trace_bound d (strain n comps q u)) as TB. fold E in TB. rewrite <- DV in TB. unfold Rsqr in TB.
  set (D := divergence d n comps q u) in *. assert (0 < INR d) as P by now apply lt_0_INR.
  assert (0 <= E) as PE. { apply Rsum_nonneg, Forall_forall. intros y HY. apply in_map_iff in HY. destruct HY as (a & <- & _). apply Rsum_nonneg, Forall_forall. intros z HZ. apply in_map_iff in HZ. destruct HZ as (b & <- & _). nra. }
  clearbody D E. clear - Hm Hl P TB PE.
  replace (lambda * D * D) with (lambda * (D * D)) by ring. assert (0 <= D * D) by nra.
  destruct (Rle_dec 0 lambda) as [L|L]; [nra|]. assert (lambda * (INR d * E) <= lambda * (D * D)) by nra. assert (0 <= E * (INR d * lambda + 2 * mu)) by nra. nra.
Qed.

(** ** Thermal load *)
Lemma delta_excess (reference : R) (temperature : list R) (q : quad RNum) : delta_T (N := RNum) reference q temperature = excess reference temperature q.
Proof.
  unfold delta_T, excess. cbn [num RNum nadd nmul nopp]. rewrite (fold_sum (fun xy : R * R => fst xy * snd xy)).
  assert (forall (a b : list R), Rsum (map (fun xy => fst xy * snd xy) (combine a b)) = Rsum_to (Nat.min (List.length a) (List.length b)) (fun j => nth j a 0 * nth j b 0)) as H.
  { induction a as [|x a IH]; intros [|y b]; try reflexivity. cbn [combine map List.length Nat.min]. unfold Rsum_to. rewrite <- cons_seq, <- seq_shift. cbn [map]. unfold Rsum at 1 2. cbn [fold_right fst snd nth].
    specialize (IH b). unfold Rsum at 1 in IH. rewrite IH. unfold Rsum_to. rewrite map_map. reflexivity. }
  rewrite H. cbn [num RNum]. ring.
Qed.
Section Load.
  Variables (d n : nat) (comps : list nat) (qs : list (quad RNum)).
  Hypothesis EL : element d n comps qs.
  Lemma load_work (lambda mu alpha reference : R) (temperature : list R) (v : nat -> R) :
    Rsum_to n (fun i => v i * thermal_load (N := RNum) lambda mu alpha reference temperature comps qs i) =
    Rsum (map (fun q => (3 * lambda + 2 * mu) * alpha * excess reference temperature q * divergence d n comps q v * q_jxw q) qs).
  Proof.
    rewrite (Rsum_to_ext n _ (fun i => Rsum (map (fun q : quad RNum => v i * (nth (nth i comps O) (nth i (q_grads q) []) 0) * ((3 * lambda + 2 * mu) * alpha * excess reference temperature q * q_jxw q)) qs))).
    2:{ intros i Hi. unfold thermal_load. cbn [num RNum nadd nmul].
        match goal with |- _ * fold_left (fun m q => m + @?e q) qs _ = _ => rewrite (fold_sum e) end. change (nofZ RNum 0 : R) with 0. rewrite Rplus_0_l, <- Rsum_scal. apply Rsum_ext. intros q _.
        rewrite (delta_excess reference temperature q). unfold sgrad, comp. change (nofZ RNum 0 : R) with 0. change (nofZ RNum 3 : R) with 3. change (nofZ RNum 2 : R) with 2. cbn [num RNum]. ring. }
    unfold Rsum_to at 1. rewrite Rsum_swap. apply Rsum_ext. intros q HI. rewrite Rsum_scal_r.
    pose proof (div_sum d n (fun i => nth i comps O) (fun i b => nth b (nth i (q_grads q) []) 0) (c_bound d n comps qs EL) v) as DS. cbv beta in DS. unfold Rsum_to at 3 in DS. rewrite <- DS. clear DS.
    unfold divergence. rewrite (Rsum_to_ext d (fun a => gradient n comps q v a a) (fun a => Rsum_to n (fun i => ind (Nat.eqb (nth i comps O) a) * (v i * nth a (nth i (q_grads q) []) 0)))); [ring|].
    intros a _. exact (gradient_A n comps q v a a).
  Qed.
  (** Free expansion: a displacement with gradient [beta] times the identity balances the load. *)
  Lemma expansion (lambda mu alpha reference : R) (temperature : list R) (u : nat -> R) (beta : quad RNum -> R) :
    (forall q, In q qs -> (INR d * lambda + 2 * mu) * beta q = (3 * lambda + 2 * mu) * alpha * excess reference temperature q) ->
    (forall q a b, In q qs -> (a < d)%nat -> (b < d)%nat -> gradient n comps q u a b = if Nat.eqb a b then beta q else 0) ->
    forall i, (i < n)%nat -> Rsum_to n (fun j => matrix_entry (N := RNum) lambda mu comps qs i j * u j) = thermal_load (N := RNum) lambda mu alpha reference temperature comps qs i.
  Proof.
    intros HB HG i Hi. set (v := fun k => ind (Nat.eqb i k)).
    pose proof (bilinear d n comps qs EL lambda mu v u) as B. pose proof (load_work lambda mu alpha reference temperature v) as L.
    unfold v at 1 in L. rewrite (Rsum_pick n i (fun k => thermal_load (N := RNum) lambda mu alpha reference temperature comps qs k) Hi) in L. rewrite L. clear L.
    transitivity (work d n lambda mu comps qs v u).
    - rewrite <- B. rewrite (Rsum_to_ext n (fun i0 => Rsum_to n (fun j => v i0 * matrix_entry (N := RNum) lambda mu comps qs i0 j * u j)) (fun k => ind (Nat.eqb i k) * Rsum_to n (fun j => matrix_entry (N := RNum) lambda mu comps qs k j * u j))).
      + now rewrite (Rsum_pick n i (fun k => Rsum_to n (fun j => matrix_entry (N := RNum) lambda mu comps qs k j * u j)) Hi).
      + intros k _. rewrite <- Rsum_to_scal. apply Rsum_to_ext. intros j _. unfold v. ring.
    - unfold work. apply Rsum_ext. intros q HI. f_equal.
      assert (divergence d n comps q u = INR d * beta q) as ->.
      { unfold divergence. rewrite (Rsum_to_ext d _ (fun _ => beta q)); [apply Rsum_to_const|]. intros a Ha. rewrite (HG q a a HI Ha Ha). now rewrite Nat.eqb_refl. }
      assert (Rsum_to d (fun a => Rsum_to d (fun b => strain n comps q v a b * strain n comps q u a b)) = beta q * divergence d n comps q v) as ->.
      { unfold divergence. rewrite <- Rsum_to_scal. apply Rsum_to_ext. intros a Ha.
        rewrite (Rsum_to_ext d _ (fun b => ind (Nat.eqb a b) * (strain n comps q v a b * beta q))).
        - rewrite (Rsum_pick d a (fun b => strain n comps q v a b * beta q) Ha). unfold strain. field.
        - intros b Hb. assert (strain n comps q u a b = if Nat.eqb a b then beta q else 0) as ->; [|unfold ind; destruct (Nat.eqb a b); ring].
          unfold strain. rewrite (HG q a b HI Ha Hb), (HG q b a HI Hb Ha), (Nat.eqb_sym b a). destruct (Nat.eqb a b); field. }
      rewrite <- (HB q HI). ring.
  Qed.
End Load.
(** ** The stress the program computes for a free expansion *)
Lemma hooke_isotropic d o (lambda mu beta : R) : hooke (N := RNum) lambda mu (isotropic d o beta) = isotropic d o ((INR d * lambda + 2 * mu) * beta).
Proof.
  assert (forall x, shaped d o (isotropic d o x)) as SH by (intros x; unfold isotropic, shaped; cbn [dg od]; split; apply repeat_length).
  assert (forall x i, (i < d)%nat -> D (isotropic d o x) i = x) as HD by (intros x i Hi; unfold D, isotropic; cbn [dg]; rewrite nth_indep with (d' := x) by (rewrite repeat_length; exact Hi); apply nth_repeat).
  assert (forall x i, O_ (isotropic d o x) i = 0) as HO by (intros x i; unfold O_, isotropic; cbn [od]; apply nth_repeat).
  assert (tr (isotropic d o beta) = INR d * beta) as HT by (rewrite (tr_sum d o) by apply SH; rewrite (Rsum_to_ext d _ (fun _ => beta)) by (intros; now apply HD); apply Rsum_to_const).
  apply (sym_ext d o); [apply hooke_shaped, SH| apply SH| |]; intros i Hi.
  - rewrite (D_hooke d o _ (SH beta) lambda mu i Hi), HT, !HD by exact Hi. ring.
  - rewrite (O_hooke d o _ (SH beta) lambda mu i Hi), !HO. ring.
Qed.

(** ** Gravity *)
Lemma body_total d n comps qs (force : list R) a : element d n comps qs -> (a < d)%nat ->
  (forall q, In q qs -> Rsum_to n (fun i => if Nat.eqb (nth i comps O) a then nth i (q_values q) 0 else 0) = 1) ->
  Rsum_to n (fun i => if Nat.eqb (nth i comps O) a then body_load (N := RNum) force comps qs i else 0) = nth a force 0 * Rsum (map (fun q : quad RNum => q_jxw q : R) qs).
Proof.
  intros EL Ha PU.
  rewrite (Rsum_to_ext n _ (fun i => Rsum (map (fun q : quad RNum => (if Nat.eqb (nth i comps O) a then nth i (q_values q) 0 else 0) * (nth a force 0 * q_jxw q)) qs))).
  - unfold Rsum_to at 1. rewrite Rsum_swap, <- Rsum_scal. apply Rsum_ext. intros q HI. rewrite Rsum_scal_r. specialize (PU q HI). unfold Rsum_to in PU. rewrite PU. ring.
  - intros i Hi. destruct (Nat.eqb_spec (nth i comps O) a) as [E|NE].
    + unfold body_load. cbn [num RNum nadd nmul]. match goal with |- fold_left (fun m q => m + @?e q) qs _ = _ => rewrite (fold_sum e) end. change (nofZ RNum 0 : R) with 0. rewrite Rplus_0_l.
      apply Rsum_ext. intros q _. unfold comp. rewrite E. cbn [num RNum]. ring.
    + rewrite (Rsum_ext _ (fun _ => 0)) by (intros; ring). now rewrite Rsum_zero.
Qed.

(** ** Reference temperatures *)
Lemma indices_length cells : forall k, List.length (cell_indices cells k) = List.length cells.
Proof. induction cells as [|c cs IH]; intros k; [reflexivity|]. cbn. destruct (j_owned c && j_thermal c); cbn; now rewrite IH. Qed.
Lemma indices_at cells : forall k pos c, nth_error cells pos = Some c ->
  nth_error (cell_indices cells k) pos = Some (if j_owned c && j_thermal c && j_mech c then (k + flag_position cells pos)%nat else O).
Proof.
  induction cells as [|c0 cs IH]; intros k [|pos] c E; cbn in E; try discriminate.
  - injection E as <-. cbn. unfold flag_position. cbn. destruct (j_owned c0), (j_thermal c0), (j_mech c0); cbn; f_equal; lia.
  - cbn [cell_indices]. unfold flag_position. cbn [firstn filter]. destruct (j_owned c0 && j_thermal c0); cbn [nth_error List.length]; rewrite (IH _ pos c E); unfold flag_position;
      destruct (j_owned c && j_thermal c && j_mech c); f_equal; lia.
Qed.
Lemma reference_ok (references : list R) has_melted cells pos material_id c m (initial : R) solidus :
  nth_error cells pos = Some c -> j_owned c = true -> j_thermal c = true -> j_mech c = true ->
  nth_error has_melted (flag_position cells pos) = Some m -> references = solidus ++ [initial] -> (material_id < List.length solidus)%nat ->
  exists t, reference_temperature (N := RNum) references has_melted cells pos material_id = Ok t /\ (m = true -> nth_error solidus material_id = Some t) /\ (m = false -> t = initial).
Proof.
  intros E A B C HM -> HL. unfold reference_temperature. unfold back. rewrite rev_app_distr. cbn [rev app bind].
  pose proof (indices_at cells 0 pos c E) as I. rewrite A, B, C in I. cbn [andb plus] in I. rewrite (at_some _ _ _ I). cbn [bind]. rewrite (at_some _ _ _ HM). cbn [bind].
  destruct m; [|exists initial; repeat split; congruence]. destruct (nth_error solidus material_id) as [t|] eqn:Et; [|apply nth_error_None in Et; cbn [num RNum] in *; lia].
  exists t. split; [apply at_some; rewrite nth_error_app1 by exact HL; exact Et|]. split; [intros _; reflexivity|discriminate].
Qed.
Lemma reference_ub (references : list R) has_melted cells pos material_id c :
  nth_error cells pos = Some c -> j_owned c = true -> j_thermal c = true -> j_mech c = true ->
  (List.length has_melted <= flag_position cells pos)%nat -> references <> [] -> reference_temperature (N := RNum) references has_melted cells pos material_id = UB.
Proof.
  intros E A B C HL NE. unfold reference_temperature, back. destruct (rev references) as [|x l] eqn:ER; [exfalso; apply NE; rewrite <- (rev_involutive references), ER; reflexivity|].
  pose proof (indices_at cells 0 pos c E) as I. rewrite A, B, C in I. cbn [andb plus] in I. cbn [num RNum] in *. rewrite ER. cbn [bind]. rewrite (at_some _ _ _ I). cbn [bind]. unfold at_. rewrite (proj2 (nth_error_None _ _) HL). reflexivity.
Qed.
(** A cell that is active mechanically but not thermally reads the flag of the first cell. *)
Lemma reference_wrong (references : list R) has_melted cells pos material_id c m :
  nth_error cells pos = Some c -> j_thermal c = false -> nth_error has_melted 0 = Some m -> references <> [] ->
  reference_temperature (N := RNum) references has_melted cells pos material_id = if m then at_ references material_id else back references.
Proof.
  intros E B HM NE. unfold reference_temperature. unfold back. destruct (rev references) as [|x l] eqn:ER; [exfalso; apply NE; rewrite <- (rev_involutive references), ER; reflexivity|].
  pose proof (indices_at cells 0 pos c E) as I. rewrite B, andb_false_r in I. cbn [andb] in I. cbn [num RNum] in *. rewrite ER. cbn [bind]. rewrite (at_some _ _ _ I). cbn [bind]. rewrite (at_some _ _ _ HM). reflexivity.
Qed.
