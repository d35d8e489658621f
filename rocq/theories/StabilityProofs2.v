(** StabilityProofs2.v -- one step of each scheme below its limit. *)
From Coq Require Import Reals List Bool String ZArith Lra Lia.
From Verif Require Import Base MaterialModel MaterialSpec InputModel HeatModel HeatSpec MaterialProofs MaterialProofs2 HeatProofs HeatProofs2 HeatProofs3 HeatProofs4 HeatProofs5 HeatProofs7
  StabilitySpec StabilityProofs.
Import ListNotations.
Open Scope R_scope.

Section Op.
  Variables (dim3 ad : bool) (m : heat_mesh RNum) (P : frozen) (Q : frozen_faces).
  Hypotheses (Mok : mesh_ok m) (M : massive m).
  Local Notation ex := (exchange dim3 ad m P Q).
  Lemma mass_product_free u u' v v' : (forall j, free m j -> u j = u' j /\ v j = v' j) -> mass_product m u v = mass_product m u' v'.
  Proof.
    intros H. unfold mass_product. apply Sum_ext. intros j I. apply in_seq in I. destruct (in_dec Nat.eq_dec j (map fst (m_C m))) as [J|J].
    - rewrite (mass_constrained m Mok j J). ring.
    - destruct (H j (conj (proj2 I) J)) as [-> ->]. reflexivity.
  Qed.
  Lemma ex_zero z : ex (fun _ => 0) z = 0.
  Proof.
    pose proof (ex_lin dim3 ad m P Q (fun _ => 0) (fun _ => 0) 1 z) as E. pose proof (ex_ext dim3 ad m P Q (fun k => (fun _ : nat => 0) k + 1 * (fun _ : nat => 0) k) (fun _ => 0) z Mok (fun k _ => ltac:(lra))) as E2. lra.
  Qed.
  Lemma ex_ext_r u v z : (forall k, free m k -> u k = v k) -> ex z u = ex z v.
  Proof. intros H. rewrite !(ex_sym dim3 ad m P Q z). apply ex_ext; assumption. Qed.
  Lemma ex_sum e z (l : list nat) : ex (fun k => Sum l (fun j => z j * hat j k)) e = Sum l (fun j => z j * ex (hat j) e).
  Proof.
    induction l as [|j l IH]; [apply ex_zero|]. rewrite Sum_cons, <- IH. rewrite (ex_ext dim3 ad m P Q (fun k => Sum (j :: l) (fun j => z j * hat j k)) (fun k => (fun k => Sum l (fun j => z j * hat j k)) k + z j * hat j k) e Mok).
    - rewrite ex_lin. ring.
    - intros k _. rewrite Sum_cons. ring.
  Qed.
  Lemma sum_hat z k n : (k < n)%nat -> Sum (seq 0 n) (fun j => z j * hat j k) = z k.
  Proof.
    intros L. replace (seq 0 n) with (seq 0 k ++ k :: seq (S k) (n - S k)).
    - rewrite Sum_app, Sum_cons, !Sum_zero; [unfold hat; rewrite Nat.eqb_refl; ring| |]; intros j I; apply in_seq in I; unfold hat; destruct (Nat.eqb_spec k j); try lia; ring.
    - change (k :: seq (S k) (n - S k)) with (seq k (S (n - S k))). replace (seq k) with (seq (0 + k)) by reflexivity. rewrite <- seq_app. f_equal. lia.
  Qed.
  Lemma ex_hat e z : ex e z = Sum (seq 0 (m_n m)) (fun j => z j * ex e (hat j)).
  Proof.
    rewrite ex_sym, (ex_ext dim3 ad m P Q z (fun k => Sum (seq 0 (m_n m)) (fun j => z j * hat j k)) e Mok).
    - rewrite ex_sum. apply Sum_ext. intros j _. rewrite ex_sym. reflexivity.
    - intros k [L _]. symmetry. apply sum_hat. exact L.
  Qed.
  (** The operator. *)
  Definition opA (e : nat -> R) : nat -> R := fun j => ex e (hat j) / nodal_mass m j.
  Lemma hat_hanging e j : In j (map fst (m_C m)) -> ex e (hat j) = 0.
  Proof.
    intros I. rewrite ex_sym, (ex_ext dim3 ad m P Q (hat j) (fun _ => 0) e Mok); [apply ex_zero|]. intros k [_ N]. unfold hat. destruct (Nat.eqb_spec k j) as [->|]; [contradiction|reflexivity].
  Qed.
  Lemma op_tested e z : mass_product m z (opA e) = ex e z.
  Proof.
    rewrite ex_hat. unfold mass_product, opA. apply Sum_ext. intros j I. apply in_seq in I. destruct (in_dec Nat.eq_dec j (map fst (m_C m))) as [J|J].
    - rewrite hat_hanging, mass_constrained by assumption. unfold Rdiv. ring.
    - pose proof (M j (conj (proj2 I) J)). field. lra.
  Qed.
  Lemma op_lin u v a j : opA (fun k => u k + a * v k) j = opA u j + a * opA v j.
  Proof. unfold opA. rewrite ex_lin. unfold Rdiv. ring. Qed.
  Lemma op_ext u v j : (forall k, free m k -> u k = v k) -> opA u j = opA v j.
  Proof. intros H. unfold opA. rewrite (ex_ext dim3 ad m P Q u v _ Mok H). reflexivity. Qed.
  Lemma op_zero j : opA (fun _ => 0) j = 0.
  Proof. unfold opA. rewrite ex_zero. unfold Rdiv. ring. Qed.
  Lemma rate_op K F Tinf (y : list R) j : steady K P F Q -> (ad = false -> aired m Q Tinf) -> free m j ->
    entry (evaluate (N := RNum) dim3 false ad m K F y) j = - opA (deviation Tinf y) j.
  Proof.
    intros St A Fr. etransitivity; [exact (rate_free dim3 false ad m K F y Mok j Fr)|]. rewrite (weak_exchange dim3 ad m P Q K F Tinf y (hat j) Mok St A). unfold opA, Rdiv. ring.
  Qed.

  (** Powers applied to the deviation. *)
  Variables (dt : R).
  Definition opX (e : nat -> R) : nat -> R := fun j => dt * opA e j.
  Fixpoint pw (e : nat -> R) (k : nat) : nat -> R := match k with O => e | S k' => opX (pw e k') end.
  Definition poly (e : nat -> R) (c0 c1 c2 c3 c4 : R) : nat -> R := fun j => c0 * pw e 0 j + c1 * pw e 1 j + c2 * pw e 2 j + c3 * pw e 3 j + c4 * pw e 4 j.
  Lemma op_poly e c0 c1 c2 c3 j : dt * opA (poly e c0 c1 c2 c3 0) j = poly e 0 c0 c1 c2 c3 j.
  Proof.
    rewrite (op_ext (poly e c0 c1 c2 c3 0) (fun k => (fun k => (fun k => (fun k => (fun _ => 0) k + c0 * pw e 0 k) k + c1 * pw e 1 k) k + c2 * pw e 2 k) k + c3 * pw e 3 k)) by (intros; unfold poly; ring).
    rewrite !op_lin, op_zero. unfold poly. cbn [pw]. unfold opX. ring.
  Qed.
  Variables (K : laws RNum) (F : face_laws RNum) (Tinf : R) (e : nat -> R).
  Hypotheses (St : steady K P F Q) (Air : ad = false -> aired m Q Tinf).
  Local Notation f := (fun (_ : nat) (_ : R) v => evaluate (N := RNum) dim3 false ad m K F v).
  Definition dev (y : list R) c0 c1 c2 c3 c4 : Prop := List.length y = m_n m /\ forall j, free m j -> deviation Tinf y j = poly e c0 c1 c2 c3 c4 j.
  Lemma dev_eq y c0 c1 c2 c3 c4 d0 d1 d2 d3 d4 : dev y c0 c1 c2 c3 c4 -> c0 = d0 -> c1 = d1 -> c2 = d2 -> c3 = d3 -> c4 = d4 -> dev y d0 d1 d2 d3 d4.
  Proof. intros H -> -> -> -> ->. exact H. Qed.
  Lemma dev_sadd v w a c0 c1 c2 c3 c4 d0 d1 d2 d3 : dev v c0 c1 c2 c3 c4 -> dev w d0 d1 d2 d3 0 ->
    dev (saddR v (dt * a) (evaluate (N := RNum) dim3 false ad m K F w)) c0 (c1 - a * d0) (c2 - a * d1) (c3 - a * d2) (c4 - a * d3).
  Proof.
    intros [Lv Dv] [Lw Dw]. assert (Lr : List.length (evaluate (N := RNum) dim3 false ad m K F w) = m_n m) by apply (rate_length dim3 false ad m K F w).
    assert (E : List.length v = List.length (evaluate (N := RNum) dim3 false ad m K F w)) by (exact (eq_trans Lv (eq_sym Lr))). split; [rewrite saddR_length by exact E; exact Lv|].
    intros j Fr. unfold deviation. rewrite entry_sadd by exact E. specialize (Dv j Fr). unfold deviation in Dv.
    rewrite (rate_op K F Tinf w j St Air Fr). rewrite (op_ext (deviation Tinf w) (poly e d0 d1 d2 d3 0) j Dw).
    pose proof (op_poly e d0 d1 d2 d3 j) as O1.
    replace (entry v j + dt * a * - opA (poly e d0 d1 d2 d3 0) j - Tinf) with (entry v j - Tinf - a * (dt * opA (poly e d0 d1 d2 d3 0) j)) by ring.
    rewrite Dv, O1. unfold poly. ring.
  Qed.
  (** The step is the Taylor polynomial of the exponential. *)
  Definition c2 (s : scheme) : R := match s with ForwardEuler => 0 | _ => 1/2 end.
  Definition c3 (s : scheme) : R := match s with ForwardEuler => 0 | _ => -1/6 end.
  Definition c4 (s : scheme) : R := match s with RungeKutta4 => 1/24 | _ => 0 end.
  Lemma dev_start y : List.length y = m_n m -> (forall j, free m j -> deviation Tinf y j = e j) -> dev y 1 0 0 0 0.
  Proof. intros L H. split; [exact L|]. intros j Fr. rewrite H by exact Fr. unfold poly. cbn [pw]. ring. Qed.
  Lemma dev_step s t y : dev y 1 0 0 0 0 -> dev (step s f t dt y) 1 (-1) (c2 s) (c3 s) (c4 s).
  Proof.
    intros H. destruct s; unfold step; cbv zeta.
    - replace (saddR y dt) with (saddR y (dt * 1)) by (f_equal; ring). eapply dev_eq; [eapply (dev_sadd _ _ 1); [exact H|exact H]|..]; unfold c2, c3, c4; lra.
    - assert (H1 : dev (saddR y (dt * (1/2)) (f 0%nat (t + 0 * dt) y)) 1 (-1/2) 0 0 0).
      { eapply dev_eq; [eapply dev_sadd; exact H|..]; lra. }
      assert (H2 : dev (saddR (saddR y (dt * -1) (f 0%nat (t + 0 * dt) y)) (dt * 2) (f 1%nat (t + 1 / 2 * dt) (saddR y (dt * (1/2)) (f 0%nat (t + 0 * dt) y)))) 1 (-1) 1 0 0).
      { eapply dev_eq; [eapply dev_sadd; [eapply dev_sadd; exact H|exact H1]|..]; lra. }
      eapply dev_eq; [eapply dev_sadd; [eapply dev_sadd; [eapply dev_sadd; [exact H|exact H]|exact H1]|exact H2]|..]; unfold c2, c3, c4; lra.
    - set (k0 := f 0%nat (t + 0 * dt) y). set (y1 := saddR y (dt * (1/2)) k0). set (k1 := f 1%nat (t + 1 / 2 * dt) y1). set (y2 := saddR (saddR y (dt * 0) k0) (dt * (1/2)) k1).
      set (k2 := f 2%nat (t + 1 / 2 * dt) y2). set (y3 := saddR (saddR (saddR y (dt * 0) k0) (dt * 0) k1) (dt * 1) k2).
      assert (H1 : dev y1 1 (-1/2) 0 0 0). { eapply dev_eq; [eapply dev_sadd; exact H|..]; lra. }
      assert (H2 : dev y2 1 (-1/2) (1/4) 0 0). { eapply dev_eq; [eapply dev_sadd; [eapply dev_sadd; exact H|exact H1]|..]; lra. }
      assert (H3 : dev y3 1 (-1) (1/2) (-1/4) 0). { eapply dev_eq; [eapply dev_sadd; [eapply dev_sadd; [eapply dev_sadd; exact H|exact H1]|exact H2]|..]; lra. }
      eapply dev_eq; [eapply dev_sadd; [eapply dev_sadd; [eapply dev_sadd; [eapply dev_sadd; [exact H|exact H]|exact H1]|exact H2]|exact H3]|..]; unfold c2, c3, c4; lra.
  Qed.

  (** Moments. *)
  Local Notation B := (mass_product m).
  Lemma B_lin_r u v w a : B w (fun j => u j + a * v j) = B w u + a * B w v.
  Proof. rewrite !(mass_product_sym m w). apply mass_product_plus. Qed.
  Lemma B_zero w : B (fun _ => 0) w = 0.
  Proof. unfold mass_product. apply Sum_zero. intros; ring. Qed.
  Lemma X_tested u z : B z (opX u) = dt * ex u z.
  Proof. rewrite <- op_tested. unfold mass_product. rewrite <- Sum_scal. apply Sum_ext. intros j _. unfold opX. ring. Qed.
  Lemma X_sym u z : B z (opX u) = B u (opX z).
  Proof. rewrite !X_tested, ex_sym. reflexivity. Qed.
  Definition mom (k : nat) : R := B e (pw e k).
  Lemma mom_eq i j : B (pw e i) (pw e j) = mom (i + j).
  Proof.
    revert j. induction i as [|i IH]; intros j; [reflexivity|]. cbn [pw]. rewrite mass_product_sym, X_sym. change (opX (pw e j)) with (pw e (S j)). rewrite IH. f_equal. lia.
  Qed.
  Lemma poly_chain d0 d1 d2 d3 d4 j : poly e d0 d1 d2 d3 d4 j =
    (fun k => (fun k => (fun k => (fun k => (fun k => (fun _ => 0) k + d0 * pw e 0 k) k + d1 * pw e 1 k) k + d2 * pw e 2 k) k + d3 * pw e 3 k) k + d4 * pw e 4 k) j.
  Proof. unfold poly. ring. Qed.
  Lemma B_poly d0 d1 d2 d3 d4 z : B (poly e d0 d1 d2 d3 d4) z = d0 * B (pw e 0) z + d1 * B (pw e 1) z + d2 * B (pw e 2) z + d3 * B (pw e 3) z + d4 * B (pw e 4) z.
  Proof.
    etransitivity; [apply (mass_product_free _ _ z z (fun j _ => conj (poly_chain d0 d1 d2 d3 d4 j) eq_refl))|]. rewrite !mass_product_plus, B_zero. ring.
  Qed.
  Lemma B_poly2 d0 d1 d2 d3 d4 b0 b1 b2 b3 b4 : B (poly e d0 d1 d2 d3 d4) (poly e b0 b1 b2 b3 b4) =
    d0 * (b0 * mom 0 + b1 * mom 1 + b2 * mom 2 + b3 * mom 3 + b4 * mom 4) + d1 * (b0 * mom 1 + b1 * mom 2 + b2 * mom 3 + b3 * mom 4 + b4 * mom 5)
    + d2 * (b0 * mom 2 + b1 * mom 3 + b2 * mom 4 + b3 * mom 5 + b4 * mom 6) + d3 * (b0 * mom 3 + b1 * mom 4 + b2 * mom 5 + b3 * mom 6 + b4 * mom 7)
    + d4 * (b0 * mom 4 + b1 * mom 5 + b2 * mom 6 + b3 * mom 7 + b4 * mom 8).
  Proof.
    assert (E : forall i, B (pw e i) (poly e b0 b1 b2 b3 b4) = b0 * mom i + b1 * mom (1 + i) + b2 * mom (2 + i) + b3 * mom (3 + i) + b4 * mom (4 + i)).
    { intros i. rewrite mass_product_sym, B_poly, !mom_eq. reflexivity. }
    rewrite B_poly, !E. reflexivity.
  Qed.
  Definition G (u z : nat -> R) : R := dt * ex u z.
  Definition quad1 (d0 d1 d2 d3 : R) (k : nat) : R := d0 * (d0 * mom k + d1 * mom (1 + k) + d2 * mom (2 + k) + d3 * mom (3 + k)) + d1 * (d0 * mom (1 + k) + d1 * mom (2 + k) + d2 * mom (3 + k) + d3 * mom (4 + k))
    + d2 * (d0 * mom (2 + k) + d1 * mom (3 + k) + d2 * mom (4 + k) + d3 * mom (5 + k)) + d3 * (d0 * mom (3 + k) + d1 * mom (4 + k) + d2 * mom (5 + k) + d3 * mom (6 + k)).
  Hypotheses (Co : cooled dim3 ad m P Q Tinf) (lam l : R) (Most : rate_at_most dim3 ad m P Q lam) (D0 : 0 <= dt) (DL : dt * lam <= l) (L0 : 0 < l).
  Lemma G_poly d0 d1 d2 d3 z : G (poly e d0 d1 d2 d3 0) z = B z (poly e 0 d0 d1 d2 d3).
  Proof.
    unfold G. rewrite <- X_tested. apply mass_product_free. intros j _. split; [reflexivity|]. apply op_poly.
  Qed.
  Lemma N1 d0 d1 d2 d3 : 0 <= quad1 d0 d1 d2 d3 1.
  Proof.
    assert (E : quad1 d0 d1 d2 d3 1 = G (poly e d0 d1 d2 d3 0) (poly e d0 d1 d2 d3 0)) by (rewrite G_poly, B_poly2; unfold quad1; cbn [Nat.add]; ring).
    rewrite E. unfold G. apply Rmult_le_pos; [exact D0|]. apply (ex_nonneg dim3 ad m P Q Tinf _ Co).
  Qed.
  Lemma N2 d0 d1 d2 d3 : 0 <= l * quad1 d0 d1 d2 d3 1 - quad1 d0 d1 d2 d3 2.
  Proof.
    set (w := poly e d0 d1 d2 d3 0). set (w' := poly e 0 d0 d1 d2 d3).
    assert (E1 : quad1 d0 d1 d2 d3 1 = G w w) by (unfold w; rewrite G_poly, B_poly2; unfold quad1; cbn [Nat.add]; ring).
    assert (E2 : quad1 d0 d1 d2 d3 2 = B w' w') by (unfold w'; rewrite B_poly2; unfold quad1; cbn [Nat.add]; ring).
    assert (E3 : G w w' = B w' w') by (unfold w; apply G_poly).
    assert (E4 : 0 <= G (fun k => w k + - / l * w' k) (fun k => w k + - / l * w' k)) by (unfold G; apply Rmult_le_pos; [exact D0|]; apply (ex_nonneg dim3 ad m P Q Tinf _ Co)).
    assert (E5 : G (fun k => w k + - / l * w' k) (fun k => w k + - / l * w' k) = G w w - 2 * / l * G w w' + / l * / l * G w' w').
    { unfold G. rewrite ex_lin, !ex_lin_r, (ex_sym dim3 ad m P Q w' w). ring. }
    assert (E6 : G w' w' <= l * B w' w').
    { unfold G. apply Rle_trans with (dt * (lam * B w' w')); [apply Rmult_le_compat_l; [exact D0|apply Most]|]. rewrite <- Rmult_assoc. apply Rmult_le_compat_r; [apply mass_nonneg; assumption|exact DL]. }
    rewrite E1, E2. rewrite E5, E3 in E4. assert (I : 0 < / l) by (apply Rinv_0_lt_compat; exact L0).
    assert (E7 : / l * / l * G w' w' <= / l * B w' w').
    { replace (/ l * B w' w') with (/ l * / l * (l * B w' w')) by (field; lra). apply Rmult_le_compat_l; [nra|exact E6]. }
    assert (E8 : 0 <= G w w - / l * B w' w') by lra. replace (l * G w w - B w' w') with (l * (G w w - / l * B w' w')) by (field; lra). apply Rmult_le_pos; lra.
  Qed.
End Op.
