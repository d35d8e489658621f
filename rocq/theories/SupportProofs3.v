(** SupportProofs3.v -- a box without strain that is held at one side does not move. *)
From Coq Require Import Reals Bool List Lia Lra.
From Verif Require Import Base BaseFacts CellModel InputModel AssimilationSpec AssimilationProofs ElementModel ElementSpec ElementProofs StressModel StressSpec
  HeatModel HeatSpec HeatProofs ElasticModel ElasticSpec ElasticProofs ElasticProofs3 ElasticProofs4 StabilitySpec RadiationSpec SupportSpec.
Import ListNotations.
Local Open Scope R_scope.

Lemma lin_zero (p q a b : R) : p <> q -> a * (1 - p) + b * p = 0 -> a * (1 - q) + b * q = 0 -> a = 0 /\ b = 0.
Proof.
  intros N A B. assert (E : (b - a) * (p - q) = 0) by lra. apply Rmult_integral in E. destruct E as [E|E]; [|exfalso; apply N; lra]. assert (b = a) by lra. subst b. split; lra.
Qed.
Lemma bilin_zero (p q a b c e : R) : p <> q -> (forall y z, y = p \/ y = q -> z = p \/ z = q -> (a * (1 - y) + b * y) * (1 - z) + (c * (1 - y) + e * y) * z = 0) -> a = 0 /\ b = 0 /\ c = 0 /\ e = 0.
Proof.
  intros N H.
  destruct (lin_zero p q (a * (1 - p) + b * p) (c * (1 - p) + e * p) N (H p p (or_introl eq_refl) (or_introl eq_refl)) (H p q (or_introl eq_refl) (or_intror eq_refl))) as [A1 C1].
  destruct (lin_zero p q (a * (1 - q) + b * q) (c * (1 - q) + e * q) N (H q p (or_intror eq_refl) (or_introl eq_refl)) (H q q (or_intror eq_refl) (or_intror eq_refl))) as [A2 C2].
  destruct (lin_zero p q a b N A1 A2). destruct (lin_zero p q c e N C1 C2). auto.
Qed.
Lemma scaled (x dx : R) : dx <> 0 -> x / dx = 0 -> x = 0.
Proof. intros N E. replace x with (x / dx * dx) by (field; exact N). rewrite E. ring. Qed.

(** Two dimensions. *)
Section Box2.
  Variables (u : nat -> R) (dx dz p q : R).
  Hypotheses (Nx : dx <> 0) (Nz : dz <> 0) (Npq : p <> q).
  Definition quad2 (x z : R) : list (list R) := vector_gradients 2 (point2 dx dz x z).
  Hypothesis Z : forall (x z : R) (a b : nat) (w : quad RNum), x = p \/ x = q -> z = p \/ z = q -> (a < 2)%nat -> (b < 2)%nat -> q_grads w = quad2 x z -> ElementSpec.strain 8 [0; 1; 0; 1; 0; 1; 0; 1]%nat w u a b = 0.
  Local Notation at2 x z := (mkquad (N := RNum) 0 (quad2 x z) [] []).
  Ltac strain_at x z a b := let H := fresh "H" in pose proof (Z x z a b (at2 x z) ltac:(auto) ltac:(auto) ltac:(lia) ltac:(lia) eq_refl) as H;
    unfold ElementSpec.strain, ElementSpec.gradient, Rsum_to, Rsum, quad2, vector_gradients, point2, corners2, coordinates in H;
    cbn [seq fold_right Nat.eqb nth map flat_map repeat app q_grads h_grads fst snd lin slope px py pz Nat.sub] in H.
  Lemma box2_shape : (u 2%nat = u 0%nat /\ u 6%nat = u 4%nat) /\ (u 5%nat = u 1%nat /\ u 7%nat = u 3%nat) /\ (u 4%nat - u 0%nat) / dz + (u 3%nat - u 1%nat) / dx = 0.
  Proof.
    assert (A : u 2%nat - u 0%nat = 0 /\ u 6%nat - u 4%nat = 0).
    { strain_at p p 0%nat 0%nat. strain_at p q 0%nat 0%nat. apply (lin_zero p q); [exact Npq| |]; apply (scaled _ dx Nx); [rewrite <- H| rewrite <- H0]; cbn [num RNum]; field; assumption. }
    assert (B : u 5%nat - u 1%nat = 0 /\ u 7%nat - u 3%nat = 0).
    { strain_at p p 1%nat 1%nat. strain_at q p 1%nat 1%nat. apply (lin_zero p q); [exact Npq| |]; apply (scaled _ dz Nz); [rewrite <- H| rewrite <- H0]; cbn [num RNum]; field; assumption. }
    destruct A as [A1 A2], B as [B1 B2]. split; [lra|]. split; [lra|]. strain_at p p 0%nat 1%nat.
    assert (E2 : u 2%nat = u 0%nat) by lra. assert (E6 : u 6%nat = u 4%nat) by lra. assert (E5 : u 5%nat = u 1%nat) by lra. assert (E7 : u 7%nat = u 3%nat) by lra.
    rewrite E2, E6, E5, E7 in H. rewrite <- (Rmult_0_l 2). rewrite <- H. cbn [num RNum]. field. auto.
  Qed.
  Lemma box2_held side : In side (box_sides 2) -> (forall k a, In k side -> (a < 2)%nat -> u (k * 2 + a)%nat = 0) -> forall i, (i < 8)%nat -> u i = 0.
  Proof.
    intros I H. destruct box2_shape as ((A1 & A2) & (B1 & B2) & E).
    assert (F : forall x y, x / dz + y / dx = 0 -> (x = 0 -> y = 0) /\ (y = 0 -> x = 0)).
    { intros x y Q. split; intros ->; [apply (scaled y dx Nx)| apply (scaled x dz Nz)]; unfold Rdiv in *; lra. }
    destruct (F _ _ E) as [F1 F2].
    assert (G : u 0%nat = 0 /\ u 1%nat = 0 /\ u 3%nat = 0 /\ u 4%nat = 0).
    { unfold box_sides, sides2 in I. cbn [Nat.eqb map snd In] in I.
      destruct I as [<-|[<-|[<-|[<-|[]]]]].
      - pose proof (H 0 0 ltac:(cbn; auto) ltac:(lia))%nat. pose proof (H 0 1 ltac:(cbn; auto) ltac:(lia))%nat. pose proof (H 2 0 ltac:(cbn; auto) ltac:(lia))%nat. cbn [Nat.mul Nat.add] in *. repeat split; lra.
      - pose proof (H 1 0 ltac:(cbn; auto) ltac:(lia))%nat. pose proof (H 1 1 ltac:(cbn; auto) ltac:(lia))%nat. pose proof (H 3 0 ltac:(cbn; auto) ltac:(lia))%nat. cbn [Nat.mul Nat.add] in *. repeat split; lra.
      - pose proof (H 0 0 ltac:(cbn; auto) ltac:(lia))%nat. pose proof (H 0 1 ltac:(cbn; auto) ltac:(lia))%nat. pose proof (H 1 1 ltac:(cbn; auto) ltac:(lia))%nat. cbn [Nat.mul Nat.add] in *. repeat split; lra.
      - pose proof (H 2 0 ltac:(cbn; auto) ltac:(lia))%nat. pose proof (H 2 1 ltac:(cbn; auto) ltac:(lia))%nat. pose proof (H 3 1 ltac:(cbn; auto) ltac:(lia))%nat. cbn [Nat.mul Nat.add] in *. repeat split; lra. }
    destruct G as (G0 & G1 & G3 & G4). intros i Li. do 8 (destruct i as [|i]; [lra|]). lia.
  Qed.
End Box2.

(** Three dimensions. *)
Lemma cross_zero (x y z al be ga : R) : x <> 0 -> y <> 0 -> z <> 0 -> al / y + be / x = 0 -> al / z + ga / x = 0 -> be / z + ga / y = 0 -> al = 0 /\ be = 0 /\ ga = 0.
Proof.
  intros Nx Ny Nz A B G. assert (A' : al * x + be * y = 0) by (replace (al * x + be * y) with ((al / y + be / x) * (x * y)) by (field; auto); rewrite A; ring).
  assert (B' : al * x + ga * z = 0) by (replace (al * x + ga * z) with ((al / z + ga / x) * (x * z)) by (field; auto); rewrite B; ring).
  assert (G' : be * y + ga * z = 0) by (replace (be * y + ga * z) with ((be / z + ga / y) * (y * z)) by (field; auto); rewrite G; ring).
  assert (P : al * x = 0) by lra. assert (Q : be * y = 0) by lra. assert (T : ga * z = 0) by lra.
  apply Rmult_integral in P. apply Rmult_integral in Q. apply Rmult_integral in T. tauto.
Qed.
Lemma shear_alone (x y s t : R) : x <> 0 -> y <> 0 -> s / x + t / y = 0 -> (s = 0 -> t = 0) /\ (t = 0 -> s = 0).
Proof. intros Nx Ny Q. split; intros ->; [apply (scaled t y Ny)| apply (scaled s x Nx)]; unfold Rdiv in *; lra. Qed.
Section Box3.
  Variables (u : nat -> R) (dx dy dz p q : R).
  Hypotheses (Nx : dx <> 0) (Ny : dy <> 0) (Nz : dz <> 0) (Npq : p <> q).
  Definition quad3 (x y z : R) : list (list R) := vector_gradients 3 (point3 dx dy dz x y z).
  Hypothesis Z : forall (x y z : R) (a b : nat) (w : quad RNum), x = p \/ x = q -> y = p \/ y = q -> z = p \/ z = q -> (a < 3)%nat -> (b < 3)%nat -> q_grads w = quad3 x y z ->
    ElementSpec.strain 24 (List.concat (repeat (seq 0 3) 8)) w u a b = 0.
  Let isp : p = p \/ p = q := or_introl eq_refl.
  Let isq : q = p \/ q = q := or_intror eq_refl.
  Local Notation at3 x y z := (mkquad (N := RNum) 0 (quad3 x y z) [] []).
  Ltac strain_at Hx Hy Hz x y z a b := let H := fresh "H" in pose proof (Z x y z a b (at3 x y z) Hx Hy Hz ltac:(lia) ltac:(lia) eq_refl) as H;
    unfold ElementSpec.strain, ElementSpec.gradient, Rsum_to, Rsum, quad3, vector_gradients, point3, corners3, coordinates in H;
    cbn [seq fold_right List.concat Nat.eqb nth map flat_map repeat app q_grads h_grads fst snd lin slope px py pz Nat.sub] in H.
  Lemma box3_xx : u 3%nat - u 0%nat = 0 /\ u 9%nat - u 6%nat = 0 /\ u 15%nat - u 12%nat = 0 /\ u 21%nat - u 18%nat = 0.
  Proof.
    apply (bilin_zero p q); [exact Npq|]. intros y z Hy Hz. apply (scaled _ dx Nx).
    strain_at isp Hy Hz p y z 0%nat 0%nat. rewrite <- H. cbn [num RNum]. field. auto.
  Qed.
  Lemma box3_yy : u 7%nat - u 1%nat = 0 /\ u 10%nat - u 4%nat = 0 /\ u 19%nat - u 13%nat = 0 /\ u 22%nat - u 16%nat = 0.
  Proof.
    apply (bilin_zero p q); [exact Npq|]. intros y z Hy Hz. apply (scaled _ dy Ny).
    strain_at Hy isp Hz y p z 1%nat 1%nat. rewrite <- H. cbn [num RNum]. field. auto.
  Qed.
  Lemma box3_zz : u 14%nat - u 2%nat = 0 /\ u 17%nat - u 5%nat = 0 /\ u 20%nat - u 8%nat = 0 /\ u 23%nat - u 11%nat = 0.
  Proof.
    apply (bilin_zero p q); [exact Npq|]. intros y z Hy Hz. apply (scaled _ dz Nz).
    strain_at Hy Hz isp y z p 2%nat 2%nat. rewrite <- H. cbn [num RNum]. field. auto.
  Qed.
  Lemma box3_xy : (u 6%nat - u 0%nat) / dy + (u 4%nat - u 1%nat) / dx = 0 /\ (u 18%nat - u 12%nat) / dy + (u 16%nat - u 13%nat) / dx = 0.
  Proof.
    destruct box3_xx as (X0 & X1 & X2 & X3), box3_yy as (Y0 & Y1 & Y2 & Y3), box3_zz as (Z0 & Z1 & Z2 & Z3).
    apply Rminus_diag_uniq in X0.
    apply Rminus_diag_uniq in X1.
    apply Rminus_diag_uniq in X2.
    apply Rminus_diag_uniq in X3.
    apply Rminus_diag_uniq in Y0.
    apply Rminus_diag_uniq in Y1.
    apply Rminus_diag_uniq in Y2.
    apply Rminus_diag_uniq in Y3.
    apply Rminus_diag_uniq in Z0.
    apply Rminus_diag_uniq in Z1.
    apply Rminus_diag_uniq in Z2.
    apply Rminus_diag_uniq in Z3.
    apply (lin_zero p q); [exact Npq| |].
    - strain_at isp isp isp p p p 0%nat 1%nat. rewrite ?X0, ?X1, ?X2, ?X3, ?Y0, ?Y1, ?Y2, ?Y3, ?Z0, ?Z1, ?Z2, ?Z3 in H. rewrite <- (Rmult_0_l 2). rewrite <- H. cbn [num RNum]. field. auto.
    - strain_at isp isp isq p p q 0%nat 1%nat. rewrite ?X0, ?X1, ?X2, ?X3, ?Y0, ?Y1, ?Y2, ?Y3, ?Z0, ?Z1, ?Z2, ?Z3 in H. rewrite <- (Rmult_0_l 2). rewrite <- H. cbn [num RNum]. field. auto.
  Qed.
  Lemma box3_xz : (u 12%nat - u 0%nat) / dz + (u 5%nat - u 2%nat) / dx = 0 /\ (u 18%nat - u 6%nat) / dz + (u 11%nat - u 8%nat) / dx = 0.
  Proof.
    destruct box3_xx as (X0 & X1 & X2 & X3), box3_yy as (Y0 & Y1 & Y2 & Y3), box3_zz as (Z0 & Z1 & Z2 & Z3).
    apply Rminus_diag_uniq in X0.
    apply Rminus_diag_uniq in X1.
    apply Rminus_diag_uniq in X2.
    apply Rminus_diag_uniq in X3.
    apply Rminus_diag_uniq in Y0.
    apply Rminus_diag_uniq in Y1.
    apply Rminus_diag_uniq in Y2.
    apply Rminus_diag_uniq in Y3.
    apply Rminus_diag_uniq in Z0.
    apply Rminus_diag_uniq in Z1.
    apply Rminus_diag_uniq in Z2.
    apply Rminus_diag_uniq in Z3.
    apply (lin_zero p q); [exact Npq| |].
    - strain_at isp isp isp p p p 0%nat 2%nat. rewrite ?X0, ?X1, ?X2, ?X3, ?Y0, ?Y1, ?Y2, ?Y3, ?Z0, ?Z1, ?Z2, ?Z3 in H. rewrite <- (Rmult_0_l 2). rewrite <- H. cbn [num RNum]. field. auto.
    - strain_at isp isq isp p q p 0%nat 2%nat. rewrite ?X0, ?X1, ?X2, ?X3, ?Y0, ?Y1, ?Y2, ?Y3, ?Z0, ?Z1, ?Z2, ?Z3 in H. rewrite <- (Rmult_0_l 2). rewrite <- H. cbn [num RNum]. field. auto.
  Qed.
  Lemma box3_yz : (u 13%nat - u 1%nat) / dz + (u 8%nat - u 2%nat) / dy = 0 /\ (u 16%nat - u 4%nat) / dz + (u 11%nat - u 5%nat) / dy = 0.
  Proof.
    destruct box3_xx as (X0 & X1 & X2 & X3), box3_yy as (Y0 & Y1 & Y2 & Y3), box3_zz as (Z0 & Z1 & Z2 & Z3).
    apply Rminus_diag_uniq in X0.
    apply Rminus_diag_uniq in X1.
    apply Rminus_diag_uniq in X2.
    apply Rminus_diag_uniq in X3.
    apply Rminus_diag_uniq in Y0.
    apply Rminus_diag_uniq in Y1.
    apply Rminus_diag_uniq in Y2.
    apply Rminus_diag_uniq in Y3.
    apply Rminus_diag_uniq in Z0.
    apply Rminus_diag_uniq in Z1.
    apply Rminus_diag_uniq in Z2.
    apply Rminus_diag_uniq in Z3.
    apply (lin_zero p q); [exact Npq| |].
    - strain_at isp isp isp p p p 1%nat 2%nat. rewrite ?X0, ?X1, ?X2, ?X3, ?Y0, ?Y1, ?Y2, ?Y3, ?Z0, ?Z1, ?Z2, ?Z3 in H. rewrite <- (Rmult_0_l 2). rewrite <- H. cbn [num RNum]. field. auto.
    - strain_at isq isp isp q p p 1%nat 2%nat. rewrite ?X0, ?X1, ?X2, ?X3, ?Y0, ?Y1, ?Y2, ?Y3, ?Z0, ?Z1, ?Z2, ?Z3 in H. rewrite <- (Rmult_0_l 2). rewrite <- H. cbn [num RNum]. field. auto.
  Qed.
  Lemma box3_cross : u 18%nat - u 12%nat - (u 6%nat - u 0%nat) = 0 /\ u 16%nat - u 13%nat - (u 4%nat - u 1%nat) = 0 /\ u 11%nat - u 8%nat - (u 5%nat - u 2%nat) = 0.
  Proof.
    destruct box3_xy as [A A'], box3_xz as [B B'], box3_yz as [G G']. apply (cross_zero dx dy dz); auto; unfold Rdiv in *; lra.
  Qed.
  Lemma box3_held side : In side (box_sides 3) -> (forall k a, In k side -> (a < 3)%nat -> u (k * 3 + a)%nat = 0) -> forall i, (i < 24)%nat -> u i = 0.
  Proof.
    intros I H. destruct box3_xx as (X0 & X1 & X2 & X3), box3_yy as (Y0 & Y1 & Y2 & Y3), box3_zz as (Z0 & Z1 & Z2 & Z3), box3_cross as (C0 & C1 & C2).
    destruct (shear_alone _ _ _ _ Ny Nx (proj1 box3_xy)) as [A1 A2]. destruct (shear_alone _ _ _ _ Nz Nx (proj1 box3_xz)) as [B1 B2]. destruct (shear_alone _ _ _ _ Nz Ny (proj1 box3_yz)) as [G1 G2].
    apply Rminus_diag_uniq in X0. apply Rminus_diag_uniq in X1. apply Rminus_diag_uniq in X2. apply Rminus_diag_uniq in X3. apply Rminus_diag_uniq in Y0. apply Rminus_diag_uniq in Y1. apply Rminus_diag_uniq in Y2. apply Rminus_diag_uniq in Y3. apply Rminus_diag_uniq in Z0. apply Rminus_diag_uniq in Z1. apply Rminus_diag_uniq in Z2. apply Rminus_diag_uniq in Z3.
    assert (D0 : u 18%nat = u 12%nat + (u 6%nat - u 0%nat)) by (clear -C0; lra). assert (D1 : u 16%nat = u 13%nat + (u 4%nat - u 1%nat)) by (clear -C1; lra). assert (D2 : u 11%nat = u 8%nat + (u 5%nat - u 2%nat)) by (clear -C2; lra). clear C0 C1 C2.
    assert (R0 : forall i, u i = nth i [u 0%nat; u 1%nat; u 2%nat; u 0%nat; u 4%nat; u 5%nat; u 6%nat; u 1%nat; u 8%nat; u 6%nat; u 4%nat; u 8%nat + (u 5%nat - u 2%nat); u 12%nat; u 13%nat; u 2%nat; u 12%nat; u 13%nat + (u 4%nat - u 1%nat); u 5%nat; u 12%nat + (u 6%nat - u 0%nat); u 13%nat; u 8%nat; u 12%nat + (u 6%nat - u 0%nat); u 13%nat + (u 4%nat - u 1%nat); u 8%nat + (u 5%nat - u 2%nat)] (u i)).
    { intros i. do 24 (destruct i as [|i]; [cbn [nth]; congruence|]). destruct i; reflexivity. }
    clear X0 X1 X2 X3 Y0 Y1 Y2 Y3 Z0 Z1 Z2 Z3 D0 D1 D2.
    assert (K : u 0%nat = 0 /\ u 1%nat = 0 /\ u 2%nat = 0 /\ u 6%nat - u 0%nat = 0 /\ u 12%nat - u 0%nat = 0 /\ u 13%nat - u 1%nat = 0).
    { unfold box_sides, sides3 in I. cbn [Nat.eqb map snd In] in I.
      assert (H' : forall k a, In k side -> (a < 3)%nat -> nth (k * 3 + a) [u 0%nat; u 1%nat; u 2%nat; u 0%nat; u 4%nat; u 5%nat; u 6%nat; u 1%nat; u 8%nat; u 6%nat; u 4%nat; u 8%nat + (u 5%nat - u 2%nat); u 12%nat; u 13%nat; u 2%nat; u 12%nat; u 13%nat + (u 4%nat - u 1%nat); u 5%nat; u 12%nat + (u 6%nat - u 0%nat); u 13%nat; u 8%nat; u 12%nat + (u 6%nat - u 0%nat); u 13%nat + (u 4%nat - u 1%nat); u 8%nat + (u 5%nat - u 2%nat)] (u (k * 3 + a)%nat) = 0) by (intros k a Ik La; rewrite <- R0; exact (H k a Ik La)).
      clear R0 H.
      destruct I as [<-|[<-|[<-|[<-|[<-|[<-|[]]]]]]].
      - pose proof (H' 0 0 ltac:(cbn; auto) ltac:(lia))%nat as J0. pose proof (H' 0 1 ltac:(cbn; auto) ltac:(lia))%nat as J1. pose proof (H' 0 2 ltac:(cbn; auto) ltac:(lia))%nat as J2. pose proof (H' 2 0 ltac:(cbn; auto) ltac:(lia))%nat as J3. pose proof (H' 2 1 ltac:(cbn; auto) ltac:(lia))%nat as J4. pose proof (H' 2 2 ltac:(cbn; auto) ltac:(lia))%nat as J5. pose proof (H' 4 0 ltac:(cbn; auto) ltac:(lia))%nat as J6. pose proof (H' 4 1 ltac:(cbn; auto) ltac:(lia))%nat as J7. pose proof (H' 4 2 ltac:(cbn; auto) ltac:(lia))%nat as J8. pose proof (H' 6 0 ltac:(cbn; auto) ltac:(lia))%nat as J9. pose proof (H' 6 1 ltac:(cbn; auto) ltac:(lia))%nat as J10. pose proof (H' 6 2 ltac:(cbn; auto) ltac:(lia))%nat as J11. clear H'. cbn [Nat.mul Nat.add nth] in *.
        assert (P : u 6%nat - u 0%nat = 0) by (clear A1 A2 B1 B2 G1 G2; lra). pose proof (A1 P).        assert (Q : u 12%nat - u 0%nat = 0) by (clear A1 A2 B1 B2 G1 G2; lra). pose proof (B1 Q).        assert (T : u 13%nat - u 1%nat = 0) by (clear A1 A2 B1 B2 G1 G2; lra). pose proof (G1 T). clear A1 A2 B1 B2 G1 G2. repeat split; lra.
      - pose proof (H' 1 0 ltac:(cbn; auto) ltac:(lia))%nat as J0. pose proof (H' 1 1 ltac:(cbn; auto) ltac:(lia))%nat as J1. pose proof (H' 1 2 ltac:(cbn; auto) ltac:(lia))%nat as J2. pose proof (H' 3 0 ltac:(cbn; auto) ltac:(lia))%nat as J3. pose proof (H' 3 1 ltac:(cbn; auto) ltac:(lia))%nat as J4. pose proof (H' 3 2 ltac:(cbn; auto) ltac:(lia))%nat as J5. pose proof (H' 5 0 ltac:(cbn; auto) ltac:(lia))%nat as J6. pose proof (H' 5 1 ltac:(cbn; auto) ltac:(lia))%nat as J7. pose proof (H' 5 2 ltac:(cbn; auto) ltac:(lia))%nat as J8. pose proof (H' 7 0 ltac:(cbn; auto) ltac:(lia))%nat as J9. pose proof (H' 7 1 ltac:(cbn; auto) ltac:(lia))%nat as J10. pose proof (H' 7 2 ltac:(cbn; auto) ltac:(lia))%nat as J11. clear H'. cbn [Nat.mul Nat.add nth] in *.
        assert (P : u 6%nat - u 0%nat = 0) by (clear A1 A2 B1 B2 G1 G2; lra). pose proof (A1 P).        assert (Q : u 12%nat - u 0%nat = 0) by (clear A1 A2 B1 B2 G1 G2; lra). pose proof (B1 Q).        assert (T : u 13%nat - u 1%nat = 0) by (clear A1 A2 B1 B2 G1 G2; lra). pose proof (G1 T). clear A1 A2 B1 B2 G1 G2. repeat split; lra.
      - pose proof (H' 0 0 ltac:(cbn; auto) ltac:(lia))%nat as J0. pose proof (H' 0 1 ltac:(cbn; auto) ltac:(lia))%nat as J1. pose proof (H' 0 2 ltac:(cbn; auto) ltac:(lia))%nat as J2. pose proof (H' 1 0 ltac:(cbn; auto) ltac:(lia))%nat as J3. pose proof (H' 1 1 ltac:(cbn; auto) ltac:(lia))%nat as J4. pose proof (H' 1 2 ltac:(cbn; auto) ltac:(lia))%nat as J5. pose proof (H' 4 0 ltac:(cbn; auto) ltac:(lia))%nat as J6. pose proof (H' 4 1 ltac:(cbn; auto) ltac:(lia))%nat as J7. pose proof (H' 4 2 ltac:(cbn; auto) ltac:(lia))%nat as J8. pose proof (H' 5 0 ltac:(cbn; auto) ltac:(lia))%nat as J9. pose proof (H' 5 1 ltac:(cbn; auto) ltac:(lia))%nat as J10. pose proof (H' 5 2 ltac:(cbn; auto) ltac:(lia))%nat as J11. clear H'. cbn [Nat.mul Nat.add nth] in *.
        assert (P : u 6%nat - u 0%nat = 0) by (apply A2; clear A1 A2 B1 B2 G1 G2; lra). pose proof (A1 P).        assert (Q : u 12%nat - u 0%nat = 0) by (clear A1 A2 B1 B2 G1 G2; lra). pose proof (B1 Q).        assert (T : u 13%nat - u 1%nat = 0) by (clear A1 A2 B1 B2 G1 G2; lra). pose proof (G1 T). clear A1 A2 B1 B2 G1 G2. repeat split; lra.
      - pose proof (H' 2 0 ltac:(cbn; auto) ltac:(lia))%nat as J0. pose proof (H' 2 1 ltac:(cbn; auto) ltac:(lia))%nat as J1. pose proof (H' 2 2 ltac:(cbn; auto) ltac:(lia))%nat as J2. pose proof (H' 3 0 ltac:(cbn; auto) ltac:(lia))%nat as J3. pose proof (H' 3 1 ltac:(cbn; auto) ltac:(lia))%nat as J4. pose proof (H' 3 2 ltac:(cbn; auto) ltac:(lia))%nat as J5. pose proof (H' 6 0 ltac:(cbn; auto) ltac:(lia))%nat as J6. pose proof (H' 6 1 ltac:(cbn; auto) ltac:(lia))%nat as J7. pose proof (H' 6 2 ltac:(cbn; auto) ltac:(lia))%nat as J8. pose proof (H' 7 0 ltac:(cbn; auto) ltac:(lia))%nat as J9. pose proof (H' 7 1 ltac:(cbn; auto) ltac:(lia))%nat as J10. pose proof (H' 7 2 ltac:(cbn; auto) ltac:(lia))%nat as J11. clear H'. cbn [Nat.mul Nat.add nth] in *.
        assert (P : u 6%nat - u 0%nat = 0) by (apply A2; clear A1 A2 B1 B2 G1 G2; lra). pose proof (A1 P).        assert (Q : u 12%nat - u 0%nat = 0) by (clear A1 A2 B1 B2 G1 G2; lra). pose proof (B1 Q).        assert (T : u 13%nat - u 1%nat = 0) by (clear A1 A2 B1 B2 G1 G2; lra). pose proof (G1 T). clear A1 A2 B1 B2 G1 G2. repeat split; lra.
      - pose proof (H' 0 0 ltac:(cbn; auto) ltac:(lia))%nat as J0. pose proof (H' 0 1 ltac:(cbn; auto) ltac:(lia))%nat as J1. pose proof (H' 0 2 ltac:(cbn; auto) ltac:(lia))%nat as J2. pose proof (H' 1 0 ltac:(cbn; auto) ltac:(lia))%nat as J3. pose proof (H' 1 1 ltac:(cbn; auto) ltac:(lia))%nat as J4. pose proof (H' 1 2 ltac:(cbn; auto) ltac:(lia))%nat as J5. pose proof (H' 2 0 ltac:(cbn; auto) ltac:(lia))%nat as J6. pose proof (H' 2 1 ltac:(cbn; auto) ltac:(lia))%nat as J7. pose proof (H' 2 2 ltac:(cbn; auto) ltac:(lia))%nat as J8. pose proof (H' 3 0 ltac:(cbn; auto) ltac:(lia))%nat as J9. pose proof (H' 3 1 ltac:(cbn; auto) ltac:(lia))%nat as J10. pose proof (H' 3 2 ltac:(cbn; auto) ltac:(lia))%nat as J11. clear H'. cbn [Nat.mul Nat.add nth] in *.
        assert (P : u 6%nat - u 0%nat = 0) by (clear A1 A2 B1 B2 G1 G2; lra). pose proof (A1 P).        assert (Q : u 12%nat - u 0%nat = 0) by (apply B2; clear A1 A2 B1 B2 G1 G2; lra). pose proof (B1 Q).        assert (T : u 13%nat - u 1%nat = 0) by (apply G2; clear A1 A2 B1 B2 G1 G2; lra). pose proof (G1 T). clear A1 A2 B1 B2 G1 G2. repeat split; lra.
      - pose proof (H' 4 0 ltac:(cbn; auto) ltac:(lia))%nat as J0. pose proof (H' 4 1 ltac:(cbn; auto) ltac:(lia))%nat as J1. pose proof (H' 4 2 ltac:(cbn; auto) ltac:(lia))%nat as J2. pose proof (H' 5 0 ltac:(cbn; auto) ltac:(lia))%nat as J3. pose proof (H' 5 1 ltac:(cbn; auto) ltac:(lia))%nat as J4. pose proof (H' 5 2 ltac:(cbn; auto) ltac:(lia))%nat as J5. pose proof (H' 6 0 ltac:(cbn; auto) ltac:(lia))%nat as J6. pose proof (H' 6 1 ltac:(cbn; auto) ltac:(lia))%nat as J7. pose proof (H' 6 2 ltac:(cbn; auto) ltac:(lia))%nat as J8. pose proof (H' 7 0 ltac:(cbn; auto) ltac:(lia))%nat as J9. pose proof (H' 7 1 ltac:(cbn; auto) ltac:(lia))%nat as J10. pose proof (H' 7 2 ltac:(cbn; auto) ltac:(lia))%nat as J11. clear H'. cbn [Nat.mul Nat.add nth] in *.
        assert (P : u 6%nat - u 0%nat = 0) by (clear A1 A2 B1 B2 G1 G2; lra). pose proof (A1 P).        assert (Q : u 12%nat - u 0%nat = 0) by (apply B2; clear A1 A2 B1 B2 G1 G2; lra). pose proof (B1 Q).        assert (T : u 13%nat - u 1%nat = 0) by (apply G2; clear A1 A2 B1 B2 G1 G2; lra). pose proof (G1 T). clear A1 A2 B1 B2 G1 G2. repeat split; lra. }
    destruct K as (K0 & K1 & K2 & P & Q & T). pose proof (A1 P) as A3. pose proof (B1 Q) as B3. pose proof (G1 T) as G3. clear A1 A2 B1 B2 G1 G2 H.
    assert (K6 : u 6%nat = 0) by (clear -K0 P; lra). assert (K12 : u 12%nat = 0) by (clear -K0 Q; lra). assert (K13 : u 13%nat = 0) by (clear -K1 T; lra).
    assert (K4 : u 4%nat = 0) by (clear -K1 A3; lra). assert (K5 : u 5%nat = 0) by (clear -K2 B3; lra). assert (K8 : u 8%nat = 0) by (clear -K2 G3; lra).
    intros i Li. rewrite R0. rewrite K0, K1, K2, K4, K5, K6, K8, K12, K13. clear -Li. do 24 (destruct i as [|i]; [cbn [nth]; ring|]). lia.
  Qed.
End Box3.
