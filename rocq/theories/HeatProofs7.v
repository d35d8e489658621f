(** HeatProofs7.v -- runs of any number of steps; stability. *)
From Coq Require Import Reals List Bool String ZArith Lra Lia.
From Verif Require Import Base MaterialModel MaterialSpec InputModel HeatModel HeatSpec MaterialProofs MaterialProofs2 HeatProofs HeatProofs2 HeatProofs3 HeatProofs4 HeatProofs5.
Import ListNotations.
Open Scope R_scope.

Lemma evolve_parts s f t dt y t1 y1 : evolveR s f t dt y = (t1, y1) -> t1 = t + dt /\ y1 = step s f t dt y.
Proof. rewrite evolve_step. intros E. injection E as E1 E2. auto. Qed.
Lemma run_conserved dim3 s m t y t2 y2 : mesh_ok m -> massive m -> List.length y = m_n m -> adiabatic_run dim3 s m t y t2 y2 ->
  List.length y2 = m_n m /\ integral (m_C m) (m_mass m) (entry y2) = integral (m_C m) (m_mass m) (entry y).
Proof.
  intros Mok M L H. revert L. induction H as [t y|t y y' t2 y2 L' E _ IH|t dt y t1 y1 t2 y2 K F E _ IH]; intros L; [auto| |].
  - destruct IH as [A B]; [congruence|]. split; [exact A|]. rewrite B. apply (integral_ext (m_n m) (m_C m) (m_mass m) (entry y') (entry y) (m_C_ok m Mok) (m_mass_ok m Mok)). intros k Lk N. apply E. split; assumption.
  - destruct (evolve_parts s _ t dt y t1 y1 E) as [_ Y1].
    assert (Lf : forall i t y, List.length y = m_n m -> List.length (heat_rate dim3 true m (fun _ _ => false) K F i t y) = m_n m) by (intros; apply rate_length).
    assert (L1 : List.length y1 = m_n m) by (rewrite Y1; apply (step_length (m_n m) _ Lf); exact L). destruct (IH L1) as [A B]. split; [exact A|]. rewrite B.
    pose proof (step_conserved dim3 m K F s t dt y Mok M L) as S1. rewrite evolve_step in S1. cbn [snd] in S1. rewrite Y1. exact S1.
Qed.
(** Entries of a step. *)
Lemma entry_sadd v a w j : List.length v = List.length w -> entry (saddR v a w) j = entry v j + a * entry w j.
Proof. intros L. unfold entry. rewrite <- !ip_hat. apply ip_sadd. exact L. Qed.
Lemma uniform_stage m (T : R) (v w : list R) a : List.length v = List.length w -> (forall k, free m k -> entry v k = T) -> (forall k, free m k -> entry w k = 0) ->
  forall k, free m k -> entry (saddR v a w) k = T.
Proof. intros L V W k Fr. rewrite entry_sadd by exact L. rewrite V, W by exact Fr. ring. Qed.
Lemma step_uniform dim3 s m (K : nat -> R -> laws RNum) (F : nat -> R -> face_laws RNum) t dt y T : mesh_ok m -> List.length y = m_n m ->
  (forall k, free m k -> entry y k = T) -> forall k, free m k -> entry (step s (heat_rate dim3 true m (fun _ _ => false) K F) t dt y) k = T.
Proof.
  intros Mok L U. set (f := heat_rate dim3 true m (fun _ _ => false) K F).
  assert (Lf : forall i t y, List.length y = m_n m -> List.length (f i t y) = m_n m) by (intros; apply rate_length).
  assert (Z : forall i t v, (forall k, free m k -> entry v k = T) -> forall k, free m k -> entry (f i t v) k = 0).
  { intros i u v V k Fr. unfold f, heat_rate. apply (rate_uniform dim3 true m (K i u) (F i u) v T k Mok V); [discriminate|exact Fr]. }
  assert (P : forall v a i u w, List.length v = m_n m -> List.length w = m_n m -> (forall k, free m k -> entry v k = T) -> (forall k, free m k -> entry w k = T) ->
    List.length (saddR v a (f i u w)) = m_n m /\ forall k, free m k -> entry (saddR v a (f i u w)) k = T).
  { intros v a i u w Lv Lw V W. assert (E : List.length v = List.length (f i u w)) by (rewrite Lf; assumption). split; [rewrite saddR_length by exact E; exact Lv|].
    apply uniform_stage; [exact E|exact V|]. apply Z. exact W. }
  assert (Q : forall v w, List.length v = m_n m /\ (forall k, free m k -> entry v k = T) -> List.length w = m_n m /\ (forall k, free m k -> entry w k = T) ->
    forall a i u, List.length (saddR v a (f i u w)) = m_n m /\ forall k, free m k -> entry (saddR v a (f i u w)) k = T).
  { intros v w [A B] [A' B'] a i u. apply P; assumption. }
  assert (Y : List.length y = m_n m /\ forall k, free m k -> entry y k = T) by auto.
  destruct s; unfold step; cbv zeta; apply Q; repeat (exact Y || apply Q).
Qed.
Lemma run_uniform dim3 s m t y t2 y2 T : mesh_ok m -> List.length y = m_n m -> (forall k, free m k -> entry y k = T) -> adiabatic_run dim3 s m t y t2 y2 ->
  forall k, free m k -> entry y2 k = T.
Proof.
  intros Mok L U H. revert L U. induction H as [t y|t y y' t2 y2 L' E _ IH|t dt y t1 y1 t2 y2 K F E _ IH]; intros L U; [exact U| |].
  - apply IH; [congruence|]. intros k Fr. rewrite E by exact Fr. apply U. exact Fr.
  - destruct (evolve_parts s _ t dt y t1 y1 E) as [_ Y1].
    assert (Lf : forall i t y, List.length y = m_n m -> List.length (heat_rate dim3 true m (fun _ _ => false) K F i t y) = m_n m) by (intros; apply rate_length).
    apply IH; [rewrite Y1; apply (step_length (m_n m) _ Lf); exact L|]. rewrite Y1. apply (step_uniform dim3 s m K F); assumption.
Qed.

(** Stability of forward Euler. *)
Lemma mass_product_plus m (u v w : nat -> R) a : mass_product m (fun j => u j + a * v j) w = mass_product m u w + a * mass_product m v w.
Proof. unfold mass_product. rewrite <- Sum_scal, <- Sum_plus. apply Sum_ext. intros; ring. Qed.
Lemma mass_product_sym m u v : mass_product m u v = mass_product m v u.
Proof. unfold mass_product. apply Sum_ext. intros; ring. Qed.
Lemma mass_product_ext m u u' v v' : (forall j, (j < m_n m)%nat -> u j = u' j /\ v j = v' j) -> mass_product m u v = mass_product m u' v'.
Proof. intros H. unfold mass_product. apply Sum_ext. intros j I. apply in_seq in I. destruct (H j ltac:(lia)) as [-> ->]. reflexivity. Qed.
Lemma mass_nonneg m v : mesh_ok m -> massive m -> 0 <= mass_product m v v.
Proof.
  intros Mok M. unfold mass_product. apply Sum_nonneg. intros j I. apply in_seq in I. destruct (in_dec Nat.eq_dec j (map fst (m_C m))) as [J|J].
  - rewrite (mass_constrained m Mok j J). lra.
  - pose proof (M j (conj (proj2 I) J)). pose proof (Rle_0_sqr (v j)) as Q. unfold Rsqr in Q. apply Rmult_le_pos; lra.
Qed.
Lemma euler_stable dim3 m (K : laws RNum) (F : face_laws RNum) (y : list R) (t dt L : R) : mesh_ok m -> massive m -> List.length y = m_n m ->
  let r := evaluate (N := RNum) dim3 false true m K F y in
  mass_product m (entry r) (entry r) <= L * - mass_product m (entry y) (entry r) -> 0 < L -> 0 <= dt <= 2 / L ->
  let y' := snd (evolve (N := RNum) ForwardEuler (fun _ _ v => evaluate (N := RNum) dim3 false true m K F v) t dt y) in
  mass_product m (entry y') (entry y') <= mass_product m (entry y) (entry y).
Proof.
  intros Mok M Ly r B PL [D0 D1] y'.
  assert (Lr : List.length r = m_n m) by apply (rate_length dim3 false true m K F y).
  assert (E : forall j, entry y' j = entry y j + dt * entry r j).
  { intros j. change y' with (saddR y dt r). apply entry_sadd. exact (eq_trans Ly (eq_sym Lr)). }
  rewrite (mass_product_ext m (entry y') (fun j => entry y j + dt * entry r j) (entry y') (fun j => entry y j + dt * entry r j)) by (intros; split; apply E).
  rewrite mass_product_plus, (mass_product_sym m (entry y)), (mass_product_sym m (entry r)), !mass_product_plus, (mass_product_sym m (entry r) (entry y)).
  set (a := mass_product m (entry y) (entry y)) in *. set (b := mass_product m (entry y) (entry r)) in *. set (c := mass_product m (entry r) (entry r)) in *.
  assert (C0 : 0 <= c) by (apply mass_nonneg; assumption).
  assert (dt * L <= 2). { apply Rmult_le_reg_r with (/ L); [apply Rinv_0_lt_compat; exact PL|]. rewrite Rmult_assoc, Rinv_r by lra. lra. }
  assert (B0 : 0 <= - b) by nra. assert (dt * c <= -2 * b) by nra. nra.
Qed.
