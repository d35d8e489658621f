(** StabilityProofs4.v -- bounds on the rates from the cells; boxes. *)
From Coq Require Import Reals List Bool String ZArith Lra Lia.
From Verif Require Import Base MaterialModel MaterialSpec InputModel HeatModel HeatSpec MaterialProofs MaterialProofs2 HeatProofs HeatProofs2 HeatProofs3 HeatProofs4 HeatProofs5 HeatProofs7
  StabilitySpec StabilityProofs StabilityProofs2 StabilityProofs3.
Import ListNotations.
Open Scope R_scope.

Lemma Sum_combine_seq {A} (d : A) (f : A -> nat -> R) (l : list A) (js : list nat) : List.length l = List.length js ->
  Sum (combine l js) (fun p => f (fst p) (snd p)) = Sum (seq 0 (List.length js)) (fun i => f (nth i l d) (nth i js 0%nat)).
Proof.
  revert js. induction l as [|a l IH]; intros [|j js] L; try discriminate; [reflexivity|]. cbn [combine List.length seq]. rewrite !Sum_cons. cbn [fst snd nth]. f_equal.
  rewrite IH by (cbn in L; lia). rewrite <- seq_shift, Sum_map. reflexivity.
Qed.
(** Convexity of the square for the hanging nodes. *)
Lemma jensen {A} (w x : A -> R) (l : list A) : (forall a, In a l -> 0 <= w a) -> Sum l w = 1 -> Sum l (fun a => w a * x a) * Sum l (fun a => w a * x a) <= Sum l (fun a => w a * (x a * x a)).
Proof.
  intros W S1. set (mu := Sum l (fun a => w a * x a)).
  assert (H : 0 <= Sum l (fun a => w a * ((x a - mu) * (x a - mu)))) by (apply Sum_nonneg; intros a I; apply Rmult_le_pos; [apply W; exact I|apply Rle_0_sqr]).
  assert (E : Sum l (fun a => w a * ((x a - mu) * (x a - mu))) = Sum l (fun a => w a * (x a * x a)) + (-2 * mu) * mu + (mu * mu) * 1).
  { transitivity (Sum l (fun a => w a * (x a * x a) + (-2 * mu) * (w a * x a) + (mu * mu) * w a)); [apply Sum_ext; intros; ring|].
    rewrite (Sum_plus (fun a => w a * (x a * x a) + (-2 * mu) * (w a * x a))), Sum_plus, !Sum_scal, S1. fold mu. ring. }
  lra.
Qed.
Lemma nodal_square n (C : constraints RNum) (z : nat -> R) j : constraints_ok n C -> positive_weights C -> nodal C z j * nodal C z j <= nodal C (fun k => z k * z k) j.
Proof.
  intros [_ Ok] W. unfold nodal. destruct (find _ C) as [e|] eqn:E; [|lra]. apply find_some in E. destruct E as [I _].
  pose proof (proj1 (Forall_forall _ _) Ok _ I) as [_ [_ S1]]. apply (proj1 (Forall_forall _ _) W) in I. apply (jensen (fun w => snd w : R) (fun w => z (fst w))).
  - intros w Iw. exact (proj1 (Forall_forall _ _) I w Iw).
  - exact S1.
Qed.
Lemma gradient_local (C : constraints RNum) c q z : List.length (h_grads q) = List.length (c_dofs c) -> gradient C c q z = local_gradient q (fun i => nodal C z (nth i (c_dofs c) 0%nat)).
Proof.
  intros L. unfold gradient, local_gradient. rewrite L. cbv zeta. f_equal.
  - exact (Sum_combine_seq (mkpt (N := RNum) 0 0 0) (fun g j => px g * nodal C z j) _ _ L).
  - exact (Sum_combine_seq (mkpt (N := RNum) 0 0 0) (fun g j => py g * nodal C z j) _ _ L).
  - exact (Sum_combine_seq (mkpt (N := RNum) 0 0 0) (fun g j => pz g * nodal C z j) _ _ L).
Qed.
Lemma indexed_combine {A B} (f : nat * A -> R) (g : A -> R) (la : list A) (lb : list B) (h : B -> R) : List.length la = List.length lb ->
  (forall i a b, In (i, (a, b)) (indexed (combine la lb)) -> f (i, a) <= h b) -> Sum (indexed la) f <= Sum lb h.
Proof.
  clear g. unfold indexed. intros L. rewrite combine_length, L, Nat.min_id. generalize 0%nat. revert lb L. induction la as [|a la IH]; intros [|b lb] L s H; try discriminate; [cbn; lra|].
  cbn [List.length seq combine] in *. rewrite !Sum_cons. apply Rplus_le_compat; [apply H; left; reflexivity|]. apply IH; [lia|]. intros i a' b' I. apply H. right. exact I.
Qed.
Lemma cells_bound dim3 m P lam : mesh_ok m -> positive_weights (m_C m) -> 0 <= lam -> cells_at_most dim3 m P lam -> rate_at_most dim3 true m P (fun _ _ => mkfl (N := RNum) 0 0 0 0 0) lam.
Proof.
  intros Mok W L0 [Len H] z. unfold exchange. rewrite Rplus_0_r. unfold size2, mass_product.
  change (Sum (seq 0 (m_n m)) (fun j => nodal_mass m j * (z j * z j))) with (Sum (seq 0 (m_n m)) (fun j => nodal_mass m j * (fun j => z j * z j) j)).
  rewrite <- (integral_mass m Mok). unfold integral. rewrite <- Sum_scal. unfold conducted.
  apply (indexed_combine _ (fun _ => 0)); [exact Len|]. intros i c cm I. specialize (H i c cm I). destruct H as [D [Pm H]].
  assert (Ic : In c (m_cells m)) by (apply in_indexed in I; exact (in_combine_l _ _ _ _ I)). assert (Icm : In cm (m_mass m)) by (apply in_indexed in I; exact (in_combine_r _ _ _ _ I)).
  apply (proj1 (Forall_forall _ _) (m_cells_ok m Mok)) in Ic. apply (proj1 (Forall_forall _ _) (m_mass_ok m Mok)) in Icm. cbn [fst snd].
  eapply Rle_trans; [|eapply Rle_trans; [exact (H (fun i => nodal (m_C m) z (nth i (c_dofs c) 0%nat)))|]].
  - right. unfold conducted_in. apply Sum_ext. intros iq Iq. cbv zeta. apply in_indexed in Iq. destruct Ic as [_ Ic]. apply (proj1 (Forall_forall _ _) Ic) in Iq. rewrite gradient_local by tauto. reflexivity.
  - apply Rmult_le_compat_l; [exact L0|].
    assert (E : Sum (c_quads cm) (fun q => h_jxw q * field (m_C m) cm q (fun j => z j * z j)) =
                Sum (seq 0 (List.length (c_dofs c))) (fun i => local_mass_of cm i * nodal (m_C m) (fun j => z j * z j) (nth i (c_dofs c) 0%nat))).
    { transitivity (Sum (c_quads cm) (fun q => Sum (seq 0 (List.length (c_dofs c))) (fun i => h_jxw q * nth i (h_values q : list R) 0 * nodal (m_C m) (fun j => z j * z j) (nth i (c_dofs c) 0%nat)))).
      - apply Sum_ext. intros q Iq. destruct Icm as [_ Icm]. apply (proj1 (Forall_forall _ _) Icm) in Iq. destruct Iq as [Lq _]. unfold field.
        etransitivity; [apply Rmult_eq_compat_l; exact (Sum_combine_seq 0 (fun (v : R) j => v * nodal (m_C m) (fun j => z j * z j) j) (h_values q) (c_dofs cm) Lq)|].
        rewrite D, <- Sum_scal. apply Sum_ext. intros k _. cbn [num RNum]. ring.
      - rewrite Sum_swap. apply Sum_ext. intros k _. unfold local_mass_of. rewrite <- Sum_mul. reflexivity. }
    rewrite E. apply Sum_le. intros k _. apply Rmult_le_compat_l; [apply Pm|]. apply (nodal_square (m_n m)); [exact (m_C_ok m Mok)|exact W].
Qed.
Lemma rate_adiabatic dim3 m P Q Q' lam : rate_at_most dim3 true m P Q lam -> rate_at_most dim3 true m P Q' lam.
Proof. intros H z. exact (H z). Qed.

(** Bounds from the rows of the operator. *)
Section Rows.
  Variables (dim3 ad : bool) (m : heat_mesh RNum) (P : frozen) (Q : frozen_faces).
  Hypotheses (Mok : mesh_ok m) (M : massive m).
  Local Notation ex := (exchange dim3 ad m P Q).
  Lemma ex_entries z : ex z z = Sum (seq 0 (m_n m)) (fun i => Sum (seq 0 (m_n m)) (fun j => z i * z j * ex (hat i) (hat j))).
  Proof.
    rewrite (ex_hat dim3 ad m P Q Mok z z). apply Sum_ext. intros i _. rewrite (ex_sym dim3 ad m P Q z), (ex_hat dim3 ad m P Q Mok (hat i) z), <- Sum_scal. apply Sum_ext. intros j _. ring.
  Qed.
  Lemma young a x y : x * y * a <= / 2 * (x * x * Rabs a + y * y * Rabs a).
  Proof.
    pose proof (Rabs_pos a) as A. destruct (Rcase_abs a) as [N|N]; [rewrite (Rabs_left a N)|rewrite (Rabs_right a N)].
    - assert (0 <= - a * ((x + y) * (x + y))) by (apply Rmult_le_pos; [lra|apply Rle_0_sqr]). lra.
    - assert (0 <= a * ((x - y) * (x - y))) by (apply Rmult_le_pos; [lra|apply Rle_0_sqr]). lra.
  Qed.
  Lemma rows_bound lam : (forall i, free m i -> row_sum dim3 ad m P Q i <= lam * nodal_mass m i) -> rate_at_most dim3 ad m P Q lam.
  Proof.
    intros H z. rewrite ex_entries. set (a := fun i j => Rabs (ex (hat i) (hat j))). set (n := m_n m).
    apply Rle_trans with (Sum (seq 0 n) (fun i => Sum (seq 0 n) (fun j => / 2 * (z i * z i * a i j) + / 2 * (z j * z j * a i j)))).
    { apply Sum_le. intros i _. apply Sum_le. intros j _. pose proof (young (ex (hat i) (hat j)) (z i) (z j)) as Y. unfold a. lra. }
    assert (E : Sum (seq 0 n) (fun i => Sum (seq 0 n) (fun j => / 2 * (z j * z j * a i j))) = Sum (seq 0 n) (fun i => Sum (seq 0 n) (fun j => / 2 * (z i * z i * a i j)))).
    { rewrite Sum_swap. apply Sum_ext. intros i _. apply Sum_ext. intros j _. unfold a. rewrite (ex_sym dim3 ad m P Q (hat i)). reflexivity. }
    rewrite (Sum_ext _ (fun i => Sum (seq 0 n) (fun j => / 2 * (z i * z i * a i j)) + Sum (seq 0 n) (fun j => / 2 * (z j * z j * a i j)))) by (intros; apply Sum_plus).
    rewrite Sum_plus, E, <- Sum_plus. unfold size2, mass_product. rewrite <- Sum_scal. apply Sum_le. intros i I. apply in_seq in I. rewrite <- Sum_plus.
    rewrite (Sum_ext _ (fun j => z i * z i * a i j)) by (intros; lra). rewrite Sum_scal. change (Sum (seq 0 n) (a i)) with (row_sum dim3 ad m P Q i).
    destruct (in_dec Nat.eq_dec i (map fst (m_C m))) as [J|J].
    - rewrite (mass_constrained m Mok i J). assert (R0 : row_sum dim3 ad m P Q i = 0).
      { unfold row_sum. apply Sum_zero. intros j _. rewrite ex_sym, (hat_hanging dim3 ad m P Q Mok (hat j) i J). apply Rabs_R0. }
      rewrite R0. lra.
    - specialize (H i (conj (proj2 I) J)). pose proof (Rle_0_sqr (z i)) as S0. unfold Rsqr in S0. apply Rle_trans with (z i * z i * (lam * nodal_mass m i)); [apply Rmult_le_compat_l; assumption|right; ring].
  Qed.
  Lemma some_bound : exists lam, 0 < lam /\ rate_at_most dim3 ad m P Q lam.
  Proof.
    set (g := fun i => if in_dec Nat.eq_dec i (map fst (m_C m)) then 0 else row_sum dim3 ad m P Q i / nodal_mass m i).
    assert (G0 : forall i, (i < m_n m)%nat -> 0 <= g i).
    { intros i L. unfold g. destruct (in_dec _ i _) as [J|J]; [lra|]. pose proof (M i (conj L J)). apply Rmult_le_pos; [apply Sum_nonneg; intros; apply Rabs_pos|left; apply Rinv_0_lt_compat; assumption]. }
    exists (1 + Sum (seq 0 (m_n m)) g). assert (S0 : 0 <= Sum (seq 0 (m_n m)) g) by (apply Sum_nonneg; intros i I; apply in_seq in I; apply G0; lia). split; [lra|].
    apply rows_bound. intros i [L J]. pose proof (M i (conj L J)) as Mi.
    assert (Gi : g i = row_sum dim3 ad m P Q i / nodal_mass m i) by (unfold g; destruct (in_dec _ i _); [contradiction|reflexivity]).
    assert (Le : g i <= Sum (seq 0 (m_n m)) g).
    { replace (seq 0 (m_n m)) with (seq 0 i ++ i :: seq (S i) (m_n m - S i)).
      - rewrite Sum_app, Sum_cons. assert (0 <= Sum (seq 0 i) g) by (apply Sum_nonneg; intros k I; apply in_seq in I; apply G0; lia).
        assert (0 <= Sum (seq (S i) (m_n m - S i)) g) by (apply Sum_nonneg; intros k I; apply in_seq in I; apply G0; lia). lra.
      - change (i :: seq (S i) (m_n m - S i)) with (seq i (S (m_n m - S i))). replace (seq i) with (seq (0 + i)) by reflexivity. rewrite <- seq_app. f_equal. lia. }
    replace (row_sum dim3 ad m P Q i) with (g i * nodal_mass m i) by (rewrite Gi; field; lra). apply Rmult_le_compat_r; lra.
  Qed.
End Rows.

(** Boxes. *)
Lemma diffused dim3 (k : point_law RNum) (alpha : R) (g : pt RNum) : 0 <= pl_inv k -> 0 <= pl_kx k -> 0 <= pl_ky k -> 0 <= pl_kz k -> (pl_cos k : R) * pl_cos k + pl_sin k * pl_sin k = 1 ->
  (pl_inv k : R) * pl_kx k <= alpha -> (pl_inv k : R) * pl_ky k <= alpha -> (pl_inv k : R) * pl_kz k <= alpha -> (dim3 = false -> (py g : R) = 0) ->
  - dot (conduction (N := RNum) dim3 (pl_inv k) (pl_kx k) (pl_ky k) (pl_kz k) (pl_cos k) (pl_sin k) g) g <= alpha * dot g g.
Proof.
  destruct k as [inv kx ky kz c s bs]. cbn [pl_inv pl_kx pl_ky pl_kz pl_cos pl_sin]. intros I X Y Z U AX AY AZ D. pose proof (dot_nonneg g) as G.
  set (hi := Rmax kx (Rmax ky kz)).
  assert (H1 : (kx : R) <= hi) by apply Rmax_l. assert (H2 : (ky : R) <= hi) by (eapply Rle_trans; [apply Rmax_l|apply Rmax_r]). assert (H3 : (kz : R) <= hi) by (eapply Rle_trans; [apply Rmax_r|apply Rmax_r]).
  assert (HA : (inv : R) * hi <= alpha). { unfold hi. apply Rmax_case; [exact AX|]. apply Rmax_case; assumption. }
  destruct (cond_bounds dim3 inv kx ky kz c s 0 hi g U I (conj X H1) (conj Y H2) (conj Z H3) D) as [B _].
  assert (HB : (inv : R) * hi * dot g g <= alpha * dot g g) by (apply Rmult_le_compat_r; assumption). lra.
Qed.
