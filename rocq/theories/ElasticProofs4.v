(** ElasticProofs4.v -- energy, uniqueness, free expansion, the matrix, trivial and small systems, clamped faces. *)
From Coq Require Import Reals ZArith Bool List Lia Lra.
From Verif Require Import Base BaseFacts CellModel InputModel AssimilationSpec AssimilationProofs AssimilationProofs3 MechProofs StressModel StressSpec StressProofs ElementModel ElementSpec ElementProofs ElementProofs2
  HeatModel HeatSpec HeatProofs HeatProofs2 ElasticModel ElasticSpec ElasticProofs ElasticProofs2 ElasticProofs3.
Import ListNotations.
Local Open Scope R_scope.

(** ** Linearity *)
Lemma nodal_lin C (u w : nat -> R) (s : R) k : nodal C (fun j => u j + s * w j) k = nodal C u k + s * nodal C w k.
Proof.
  rewrite <- !targets_nodal. rewrite <- Sum_scal, <- Sum_plus. apply Sum_ext. intros x _. ring.
Qed.
Lemma gradient_lin m comps q (u w : nat -> R) (s : R) a b : ElementSpec.gradient m comps q (fun j => u j + s * w j) a b = ElementSpec.gradient m comps q u a b + s * ElementSpec.gradient m comps q w a b.
Proof. unfold ElementSpec.gradient. rewrite <- Rsum_to_scal, <- Rsum_to_add. apply Rsum_to_ext. intros i _. destruct (Nat.eqb _ _); ring. Qed.
Lemma cell_gradient_lin C (c : ecell RNum) q (u w : nat -> R) (s : R) a b : ElementSpec.gradient (List.length (ec_dofs c)) (ec_comps c) q (local C (fun j => u j + s * w j) c) a b =
  ElementSpec.gradient (List.length (ec_dofs c)) (ec_comps c) q (local C u c) a b + s * ElementSpec.gradient (List.length (ec_dofs c)) (ec_comps c) q (local C w c) a b.
Proof. rewrite <- gradient_lin. apply gradient_local_ext. intros i _. unfold local. apply nodal_lin. Qed.
Lemma cell_divergence_lin d C c q (u w : nat -> R) (s : R) : cell_divergence d C c q (fun j => u j + s * w j) = cell_divergence d C c q u + s * cell_divergence d C c q w.
Proof. unfold cell_divergence, divergence. rewrite <- Rsum_to_scal, <- Rsum_to_add. apply Rsum_to_ext. intros a _. apply cell_gradient_lin. Qed.
Lemma cell_strain_lin C c q (u w : nat -> R) (s : R) a b : cell_strain C c q (fun j => u j + s * w j) a b = cell_strain C c q u a b + s * cell_strain C c q w a b.
Proof. unfold cell_strain, ElementSpec.strain. rewrite !cell_gradient_lin. field. Qed.
Lemma internal_lin d C cells v (u w : nat -> R) (s : R) : internal_work d C cells v (fun j => u j + s * w j) = internal_work d C cells v u + s * internal_work d C cells v w.
Proof.
  unfold internal_work. rewrite <- Sum_scal, <- Sum_plus. apply Sum_ext. intros c _. rewrite <- Sum_scal, <- Sum_plus. apply Sum_ext. intros q _. rewrite cell_divergence_lin.
  assert (E : Rsum_to d (fun a => Rsum_to d (fun b => cell_strain C c q v a b * cell_strain C c q (fun j => u j + s * w j) a b)) =
    Rsum_to d (fun a => Rsum_to d (fun b => cell_strain C c q v a b * cell_strain C c q u a b)) + s * Rsum_to d (fun a => Rsum_to d (fun b => cell_strain C c q v a b * cell_strain C c q w a b))).
  { rewrite <- Rsum_to_scal, <- Rsum_to_add. apply Rsum_to_ext. intros a _. rewrite <- Rsum_to_scal, <- Rsum_to_add. apply Rsum_to_ext. intros b _. rewrite cell_strain_lin. ring. }
  rewrite E. ring.
Qed.
Lemma internal_sym d C cells v u : internal_work d C cells v u = internal_work d C cells u v.
Proof.
  apply Sum_ext. intros c _. apply Sum_ext. intros q _. f_equal. f_equal; [ring|]. f_equal. apply Rsum_to_ext. intros a _. apply Rsum_to_ext. intros b _. ring.
Qed.

(** ** Energy *)
Lemma energy_nonneg d C cells u : elastic_ok d cells -> 0 <= internal_work d C cells u u.
Proof.
  intros [D F]. rewrite Forall_forall in F. rewrite internal_as_work. apply Sum_nonneg. intros c I. destruct (F c I) as (M & L & W).
  apply work_nonneg; [left; exact M| left; exact L| |exact D]. eapply Forall_impl; [|exact W]. intros q X. left. exact X.
Qed.
Lemma energy_zero d n C cells u : Forall (cell_ok d n) cells -> elastic_ok d cells -> internal_work d C cells u u = 0 ->
  forall c q a b, In c (solid cells) -> In q (ec_quads c) -> (a < d)%nat -> (b < d)%nat -> cell_strain C c q u a b = 0.
Proof.
  intros H [D F] Z c q a b Ic Iq La Lb. rewrite Forall_forall in F, H. rewrite internal_as_work in Z. apply Rsum_zero_terms in Z.
  - rewrite Forall_forall in Z. destruct (F c Ic) as (M & L & W). assert (X : In c cells) by (apply filter_In in Ic; tauto). destruct (H c X) as [EL _].
    unfold cell_strain. eapply (zero_energy d _ (ec_comps c) (ec_quads c) (lame1 (ec_plast c)) (lame2 (ec_plast c)) (local C u c)); auto. apply Z. apply in_map_iff. exists c. auto.
  - apply Forall_forall. intros x X. apply in_map_iff in X. destruct X as (c' & <- & I'). destruct (F c' I') as (M & L & W).
    apply work_nonneg; [left; exact M| left; exact L| |exact D]. eapply Forall_impl; [|exact W]. intros q' Y. left. exact Y.
Qed.
(** Two displacements in balance with the same loads have the same strain. *)
Lemma balance_unique d n C cells W (u w : nat -> R) : Forall (cell_ok d n) cells -> elastic_ok d cells -> balances d C cells W u -> balances d C cells W w ->
  forall c q a b, In c (solid cells) -> In q (ec_quads c) -> (a < d)%nat -> (b < d)%nat -> cell_strain C c q u a b = cell_strain C c q w a b.
Proof.
  intros H EO Bu Bw c q a b Ic Iq La Lb.
  assert (Z : internal_work d C cells (fun j => u j + (-1) * w j) (fun j => u j + (-1) * w j) = 0) by (rewrite internal_lin, Bu, Bw; lra).
  pose proof (energy_zero d n C cells _ H EO Z c q a b Ic Iq La Lb) as S0. rewrite cell_strain_lin in S0. lra.
Qed.
(** Error of an approximate balance, in energy. *)
Lemma balance_error d C cells W (u w : nat -> R) (bound : (nat -> R) -> R) : balances d C cells W w -> (forall v, Rabs (internal_work d C cells v u - W v) <= bound v) ->
  internal_work d C cells (fun j => u j - w j) (fun j => u j - w j) <= bound (fun j => u j - w j).
Proof.
  intros Bw B. specialize (B (fun j => u j - w j)). rewrite <- (Bw (fun j => u j - w j)) in B.
  assert (E : internal_work d C cells (fun j => u j - w j) (fun j => u j - w j) = internal_work d C cells (fun j => u j - w j) u - internal_work d C cells (fun j => u j - w j) w).
  { assert (X : forall v, internal_work d C cells v (fun j => u j - w j) = internal_work d C cells v (fun j => u j + (-1) * w j)).
    { intros v. apply Sum_ext. intros c _. apply Sum_ext. intros q _. f_equal.
      assert (EL : forall i, local C (fun j => u j - w j) c i = local C (fun j => u j + (-1) * w j) c i).
      { intros i. unfold local. rewrite <- !targets_nodal. apply Sum_ext. intros x _. ring. }
      f_equal; [f_equal; unfold cell_divergence, divergence; apply Rsum_to_ext; intros a _; apply gradient_local_ext; intros i _; apply EL|].
      f_equal. apply Rsum_to_ext. intros a _. apply Rsum_to_ext. intros b _. f_equal. unfold cell_strain, ElementSpec.strain. rewrite (gradient_local_ext _ _ _ (local C (fun j => u j - w j) c) (local C (fun j => u j + (-1) * w j) c) a b) by (intros; apply EL).
      rewrite (gradient_local_ext _ _ _ (local C (fun j => u j - w j) c) (local C (fun j => u j + (-1) * w j) c) b a) by (intros; apply EL). reflexivity. }
    rewrite X, internal_lin. ring. }
  rewrite E. eapply Rle_trans; [apply Rle_abs| exact B].
Qed.
(** Free expansion in three dimensions. *)
Lemma Sum_filter {A} (P : A -> bool) (f : A -> R) l : Sum (filter P l) f = Sum l (fun x => if P x then f x else 0).
Proof. induction l as [|x l IH]; [reflexivity|]. cbn [filter]. rewrite Sum_cons, <- IH. destruct (P x); [now rewrite Sum_cons|]. now rewrite Rplus_0_l. Qed.
Lemma Sum_indexed_snd {A} (f : A -> R) l : Sum (indexed l) (fun p => f (snd p)) = Sum l f.
Proof.
  unfold indexed. generalize O as k. induction l as [|x l IH]; intros k; [reflexivity|]. cbn [List.length seq combine]. rewrite !Sum_cons. cbn [snd]. now rewrite IH.
Qed.
Lemma Rsum_to_3 f : Rsum_to 3 f = f 0%nat + f 1%nat + f 2%nat.
Proof. unfold Rsum_to, Rsum. cbn [seq map fold_right]. ring. Qed.
Lemma expansion_balances references (t : thermal_data RNum) C cells (u : nat -> R) :
  (forall pos c q a b, nth_error cells pos = Some c -> takes_part c = true -> In q (ec_quads c) -> (a < 3)%nat -> (b < 3)%nat ->
     ElementSpec.gradient (List.length (ec_dofs c)) (ec_comps c) q (local C u c) a b =
     if Nat.eqb a b then ec_alpha c * excess (reference references (td_melted t) cells pos c) (cell_temperature t c) q else 0) ->
  balances 3 C cells (thermal_work 3 references t C cells) u.
Proof.
  intros G v. unfold thermal_work, internal_work, solid. rewrite Sum_filter.
  match goal with |- Sum cells ?f = _ => rewrite <- (Sum_indexed_snd f cells) end. apply Sum_ext. intros [pos c] I. cbn [fst snd]. destruct (takes_part c) eqn:T; [|reflexivity].
  assert (Ec : nth_error cells pos = Some c) by (exact (in_numbered cells (pos, c) I)). apply Sum_ext. intros q Iq. f_equal.
  pose proof (fun a b => G pos c q a b Ec T Iq) as Gq. set (be := ec_alpha c * excess (reference references (td_melted t) cells pos c) (cell_temperature t c) q) in *.
  unfold cell_divergence, divergence, cell_strain, ElementSpec.strain. rewrite !Rsum_to_3.
  rewrite (Gq 0%nat 0%nat), (Gq 0%nat 1%nat), (Gq 0%nat 2%nat), (Gq 1%nat 0%nat), (Gq 1%nat 1%nat), (Gq 1%nat 2%nat), (Gq 2%nat 0%nat), (Gq 2%nat 1%nat), (Gq 2%nat 2%nat) by lia. cbn [Nat.eqb].
  replace ((3 * lame1 (ec_plast c) + 2 * lame2 (ec_plast c)) * ec_alpha c * excess (reference references (td_melted t) cells pos c) (cell_temperature t c) q) with ((3 * lame1 (ec_plast c) + 2 * lame2 (ec_plast c)) * be) by (unfold be; ring).
  clearbody be. generalize (ElementSpec.gradient (List.length (ec_dofs c)) (ec_comps c) q (local C v c)). intros g. generalize (lame1 (ec_plast c) : R) (lame2 (ec_plast c) : R). intros la mu. field.
Qed.

(** ** The matrix *)
Definition diagonalR (c : ecell RNum) (i : nat) : R := constrained_diagonal (N := RNum) c i.
Lemma Rabs_nabs (x : R) : nabs (N := RNum) x = Rabs x.
Proof. unfold nabs. cbn [nltb nopp RNum]. change (nofZ RNum 0) with 0. unfold Rltb. destruct (Rlt_dec x 0) as [L|L]; [now rewrite Rabs_left|]. rewrite Rabs_right; [reflexivity| lra]. Qed.
Lemma diagonal_R (c : ecell RNum) i : diagonalR c i = if Reqb (Rabs (local_entryR c i i)) 0 then Rsum_to (List.length (ec_dofs c)) (fun k => Rabs (local_entryR c k k)) / INR (List.length (ec_dofs c)) else Rabs (local_entryR c i i).
Proof.
  unfold diagonalR, constrained_diagonal, average_diagonal. cbn [neqb ndiv nadd RNum]. change (nofZ RNum 0) with 0. rewrite Rabs_nabs. fold (local_entryR c i i). destruct (Reqb _ _); [|reflexivity]. f_equal.
  - etransitivity; [exact (fold_Sum (fun k => nabs (N := RNum) (local_entryR c k k)) (seq 0 (List.length (ec_dofs c))) 0)|]. rewrite Rplus_0_l. apply Sum_ext. intros k _. apply Rabs_nabs.
  - symmetry. apply INR_IZR_INZ.
Qed.
Lemma diagonal_nonneg c i : 0 <= diagonalR c i.
Proof.
  rewrite diagonal_R. destruct (Reqb _ _); [|apply Rabs_pos]. unfold Rdiv. destruct (Nat.eq_dec (List.length (ec_dofs c)) 0) as [E|E].
  - rewrite E. unfold Rsum_to, Rsum. cbn. lra.
  - apply Rmult_le_pos; [apply Sum_nonneg; intros; apply Rabs_pos|]. left. apply Rinv_0_lt_compat, lt_0_INR. lia.
Qed.
Lemma diagonal_pos c i k : (k < List.length (ec_dofs c))%nat -> local_entryR c k k <> 0 -> 0 < diagonalR c i.
Proof.
  intros L K. rewrite diagonal_R. unfold Reqb. destruct (Req_EM_T (Rabs (local_entryR c i i)) 0) as [E|E].
  - apply Rmult_lt_0_compat; [|apply Rinv_0_lt_compat, lt_0_INR; lia].
    apply Rlt_le_trans with (Rabs (local_entryR c k k)); [now apply Rabs_pos_lt|].
    rewrite <- (Rsum_pick (List.length (ec_dofs c)) k (fun j => Rabs (local_entryR c j j)) L). apply Sum_le. intros j _. unfold ind. pose proof (Rabs_pos (local_entryR c j j)). destruct (Nat.eqb k j); lra.
  - pose proof (Rabs_pos (local_entryR c i i)). lra.
Qed.
(** What the constrained rows add. *)
Definition extra (C : constraints RNum) (c : ecell RNum) (z x : nat -> R) : R :=
  Sum (numbered (ec_dofs c)) (fun ig => match line_of C (snd ig) with None => 0 | Some _ => diagonalR c (fst ig) * (z (snd ig) * x (snd ig)) end).
Lemma matrix_form n d C cells (z : nat -> R) (x : list R) : closed_ok n C -> Forall (cell_ok d n) cells ->
  ip z (mvmultR n (assemble_matrix (N := RNum) C cells) x) = internal_work d C cells z (HeatSpec.entry x) + Sum (solid cells) (fun c => extra C c z (HeatSpec.entry x)).
Proof.
  intros Cok H. rewrite (ip_mvmult _ n _ x) by (eapply assembled_entries; eauto). unfold assemble_matrix. etransitivity; [apply Sum_flat_map|].
  rewrite internal_as_work, <- Sum_plus. apply Sum_ext. intros c I. apply filter_In in I. destruct I as [I _]. rewrite Forall_forall in H. destruct (H c I) as [EL _].
  rewrite <- (bilinear d _ _ _ EL).
  unfold distribute_matrix. rewrite Sum_app. f_equal; [exact (Sum_blocks C c z (HeatSpec.entry x))|].
  rewrite Sum_flat_map. unfold extra. apply Sum_ext. intros ig _. destruct (line_of C (snd ig)) as [l|]; [|reflexivity]. rewrite Sum_cons, Sum_nil. cbn [fst snd]. unfold HeatSpec.entry.
  change (constrained_diagonal (N := RNum) c (fst ig)) with (diagonalR c (fst ig)). ring.
Qed.
Lemma matrix_symmetric n d C cells (z x : list R) : closed_ok n C -> Forall (cell_ok d n) cells ->
  ip (HeatSpec.entry z) (mvmultR n (assemble_matrix (N := RNum) C cells) x) = ip (HeatSpec.entry x) (mvmultR n (assemble_matrix (N := RNum) C cells) z).
Proof.
  intros Cok H. rewrite !(matrix_form n d) by auto. rewrite internal_sym. f_equal. apply Sum_ext. intros c _. apply Sum_ext. intros ig _. destruct (line_of C (snd ig)); [ring| reflexivity].
Qed.
Lemma extra_nonneg C c z : 0 <= extra C c z z.
Proof. apply Sum_nonneg. intros ig _. destruct (line_of C (snd ig)); [|lra]. apply Rmult_le_pos; [apply diagonal_nonneg| apply Rle_0_sqr]. Qed.
Lemma matrix_nonneg n d C cells (z : list R) : closed_ok n C -> Forall (cell_ok d n) cells -> elastic_ok d cells ->
  0 <= ip (HeatSpec.entry z) (mvmultR n (assemble_matrix (N := RNum) C cells) z).
Proof.
  intros Cok H EO. rewrite (matrix_form n d) by auto. pose proof (energy_nonneg d C cells (HeatSpec.entry z) EO). pose proof (Sum_nonneg (fun c => extra C c (HeatSpec.entry z) (HeatSpec.entry z)) (solid cells) (fun c _ => extra_nonneg C c _)). lra.
Qed.
Lemma matrix_definite n d C cells (z : list R) : closed_ok n C -> Forall (cell_ok d n) cells -> elastic_ok d cells ->
  ip (HeatSpec.entry z) (mvmultR n (assemble_matrix (N := RNum) C cells) z) = 0 ->
  (forall c q a b, In c (solid cells) -> In q (ec_quads c) -> (a < d)%nat -> (b < d)%nat -> cell_strain C c q (HeatSpec.entry z) a b = 0) /\
  (forall c i k, In c (solid cells) -> (i < List.length (ec_dofs c))%nat -> (k < List.length (ec_dofs c))%nat -> local_entryR c k k <> 0 -> In (nth i (ec_dofs c) O) (map fst C) -> HeatSpec.entry z (nth i (ec_dofs c) O) = 0).
Proof.
  intros Cok H EO Z. rewrite (matrix_form n d) in Z by auto. pose proof (energy_nonneg d C cells (HeatSpec.entry z) EO) as P.
  pose proof (Sum_nonneg (fun c => extra C c (HeatSpec.entry z) (HeatSpec.entry z)) (solid cells) (fun c _ => extra_nonneg C c _)) as Q. split.
  - apply (energy_zero d n); auto. lra.
  - intros c i k Ic Li Lk K Cn. assert (S0 : Sum (solid cells) (fun c => extra C c (HeatSpec.entry z) (HeatSpec.entry z)) = 0) by lra. apply Rsum_zero_terms in S0.
    2:{ apply Forall_forall. intros y Y. apply in_map_iff in Y. destruct Y as (c' & <- & _). apply extra_nonneg. }
    rewrite Forall_forall in S0. specialize (S0 (extra C c (HeatSpec.entry z) (HeatSpec.entry z)) ltac:(apply in_map_iff; eauto)). unfold extra in S0. apply Rsum_zero_terms in S0.
    2:{ apply Forall_forall. intros y Y. apply in_map_iff in Y. destruct Y as (ig & <- & _). destruct (line_of C (snd ig)); [|lra]. apply Rmult_le_pos; [apply diagonal_nonneg| apply Rle_0_sqr]. }
    rewrite Forall_forall in S0. set (g := nth i (ec_dofs c) O) in *.
    assert (Ig : In (i, g) (numbered (ec_dofs c))).
    { unfold numbered. replace (i, g) with (nth i (combine (seq 0 (List.length (ec_dofs c))) (ec_dofs c)) (O, O)); [apply nth_In; rewrite combine_length, seq_length; lia|]. rewrite combine_nth by apply seq_length. rewrite seq_nth by exact Li. reflexivity. }
    specialize (S0 _ (in_map _ _ _ Ig)). cbn [fst snd] in S0. destruct (line_of C g) as [l|] eqn:E; [|apply (line_none n C g Cok) in E; contradiction].
    apply Rmult_integral in S0. pose proof (diagonal_pos c i k Lk K). destruct S0 as [S0|S0]; [lra|]. apply Rmult_integral in S0. tauto.
Qed.
