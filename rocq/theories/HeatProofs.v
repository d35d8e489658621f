(** HeatProofs.v -- the weak form of the loops over cells and faces. *)
From Coq Require Import Reals List Bool String ZArith Lra Lia.
From Verif Require Import Base MaterialModel MaterialSpec InputModel HeatModel HeatSpec MaterialProofs MaterialProofs2.
Import ListNotations.
Open Scope R_scope.

Lemma Sum_nil {A} (f : A -> R) : Sum [] f = 0. Proof. reflexivity. Qed.
Lemma Sum_cons {A} (f : A -> R) a l : Sum (a :: l) f = f a + Sum l f. Proof. reflexivity. Qed.
Lemma Sum_app {A} (f : A -> R) l l' : Sum (l ++ l') f = Sum l f + Sum l' f.
Proof. induction l as [|a l IH]; cbn [app]; rewrite ?Sum_nil, ?Sum_cons, ?IH; lra. Qed.
Lemma Sum_ext {A} (f g : A -> R) l : (forall a, In a l -> f a = g a) -> Sum l f = Sum l g.
Proof. intros H. induction l as [|a l IH]; [reflexivity|]. rewrite !Sum_cons, IH, (H a); auto using in_eq, in_cons. Qed.
Lemma Sum_plus {A} (f g : A -> R) l : Sum l (fun a => f a + g a) = Sum l f + Sum l g.
Proof. induction l as [|a l IH]; rewrite ?Sum_nil, ?Sum_cons, ?IH; lra. Qed.
Lemma Sum_scal {A} (f : A -> R) x l : Sum l (fun a => x * f a) = x * Sum l f.
Proof. induction l as [|a l IH]; rewrite ?Sum_nil, ?Sum_cons, ?IH; lra. Qed.
Lemma Sum_zero {A} (f : A -> R) l : (forall a, In a l -> f a = 0) -> Sum l f = 0.
Proof. intros H. induction l as [|a l IH]; [reflexivity|]. rewrite Sum_cons, IH, (H a); auto using in_eq, in_cons; lra. Qed.
Lemma Sum_map {A B} (g : A -> B) (f : B -> R) l : Sum (map g l) f = Sum l (fun a => f (g a)).
Proof. unfold Sum. rewrite map_map. reflexivity. Qed.
Lemma Sum_swap {A B} (f : A -> B -> R) l l' : Sum l (fun a => Sum l' (f a)) = Sum l' (fun b => Sum l (fun a => f a b)).
Proof.
  induction l as [|a l IH].
  - rewrite Sum_nil. symmetry. apply Sum_zero. reflexivity.
  - rewrite Sum_cons, IH, <- Sum_plus. apply Sum_ext. intros b _. rewrite Sum_cons. reflexivity.
Qed.
Lemma Sum_nonneg {A} (f : A -> R) l : (forall a, In a l -> 0 <= f a) -> 0 <= Sum l f.
Proof. intros H. induction l as [|a l IH]; [rewrite Sum_nil; lra|]. rewrite Sum_cons. assert (0 <= f a) by auto using in_eq. assert (0 <= Sum l f) by auto using in_cons. lra. Qed.
Lemma Sum_le {A} (f g : A -> R) l : (forall a, In a l -> f a <= g a) -> Sum l f <= Sum l g.
Proof. intros H. induction l as [|a l IH]; [rewrite !Sum_nil; lra|]. rewrite !Sum_cons. assert (f a <= g a) by auto using in_eq. assert (Sum l f <= Sum l g) by auto using in_cons. lra. Qed.
Lemma fold_Sum {A} (f : A -> R) l s : fold_left (fun s a => s + f a) l s = s + Sum l f.
Proof. revert s. induction l as [|a l IH]; intros s; cbn [fold_left]; rewrite ?Sum_nil, ?Sum_cons, ?IH; lra. Qed.

(** ** Test vectors *)
Fixpoint ip (z : nat -> R) (v : list R) : R := match v with [] => 0 | a :: v' => z O * a + ip (fun j => z (S j)) v' end.
Lemma ip_ext z z' v : (forall j, (j < List.length v)%nat -> z j = z' j) -> ip z v = ip z' v.
Proof.
  revert z z'. induction v as [|a v IH]; intros z z' H; [reflexivity|]. cbn [ip]. rewrite (H O) by (cbn; lia).
  rewrite (IH (fun j => z (S j)) (fun j => z' (S j))); [reflexivity|]. intros j L. apply H. cbn. lia.
Qed.
Lemma ip_zero z n : ip z (repeat 0 n) = 0.
Proof. revert z. induction n as [|n IH]; intros z; [reflexivity|]. cbn [repeat ip]. rewrite IH. lra. Qed.
Lemma ip_hat_aux v : forall z j, z = hat j -> ip z v = nth j v 0.
Proof.
  induction v as [|a v IH]; intros z j E; [destruct j; reflexivity|]. cbn [ip]. subst z. destruct j as [|j].
  - cbn [nth]. unfold hat at 1. cbn [Nat.eqb]. rewrite (ip_ext _ (fun _ => 0)).
    + assert (Z : ip (fun _ => 0) v = 0) by (clear; induction v as [|b v IH]; [reflexivity|]; cbn [ip]; rewrite IH; lra). rewrite Z. lra.
    + intros j _. reflexivity.
  - cbn [nth]. unfold hat at 1. cbn [Nat.eqb]. rewrite (IH (fun k => hat (S j) (S k)) j); [lra|]. reflexivity.
Qed.
Lemma ip_hat v j : ip (hat j) v = nth j v 0. Proof. apply ip_hat_aux. reflexivity. Qed.
Lemma ip_nth z v : ip z v = Sum (seq 0 (List.length v)) (fun j => z j * nth j v 0).
Proof.
  revert z. induction v as [|a v IH]; intros z; [reflexivity|]. cbn [ip List.length seq]. rewrite Sum_cons. cbn [nth]. rewrite IH. f_equal.
  rewrite <- seq_shift, Sum_map. apply Sum_ext. intros j _. reflexivity.
Qed.
Lemma set_nth_cons (a : R) v j x : MaterialModel.set_nth (a :: v) (S j) x = a :: MaterialModel.set_nth v j x.
Proof.
  unfold MaterialModel.set_nth. cbn [List.length]. destruct (Nat.ltb_spec j (List.length v)); destruct (Nat.ltb_spec (S j) (S (List.length v))); try lia; reflexivity.
Qed.
Lemma set_nth_get (v : list R) j x k : (j < List.length v)%nat -> nth k (MaterialModel.set_nth v j x) 0 = if Nat.eqb k j then x else nth k v 0.
Proof.
  intros L. destruct (Nat.eqb_spec k j) as [->|Ne]; [apply set_nth_same; exact L|]. apply set_nth_other. congruence.
Qed.
Lemma ip_set z (v : list R) j x : (j < List.length v)%nat -> ip z (MaterialModel.set_nth v j x) = ip z v + z j * (x - nth j v 0).
Proof.
  revert z j. induction v as [|a v IH]; intros z j L; [cbn in L; lia|]. destruct j as [|j]; [cbn; lra|]. rewrite set_nth_cons. cbn [ip nth].
  rewrite IH by (cbn in L; lia). lra.
Qed.
Definition vaddR (v : list R) (j : nat) (x : R) : list R := vadd (N := RNum) v j x.
Lemma vaddR_length v j x : List.length (vaddR v j x) = List.length v. Proof. apply set_nth_length. Qed.
Lemma ip_vadd z v j x : (j < List.length v)%nat -> ip z (vaddR v j x) = ip z v + z j * x.
Proof. intros L. unfold vaddR, vadd. etransitivity; [exact (ip_set z v j (nth j v 0 + x) L)|]. ring. Qed.

(** ** Reading and writing one degree of freedom *)
Definition targets_ok (n : nat) (C : constraints RNum) : Prop := Forall (fun e => Forall (fun w => (fst w < n)%nat) (snd e)) C.
Lemma read_dof_nodal C (src : list R) j : read_dof (N := RNum) C src j = nodal C (entry src) j.
Proof.
  unfold read_dof, nodal, line_of. destruct (find _ C) as [e|]; cbn [option_map]; [|reflexivity].
  etransitivity; [exact (fold_Sum (fun w => snd w * entry src (fst w)) (snd e) 0)|]. apply Rplus_0_l.
Qed.
Definition write_dofR C (d : list R) (jx : nat * R) : list R := write_dof (N := RNum) C d jx.
Lemma fold_vadd_length {A} (f : A -> nat) (g : A -> R) l d : List.length (fold_left (fun d e => vaddR d (f e) (g e)) l d) = List.length d.
Proof. revert d. induction l as [|a l IH]; intros d; [reflexivity|]. cbn [fold_left]. rewrite IH. apply vaddR_length. Qed.
Lemma ip_fold_vadd {A} z (f : A -> nat) (g : A -> R) l d : Forall (fun e => (f e < List.length d)%nat) l ->
  ip z (fold_left (fun d e => vaddR d (f e) (g e)) l d) = ip z d + Sum l (fun e => z (f e) * g e).
Proof.
  revert d. induction l as [|a l IH]; intros d H; [rewrite Sum_nil; cbn; lra|]. inversion H as [|? ? H1 H2]; subst. cbn [fold_left]. rewrite IH.
  - rewrite ip_vadd by exact H1. rewrite Sum_cons. lra.
  - rewrite vaddR_length. exact H2.
Qed.
Lemma write_dof_length C d jx : List.length (write_dofR C d jx) = List.length d.
Proof.
  unfold write_dofR, write_dof. match goal with |- context [line_of C ?x] => destruct (line_of C x) as [l|] end; [|apply vaddR_length].
  exact (fold_vadd_length fst (fun e => snd e * snd jx) l d).
Qed.
Lemma ip_write z C d j x : targets_ok (List.length d) C -> (j < List.length d)%nat -> ip z (write_dofR C d (j, x)) = ip z d + nodal C z j * x.
Proof.
  intros T L. unfold write_dofR, write_dof, nodal, line_of. cbn [fst snd]. destruct (find _ C) as [e|] eqn:E; cbn [option_map].
  - apply find_some in E. destruct E as [I _]. assert (Te : Forall (fun w : nat * R => (fst w < List.length d)%nat) (snd e)) by (apply (proj1 (Forall_forall _ _) T e I)).
    etransitivity; [exact (ip_fold_vadd z fst (fun w => snd w * x) (snd e) d Te)|]. f_equal. rewrite Rmult_comm, <- Sum_scal. apply Sum_ext. intros; cbn [num RNum] in *; ring.
  - apply ip_vadd. exact L.
Qed.

(** ** Integrating and distributing *)
Definition subm := list (hquad RNum * (R * pt RNum)).
Definition quad_ok (k : nat) (q : hquad RNum) : Prop := List.length (h_values q) = k /\ List.length (h_grads q) = k.
Definition tested (C : constraints RNum) (c : hcell RNum) (z : nat -> R) (qv : hquad RNum * (R * pt RNum)) : R :=
  h_jxw (fst qv) * (dot (snd (snd qv)) (gradient C c (fst qv) z) + fst (snd qv) * field C c (fst qv) z).
Definition integrateR (qs : subm) (i : nat) : R := integrate (N := RNum) qs i.
Lemma integrate_sum qs i : integrateR qs i = Sum qs (fun qv => (dot (snd (snd qv)) (nth i (h_grads (fst qv)) (mkpt (N := RNum) 0 0 0)) + fst (snd qv) * nth i (h_values (fst qv)) 0) * h_jxw (fst qv)).
Proof.
  unfold integrateR, integrate. etransitivity; [exact (fold_Sum (fun qv : hquad RNum * (R * pt RNum) => (dot (snd (snd qv)) (nth i (h_grads (fst qv)) (mkpt (N := RNum) 0 0 0)) + fst (snd qv) * nth i (h_values (fst qv)) 0) * h_jxw (fst qv)) qs 0)|]. apply Rplus_0_l.
Qed.
Lemma Sum_combine_nth {A} (d : A) (f : A -> nat -> R) (l : list A) (js : list nat) : List.length l = List.length js ->
  Sum (combine l js) (fun p => f (fst p) (snd p)) = Sum (combine js (seq 0 (List.length js))) (fun p => f (nth (snd p) l d) (fst p)).
Proof.
  assert (G : forall s (l0 : list A), s = List.length l0 -> forall l, List.length l = List.length js ->
    Sum (combine l js) (fun p => f (fst p) (snd p)) = Sum (combine js (seq s (List.length js))) (fun p => f (nth (snd p) (l0 ++ l) d) (fst p))).
  { induction js as [|j js IH]; intros s l0 S0 l1 L; [destruct l1; reflexivity|]. destruct l1 as [|a l1]; [discriminate|].
    cbn [combine List.length seq]. rewrite !Sum_cons. cbn [fst snd]. rewrite app_nth2 by lia. rewrite S0, Nat.sub_diag. cbn [nth]. f_equal.
    rewrite (IH (S s) (l0 ++ [a])) with (l := l1).
    - rewrite <- app_assoc. rewrite S0. reflexivity.
    - rewrite app_length. cbn. lia.
    - cbn in L. lia. }
  intros L. exact (G O [] eq_refl l L).
Qed.
Definition distributeR C c (qs : subm) (d : list R) : list R := distribute (N := RNum) C c qs d.
Lemma fold_write_length C l d : List.length (fold_left (write_dofR C) l d) = List.length d.
Proof. revert d. induction l as [|a l IH]; intros d; [reflexivity|]. cbn [fold_left]. rewrite IH. apply write_dof_length. Qed.
Lemma distribute_length C c qs d : List.length (distributeR C c qs d) = List.length d. Proof. apply fold_write_length. Qed.
Lemma ip_fold_write z C l d : targets_ok (List.length d) C -> Forall (fun jx => (fst jx < List.length d)%nat) l ->
  ip z (fold_left (write_dofR C) l d) = ip z d + Sum l (fun jx => nodal C z (fst jx) * snd jx).
Proof.
  revert d. induction l as [|[j x] l IH]; intros d T H; [rewrite Sum_nil; cbn; lra|]. inversion H as [|? ? H1 H2]; subst. cbn [fold_left]. rewrite IH; rewrite ?write_dof_length; auto.
  rewrite ip_write by assumption. rewrite Sum_cons. cbn [fst snd]. lra.
Qed.
Lemma Sum_mul {A} (f : A -> R) x l : Sum l (fun a => f a * x) = Sum l f * x.
Proof. rewrite Rmult_comm, <- Sum_scal. apply Sum_ext. intros; lra. Qed.
Lemma combine_map_seq {B} (f : nat -> B) (js : list nat) n : n = List.length js -> combine js (map f (seq 0 n)) = map (fun p => (fst p, f (snd p))) (combine js (seq 0 (List.length js))).
Proof.
  intros ->. generalize O. induction js as [|j js IH]; intros s; [reflexivity|]. cbn [List.length seq map combine]. rewrite IH. reflexivity.
Qed.
Lemma ip_distribute z C c qs d : targets_ok (List.length d) C -> Forall (fun j => (j < List.length d)%nat) (c_dofs c) ->
  Forall (fun qv => quad_ok (List.length (c_dofs c)) (fst qv)) qs ->
  ip z (distributeR C c qs d) = ip z d + Sum qs (tested C c z).
Proof.
  intros T D Q. unfold distributeR, distribute. etransitivity.
  - apply (ip_fold_write z C (combine (c_dofs c) (map (integrateR qs) (seq 0 (List.length (c_dofs c))))) d T).
    apply Forall_forall. intros [j x] I. apply in_combine_l in I. apply (proj1 (Forall_forall _ _) D j I).
  - f_equal. rewrite (combine_map_seq _ _ _ eq_refl), Sum_map. cbn [fst snd].
    rewrite (Sum_ext _ (fun a => Sum qs (fun qv => nodal C z (fst a) * ((dot (snd (snd qv)) (nth (snd a) (h_grads (fst qv)) (mkpt (N := RNum) 0 0 0)) + fst (snd qv) * nth (snd a) (h_values (fst qv)) 0) * h_jxw (fst qv))))).
    2: { intros a _. rewrite integrate_sum, <- Sum_scal. reflexivity. }
    rewrite Sum_swap. apply Sum_ext. intros [q [v g]] I. apply (proj1 (Forall_forall _ _) Q) in I. destruct I as [Lv Lg]. cbn [fst snd] in *.
    unfold tested, field, gradient. cbn [fst snd]. unfold dot at 2. cbn [px py pz].
    rewrite (Sum_combine_nth (0 : R) (fun x j => x * nodal C z j) (h_values q)) by exact Lv.
    rewrite (Sum_combine_nth (mkpt (N := RNum) 0 0 0) (fun x j => px x * nodal C z j) (h_grads q)) by exact Lg.
    rewrite (Sum_combine_nth (mkpt (N := RNum) 0 0 0) (fun x j => py x * nodal C z j) (h_grads q)) by exact Lg.
    rewrite (Sum_combine_nth (mkpt (N := RNum) 0 0 0) (fun x j => pz x * nodal C z j) (h_grads q)) by exact Lg.
    rewrite <- !Sum_scal, <- !Sum_plus, <- Sum_scal. apply Sum_ext. intros [j i] _. cbn [fst snd]. unfold dot. cbn [num RNum] in *. ring.
Qed.

(** ** What is read on a cell *)
Lemma read_cell_nodal C (src : list R) c : read_cell (N := RNum) C src c = map (nodal C (entry src)) (c_dofs c).
Proof. unfold read_cell. apply map_ext. intros j. apply read_dof_nodal. Qed.
Lemma Sum_combine_map {A B D} (f : A -> D -> R) (g : B -> D) (l : list A) (l' : list B) :
  Sum (combine l (map g l')) (fun p => f (fst p) (snd p)) = Sum (combine l l') (fun p => f (fst p) (g (snd p))).
Proof.
  revert l'. induction l as [|a l IH]; intros l'; [reflexivity|]. destruct l' as [|b l']; [reflexivity|]. cbn [map combine]. rewrite !Sum_cons, IH. reflexivity.
Qed.
Lemma get_value_field C c q (src : list R) : get_value (N := RNum) q (read_cell (N := RNum) C src c) = field C c q (entry src).
Proof.
  unfold get_value. etransitivity; [exact (fold_Sum (fun p : R * R => fst p * snd p) (combine (h_values q) (read_cell (N := RNum) C src c)) 0)|].
  rewrite read_cell_nodal. unfold field. rewrite Rplus_0_l. exact (Sum_combine_map (fun (x y : R) => x * y) (nodal C (entry src)) (h_values q) (c_dofs c)).
Qed.
Lemma fold_padd (l : list (pt RNum * R)) s : fold_left (fun s gu => padd (N := RNum) s (pscale (N := RNum) (snd gu) (fst gu))) l s =
  mkpt (N := RNum) (px s + Sum l (fun p => px (fst p) * snd p)) (py s + Sum l (fun p => py (fst p) * snd p)) (pz s + Sum l (fun p => pz (fst p) * snd p)).
Proof.
  revert s. induction l as [|[g u] l IH]; intros [x y w]; cbn [fold_left]; rewrite ?IH, ?Sum_nil, ?Sum_cons; destruct g as [gx gy gz] || idtac; cbn; f_equal; try lra.
Qed.
Lemma get_gradient_gradient C c q (src : list R) : get_gradient (N := RNum) q (read_cell (N := RNum) C src c) = gradient C c q (entry src).
Proof.
  unfold get_gradient. etransitivity; [exact (fold_padd (combine (h_grads q) (read_cell (N := RNum) C src c)) (mkpt (N := RNum) 0 0 0))|].
  rewrite read_cell_nodal. cbn [px py pz]. unfold gradient.
  f_equal; (etransitivity; [apply Rplus_0_l|]).
  - exact (Sum_combine_map (fun (x : pt RNum) (y : R) => px x * y) (nodal C (entry src)) (h_grads q) (c_dofs c)).
  - exact (Sum_combine_map (fun (x : pt RNum) (y : R) => py x * y) (nodal C (entry src)) (h_grads q) (c_dofs c)).
  - exact (Sum_combine_map (fun (x : pt RNum) (y : R) => pz x * y) (nodal C (entry src)) (h_grads q) (c_dofs c)).
Qed.
