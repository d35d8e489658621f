(** AdaptExamples.v -- concrete cases for C49 and C50. *)
From Coq Require Import Reals ZArith Bool List Floats Lia Lra.
From Verif Require Import Base BaseFacts AdaptModel AdaptSpec AdaptProofs AdaptFloat TimerModel TimerSpec.
Import ListNotations.
Local Open Scope R_scope.

(** A segment cut in two, two quadrature points each. *)
Definition ex_coarse : list (list R) := [[2/10]; [8/10]].
Definition ex_children : list (list (list R)) := [[[1/10]; [4/10]]; [[6/10]; [9/10]]].
Lemma distance_1 (x y : R) : distance [x] [y] = Rabs (x - y).
Proof. unfold distance. cbn. rewrite Rplus_0_r. apply sqrt_Rsqr_abs. Qed.
Lemma big : 4 < IZR dblmaxZ.
Proof. apply IZR_lt. reflexivity. Qed.
Lemma in_range_small targets sources : (forall t, In t targets -> exists x, t = [x] /\ 0 <= x <= 1) -> (forall t, In t sources -> exists x, t = [x] /\ 0 <= x <= 1) -> in_range targets sources.
Proof.
  intros H1 H2 t s Ht Hs. destruct (H1 t Ht) as [x [-> Hx]]. destruct (H2 s Hs) as [y [-> Hy]]. rewrite distance_1. pose proof big.
  assert (Rabs (x - y) * Rabs (x - y) <= 1 * 1); [|lra]. pose proof (Rabs_pos (x - y)). assert (Rabs (x - y) <= 1) by (apply Rabs_le; lra). apply Rmult_le_compat; lra.
Qed.
Lemma ex_cells : quad_cell 2 1 ex_coarse /\ (forall ch, In ch ex_children -> quad_cell 2 1 ch).
Proof. split; [split; [reflexivity|]; intros p [<-|[<-|[]]]; reflexivity|]. intros ch [<-|[<-|[]]]; (split; [reflexivity|]; intros p [<-|[<-|[]]]; reflexivity). Qed.
Lemma ex_small : in_range (concat ex_children) ex_coarse /\ in_range ex_coarse (concat ex_children).
Proof.
  assert (forall t, In t ex_coarse -> exists x, t = [x] /\ 0 <= x <= 1) as A by (intros t [<-|[<-|[]]]; eexists; (split; [reflexivity|lra])).
  assert (forall t, In t (concat ex_children) -> exists x, t = [x] /\ 0 <= x <= 1) as B by (intros t [<-|[<-|[<-|[<-|[]]]]]; eexists; (split; [reflexivity|lra])).
  split; apply in_range_small; assumption.
Qed.
Lemma ex_pairing k c i j row f : nth_error ex_coarse k = Some c -> first_nearest_child ex_children c i j -> nth_error ex_children i = Some row -> nth_error row j = Some f -> first_nearest ex_coarse f k.
Proof.
  intros Ek [row' [s [E1 [E2 [M F]]]]] Ei Ej. assert (row' = row) as -> by congruence. assert (s = f) as -> by congruence. clear F.
  pose proof (M [[1/10]; [4/10]] [1/10] ltac:(cbn; auto) ltac:(cbn; auto)) as M1. pose proof (M [[6/10]; [9/10]] [9/10] ltac:(cbn; auto) ltac:(cbn; auto)) as M2.
  destruct k as [|[|k]]; [| |destruct k; discriminate Ek]; cbn in Ek; injection Ek as <-;
    destruct i as [|[|i]]; try (destruct i; discriminate E1); cbn in E1; injection E1 as <-;
    destruct j as [|[|j]]; try (destruct j; discriminate E2); cbn in E2; injection E2 as <-; repeat rewrite distance_1 in M1; repeat rewrite distance_1 in M2;
    try (exfalso; revert M1 M2; unfold Rabs; repeat destruct (Rcase_abs _); lra).
  - exists [2/10]. split; [reflexivity|]. split; [|intros k' s' L; lia]. intros s' [<-|[<-|[]]]; rewrite !distance_1; unfold Rabs; repeat destruct (Rcase_abs _); lra.
  - exists [8/10]. split; [reflexivity|]. split.
    + intros s' [<-|[<-|[]]]; rewrite !distance_1; unfold Rabs; repeat destruct (Rcase_abs _); lra.
    + intros k' s' L E. assert (k' = 0%nat) as -> by lia. cbn in E. injection E as <-. rewrite !distance_1; unfold Rabs; repeat destruct (Rcase_abs _); lra.
Qed.

(** Refining and then coarsening can lose a value: the two children's points are all nearest to the first coarse point. *)
Definition far_coarse : list (list float) := [[0x1p-1%float]; [0x1p2%float]].
Definition far_children : list (list (list float)) := [[[0%float]; [0x1p-1%float]]].
Lemma far_lost : (do fine <- coarse_to_fine (N := FNum) 0%nat far_coarse far_children [7; 8]%nat; fine_to_coarse (N := FNum) far_coarse far_children fine) = Ok [7; 7]%nat.
Proof. vmrefl. Qed.
(** A NaN coordinate: undefined behaviour. *)
Lemma nan_UB : coarse_to_fine (N := FNum) 0%nat [[0x1p-1%float]] [[[nan]]] [7]%nat = UB.
Proof. vmrefl. Qed.
(** A NaN distance is passed over when another one is usable. *)
Lemma nan_passed : coarse_to_fine (N := FNum) 0%nat [[nan]; [0x1p3%float]] [[[0%float]; [0x1p0%float]]] [7; 8]%nat = Ok [[8; 8]]%nat.
Proof. vmrefl. Qed.

(** Timers *)
Local Open Scope Z_scope.
Definition at_ns (t : Z) : cpu := mkcpu t t 0.
Definition busy_clock (i : nat) : cpu := at_ns (Z.of_nat i).
Lemma busy_monotone : monotone busy_clock.
Proof. intros i j L. unfold cle, busy_clock. cbn. lia. Qed.
Definition busy_step : ens_step := mkstep true true 2 [3; 2]%nat true true true.
