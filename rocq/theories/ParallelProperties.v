(** ParallelProperties.v -- C85: processes, distribution and numbering do not change the temperatures. *)
From Coq Require Import Reals QArith List Bool Floats.
From Verif Require Import Base MaterialModel InputModel HeatModel HeatSpec HeatProofs HeatExamples ParallelModel ParallelSpec ParallelProofs ParallelProofs2 ParallelExamples.
Import ListNotations.
Open Scope R_scope.

(** * C85 *)
(** However the mesh is distributed, the processes together get the rates of one process, whatever the entries hold that they do not store. *)
Theorem C85_same : forall (dim3 on ad : bool) (m : heat_mesh RNum) (K : laws RNum) (F : face_laws RNum) (y : list R) (ss : list (share RNum)) (other other' : share RNum -> list R),
  mesh_ok m -> distributes m ss -> List.length y = m_n m ->
  parallel_evaluate (N := RNum) dim3 on ad (m_n m) (m_C m) K F other other' ss y = evaluate (N := RNum) dim3 on ad m K F y.
Proof. intros dim3 on ad m K F y ss other other' A B L. exact (parallel_same dim3 on ad m K F y ss A B L other other'). Qed.
Print Assumptions C85_same.
(** So whole runs agree for each scheme, also if the distribution changes between evaluations. *)
Theorem C85_steps : forall (m : heat_mesh RNum) (s : scheme) (dim3 ad : bool) (on : nat -> nat -> R -> bool) (K : nat -> nat -> R -> laws RNum) (F : nat -> nat -> R -> face_laws RNum)
  (other other' : nat -> nat -> R -> share RNum -> list R) (ss : nat -> nat -> R -> list (share RNum)) (dts : list R) (t : R) (y : list R),
  mesh_ok m -> (forall k i t, distributes m (ss k i t)) -> List.length y = m_n m ->
  steps s (fun k i t v => parallel_evaluate (N := RNum) dim3 (on k i t) ad (m_n m) (m_C m) (K k i t) (F k i t) (other k i t) (other' k i t) (ss k i t) v) dts t y =
  steps s (fun k i t v => evaluate (N := RNum) dim3 (on k i t) ad m (K k i t) (F k i t) v) dts t y.
Proof. exact parallel_steps. Qed.
Print Assumptions C85_steps.
(** The printed heat is that of all processes. *)
Theorem C85_heat_input : forall (m : heat_mesh RNum) (power : nat -> nat -> R) (ss : list (share RNum)), mesh_ok m -> distributes m ss ->
  parallel_heat (N := RNum) power ss = heat_input (N := RNum) (m_cells m) power.
Proof. exact parallel_heat_same. Qed.
Print Assumptions C85_heat_input.
(** The numbering of the degrees of freedom, the order of the cells, of the faces and of the constraints do not matter: the same field gets the same rates. *)
Theorem C85_numbering : forall (dim3 on ad : bool) (m m' : heat_mesh RNum) (K K' : laws RNum) (F F' : face_laws RNum) (y y' : list R) (p a b : nat -> nat),
  mesh_ok m -> mesh_ok m' -> renumbered p a b m m' -> (forall i q T, K' (a i) q T = K i q T) -> (forall i q T, F' (b i) q T = F i q T) -> same_field p (m_n m) y y' ->
  same_field p (m_n m) (evaluate (N := RNum) dim3 on ad m K F y) (evaluate (N := RNum) dim3 on ad m' K' F' y').
Proof. exact renumber_rate. Qed.
Print Assumptions C85_numbering.
Theorem C85_numbering_steps : forall (s : scheme) (dim3 ad : bool) (m m' : heat_mesh RNum) (p a b : nat -> nat) (on : nat -> nat -> R -> bool) (K K' : nat -> nat -> R -> laws RNum)
  (F F' : nat -> nat -> R -> face_laws RNum) (dts : list R) (t : R) (y y' : list R),
  mesh_ok m -> mesh_ok m' -> renumbered p a b m m' -> (forall k i t c q T, K' k i t (a c) q T = K k i t c q T) -> (forall k i t c q T, F' k i t (b c) q T = F k i t c q T) ->
  same_field p (m_n m) y y' ->
  same_field p (m_n m) (snd (steps s (fun k i t v => evaluate (N := RNum) dim3 (on k i t) ad m (K k i t) (F k i t) v) dts t y))
                       (snd (steps s (fun k i t v => evaluate (N := RNum) dim3 (on k i t) ad m' (K' k i t) (F' k i t) v) dts t y')).
Proof. exact renumber_steps. Qed.
Print Assumptions C85_numbering_steps.
(** In binary64 the same does not hold bit by bit: the processes add in another order. *)
Theorem C85_bitwise_refuted : ~ (forall (n : nat) (K : laws FNum) (F : face_laws FNum) (ss ss' : list (share FNum)) (y : list float), List.length y = n ->
  flat_map sh_cells ss = flat_map sh_cells ss' -> flat_map sh_faces ss = flat_map sh_faces ss' -> flat_map sh_mass ss = flat_map sh_mass ss' -> flat_map sh_owned ss = flat_map sh_owned ss' ->
  (forall s j, In s ss \/ In s ss' -> (j < n)%nat -> In j (sh_owned s) \/ In j (sh_ghosts s)) ->
  parallel_evaluate (N := FNum) false true true n [] K F (fun _ => []) (fun _ => []) ss y = parallel_evaluate (N := FNum) false true true n [] K F (fun _ => []) (fun _ => []) ss' y).
Proof.
  intros H. refine (rounded_differ (H 1%nat three_sources no_losses alone shared [300%float] eq_refl eq_refl eq_refl eq_refl eq_refl _)).
  intros s j I L. apply Nat.lt_1_r in L. subst j. cbn in I. intuition; subst; cbn; auto.
Qed.
Print Assumptions C85_bitwise_refuted.

(** The hypotheses are met: the mesh with a hanging node on two processes, each with ghosts; and with other numbers for nodes, cells and faces. *)
Example C85_met : mesh_ok (mesh3 (N := RNum) convective) /\ distributes (mesh3 convective) (two convective) /\ mesh_ok (mesh3' (N := RNum) convective) /\
  renumbered back turn swap (mesh3 (N := RNum) convective) (mesh3' convective) /\ same_field back 8 [10; 20; 10; 40; 30; 999; 30; 50] [50; 30; 999; 30; 40; 10; 20; 10].
Proof. exact (conj (mesh3_ok _) (conj (two_distributes _) (conj (mesh3'_ok _) (conj (back_renumbers _) same3)))). Qed.
Example C85_values : parallel3 (two (N := QNum) convective) = shown (evaluate (N := QNum) false true false (mesh3 (N := QNum) convective) K4 F3 y3) /\
  parallel3 (forgotten (N := QNum) convective) <> shown (evaluate (N := QNum) false true false (mesh3 (N := QNum) convective) K4 F3 y3).
Proof. exact (conj two_processes ghost_forgotten). Qed.
