(** SupportProperties.v -- C87: which loads a body can carry. *)
From Coq Require Import Reals List Bool Lia Lra.
From Verif Require Import Base CellModel InputModel AssimilationSpec HeatModel HeatSpec ElementModel ElementSpec StressModel StressSpec ElasticModel ElasticSpec StabilitySpec SupportSpec SupportProofs SupportProofs2 SupportProofs4 SupportExamples.
Import ListNotations.
Local Open Scope R_scope.

(** * C87 *)
(** A load has an exact solution if and only if its body forces do no work on displacements without strain; the temperature does not matter for that. *)
Theorem C87_exists : forall (d n : nat) (references : list R) (C : constraints RNum) (cells : list (ecell RNum)) (l : load RNum), closed_ok n C -> Forall (cell_ok d n) cells -> elastic_ok d cells -> load_ok d n references cells l ->
  (exists u, exact_solution d n C cells (work_of d references C cells l) u) <-> (forall v, rigid d C cells v -> force_work d (ld_forces l) C cells v = 0).
Proof. exact (fun d n references C cells l Cok Hc El => load_exists d n references C cells Cok Hc El l). Qed.
Print Assumptions C87_exists.
(** Heating alone always has one, clamped or not. *)
Theorem C87_heating : forall (d n : nat) (references : list R) (C : constraints RNum) (cells : list (ecell RNum)) (l : load RNum), closed_ok n C -> Forall (cell_ok d n) cells -> elastic_ok d cells -> load_ok d n references cells l ->
  ld_forces l = [] -> exists u, exact_solution d n C cells (work_of d references C cells l) u.
Proof. exact (fun d n references C cells l Cok Hc El => thermal_exists d n references C cells Cok Hc El l). Qed.
Print Assumptions C87_heating.
(** A supported body has exactly one under every load. *)
Theorem C87_supported : forall (d n : nat) (references : list R) (C : constraints RNum) (cells : list (ecell RNum)) (l : load RNum), closed_ok n C -> Forall (cell_ok d n) cells -> elastic_ok d cells -> load_ok d n references cells l ->
  supported d n C cells -> exists u, exact_solution d n C cells (work_of d references C cells l) u /\ forall w, exact_solution d n C cells (work_of d references C cells l) w -> w = u.
Proof. exact (fun d n references C cells l Cok Hc El => supported_exists d n references C cells Cok Hc El l). Qed.
Print Assumptions C87_supported.
(** Boxes with two or more points along each edge that reach a clamped face through sides of boxes, also across hanging nodes, are supported. *)
Theorem C87_held : forall (d n : nat) (C : constraints RNum) (cells : list (ecell RNum)), d = 2%nat \/ d = 3%nat -> closed_ok n C ->
  (forall j, (j < n)%nat -> ~ In j (map fst C) -> held d C cells j) -> supported d n C cells.
Proof. exact held_supported. Qed.
Print Assumptions C87_held.
(** Exact solutions are the displacements of least potential energy, and they can be superposed. *)
Theorem C87_energy : forall (d n : nat) (references : list R) (C : constraints RNum) (cells : list (ecell RNum)) (l : load RNum) (u : nat -> R), closed_ok n C -> Forall (cell_ok d n) cells -> elastic_ok d cells -> load_ok d n references cells l ->
  (balances d C cells (work_of d references C cells l) u <-> forall v, potential d C cells (work_of d references C cells l) u <= potential d C cells (work_of d references C cells l) v).
Proof. exact (fun d n references C cells l u Cok Hc El => load_potential d n references C cells Cok Hc El l u). Qed.
Print Assumptions C87_energy.
Theorem C87_superposition : forall (d n : nat) (C : constraints RNum) (cells : list (ecell RNum)) (V W : (nat -> R) -> R) (u w : list R) (s : R),
  exact_solution d n C cells V u -> exact_solution d n C cells W w -> exact_solution d n C cells (fun v => V v + s * W v) (map (fun j => HeatSpec.entry u j + s * HeatSpec.entry w j) (seq 0 n)).
Proof. exact superposition. Qed.
Print Assumptions C87_superposition.
(** A load that pushes along a displacement without strain makes every solve throw, whatever the linear solver does: *)
Theorem C87_refused : forall (d n : nat) (references : list R) (C : constraints RNum) (cells : list (ecell RNum)) (l : load RNum) (s : mstate RNum) (v : nat -> R), closed_ok n C -> Forall (cell_ok d n) cells -> d = 2%nat \/ d = 3%nat ->
  load_ok d n references cells l -> state_ok d n C cells s -> rigid d C cells v -> accuracy * load_size n (work_of d references C cells l) * size n v < Rabs (work_of d references C cells l v) ->
  solve_load (N := RNum) d n references C cells s l = Throw.
Proof. exact (fun d n references C cells l s v Cok Hc => refused d n references C cells Cok Hc l s v). Qed.
Print Assumptions C87_refused.
(** gravity on a body that nothing holds. *)
Theorem C87_falling : forall (d n : nat) (references : list R) (C : constraints RNum) (cells : list (ecell RNum)) (l : load RNum) (s : mstate RNum) (v : nat -> R), closed_ok n C -> Forall (cell_ok d n) cells -> elastic_ok d cells -> d = 2%nat \/ d = 3%nat ->
  load_ok d n references cells l -> state_ok d n C cells s -> ld_forces l = [gravity (N := RNum) d] -> lift d C cells v -> accuracy * load_size n (work_of d references C cells l) * size n v < total_weight cells ->
  (forall u, ~ exact_solution d n C cells (work_of d references C cells l) u) /\ solve_load (N := RNum) d n references C cells s l = Throw.
Proof. exact (fun d n references C cells l s v Cok Hc El => falling d n references C cells Cok Hc El l s v). Qed.
Print Assumptions C87_falling.

(** Two squares, one clamped at its lower side: supported. *)
Example C87_clamped : closed_ok 12 ground /\ mechanical_constraints (N := RNum) [] [clamped] [mkbf true 0 [0; 1; 2; 3]%nat] = ground /\ Forall (cell_ok 2 12) squares /\ elastic_ok 2 squares /\ load_ok 2 12 [20; 5] squares own_weight /\ supported 2 12 ground squares.
Proof. exact (conj ground_ok (conj ground_clamped (conj squares_ok (conj squares_elastic (conj squares_load squares_supported))))). Qed.
(** Without the clamp their weight makes the solve throw. *)
Example C87_free : solve_load (N := RNum) 2 12 [20; 5] [] squares (mkms (N := RNum) (repeat (repeat (mkpoint (N := RNum) (zero_tensor 2 1) (zero_tensor 2 1) 1) 4) 2) None) own_weight = Throw.
Proof. exact (proj2 (C87_falling 2 12 [20; 5] [] squares own_weight _ up free_ok squares_ok squares_elastic (or_introl eq_refl) squares_load (squares_state []) eq_refl squares_lift squares_fall)). Qed.
