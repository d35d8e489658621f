(** MechExamples.v -- concrete cases for C44-C48, C59, C60. *)
From Coq Require Import Reals ZArith QArith Bool List Floats Lia Lra.
From Verif Require Import Base BaseFacts CellModel AssimilationSpec StressModel StressSpec StressProofs StressProofs2 MechModel MechSpec MechProofs MechProofs2 MechProofs3 MechProofs4 ElementModel ElementSpec ElementProofs ElementProofs2.
Import ListNotations.
Local Open Scope R_scope.

(** ** Plasticity *)
Definition mat (h beta : R) : plasticity RNum := mkplast (N := RNum) 1 1 h beta.
Definition rest (k : R) : point RNum := mkpoint (N := RNum) (zero_tensor 3 3) (zero_tensor 3 3) k.
(** Strain with entries x, -x, 0 and xy = x: its trial stress from rest is 2 x times the same, of magnitude 4 x. *)
Definition pull (x : R) : sym RNum := mksym (N := RNum) [x; - x; 0] [x; 0; 0].
Lemma mat_physical h beta : 0 <= h -> 0 <= beta <= 1 -> physical (mat h beta).
Proof. intros. unfold physical, mat. cbn. lra. Qed.
Lemma rest_regular k : 0 < k -> regular 3 3 (rest k).
Proof. intros. unfold regular, rest, shaped, tr, Rsum. cbn. repeat split; lra. Qed.
Lemma pull_shaped x : shaped 3 3 (pull x).
Proof. split; reflexivity. Qed.
Lemma pull_effective h beta k x : 0 <= x -> magnitude (effective (rest k) (trial (mat h beta) (rest k) (pull x))) = 4 * x.
Proof.
  intros Hx. unfold magnitude, contract, effective, trial, hooke, deviator, tadd, tsub, trace, lsum, map2, Rsum. cbn [rest mat pull p_stress p_back lame1 lame2 zero_tensor dg od repeat combine map fst snd fold_left fold_right List.length Z.of_nat RNum nadd nsub nmul ndiv nofZ num].
  transitivity (R_sqrt.sqrt (Rsqr (4 * x))); [|rewrite sqrt_Rsqr by lra; reflexivity]. f_equal. unfold Rsqr. cbn. field.
Qed.
Lemma kinematic_bad : let m := mat 10 0 in ~ admissible (update_point m (rest 1) (pull (13 / 4))).
Proof.
  intros m. assert (physical m) as PH by (apply mat_physical; lra). assert (regular 3 3 (rest 1)) as RG by (apply rest_regular; lra).
  pose proof (pull_effective 10 0 1 (13 / 4) ltac:(lra)) as PE. fold m in PE.
  assert (p_yield (rest 1) <= magnitude (effective (rest 1) (trial m (rest 1) (pull (13 / 4))))) as L by (rewrite PE; cbn; lra).
  unfold admissible. rewrite (new_distance 3 3 m (rest 1) (pull (13 / 4)) ltac:(lia) PH RG (pull_shaped _) L). rewrite (proj2 (proj2 (plastic_entries 3 3 m (rest 1) (pull (13 / 4)) RG (pull_shaped _) L))).
  rewrite PE. unfold m, mat, rest. cbn [p_yield lame1 lame2 plastic_modulus iso_hardening num RNum]. rewrite Rabs_left; lra.
Qed.

(** ** Elements: one quadrature point, one degree of freedom per component, gradients of the coordinates. *)
Definition unit_quad (d : nat) : quad RNum :=
  mkquad (N := RNum) 1 (map (fun i => map (fun j => if Nat.eqb i j then 1 else 0) (seq 0 d)) (seq 0 d)) (repeat 1 d) [1].
Definition unit_comps (d : nat) : list nat := seq 0 d.
Lemma unit_element d : d = 2%nat \/ d = 3%nat -> element d d (unit_comps d) [unit_quad d].
Proof. intros [-> | ->]; (split; [reflexivity|]; split; [repeat constructor; lia|]; repeat constructor). Qed.
Lemma unit_gradient d (beta : R) a b : d = 2%nat \/ d = 3%nat -> (a < d)%nat -> (b < d)%nat -> gradient d (unit_comps d) (unit_quad d) (fun _ => beta) a b = if Nat.eqb a b then beta else 0.
Proof. intros [-> | ->] Ha Hb; destruct a as [|[|[|]]]; try lia; destruct b as [|[|[|]]]; try lia; unfold gradient, Rsum_to, Rsum; cbn; lra. Qed.

(** ** Two cells of two degrees of freedom sharing degree of freedom 1, one process.  The first is solid and has been displaced, the
    second solidifies now. *)
Local Open Scope nat_scope.
Definition solid_th : thermal_cell := mkth 0x1p0%float true 0x1p0%float.
Definition liquid_th : thermal_cell := mkth 0%float true 0x1p0%float.
Definition beam_world : mworld :=
  mkmworld [mkcell [0; 1] 0 true; mkcell [1; 2] 0 false] [[mkmdata [0x1p0%float] [[0x1p1%float]] [[0%float]]; mkmdata [nan] [[0%float]] [[0%float]]]] (fun _ => 0x1p-1%float).
Lemma beam_wf : well_formed 1 1 2 beam_world.
Proof.
  split.
  - intros c [<-|[<-|[]]]; reflexivity.
  - intros c [<-|[<-|[]]]; cbn; lia.
  - intros d [<-|[]]; reflexivity.
  - intros [|[|pos]] m E; cbn in E; try (injection E as <-); try (destruct pos; discriminate); unfold shaped_data; cbn; repeat split; repeat constructor.
Qed.
Definition after_beam : option float :=
  match mech_setup 1 1 2 beam_world [solid_th; solid_th] false true (fun _ => 0) with Ok w => Some (mw_u w 1) | _ => None end.
Lemma beam_lost : after_beam = Some 0%float.
Proof. reflexivity. Qed.
(** The cells in the other order: the displacement survives. *)
Definition beam_world' : mworld :=
  mkmworld [mkcell [1; 2] 0 false; mkcell [0; 1] 0 true] [[mkmdata [nan] [[0%float]] [[0%float]]; mkmdata [0x1p0%float] [[0x1p1%float]] [[0%float]]]] (fun _ => 0x1p-1%float).
Lemma beam_kept : match mech_setup 1 1 2 beam_world' [solid_th; solid_th] false true (fun _ => 0) with Ok w => Some (mw_u w 1) | _ => None end = Some 0x1p-1%float.
Proof. reflexivity. Qed.
