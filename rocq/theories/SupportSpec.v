(** SupportSpec.v -- which loads a body can carry: rigid displacements, supported bodies, potential energy. *)
From Coq Require Import Reals List Bool.
From Verif Require Import Base AssimilationSpec InputModel HeatModel HeatSpec ElementModel ElementSpec StressModel StressSpec ElasticModel ElasticSpec StabilitySpec RadiationSpec.
Import ListNotations.
Local Open Scope R_scope.

(** Displacements without strain in the solid cells. *)
Definition rigid (d : nat) (C : constraints RNum) (cells : list (ecell RNum)) (v : nat -> R) : Prop :=
  forall c q a b, In c (solid cells) -> In q (ec_quads c) -> (a < d)%nat -> (b < d)%nat -> cell_strain C c q v a b = 0.
(** The clamped faces and hanging nodes leave no rigid displacement (and every degree of freedom belongs to a solid cell). *)
Definition supported (d n : nat) (C : constraints RNum) (cells : list (ecell RNum)) : Prop :=
  forall v, rigid d C cells v -> forall j, (j < n)%nat -> ~ In j (map fst C) -> v j = 0.
(** Displacements, as vectors, that balance a load exactly. *)
Definition exact_solution (d n : nat) (C : constraints RNum) (cells : list (ecell RNum)) (work : (nat -> R) -> R) (u : list R) : Prop :=
  conforms n C u /\ balances d C cells work (HeatSpec.entry u).
(** Energy of the strain less the work of the loads. *)
Definition potential (d : nat) (C : constraints RNum) (cells : list (ecell RNum)) (work : (nat -> R) -> R) (u : nat -> R) : R := internal_work d C cells u u / 2 - work u.
(** The rigid displacement by one unit along the last axis. *)
Definition lift (d : nat) (C : constraints RNum) (cells : list (ecell RNum)) (v : nat -> R) : Prop :=
  rigid d C cells v /\ forall c q, In c (solid cells) -> In q (ec_quads c) -> cell_value C c q v (d - 1) = 1.
(** The weight of the solid cells. *)
Definition total_weight (cells : list (ecell RNum)) : R := Sum (solid cells) (fun c => Sum (ec_quads c) (fun q : quad RNum => ec_density c * (980665 / 100000) * q_jxw q)).

(** ** Boxes *)
(** Linear displacements on a box: one degree of freedom for each corner and direction; at least two quadrature points along each edge. *)
Definition coordinates (d : nat) (g : pt RNum) : list R := if Nat.eqb d 2 then [px g; pz g] else [px g; py g; pz g].
Definition vector_gradients (d : nat) (q : hquad RNum) : list (list R) := flat_map (fun g => repeat (coordinates d g) d) (h_grads q).
Definition box_corners (d : nat) : nat := if Nat.eqb d 2 then 4 else 8.
Definition elastic_box (d : nat) (c : ecell RNum) : Prop :=
  ec_comps c = List.concat (repeat (seq 0 d) (box_corners d)) /\ List.length (ec_dofs c) = (box_corners d * d)%nat /\
  exists (points : list R) (dx dy dz p q : R), dx <> 0 /\ dy <> 0 /\ dz <> 0 /\ In p points /\ In q points /\ p <> q /\
    map q_grads (ec_quads c) = map (vector_gradients d) (c_quads (if Nat.eqb d 2 then rectangle points dx dz [] else brick points dx dy dz [])).
(** The corners of the sides of a box. *)
Definition box_sides (d : nat) : list (list nat) := map snd (if Nat.eqb d 2 then sides2 1 1 else sides3 1 1 1).
(** Degrees of freedom that cannot move without strain: clamped ones, hanging ones between such, and those of a solid box one side of which is held. *)
Inductive held (d : nat) (C : constraints RNum) (cells : list (ecell RNum)) : nat -> Prop :=
| held_line j l : line_of C j = Some l -> (forall w, In w l -> held d C cells (fst w)) -> held d C cells j
| held_box c side j : In c (solid cells) -> elastic_box d c -> In side (box_sides d) -> (forall k a, In k side -> (a < d)%nat -> held d C cells (nth (k * d + a) (ec_dofs c) O)) -> In j (ec_dofs c) -> held d C cells j.
