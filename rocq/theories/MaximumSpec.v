(** MaximumSpec.v -- no overshoot: when conduction and convection keep the temperatures between their extremes. *)
From Coq Require Import Reals List Bool String ZArith Lra.
From Verif Require Import Base MaterialModel MaterialSpec InputModel HeatModel HeatSpec StabilitySpec.
Import ListNotations.
Open Scope R_scope.

(** Heat flows from the warmer to the colder of two nodes, and a node does not give away more than it has in a time step; a warm node does not take
    heat from the air. *)
Definition downhill (dim3 ad : bool) (m : heat_mesh RNum) (P : frozen) (Q : frozen_faces) (dt : R) : Prop :=
  (forall i j, free m i -> free m j -> i <> j -> exchange dim3 ad m P Q (hat i) (hat j) <= 0) /\
  (forall i, free m i -> dt * exchange dim3 ad m P Q (hat i) (hat i) <= nodal_mass m i) /\
  (ad = false -> forall i, free m i -> 0 <= exchange dim3 ad m P Q (hat i) (fun _ => 1)).
Definition between (m : heat_mesh RNum) (lo hi : R) (y : list R) : Prop := forall j, free m j -> lo <= entry y j <= hi.
(** The laws at the temperatures [y]. *)
Definition at_temperatures (m : heat_mesh RNum) (K : laws RNum) (P : frozen) (F : face_laws RNum) (Q : frozen_faces) (y : list R) : Prop :=
  (forall i c q x, In (i, c) (indexed (m_cells m)) -> In (q, x) (indexed (c_quads c)) -> K i q (field (m_C m) c x (entry y)) = P i q) /\
  (forall j f q x, In (j, f) (indexed (m_faces m)) -> In (q, x) (indexed (c_quads (active_side f))) -> F j q (field (m_C m) (active_side f) x (entry y)) = Q j q).
(** With forward Euler the laws may depend on the temperature. *)
Definition laws_of_step (s : scheme) (m : heat_mesh RNum) K P F Q (y : list R) : Prop :=
  match s with ForwardEuler => at_temperatures m K P F Q y | _ => steady K P F Q end.
(** The temperature of the air, if there is any, is between the extremes. *)
Definition air_between (ad : bool) (m : heat_mesh RNum) (Q : frozen_faces) (lo hi : R) : Prop := ad = false -> exists Tinf, aired m Q Tinf /\ lo <= Tinf <= hi.
Inductive downhill_run (dim3 ad : bool) (s : scheme) (m : heat_mesh RNum) (lo hi : R) : R -> list R -> R -> list R -> Prop :=
| dr_stop : forall t y, downhill_run dim3 ad s m lo hi t y t y
| dr_hanging : forall t y y' t2 y2, List.length y' = List.length y -> (forall k, free m k -> entry y' k = entry y k) ->
    downhill_run dim3 ad s m lo hi t y' t2 y2 -> downhill_run dim3 ad s m lo hi t y t2 y2
| dr_step : forall t dt y t1 y1 t2 y2 (K : laws RNum) (F : face_laws RNum) (P : frozen) (Q : frozen_faces),
    laws_of_step s m K P F Q y -> air_between ad m Q lo hi -> 0 <= dt -> downhill dim3 ad m P Q dt ->
    evolve (N := RNum) s (fun _ _ v => evaluate (N := RNum) dim3 false ad m K F v) t dt y = (t1, y1) ->
    downhill_run dim3 ad s m lo hi t1 y1 t2 y2 -> downhill_run dim3 ad s m lo hi t y t2 y2.

(** ** Boxes *)
(** Cubes (squares in two dimensions) with Gauss points, boxes with Gauss-Lobatto points. *)
Definition even_box (dim3 lobatto : bool) (h : R) (c cm : hcell RNum) : Prop :=
  NoDup (c_dofs c) /\
  if dim3 then exists dx dy dz dofs, h <= dx /\ h <= dy /\ h <= dz /\ (lobatto = false -> dx = dy /\ dy = dz) /\ List.length dofs = 8%nat /\ c = brick (operator_points lobatto) dx dy dz dofs /\ cm = brick ends dx dy dz dofs
  else exists dx dz dofs, h <= dx /\ h <= dz /\ (lobatto = false -> dx = dz) /\ List.length dofs = 4%nat /\ c = rectangle (operator_points lobatto) dx dz dofs /\ cm = rectangle ends dx dz dofs.
Definition even_boxes (dim3 lobatto : bool) (h : R) (m : heat_mesh RNum) : Prop := Forall2 (even_box dim3 lobatto h) (m_cells m) (m_mass m).
(** Isotropic, with one diffusivity of at most [alpha] in every cell. *)
Definition isotropic (P : frozen) (alpha : R) : Prop :=
  exists a : nat -> R, (forall i, 0 <= a i <= alpha) /\ forall i q, let k := P i q in
    (pl_cos k : R) * pl_cos k + pl_sin k * pl_sin k = 1 /\ (pl_inv k : R) * pl_kx k = a i /\ (pl_inv k : R) * pl_ky k = a i /\ (pl_inv k : R) * pl_kz k = a i.
Definition even_factor (dim3 lobatto : bool) : R := if lobatto then (if dim3 then 6 else 4) else 8/3.
