(** StabilitySpec.v -- cooling without sources when the material laws do not depend on the temperature: heat exchanged, limits on the time step, runs. *)
From Coq Require Import Reals List Bool String ZArith Lra.
From Verif Require Import Base MaterialModel MaterialSpec InputModel HeatModel HeatSpec.
Import ListNotations.
Open Scope R_scope.

(** Material and boundary laws at the points of the mesh. *)
Definition frozen := nat -> nat -> point_law RNum.
Definition frozen_faces := nat -> nat -> face_law RNum.
(** Heat exchanged between two fields: conduction in the cells, convection through the boundary of the active domain. *)
Definition conducted (dim3 : bool) (m : heat_mesh RNum) (P : frozen) (u z : nat -> R) : R :=
  Sum (indexed (m_cells m)) (fun ic => Sum (indexed (c_quads (snd ic))) (fun iq => let k := P (fst ic) (fst iq) in
    h_jxw (snd iq) * - dot (conduction (N := RNum) dim3 (pl_inv k) (pl_kx k) (pl_ky k) (pl_kz k) (pl_cos k) (pl_sin k) (gradient (m_C m) (snd ic) (snd iq) u)) (gradient (m_C m) (snd ic) (snd iq) z))).
Definition convected (m : heat_mesh RNum) (Q : frozen_faces) (u z : nat -> R) : R :=
  Sum (indexed (m_faces m)) (fun jf => if on_boundary (snd jf) then Sum (indexed (c_quads (active_side (snd jf)))) (fun iq => let k := Q (fst jf) (fst iq) in
    h_jxw (snd iq) * (fl_inv k * (if has_flag (hf_type (snd jf)) convective then fl_h k else 0)) *
      (field (m_C m) (active_side (snd jf)) (snd iq) u * field (m_C m) (active_side (snd jf)) (snd iq) z)) else 0).
Definition exchange (dim3 ad : bool) (m : heat_mesh RNum) (P : frozen) (Q : frozen_faces) (u z : nat -> R) : R :=
  conducted dim3 m P u z + (if ad then 0 else convected m Q u z).

(** The laws do not depend on the temperature. *)
Definition steady (K : laws RNum) (P : frozen) (F : face_laws RNum) (Q : frozen_faces) : Prop :=
  (forall i q T, K i q T = P i q) /\ (forall i q T, F i q T = Q i q).
(** No radiation, and the air has the temperature [Tinf] everywhere. *)
Definition aired (m : heat_mesh RNum) (Q : frozen_faces) (Tinf : R) : Prop :=
  forall j f, In (j, f) (indexed (m_faces m)) -> on_boundary f = true ->
    has_flag (hf_type f) radiative = false /\ Forall (fun q : hquad RNum => 0 <= h_jxw q) (c_quads (active_side f)) /\
    forall q, 0 <= fl_inv (Q j q) /\ 0 <= fl_h (Q j q) /\ (has_flag (hf_type f) convective = true -> (fl_conv (Q j q) : R) = Tinf).
Definition cooled (dim3 ad : bool) (m : heat_mesh RNum) (P : frozen) (Q : frozen_faces) (Tinf : R) : Prop :=
  conducting dim3 m (fun i q _ => P i q) /\ (ad = false -> aired m Q Tinf).
(** Difference with the temperature [Tinf]; its size, weighted with the masses of the nodes. *)
Definition deviation (Tinf : R) (y : list R) : nat -> R := fun j => entry y j - Tinf.
Definition size2 (m : heat_mesh RNum) (z : nat -> R) : R := mass_product m z z.
(** No field exchanges heat faster than the rate [lam]; every field (with mean zero if there is no way out) exchanges it at least at the rate [mu]. *)
Definition rate_at_most dim3 ad m P Q (lam : R) : Prop := forall z, exchange dim3 ad m P Q z z <= lam * size2 m z.
Definition rate_at_least dim3 ad m P Q (mu : R) : Prop := forall z, (ad = true -> integral (m_C m) (m_mass m) z = 0) -> mu * size2 m z <= exchange dim3 ad m P Q z z.
(** Largest product of time step and rate. *)
Definition limit (s : scheme) : R := match s with ForwardEuler => 199/100 | RungeKutta3 => 5/2 | RungeKutta4 => 11/4 end.

(** A run that cools: any number of steps, the laws may change from one step to the next, the entries of hanging nodes may be reset. *)
Inductive cooling_run (dim3 ad : bool) (s : scheme) (m : heat_mesh RNum) (Tinf mu : R) : R -> list R -> R -> list R -> Prop :=
| cr_stop : forall t y, cooling_run dim3 ad s m Tinf mu t y t y
| cr_hanging : forall t y y' t2 y2, List.length y' = List.length y -> (forall k, free m k -> entry y' k = entry y k) ->
    cooling_run dim3 ad s m Tinf mu t y' t2 y2 -> cooling_run dim3 ad s m Tinf mu t y t2 y2
| cr_step : forall t dt y t1 y1 t2 y2 (K : laws RNum) (F : face_laws RNum) (P : frozen) (Q : frozen_faces) (lam : R),
    steady K P F Q -> cooled dim3 ad m P Q Tinf -> rate_at_most dim3 ad m P Q lam -> rate_at_least dim3 ad m P Q mu -> 0 <= dt -> dt * lam <= limit s ->
    evolve (N := RNum) s (fun _ _ v => evaluate (N := RNum) dim3 false ad m K F v) t dt y = (t1, y1) ->
    cooling_run dim3 ad s m Tinf mu t1 y1 t2 y2 -> cooling_run dim3 ad s m Tinf mu t y t2 y2.

(** The same step, [n] times. *)
Fixpoint many (s : scheme) (f : nat -> R -> list R -> list R) (dt : R) (n : nat) (ty : R * list R) : R * list R :=
  match n with O => ty | S n' => let ty1 := many s f dt n' ty in evolve (N := RNum) s f (fst ty1) dt (snd ty1) end.
(** The heat exchanged by a node with all the nodes, in absolute value. *)
Definition row_sum (dim3 ad : bool) (m : heat_mesh RNum) (P : frozen) (Q : frozen_faces) (i : nat) : R :=
  Sum (seq 0 (m_n m)) (fun j => Rabs (exchange dim3 ad m P Q (hat i) (hat j))).

(** ** Rates from the cells *)
(** The mass of a local degree of freedom, the gradient from local values, the heat exchanged in a cell. *)
Definition local_mass_of (c : hcell RNum) (i : nat) : R := Sum (c_quads c) (fun q => h_jxw q * nth i (h_values q : list R) 0).
Definition local_gradient (q : hquad RNum) (v : nat -> R) : pt RNum :=
  let g (i : nat) : pt RNum := nth i (h_grads q) (mkpt (N := RNum) 0 0 0) in
  mkpt (N := RNum) (Sum (seq 0 (List.length (h_grads q))) (fun i => px (g i) * v i))
                   (Sum (seq 0 (List.length (h_grads q))) (fun i => py (g i) * v i))
                   (Sum (seq 0 (List.length (h_grads q))) (fun i => pz (g i) * v i)).
Definition conducted_in (dim3 : bool) (P : nat -> point_law RNum) (c : hcell RNum) (v : nat -> R) : R :=
  Sum (indexed (c_quads c)) (fun iq => let k := P (fst iq) in
    h_jxw (snd iq) * - dot (conduction (N := RNum) dim3 (pl_inv k) (pl_kx k) (pl_ky k) (pl_kz k) (pl_cos k) (pl_sin k) (local_gradient (snd iq) v)) (local_gradient (snd iq) v)).
(** A cell of the operator and the same cell of the mass matrix. *)
Definition cell_at_most (dim3 : bool) (P : nat -> point_law RNum) (lam : R) (c cm : hcell RNum) : Prop :=
  c_dofs cm = c_dofs c /\ (forall i, 0 <= local_mass_of cm i) /\
  forall v, conducted_in dim3 P c v <= lam * Sum (seq 0 (List.length (c_dofs c))) (fun i => local_mass_of cm i * (v i * v i)).
Definition cells_at_most (dim3 : bool) (m : heat_mesh RNum) (P : frozen) (lam : R) : Prop :=
  List.length (m_cells m) = List.length (m_mass m) /\
  forall i c cm, In (i, (c, cm)) (indexed (combine (m_cells m) (m_mass m))) -> cell_at_most dim3 (P i) lam c cm.
(** The weights of the hanging nodes. *)
Definition positive_weights (C : constraints RNum) : Prop := Forall (fun e => Forall (fun w => 0 <= (snd w : R)) (snd e)) C.

(** ** Linear elements on boxes *)
(** Corners, x first; the shape functions on the unit interval; two Gauss points for the operator, the corners for the mass. *)
Definition lin (b : bool) (x : R) : R := if b then x else 1 - x.
Definition slope (b : bool) : R := if b then 1 else -1.
Definition gauss : list R := [1/2 - / (2 * sqrt 3); 1/2 + / (2 * sqrt 3)].
Definition ends : list R := [0; 1].
Definition corners3 : list (bool * bool * bool) :=
  [(false, false, false); (true, false, false); (false, true, false); (true, true, false); (false, false, true); (true, false, true); (false, true, true); (true, true, true)].
Definition point3 (dx dy dz x y z : R) : hquad RNum :=
  mkhq (N := RNum) (dx * dy * dz / 8)
    (map (fun c => lin (fst (fst c)) x * lin (snd (fst c)) y * lin (snd c) z) corners3)
    (map (fun c => mkpt (N := RNum) (slope (fst (fst c)) / dx * lin (snd (fst c)) y * lin (snd c) z)
                                    (lin (fst (fst c)) x * (slope (snd (fst c)) / dy) * lin (snd c) z)
                                    (lin (fst (fst c)) x * lin (snd (fst c)) y * (slope (snd c) / dz))) corners3).
Definition brick (points : list R) (dx dy dz : R) (dofs : list nat) : hcell RNum :=
  mkhc (N := RNum) dofs (flat_map (fun z => flat_map (fun y => map (fun x => point3 dx dy dz x y z) points) points) points).
(** In two dimensions (x and z). *)
Definition corners2 : list (bool * bool) := [(false, false); (true, false); (false, true); (true, true)].
Definition point2 (dx dz x z : R) : hquad RNum :=
  mkhq (N := RNum) (dx * dz / 4)
    (map (fun c => lin (fst c) x * lin (snd c) z) corners2)
    (map (fun c => mkpt (N := RNum) (slope (fst c) / dx * lin (snd c) z) 0 (lin (fst c) x * (slope (snd c) / dz))) corners2).
Definition rectangle (points : list R) (dx dz : R) (dofs : list nat) : hcell RNum :=
  mkhc (N := RNum) dofs (flat_map (fun z => map (fun x => point2 dx dz x z) points) points).
(** A mesh of boxes with edges of at least [h]. *)
Definition operator_points (lobatto : bool) : list R := if lobatto then ends else gauss.
Definition box (dim3 lobatto : bool) (h : R) (c cm : hcell RNum) : Prop :=
  if dim3 then exists dx dy dz dofs, h <= dx /\ h <= dy /\ h <= dz /\ List.length dofs = 8%nat /\ c = brick (operator_points lobatto) dx dy dz dofs /\ cm = brick ends dx dy dz dofs
  else exists dx dz dofs, h <= dx /\ h <= dz /\ List.length dofs = 4%nat /\ c = rectangle (operator_points lobatto) dx dz dofs /\ cm = rectangle ends dx dz dofs.
Definition boxes (dim3 lobatto : bool) (h : R) (m : heat_mesh RNum) : Prop := Forall2 (box dim3 lobatto h) (m_cells m) (m_mass m).
Definition box_factor (dim3 lobatto : bool) : R := if lobatto then (if dim3 then 12 else 8) else 4.
(** The diffusivity is at most [alpha]. *)
Definition diffusivity_at_most (P : frozen) (alpha : R) : Prop :=
  forall i q, let k := P i q in 0 <= pl_inv k /\ 0 <= pl_kx k /\ 0 <= pl_ky k /\ 0 <= pl_kz k /\ (pl_cos k : R) * pl_cos k + pl_sin k * pl_sin k = 1 /\
    (pl_inv k : R) * pl_kx k <= alpha /\ (pl_inv k : R) * pl_ky k <= alpha /\ (pl_inv k : R) * pl_kz k <= alpha.
