(** HeatSpec.v -- what the discrete heat equation means: fields on the mesh, integrals, heat released and lost. *)
From Coq Require Import Reals List Bool String ZArith Lra.
From Verif Require Import Base MaterialModel MaterialSpec InputModel HeatModel.
Import ListNotations.
Open Scope R_scope.

Definition sumR (l : list R) : R := fold_right Rplus 0 l.
Definition Sum {A} (l : list A) (f : A -> R) : R := sumR (map f l).
Definition indexed {A} (l : list A) : list (nat * A) := combine (seq 0 (List.length l)) l.
(** Entry of a vector of temperatures. *)
Definition entry (y : list R) (j : nat) : R := nth j y 0.

(** The value of the field at a node: hanging nodes take the combination of their constraint. *)
Definition nodal (C : constraints RNum) (z : nat -> R) (j : nat) : R :=
  match find (fun e => Nat.eqb (fst e) j) C with None => z j | Some e => Sum (snd e) (fun w => snd w * z (fst w)) end.
(** The field and its gradient at a quadrature point. *)
Definition field (C : constraints RNum) (c : hcell RNum) (q : hquad RNum) (z : nat -> R) : R :=
  Sum (combine (h_values q) (c_dofs c)) (fun p => fst p * nodal C z (snd p)).
Definition gradient (C : constraints RNum) (c : hcell RNum) (q : hquad RNum) (z : nat -> R) : pt RNum :=
  mkpt (N := RNum) (Sum (combine (h_grads q) (c_dofs c)) (fun p => px (fst p) * nodal C z (snd p)))
                   (Sum (combine (h_grads q) (c_dofs c)) (fun p => py (fst p) * nodal C z (snd p)))
                   (Sum (combine (h_grads q) (c_dofs c)) (fun p => pz (fst p) * nodal C z (snd p))).
(** The integral of the field, with the quadrature of the given cells. *)
Definition integral (C : constraints RNum) (cells : list (hcell RNum)) (z : nat -> R) : R :=
  Sum cells (fun c => Sum (c_quads c) (fun q => h_jxw q * field C c q z)).
Definition volume (cells : list (hcell RNum)) : R := Sum cells (fun c => Sum (c_quads c) (fun q => h_jxw q)).

(** Meshes: the shape functions of a cell sum to one and their gradients to zero; the weights of a hanging node sum to one and only involve nodes that
    are not hanging. *)
Definition shape_ok (n : nat) (c : hcell RNum) : Prop :=
  Forall (fun j => (j < n)%nat) (c_dofs c) /\
  Forall (fun q : hquad RNum => List.length (h_values q) = List.length (c_dofs c) /\ List.length (h_grads q) = List.length (c_dofs c) /\
                   Sum (h_values q) (fun v => v : R) = 1 /\
                   Sum (h_grads q) (fun g => px g) = 0 /\ Sum (h_grads q) (fun g => py g) = 0 /\ Sum (h_grads q) (fun g => pz g) = 0) (c_quads c).
Definition constraints_ok (n : nat) (C : constraints RNum) : Prop :=
  NoDup (map fst C) /\
  Forall (fun e => (fst e < n)%nat /\ Forall (fun w => (fst w < n)%nat /\ ~ In (fst w) (map fst C)) (snd e) /\ Sum (snd e) (fun w => snd w) = 1) C.
Definition mesh_ok (m : heat_mesh RNum) : Prop :=
  constraints_ok (m_n m) (m_C m) /\ Forall (shape_ok (m_n m)) (m_cells m) /\ Forall (shape_ok (m_n m)) (m_mass m) /\
  Forall (fun f => shape_ok (m_n m) (hf_inner f) /\ shape_ok (m_n m) (hf_outer f)) (m_faces m).
(** A degree of freedom that is not hanging; the field that is one there and zero at the others. *)
Definition free (m : heat_mesh RNum) (j : nat) : Prop := (j < m_n m)%nat /\ ~ In j (map fst (m_C m)).
Definition hat (j : nat) : nat -> R := fun k => if Nat.eqb k j then 1 else 0.
Definition nodal_mass (m : heat_mesh RNum) (j : nat) : R := integral (m_C m) (m_mass m) (hat j).
Definition massive (m : heat_mesh RNum) : Prop := forall j, free m j -> 0 < nodal_mass m j.

(** The weak form of the heat equation, tested with the field [z]: conduction and sources in the cells, losses through the faces between the active
    domain and the rest, seen from the active side. *)
Definition cell_point (dim3 on : bool) (C : constraints RNum) (K : nat -> R -> point_law RNum) (c : hcell RNum) (y : list R) (z : nat -> R) (iq : nat * hquad RNum) : R :=
  let k := K (fst iq) (field C c (snd iq) (entry y)) in
  h_jxw (snd iq) * (dot (conduction (N := RNum) dim3 (pl_inv k) (pl_kx k) (pl_ky k) (pl_kz k) (pl_cos k) (pl_sin k) (gradient C c (snd iq) (entry y))) (gradient C c (snd iq) z)
    + (if on then pl_inv k * Sum (pl_beams k) (fun b => b : R) else 0) * field C c (snd iq) z).
Definition cells_tested dim3 on C cells (K : laws RNum) (y : list R) (z : nat -> R) : R :=
  Sum (indexed cells) (fun ic => Sum (indexed (c_quads (snd ic))) (cell_point dim3 on C (K (fst ic)) (snd ic) y z)).
Definition on_boundary (f : hface RNum) : bool := xorb (Nat.eqb (hf_first f) 0) (Nat.eqb (hf_second f) 0).
Definition active_side (f : hface RNum) : hcell RNum := if Nat.eqb (hf_first f) 0 then hf_inner f else hf_outer f.
Definition face_point (C : constraints RNum) (F : nat -> R -> face_law RNum) (ty : BinNums.N) (c : hcell RNum) (y : list R) (z : nat -> R) (iq : nat * hquad RNum) : R :=
  let T := field C c (snd iq) (entry y) in let k := F (fst iq) T in
  h_jxw (snd iq) * (fl_inv k * outflux (has_flag ty convective) (has_flag ty radiative) (fl_h k) (fl_conv k) (fl_emissivity k) (fl_rad k) T) * field C c (snd iq) z.
Definition faces_tested C faces (F : face_laws RNum) (y : list R) (z : nat -> R) : R :=
  Sum (indexed faces) (fun jf => if on_boundary (snd jf) then Sum (indexed (c_quads (active_side (snd jf)))) (face_point C (F (fst jf)) (hf_type (snd jf)) (active_side (snd jf)) y z) else 0).
(** Lumped scalar product: the nodal masses weight the products of the nodal values. *)
Definition mass_product (m : heat_mesh RNum) (u v : nat -> R) : R := Sum (seq 0 (m_n m)) (fun j => nodal_mass m j * (u j * v j)).

(** Heat released by the sources divided by density and heat capacity, and the same for what leaves through the boundary of the active domain. *)
Definition released (m : heat_mesh RNum) (K : laws RNum) (y : list R) : R :=
  Sum (indexed (m_cells m)) (fun ic => Sum (indexed (c_quads (snd ic))) (fun iq =>
    let k := K (fst ic) (fst iq) (field (m_C m) (snd ic) (snd iq) (entry y)) in h_jxw (snd iq) * (pl_inv k * Sum (pl_beams k) (fun b => b : R)))).
Definition lost (m : heat_mesh RNum) (F : face_laws RNum) (y : list R) : R :=
  Sum (indexed (m_faces m)) (fun jf => let f := snd jf in if on_boundary f then
    Sum (indexed (c_quads (active_side f))) (fun iq =>
      let T := field (m_C m) (active_side f) (snd iq) (entry y) in let k := F (fst jf) (fst iq) T in
      h_jxw (snd iq) * (fl_inv k * outflux (has_flag (hf_type f) convective) (has_flag (hf_type f) radiative) (fl_h k) (fl_conv k) (fl_emissivity k) (fl_rad k) T))
    else 0).
(** Power of the sources. *)
Definition power_in (cells : list (hcell RNum)) (power : nat -> nat -> R) : R :=
  Sum (indexed cells) (fun ic => Sum (indexed (c_quads (snd ic))) (fun iq => h_jxw (snd iq) * power (fst ic) (fst iq))).
(** Rate of exchange of heat by conduction: minus the sum of the fluxes times the gradients. *)
Definition dissipated (dim3 : bool) (m : heat_mesh RNum) (K : laws RNum) (y : list R) : R :=
  Sum (indexed (m_cells m)) (fun ic => Sum (indexed (c_quads (snd ic))) (fun iq =>
    let k := K (fst ic) (fst iq) (field (m_C m) (snd ic) (snd iq) (entry y)) in
    let g := gradient (m_C m) (snd ic) (snd iq) (entry y) in
    h_jxw (snd iq) * dot (conduction (N := RNum) dim3 (pl_inv k) (pl_kx k) (pl_ky k) (pl_kz k) (pl_cos k) (pl_sin k) g) g)).

(** Physical material laws, positive quadrature weights, and gradients without second component in two dimensions. *)
Definition conducting (dim3 : bool) (m : heat_mesh RNum) (K : laws RNum) : Prop :=
  (forall i q T, let k := K i q T in 0 <= pl_inv k /\ 0 <= pl_kx k /\ 0 <= pl_ky k /\ 0 <= pl_kz k /\ (pl_cos k : R) * pl_cos k + pl_sin k * pl_sin k = 1) /\
  Forall (fun c : hcell RNum => Forall (fun q : hquad RNum => 0 <= h_jxw q /\ (dim3 = false -> Forall (fun g : pt RNum => (py g : R) = 0) (h_grads q))) (c_quads c)) (m_cells m).
(** The device ignores nodes whose mass is at most this number. *)
Definition smallest_mass : R := / 10 ^ 15.

(** The abscissae and weights of the schemes. *)
Definition quadrature (s : scheme) : list (R * R) :=
  match s with
  | ForwardEuler => [(0, 1)]
  | RungeKutta3 => [(0, 1/6); (1/2, 2/3); (1, 1/6)]
  | RungeKutta4 => [(0, 1/6); (1/2, 1/3); (1/2, 1/3); (1, 1/6)]
  end.
Definition order (s : scheme) : nat := match s with ForwardEuler => 1 | RungeKutta3 => 3 | RungeKutta4 => 4 end.
(** The Taylor polynomial of the exponential. *)
Fixpoint taylor (p : nat) (x : R) : R := match p with O => 1 | S p' => taylor p' x + x ^ p / INR (fact p) end.
(** Heat content with a heat capacity per cell. *)
Definition heat_content (C : constraints RNum) (cells : list (hcell RNum)) (rc : nat -> R) (z : nat -> R) : R :=
  Sum (indexed cells) (fun ic => rc (fst ic) * Sum (c_quads (snd ic)) (fun q => h_jxw q * field C (snd ic) q z)).
(** A run without sources and with adiabatic walls: any time steps, any material laws at every evaluation; the entries of hanging nodes may be reset. *)
Inductive adiabatic_run (dim3 : bool) (s : scheme) (m : heat_mesh RNum) : R -> list R -> R -> list R -> Prop :=
| ar_stop : forall t y, adiabatic_run dim3 s m t y t y
| ar_hanging : forall t y y' t2 y2, List.length y' = List.length y -> (forall k, free m k -> entry y' k = entry y k) ->
    adiabatic_run dim3 s m t y' t2 y2 -> adiabatic_run dim3 s m t y t2 y2
| ar_step : forall t dt y t1 y1 t2 y2 (K : nat -> R -> laws RNum) (F : nat -> R -> face_laws RNum),
    evolve (N := RNum) s (fun i t y => evaluate (N := RNum) dim3 false true m (K i t) (F i t) y) t dt y = (t1, y1) ->
    adiabatic_run dim3 s m t1 y1 t2 y2 -> adiabatic_run dim3 s m t y t2 y2.
