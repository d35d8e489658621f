(** ElasticSpec.v -- the mechanical problem in the language of virtual work. *)
From Coq Require Import Reals List Bool.
From Verif Require Import Base AssimilationSpec InputModel HeatModel HeatSpec ElementModel ElementSpec StressModel StressSpec ElasticModel.
Import ListNotations.
Local Open Scope R_scope.

(** Constraints: every constrained degree of freedom once, in terms of unconstrained ones (clamped: no term at all). *)
Definition closed_ok (n : nat) (C : constraints RNum) : Prop :=
  NoDup (map fst C) /\ Forall (fun e => (fst e < n)%nat /\ Forall (fun w => (fst w < n)%nat /\ ~ In (fst w) (map fst C)) (snd e)) C.
Definition cell_ok (d n : nat) (c : ecell RNum) : Prop :=
  element d (List.length (ec_dofs c)) (ec_comps c) (ec_quads c) /\ Forall (fun j => (j < n)%nat) (ec_dofs c).
(** The values of the field [z] at the degrees of freedom of a cell; hanging and clamped ones follow their constraint. *)
Definition local (C : constraints RNum) (z : nat -> R) (c : ecell RNum) (i : nat) : R := nodal C z (nth i (ec_dofs c) O).
Definition solid (cells : list (ecell RNum)) : list (ecell RNum) := filter takes_part cells.
Definition cell_divergence (d : nat) (C : constraints RNum) (c : ecell RNum) (q : quad RNum) (z : nat -> R) : R := divergence d (List.length (ec_dofs c)) (ec_comps c) q (local C z c).
Definition cell_strain (C : constraints RNum) (c : ecell RNum) (q : quad RNum) (z : nat -> R) (a b : nat) : R := ElementSpec.strain (List.length (ec_dofs c)) (ec_comps c) q (local C z c) a b.
Definition cell_value (C : constraints RNum) (c : ecell RNum) (q : quad RNum) (z : nat -> R) (a : nat) : R :=
  Rsum_to (List.length (ec_dofs c)) (fun i => if Nat.eqb (nth i (ec_comps c) O) a then local C z c i * nth i (q_values q) 0 else 0).

(** Work of the elastic stress of the displacement [u] on the strain of the virtual displacement [v], over the solid cells. *)
Definition internal_work (d : nat) (C : constraints RNum) (cells : list (ecell RNum)) (v u : nat -> R) : R :=
  Sum (solid cells) (fun c => Sum (ec_quads c) (fun q =>
    (lame1 (ec_plast c) * cell_divergence d C c q v * cell_divergence d C c q u +
     2 * lame2 (ec_plast c) * Rsum_to d (fun a => Rsum_to d (fun b => cell_strain C c q v a b * cell_strain C c q u a b))) * q_jxw q)).
(** The reference temperature of the cell at a position: solidus of its material once it has melted, initial temperature before. *)
Definition reference (references : list R) (melted : list bool) (cells : list (ecell RNum)) (pos : nat) (c : ecell RNum) : R :=
  if nth (flag_position (map ec_joint cells) pos) melted false then nth (ec_material c) references 0 else last references 0.
Definition cell_temperature (t : thermal_data RNum) (c : ecell RNum) : list R := map (fun j => nth j (td_temperature t) 0) (ec_tdofs c).
(** Work of the thermal load on [v]. *)
Definition thermal_work (d : nat) (references : list R) (t : thermal_data RNum) (C : constraints RNum) (cells : list (ecell RNum)) (v : nat -> R) : R :=
  Sum (indexed cells) (fun pc => let c := snd pc in if takes_part c then Sum (ec_quads c) (fun q =>
    (3 * lame1 (ec_plast c) + 2 * lame2 (ec_plast c)) * ec_alpha c * excess (reference references (td_melted t) cells (fst pc) c) (cell_temperature t c) q *
    cell_divergence d C c q v * q_jxw q) else 0).
(** Work of the body forces on [v]. *)
Definition force_work (d : nat) (forces : list (ecell RNum -> list R)) (C : constraints RNum) (cells : list (ecell RNum)) (v : nat -> R) : R :=
  Sum (solid cells) (fun c => Sum (ec_quads c) (fun q => Rsum_to d (fun a => Sum forces (fun f => nth a (f c) 0) * cell_value C c q v a) * q_jxw q)).
(** What the code needs: a flag for every thermally active cell, a solidus for every material, the initial temperature last; every solid cell is active in
    the thermal problem. *)
Definition thermal_ok (references : list R) (t : thermal_data RNum) (cells : list (ecell RNum)) : Prop :=
  (exists solidus initial, references = solidus ++ [initial] /\ Forall (fun c : ecell RNum => (ec_material c < List.length solidus)%nat) cells) /\
  (List.length (td_melted t) = List.length (filter (fun c => j_owned (ec_joint c) && j_thermal (ec_joint c)) cells)) /\
  Forall (fun c => takes_part c = true -> j_thermal (ec_joint c) = true) cells.
Definition forces_ok (d : nat) (forces : list (ecell RNum -> list R)) : Prop := Forall (fun f => forall c, List.length (f c) = d) forces.

(** Euclidean norm of the first [n] values. *)
Definition size (n : nat) (v : nat -> R) : R := sqrt (Sum (seq 0 n) (fun j => v j * v j)).
(** The relative tolerance of the solver. *)
Definition accuracy : R := / 10 ^ 12.
(** Physical elastic parameters and quadrature weights of the solid cells. *)
Definition elastic_ok (d : nat) (cells : list (ecell RNum)) : Prop :=
  (0 < d)%nat /\ Forall (fun c : ecell RNum => 0 < lame2 (ec_plast c) /\ 0 < INR d * lame1 (ec_plast c) + 2 * lame2 (ec_plast c) /\ Forall (fun q : quad RNum => 0 < q_jxw q) (ec_quads c)) (solid cells).
(** Work of the loads on the virtual displacement [v], and displacements that balance them exactly. *)
Definition load_work (d : nat) (references : list R) (t : thermal_data RNum) (forces : list (ecell RNum -> list R)) (C : constraints RNum) (cells : list (ecell RNum)) (v : nat -> R) : R :=
  thermal_work d references t C cells v + force_work d forces C cells v.
Definition balances (d : nat) (C : constraints RNum) (cells : list (ecell RNum)) (work : (nat -> R) -> R) (u : nat -> R) : Prop :=
  forall v, internal_work d C cells v u = work v.
(** A degree of freedom on a clamped face of a solid cell. *)
Definition on_clamped (types : list BinNums.N) (faces : list bface) (k : nat) : Prop :=
  exists f, In f faces /\ bf_active f = true /\ In (bf_id f) (get_boundary_ids types clamped) /\ In k (bf_dofs f).
(** The size of a load: norm of its work on the unit displacements of the degrees of freedom. *)
Definition load_size (n : nat) (work : (nat -> R) -> R) : R := size n (fun j => work (hat j)).

(** ** Stress *)
(** Pairs of directions above the diagonal: xy in two dimensions; xy, xz, yz in three. *)
Definition upper (d : nat) : list (nat * nat) := flat_map (fun a => map (pair a) (seq (S a) (d - S a))) (seq 0 d).
Definition strain_tensor (d : nat) (C : constraints RNum) (c : ecell RNum) (q : quad RNum) (u : nat -> R) : sym RNum :=
  mksym (N := RNum) (map (fun a => cell_strain C c q u a a) (seq 0 d)) (map (fun ab => cell_strain C c q u (fst ab) (snd ab)) (upper d)).
(** [P] holds at every quadrature point of the solid cells. *)
Definition each_point (cells : list (ecell RNum)) (pts : list (list (point RNum))) (P : ecell RNum -> quad RNum -> point RNum -> Prop) : Prop :=
  forall pos c k q row p, nth_error cells pos = Some c -> takes_part c = true -> nth_error (ec_quads c) k = Some q -> nth_error pts pos = Some row -> nth_error row k = Some p -> P c q p.
(** Variables for every quadrature point. *)
Definition points_ok (d : nat) (cells : list (ecell RNum)) (pts : list (list (point RNum))) : Prop :=
  List.length pts = List.length cells /\
  (forall pos c row, nth_error cells pos = Some c -> takes_part c = true -> nth_error pts pos = Some row -> List.length row = List.length (ec_quads c)) /\
  each_point cells pts (fun _ _ p => shaped d (List.length (upper d)) (p_stress p) /\ shaped d (List.length (upper d)) (p_back p)).
(** A field that obeys the constraints; the displacement of the previous solve, zero if there was none. *)
Definition conforms (n : nat) (C : constraints RNum) (u : list R) : Prop := List.length u = n /\ forall j, (j < n)%nat -> HeatSpec.entry u j = nodal C (HeatSpec.entry u) j.
Definition previous (s : mstate RNum) : nat -> R := match ms_old s with None => fun _ => 0 | Some v => HeatSpec.entry v end.
Definition state_ok (d n : nat) (C : constraints RNum) (cells : list (ecell RNum)) (s : mstate RNum) : Prop :=
  points_ok d cells (ms_points s) /\ match ms_old s with None => True | Some v => conforms n C v end.
(** The stress at every point is the elastic stress of the displacement [u]. *)
Definition elastic_stress (d : nat) (C : constraints RNum) (cells : list (ecell RNum)) (pts : list (list (point RNum))) (u : nat -> R) : Prop :=
  each_point cells pts (fun c q p => p_stress p = hooke (lame1 (ec_plast c)) (lame2 (ec_plast c)) (strain_tensor d C c q u)).
(** The elastic stress of [u] is inside the yield surface everywhere. *)
Definition below_yield (d : nat) (C : constraints RNum) (cells : list (ecell RNum)) (pts : list (list (point RNum))) (u : nat -> R) : Prop :=
  each_point cells pts (fun c q p => magnitude (effective p (hooke (lame1 (ec_plast c)) (lame2 (ec_plast c)) (strain_tensor d C c q u))) < p_yield p).
(** Same back stress and yield limit. *)
Definition same_limits (cells : list (ecell RNum)) (pts pts' : list (list (point RNum))) : Prop :=
  forall pos c k q row row' p p', nth_error cells pos = Some c -> takes_part c = true -> nth_error (ec_quads c) k = Some q ->
    nth_error pts pos = Some row -> nth_error pts' pos = Some row' -> nth_error row k = Some p -> nth_error row' k = Some p' -> p_back p' = p_back p /\ p_yield p' = p_yield p.
(** Work of the stored stress on the strain of [v]. *)
Definition stress_work (d : nat) (C : constraints RNum) (cells : list (ecell RNum)) (pts : list (list (point RNum))) (v : nat -> R) : R :=
  Sum (combine cells pts) (fun cp => if takes_part (fst cp) then Sum (combine (ec_quads (fst cp)) (snd cp)) (fun qp =>
    contract (p_stress (snd qp)) (strain_tensor d C (fst cp) (fst qp) v) * q_jxw (fst qp)) else 0).
(** A load with temperatures, the solidus and initial temperatures, forces, and iterates of the right size. *)
Definition load_ok (d n : nat) (references : list R) (cells : list (ecell RNum)) (l : load RNum) : Prop :=
  (exists t, ld_thermal l = Some t /\ thermal_ok references t cells) /\ forces_ok d (ld_forces l) /\ forall k, List.length (ld_iterate l k : list R) = n.
Definition work_of (d : nat) (references : list R) (C : constraints RNum) (cells : list (ecell RNum)) (l : load RNum) (v : nat -> R) : R :=
  match ld_thermal l with Some t => load_work d references t (ld_forces l) C cells v | None => force_work d (ld_forces l) C cells v end.
(** Work of the stored stress without its thermal part (3 lambda + 2 mu) alpha (T - reference) I. *)
Definition mechanical_work (d : nat) (references : list R) (t : thermal_data RNum) (C : constraints RNum) (cells : list (ecell RNum)) (pts : list (list (point RNum))) (v : nat -> R) : R :=
  Sum (combine (indexed cells) pts) (fun cp => let c := snd (fst cp) in if takes_part c then Sum (combine (ec_quads c) (snd cp)) (fun qp =>
    contract (tsub (p_stress (snd qp)) (isotropic d (List.length (upper d))
      ((3 * lame1 (ec_plast c) + 2 * lame2 (ec_plast c)) * ec_alpha c * excess (reference references (td_melted t) cells (fst (fst cp)) c) (cell_temperature t c) (fst qp))))
      (strain_tensor d C c (fst qp) v) * q_jxw (fst qp)) else 0).
(** What the return mapping takes from the elastic stress [stress] of a point. *)
Definition plastic_correction (m : plasticity RNum) (p : point RNum) (stress : sym RNum) : sym RNum :=
  let x := magnitude (effective p stress) in
  tscale (N := RNum) ((if Rlt_dec x (p_yield p) then 0 else 2 * lame2 m * ((x - p_yield p) / (2 * lame2 m + plastic_modulus m))) / x) (effective p stress).
(** Its work on the strain of [v] in a solve that starts with the variables [pts] and gives the displacement [u]. *)
Definition correction_work (d : nat) (C : constraints RNum) (cells : list (ecell RNum)) (pts : list (list (point RNum))) (u v : nat -> R) : R :=
  Sum (combine cells pts) (fun cp => if takes_part (fst cp) then Sum (combine (ec_quads (fst cp)) (snd cp)) (fun qp =>
    contract (plastic_correction (ec_plast (fst cp)) (snd qp) (hooke (lame1 (ec_plast (fst cp))) (lame2 (ec_plast (fst cp))) (strain_tensor d C (fst cp) (fst qp) u)))
             (strain_tensor d C (fst cp) (fst qp) v) * q_jxw (fst qp)) else 0).
(** Physical parameters with isotropic hardening in the solid cells, and regular points. *)
Definition isotropic_ok (d : nat) (cells : list (ecell RNum)) (pts : list (list (point RNum))) : Prop :=
  Forall (fun c : ecell RNum => physical (ec_plast c) /\ iso_hardening (ec_plast c) = 1) (solid cells) /\ each_point cells pts (fun _ _ p => regular d (List.length (upper d)) p).

(** ** Histories with yielding and cells that were added *)
(** Displacement of a solve since the one before. *)
Definition since (s s' : mstate RNum) : nat -> R := fun j => previous s' j - previous s j.
(** What the return mapping takes in a solve that starts with the variables [pts] and adds the displacement [u], tested with [v]. *)
Definition correction_since (d : nat) (C : constraints RNum) (cells : list (ecell RNum)) (pts : list (list (point RNum))) (u v : nat -> R) : R :=
  Sum (combine cells pts) (fun cp => if takes_part (fst cp) then Sum (combine (ec_quads (fst cp)) (snd cp)) (fun qp =>
    contract (plastic_correction (ec_plast (fst cp)) (snd qp) (tadd (p_stress (snd qp)) (hooke (lame1 (ec_plast (fst cp))) (lame2 (ec_plast (fst cp))) (strain_tensor d C (fst cp) (fst qp) u))))
             (strain_tensor d C (fst cp) (fst qp) v) * q_jxw (fst qp)) else 0).
(** The same for a sequence of solves. *)
Fixpoint corrections (d n : nat) (references : list R) (C : constraints RNum) (cells : list (ecell RNum)) (loads : list (load RNum)) (s : mstate RNum) (v : nat -> R) : R :=
  match loads with
  | [] => 0
  | l :: ls => match solve_load (N := RNum) d n references C cells s l with
               | Ok s1 => correction_since d C cells (ms_points s) (since s s1) v + corrections d n references C cells ls s1 v
               | _ => 0
               end
  end.
(** Work of the part of the stress that is not the elastic stress of the displacement. *)
Definition imbalance (d : nat) (C : constraints RNum) (cells : list (ecell RNum)) (s : mstate RNum) (v : nat -> R) : R :=
  stress_work d C cells (ms_points s) v - internal_work d C cells v (previous s).
(** The stress at every point is the one before plus the elastic stress of the displacement [u]. *)
Definition stress_added (d : nat) (C : constraints RNum) (cells : list (ecell RNum)) (pts pts' : list (list (point RNum))) (u : nat -> R) : Prop :=
  forall pos c k q row row' p p', nth_error cells pos = Some c -> takes_part c = true -> nth_error (ec_quads c) k = Some q ->
    nth_error pts pos = Some row -> nth_error pts' pos = Some row' -> nth_error row k = Some p -> nth_error row' k = Some p' ->
    p_stress p' = tadd (p_stress p) (hooke (lame1 (ec_plast c)) (lame2 (ec_plast c)) (strain_tensor d C c q u)).
Definition below_yield_after (d : nat) (C : constraints RNum) (cells : list (ecell RNum)) (pts : list (list (point RNum))) (u : nat -> R) : Prop :=
  each_point cells pts (fun c q p => magnitude (effective p (tadd (p_stress p) (hooke (lame1 (ec_plast c)) (lame2 (ec_plast c)) (strain_tensor d C c q u)))) < p_yield p).
