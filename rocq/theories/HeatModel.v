(** HeatModel.v -- the discrete heat equation: ThermalOperator (mass matrix, vmult, faces), evaluate_thermal_physics, the time steps.

    Modelled: source/ThermalOperator.templates.hh (cell_local_mass, compute_inverse_mass_matrix, vmult_add, cell_local_apply, face_local_apply),
    source/ThermalOperator.hh (set_time), source/ThermalOperatorDevice.templates.hh (compute_inverse_mass_matrix, vmult_add),
    source/ThermalPhysics.templates.hh (evaluate_thermal_physics_impl on the host and on the device, evolve_one_time_step, the choice of the scheme).

    From deal.II: shape values, gradients and JxW of every cell and face (arguments), FEEvaluation (read_dof_values, evaluate, integrate,
    distribute_local_to_global) and AffineConstraints (hanging nodes, without inhomogeneity) as documented; ExplicitRungeKutta with the tableaus of
    RK_THIRD_ORDER and RK_CLASSIC_FOURTH_ORDER.  The material laws, the beams and the boundary coefficients at a point are arguments, computed by
    MaterialModel and HeatSourceModel; they may change from one evaluation to the next.  One process (several: ParallelModel).
    Gradients are points; in two dimensions py is zero. *)
From Coq Require Import ZArith NArith Bool List String Ascii.
From Verif Require Import Base MaterialModel InputModel.
Import ListNotations.

Section Heat.
  Context {N : Num}.
  Local Open Scope num_scope.

  (** Vectors of degrees of freedom. *)
  Definition vget (v : list N) (j : nat) : N := nth j v (nZ 0).
  Definition vadd (v : list N) (j : nat) (x : N) : list N := MaterialModel.set_nth v j (vget v j + x).
  (** AffineConstraints: the constrained degrees of freedom with the combination that replaces them. *)
  Definition constraints := list (nat * list (nat * N)).
  Definition line_of (C : constraints) (j : nat) : option (list (nat * N)) := option_map snd (find (fun e => Nat.eqb (fst e) j) C).
  (** read_dof_values and distribute_local_to_global of one local degree of freedom. *)
  Definition read_dof (C : constraints) (src : list N) (j : nat) : N :=
    match line_of C j with None => vget src j | Some l => fold_left (fun s e => s + snd e * vget src (fst e)) l (nZ 0) end.
  Definition write_dof (C : constraints) (dst : list N) (jx : nat * N) : list N :=
    match line_of C (fst jx) with None => vadd dst (fst jx) (snd jx) | Some l => fold_left (fun d e => vadd d (fst e) (snd e * snd jx)) l dst end.

  (** A quadrature point: JxW, values and gradients of the shape functions; a cell (or the cell of a face): degrees of freedom, quadrature points. *)
  Record hquad := mkhq { h_jxw : N; h_values : list N; h_grads : list (pt N) }.
  Record hcell := mkhc { c_dofs : list nat; c_quads : list hquad }.
  Definition read_cell (C : constraints) (src : list N) (c : hcell) : list N := map (read_dof C src) (c_dofs c).
  Definition get_value (q : hquad) (u : list N) : N := fold_left (fun s pu => s + fst pu * snd pu) (combine (h_values q) u) (nZ 0).
  Definition get_gradient (q : hquad) (u : list N) : pt N :=
    fold_left (fun s gu => padd s (pscale (snd gu) (fst gu))) (combine (h_grads q) u) (mkpt (nZ 0) (nZ 0) (nZ 0)).
  (** integrate: what was submitted is a value and a gradient per quadrature point. *)
  Definition integrate (qs : list (hquad * (N * pt N))) (i : nat) : N :=
    fold_left (fun s qv => s + (pdot (snd (snd qv)) (nth i (h_grads (fst qv)) (mkpt (nZ 0) (nZ 0) (nZ 0))) + fst (snd qv) * nth i (h_values (fst qv)) (nZ 0)) * h_jxw (fst qv))
      qs (nZ 0).
  Definition distribute (C : constraints) (c : hcell) (qs : list (hquad * (N * pt N))) (dst : list N) : list N :=
    fold_left (write_dof C) (combine (c_dofs c) (map (integrate qs) (seq 0 (List.length (c_dofs c))))) dst.

  (** ** Mass matrix *)
  (** cell_local_mass (ThermalOperator.templates.hh:85-118) *)
  Definition local_mass (C : constraints) (src : list N) (dst : list N) (c : hcell) : list N :=
    let u := read_cell C src c in
    distribute C c (map (fun q => (q, (get_value q u, mkpt (nZ 0) (nZ 0) (nZ 0)))) (c_quads c)) dst.
  (** compute_inverse_mass_matrix (120-169): the lumped mass, plus one on the constrained degrees of freedom, inverted.  [mcells] are the cells with the
      quadrature of the mass matrix. *)
  Definition mass (n : nat) (C : constraints) (mcells : list hcell) : list N :=
    fold_left (fun v j => vadd v j (nZ 1)) (map fst C) (fold_left (local_mass C (repeat (nZ 1) n)) mcells (repeat (nZ 0) n)).
  Definition inverse_mass (n : nat) (C : constraints) (mcells : list hcell) : list N := map (fun m => nZ 1 / m) (mass n C mcells).
  (** ThermalOperatorDevice.templates.hh:585-629: value 1 submitted, nothing on constrained degrees of freedom, and masses up to 1e-15 give 0. *)
  Definition tiny : N := nZ 1 / nZ 1000000000000000.
  Definition local_mass_device (C : constraints) (dst : list N) (c : hcell) : list N :=
    distribute C c (map (fun q => (q, (nZ 1, mkpt (nZ 0) (nZ 0) (nZ 0)))) (c_quads c)) dst.
  Definition inverse_mass_device (n : nat) (C : constraints) (mcells : list hcell) : list N :=
    map (fun m => if tiny <? m then nZ 1 / m else nZ 0) (fold_left (local_mass_device C) mcells (repeat (nZ 0) n)).

  (** ** The operator *)
  (** What the material laws, the deposition angles and the beams give at a quadrature point. *)
  Record point_law := mkpl { pl_inv : N; pl_kx : N; pl_ky : N; pl_kz : N; pl_cos : N; pl_sin : N; pl_beams : list N }.
  Definition laws := nat -> nat -> N -> point_law.
  (** cell_local_apply (488-628) *)
  Definition submitted (dim3 on : bool) (K : nat -> N -> point_law) (u : list N) (iq : nat * hquad) : hquad * (N * pt N) :=
    let T := get_value (snd iq) u in
    let k := K (fst iq) T in
    (snd iq, ((if on then source_term (pl_inv k) (pl_beams k) else nZ 0),
              conduction dim3 (pl_inv k) (pl_kx k) (pl_ky k) (pl_kz k) (pl_cos k) (pl_sin k) (get_gradient (snd iq) u))).
  Definition local_apply (dim3 on : bool) (C : constraints) (K : laws) (src : list N) (dst : list N) (ic : nat * hcell) : list N :=
    let c := snd ic in
    let u := read_cell C src c in
    distribute C c (map (submitted dim3 on (K (fst ic)) u) (combine (seq 0 (List.length (c_quads c))) (c_quads c))) dst.

  (** A face: the active fe indices of its two sides (0: active, 1: inactive, anything else: outside of the mesh), the face seen from each of them,
      the boundary type. *)
  Record hface := mkhf { hf_first : nat; hf_second : nat; hf_inner : hcell; hf_outer : hcell; hf_type : BinNums.N }.
  (** FEFaceEvaluation (675-676): evaluated from the first side if it is active. *)
  Definition hf_cell (f : hface) : hcell := if Nat.eqb (hf_first f) 0 then hf_inner f else hf_outer f.
  Record face_law := mkfl { fl_inv : N; fl_h : N; fl_conv : N; fl_emissivity : N; fl_rad : N }.
  Definition face_laws := nat -> nat -> N -> face_law.
  Definition face_done (f : hface) : bool :=
    Nat.eqb (hf_first f) (hf_second f) || (negb (Nat.eqb (hf_first f) 0) && negb (Nat.eqb (hf_second f) 0)).
  (** face_local_apply (630-741) *)
  Definition face_value (F : nat -> N -> face_law) (ty : BinNums.N) (u : list N) (iq : nat * hquad) : hquad * (N * pt N) :=
    let T := get_value (snd iq) u in
    let k := F (fst iq) T in
    (snd iq, (boundary_val (has_flag ty convective) (has_flag ty radiative) (fl_inv k) (fl_h k) (fl_conv k) (fl_emissivity k) (fl_rad k) T, mkpt (nZ 0) (nZ 0) (nZ 0))).
  Definition face_apply (C : constraints) (F : face_laws) (src : list N) (dst : list N) (jf : nat * hface) : list N :=
    let f := snd jf in
    if face_done f then dst else
    let u := read_cell C src (hf_cell f) in
    distribute C (hf_cell f) (map (face_value (F (fst jf)) (hf_type f) u) (combine (seq 0 (List.length (c_quads (hf_cell f)))) (c_quads (hf_cell f)))) dst.
  (** 40-42: _adiabatic_only_bc *)
  Definition adiabatic_only (types : list BinNums.N) : bool := Nat.eqb (List.length (get_boundary_ids types adiabatic)) (List.length types).
  Definition numbered {A} (l : list A) : list (nat * A) := combine (seq 0 (List.length l)) l.
  (** vmult_add (191-224) *)
  Definition vmult_add (dim3 on adiabatic : bool) (C : constraints) (cells : list hcell) (faces : list hface) (K : laws) (F : face_laws) (src dst : list N) : list N :=
    let d := fold_left (local_apply dim3 on C K src) (numbered cells) dst in
    let d := if adiabatic then d else fold_left (face_apply C F src) (numbered faces) d in
    fold_left (fun v j => vadd v j (nZ 1 * vget src j)) (map fst C) d.

  (** ** evaluate_thermal_physics on the host (ThermalPhysics.templates.hh:44-125) *)
  Record heat_mesh := mkhm { m_n : nat; m_C : constraints; m_cells : list hcell; m_mass : list hcell; m_faces : list hface }.
  Definition scale (v w : list N) : list N := map (fun p => fst p * snd p) (combine v w).
  Definition evaluate (dim3 on adiabatic : bool) (m : heat_mesh) (K : laws) (F : face_laws) (y : list N) : list N :=
    scale (vmult_add dim3 on adiabatic (m_C m) (m_cells m) (m_faces m) K F y (repeat (nZ 0) (m_n m))) (inverse_mass (m_n m) (m_C m) (m_mass m)).
  (** ThermalOperator.hh:301-308: a source is on. *)
  Definition heat_sources_on (sources : list bool) : bool := fold_left (fun on s => if s : bool then true else on) sources false.
  (** 68-117: the heat input that is printed; [power c q] is the sum of the beams at a quadrature point. *)
  Definition heat_input (cells : list hcell) (power : nat -> nat -> N) : N :=
    fold_left (fun h ic => fold_left (fun h i => fold_left (fun h iq => h + power (fst ic) (fst iq) * nth i (h_values (snd iq)) (nZ 0) * h_jxw (snd iq))
      (numbered (c_quads (snd ic))) h) (seq 0 (List.length (c_dofs (snd ic)))) h) (numbered cells) (nZ 0).

  (** ** The same on the device (139-303): conduction on the device, sources added on the host; other boundary conditions throw. *)
  Definition local_source (C : constraints) (K : laws) (src : list N) (dst : list N) (ic : nat * hcell) : list N :=
    let c := snd ic in
    let u := read_cell C src c in
    distribute C c (map (fun iq => let k := K (fst ic) (fst iq) (get_value (snd iq) u) in
                                   (snd iq, (pl_inv k * sum_list (pl_beams k), mkpt (nZ 0) (nZ 0) (nZ 0)))) (numbered (c_quads c))) dst.
  Definition vset (v : list N) (j : nat) (x : N) : list N := MaterialModel.set_nth v j x.
  Definition evaluate_device (dim3 adiabatic : bool) (m : heat_mesh) (K : laws) (y : list N) : res (list N) :=
    if negb adiabatic then Throw else
    let v := fold_left (local_apply dim3 false (m_C m) K y) (numbered (m_cells m)) (repeat (nZ 0) (m_n m)) in
    let v := fold_left (fun v j => vset v j (vget y j)) (map fst (m_C m)) v in
    let s := fold_left (local_source (m_C m) K y) (numbered (m_cells m)) (repeat (nZ 0) (m_n m)) in
    Ok (scale (map (fun p => fst p + snd p) (combine v s)) (inverse_mass_device (m_n m) (m_C m) (m_mass m))).

  (** ** Time steps (ThermalPhysics.templates.hh:449-473, 855-889) *)
  (** sadd(1, a, w): v + a w *)
  Definition sadd (v : list N) (a : N) (w : list N) : list N := map (fun p => nZ 1 * fst p + a * snd p) (combine v w).
  Inductive scheme := ForwardEuler | RungeKutta3 | RungeKutta4.
  (** An unknown method leaves _time_stepping null. *)
  Definition make_scheme (method : string) : option scheme :=
    let s := lower method in
    if String.eqb s "forward_euler" then Some ForwardEuler
    else if String.eqb s "rk_third_order" then Some RungeKutta3
    else if String.eqb s "rk_fourth_order" then Some RungeKutta4 else None.
  (** Tableaus (deal.II TimeStepping): a, b, c. *)
  Definition half : N := nZ 1 / nZ 2.
  Definition tableau_a (s : scheme) : list (list N) :=
    match s with
    | ForwardEuler => []
    | RungeKutta3 => [[half]; [nZ (-1); nZ 2]]
    | RungeKutta4 => [[half]; [nZ 0; half]; [nZ 0; nZ 0; nZ 1]]
    end.
  Definition tableau_b (s : scheme) : list N :=
    match s with
    | ForwardEuler => [nZ 1]
    | RungeKutta3 => [nZ 1 / nZ 6; nZ 2 / nZ 3; nZ 1 / nZ 6]
    | RungeKutta4 => [nZ 1 / nZ 6; nZ 1 / nZ 3; nZ 1 / nZ 3; nZ 1 / nZ 6]
    end.
  Definition tableau_c (s : scheme) : list N :=
    match s with ForwardEuler => [nZ 0] | RungeKutta3 => [nZ 0; half; nZ 1] | RungeKutta4 => [nZ 0; half; half; nZ 1] end.
  (** The stages; [f i t y] is evaluation number [i] of the step (the material laws change with each evaluation). *)
  Fixpoint stages (f : nat -> N -> list N -> list N) (t dt : N) (y : list N) (a : list (list N)) (c : list N) (i : nat) (ks : list (list N)) : list (list N) :=
    match c with
    | [] => ks
    | ci :: c' =>
        let row := match i with O => [] | S i' => nth i' a [] end in
        let yi := fold_left (fun v ak => sadd v (dt * fst ak) (snd ak)) (combine row ks) y in
        stages f t dt y a c' (S i) (ks ++ [f i (t + ci * dt) yi])
    end.
  Definition evolve (s : scheme) (f : nat -> N -> list N -> list N) (t dt : N) (y : list N) : N * list N :=
    match s with
    | ForwardEuler => (t + dt, sadd y dt (f O t y))
    | _ => let ks := stages f t dt y (tableau_a s) (tableau_c s) 0 [] in
           (t + dt, fold_left (fun v bk => sadd v (dt * fst bk) (snd bk)) (combine (tableau_b s) ks) y)
    end.
  Definition evolve_one_time_step (method : string) (f : nat -> N -> list N -> list N) (t dt : N) (y : list N) : res (N * list N) :=
    match make_scheme method with Some s => Ok (evolve s f t dt y) | None => UB end.
End Heat.
Arguments constraints : clear implicits.
Arguments hquad : clear implicits.
Arguments hcell : clear implicits.
Arguments hface : clear implicits.
Arguments point_law : clear implicits.
Arguments face_law : clear implicits.
Arguments laws : clear implicits.
Arguments face_laws : clear implicits.
Arguments heat_mesh : clear implicits.
