(** MaterialModel.v -- material states and properties: MaterialProperty.hh, MaterialProperty.templates.hh,
    the point-wise parts of ThermalOperator.templates.hh and ThermalOperatorDevice.templates.hh. *)
From Coq Require Import ZArith Bool List String Ascii.
From Verif Require Import Base ScanPathModel.
Import ListNotations.
Local Open Scope num_scope.

(** The template parameter MaterialStates (MaterialStates.hh:13-77). *)
Inductive mstates := Solid | SolidLiquid | SolidLiquidPowder.

(** The ratios of one point.  States that the template parameter does not have are 0. *)
Record ratios (N : Num) : Type := mkr { r_solid : N; r_liquid : N; r_powder : N }.
Arguments mkr {N} _ _ _.
Arguments r_solid {N} _.
Arguments r_liquid {N} _.
Arguments r_powder {N} _.

(** state-independent properties of a material (types.hh:84-99); unset ones are DBL_MAX
    (MaterialProperty.templates.hh:1028-1035). *)
Record mat_props (N : Num) : Type := mkmp { p_solidus : N; p_liquidus : N; p_latent : N; p_rad_inf : N; p_conv_inf : N }.
Arguments mkmp {N} _ _ _ _ _.
Arguments p_solidus {N} _.
Arguments p_liquidus {N} _.
Arguments p_latent {N} _.
Arguments p_rad_inf {N} _.
Arguments p_conv_inf {N} _.
Definition prop_or_max {N : Num} (o : option N) : N := match o with Some v => v | None => nmax N end.

Section State.
  Context {N : Num}.

  (** The liquid fraction (MaterialProperty.templates.hh:318-325; ThermalOperator.templates.hh:258-266, 293-301, 355-363,
      390-398; ThermalOperatorDevice.templates.hh:183-195, 212-217). *)
  Definition liquid_ratio (m : mat_props N) (T : N) : N :=
    if T <? p_solidus m then nZ 0
    else if p_liquidus m <? T then nZ 1
    else (T - p_solidus m) / (p_liquidus m - p_solidus m).

  (** ThermalOperatorQuad::update_state_ratios at one point (ThermalOperatorDevice.templates.hh:150-232): the new ratios;
      the stored liquid and powder ratios of the point are those of the result.  [powder] is the stored powder ratio. *)
  Definition device_ratios (k : mstates) (m : mat_props N) (powder T : N) : ratios N :=
    match k with
    | Solid => mkr (nZ 1) (nZ 0) (nZ 0)
    | SolidLiquid => let l := liquid_ratio m T in mkr (nZ 1 - l) l (nZ 0)
    | SolidLiquidPowder =>
        let l := liquid_ratio m T in
        let p := if (nZ 1 - l) <? powder then nZ 1 - l else powder in
        mkr (nZ 1 - l - p) l p
    end.

  (** MaterialProperty::update, the part that updates _state of one cell (MaterialProperty.templates.hh:293-351). *)
  Definition cell_ratios (k : mstates) (m : mat_props N) (powder T : N) : ratios N :=
    match k with
    | Solid => mkr (nZ 1) (nZ 0) (nZ 0)
    | SolidLiquid => let l := liquid_ratio m T in mkr (nZ 1 - l) l (nZ 0)
    | SolidLiquidPowder =>
        let l := liquid_ratio m T in
        let p := nmin (nZ 1 - l) powder in
        mkr (nZ 1 - l - p) l p
    end.

  (** ThermalOperator::update_state_ratios on a batch of lanes (ThermalOperator.templates.hh:226-319; the face version,
      323-414, is the same).  A lane is (material, temperature); [powder] is _powder_ratio(cell, q), one entry per lane.
      The result is (solid, liquid, powder) by lane, and _powder_ratio becomes the third, _liquid_ratio the second.

      The powder branch copies the whole batch of stored powder ratios inside the loop over the lanes
      (line 291: state_ratios[powder] = _powder_ratio(cell, q)). *)
  Definition set_nth {A} (l : list A) (i : nat) (a : A) : list A :=
    if Nat.ltb i (List.length l) then firstn i l ++ a :: skipn (S i) l else l.

  Fixpoint host_loop (k : mstates) (stored : list N) (n : nat) (lanes : list (mat_props N * N))
      (sol liq pow : list N) : list N * list N * list N :=
    match lanes with
    | [] => (sol, liq, pow)
    | (m, T) :: rest =>
        let l := liquid_ratio m T in
        match k with
        | Solid => host_loop k stored (S n) rest (set_nth sol n (nZ 1)) liq pow
        | SolidLiquid => host_loop k stored (S n) rest (set_nth sol n (nZ 1 - l)) (set_nth liq n l) pow
        | SolidLiquidPowder =>
            let pow1 := stored in
            let p := nmin (nZ 1 - l) (nth n pow1 (nZ 0)) in
            host_loop k stored (S n) rest (set_nth sol n (nZ 1 - l - p)) (set_nth liq n l) (set_nth pow1 n p)
        end
    end.
  Definition host_ratios (k : mstates) (stored : list N) (lanes : list (mat_props N * N)) (init : list N) : list N * list N * list N :=
    host_loop k stored 0 lanes init init (match k with SolidLiquidPowder => init | _ => map (fun _ => nZ 0) init end).

  (** ** Tables and polynomials *)
  (** table_size (MaterialProperty.hh:133). *)
  Definition table_size : nat := 12.

  (** The loop looking for the first row with a larger temperature (MaterialProperty.templates.hh:1171-1180): its index, or
      the number of rows. *)
  Fixpoint first_above (T : N) (rows : list (N * N)) : nat :=
    match rows with
    | [] => 0
    | (t, _) :: rest => if T <? t then 0 else S (first_above T rest)
    end.

  (** compute_property_from_table (MaterialProperty.templates.hh:1151-1209) on the stored rows of one property. *)
  Definition table_value (rows : list (N * N)) (T : N) : res N :=
    do r0 <- at_ rows 0;
    if T <=? fst r0 then Ok (snd r0)
    else
      let size := List.length rows in
      let i := first_above T rows in
      if Nat.leb (size - 1) i then do r <- at_ rows (size - 1); Ok (snd r)
      else
        do ri <- at_ rows i;
        do rj <- at_ rows (i - 1);
        Ok (snd rj + (T - fst rj) * (snd ri - snd rj) / (fst ri - fst rj)).

  (** Remove blanks (MaterialProperty.templates.hh:893-897): std::isspace in the C locale. *)
  Definition is_blank (c : ascii) : bool :=
    let n := nat_of_ascii c in Nat.eqb n 32 || (Nat.leb 9 n && Nat.leb n 13).
  Fixpoint remove_blanks (s : string) : string :=
    match s with
    | EmptyString => EmptyString
    | String c s' => if is_blank c then remove_blanks s' else String c (remove_blanks s')
    end.

  (** boost::split with the default token_compress_off: every separator ends a token. *)
  Fixpoint split_off_go (sep : ascii) (cur : string) (s : string) : list string :=
    match s with
    | EmptyString => [cur]
    | String c s' => if Ascii.eqb c sep then cur :: split_off_go sep EmptyString s'
                     else split_off_go sep (cur ++ String c EmptyString) s'
    end.
  Definition split_off (sep : ascii) (s : string) : list string := split_off_go sep EmptyString s.

  Fixpoint parse_rows (P : parser N) (entries : list string) : res (list (N * N)) :=
    match entries with
    | [] => Ok []
    | e :: rest =>
        let tv := split_off "," e in
        do a <- num_tok P tv 0;
        do b <- num_tok P tv 1;
        do r <- parse_rows P rest;
        Ok ((a, b) :: r)
    end.

  (** Table of a thermal state property (MaterialProperty.templates.hh:898-960): parsed rows, then the last row repeated
      up to table_size.  (The number of comma-separated fields is only checked by a debug assertion: with one field the
      second access is out of bounds, further fields are ignored.) *)
  Definition parse_table (P : parser N) (s : string) : res (list (N * N)) :=
    let entries := split_off "|" (remove_blanks s) in
    if Nat.ltb table_size (List.length entries) then Throw
    else
      do rows <- parse_rows P entries;
      do lastrow <- back rows;
      Ok (rows ++ repeat lastrow (table_size - List.length rows)).

  Fixpoint parse_coefs (P : parser N) (entries : list string) : res (list N) :=
    match entries with
    | [] => Ok []
    | e :: rest => match stod P e with None => Throw | Some v => do r <- parse_coefs P rest; Ok (v :: r) end
    end.
  (** Polynomial (MaterialProperty.templates.hh:962-988): missing coefficients are zero. *)
  Definition parse_poly (P : parser N) (p_order : nat) (s : string) : res (list N) :=
    let entries := split_off "," (remove_blanks s) in
    if Nat.ltb (p_order + 1) (List.length entries) then Throw
    else do cs <- parse_coefs P entries; Ok (cs ++ repeat (nZ 0) (p_order + 1 - List.length cs)).

  (** std::pow(x, i) with a nonnegative integer exponent (exact arithmetic: repeated multiplication). *)
  Fixpoint npow (x : N) (i : nat) : N := match i with O => nZ 1 | S j => npow x j * x end.

  (** temperature_powers (ThermalOperator.templates.hh:535-540, 664-669). *)
  Fixpoint temperature_powers (T : N) (cur : N) (n : nat) : list N :=
    match n with O => [] | S n' => cur :: temperature_powers T (cur * T) n' end.

  (** How a state property is given: table rows or polynomial coefficients, for the three states. *)
  Inductive state_law := Table (rows : list (N * N)) | Poly (coefs : list N).
  Record prop_law : Type := mklaw { l_solid : state_law; l_liquid : state_law; l_powder : state_law }.

  Definition n_states (k : mstates) : nat := match k with Solid => 1 | SolidLiquid => 2 | SolidLiquidPowder => 3 end.
  Definition law_list (l : prop_law) : list state_law := [l_solid l; l_liquid l; l_powder l].
  Definition ratio_list (r : ratios N) : list N := [r_solid r; r_liquid r; r_powder r].

  (** Scalar evaluation (MaterialProperty.hh:805-845 and ThermalOperatorDevice.templates.hh:281-322): loop over the
      states, then over the coefficients. *)
  Fixpoint poly_loop (ratio T value : N) (cs : list N) (i : nat) : N :=
    match cs with [] => value | c :: rest => poly_loop ratio T (value + ratio * c * npow T i) rest (S i) end.
  Fixpoint eval_loop (T value : N) (rs : list N) (ls : list state_law) : res N :=
    match rs, ls with
    | r :: rs', law :: ls' =>
        do v <- match law with
                | Table rows => do t <- table_value rows T; Ok (value + r * t)
                | Poly cs => Ok (poly_loop r T value cs 0)
                end;
        eval_loop T v rs' ls'
    | _, _ => Ok value
    end.
  Definition eval_scalar (k : mstates) (law : prop_law) (r : ratios N) (T : N) : res N :=
    eval_loop T (nZ 0) (firstn (n_states k) (ratio_list r)) (firstn (n_states k) (law_list law)).

  (** One lane of the host evaluation (MaterialProperty.hh:516-797).  Tables and several materials (538-550, 773-793):
      state by state.  One material, polynomials (553-771): unrolled coefficient by coefficient, the states inside. *)
  Fixpoint poly_loop_pw (ratio value : N) (cs pw : list N) : N :=
    match cs, pw with
    | c :: cs', p :: pw' => poly_loop_pw ratio (value + ratio * c * p) cs' pw'
    | _, _ => value
    end.
  Fixpoint host_loop_states (T : N) (pw : list N) (value : N) (rs : list N) (ls : list state_law) : res N :=
    match rs, ls with
    | r :: rs', law :: ls' =>
        do v <- match law with
                | Table rows => do t <- table_value rows T; Ok (value + r * t)
                | Poly cs => Ok (poly_loop_pw r value cs pw)
                end;
        host_loop_states T pw v rs' ls'
    | _, _ => Ok value
    end.
  Definition eval_host (k : mstates) (p_order : nat) (law : prop_law) (r : ratios N) (T : N) : res N :=
    host_loop_states T (temperature_powers T (nZ 1) (p_order + 1)) (nZ 0) (firstn (n_states k) (ratio_list r)) (firstn (n_states k) (law_list law)).

  (** The unrolled version: for coefficient i, for every state. *)
  Fixpoint unrolled_states (i : nat) (p value : N) (rs : list N) (cs : list (list N)) : N :=
    match rs, cs with
    | r :: rs', c :: cs' => unrolled_states i p (value + r * nth i c (nZ 0) * p) rs' cs'
    | _, _ => value
    end.
  Fixpoint unrolled (i : nat) (pw : list N) (value : N) (rs : list N) (cs : list (list N)) : N :=
    match pw with
    | [] => value
    | p :: pw' => unrolled (S i) pw' (unrolled_states i p value rs cs) rs cs
    end.
  Definition eval_unrolled (k : mstates) (p_order : nat) (cs : list (list N)) (r : ratios N) (T : N) : N :=
    unrolled 0 (temperature_powers T (nZ 1) (p_order + 1)) (nZ 0) (firstn (n_states k) (ratio_list r)) (firstn (n_states k) cs).

  (** get_inv_rho_cp, host (ThermalOperator.templates.hh:430-486), one lane. *)
  Definition host_latent (k : mstates) (m : mat_props N) (r : ratios N) (specific_heat : N) : N :=
    match k with
    | Solid => specific_heat
    | _ => if nZ 0 <? r_liquid r * r_solid r then specific_heat + p_latent m / (p_liquidus m - p_solidus m) else specific_heat
    end.
  (** get_inv_rho_cp, device (ThermalOperatorDevice.templates.hh:235-279). *)
  Definition device_latent (k : mstates) (m : mat_props N) (r : ratios N) (specific_heat : N) : N :=
    match k with
    | Solid => specific_heat
    | _ => if (nZ 0 <? r_liquid r) && (r_liquid r <? nZ 1) then specific_heat + p_latent m / (p_liquidus m - p_solidus m) else specific_heat
    end.
  (** MaterialProperty::update (MaterialProperty.templates.hh:395-416): the latent heat is added state by state. *)
  Definition cell_latent (k : mstates) (m : mat_props N) (r : ratios N) (specific_heat : N) : N :=
    match k with
    | Solid => specific_heat
    | _ =>
        if (nZ 0 <? r_liquid r) && (r_liquid r <? nZ 1) then
          fold_left (fun acc s => acc + s * p_latent m / (p_liquidus m - p_solidus m)) (firstn (n_states k) (ratio_list r)) specific_heat
        else specific_heat
    end.
  Definition inv_rho_cp (density specific_heat : N) : N := nZ 1 / (density * specific_heat).

  (** Stefan-Boltzmann constant (types.hh:158): 5.670374419e-8. *)
  Definition stefan_boltzmann : N := nZ 5670374419 / nZ 100000000000000000.
  (** Radiation heat transfer coefficient (MaterialProperty.templates.hh:425-440; ThermalOperator.templates.hh:699-709). *)
  Definition rad_coef (emissivity T Tinf : N) : N := emissivity * stefan_boltzmann * (T + Tinf) * (T * T + Tinf * Tinf).
  Definition cell_rad_coef (emissivity T Tinf from_law : N) : N :=
    if negb (Tinf =? nmax N) then rad_coef emissivity T Tinf else from_law.

  (** boundary_val of face_local_apply (ThermalOperator.templates.hh:680-716), one lane.  The coefficients and ambient
      temperatures of the boundary conditions that do not apply are 0. *)
  Definition boundary_val (convective radiative : bool) (inv h_conv conv_inf emissivity rad_inf T : N) : N :=
    let hc := if convective then h_conv else nZ 0 in
    let ci := if convective then conv_inf else nZ 0 in
    let hr := if radiative then rad_coef emissivity T rad_inf else nZ 0 in
    let ri := if radiative then rad_inf else nZ 0 in
    - inv * (hc * (T - ci) + hr * (T - ri)).

  (** Conduction (ThermalOperator.templates.hh:541-599; ThermalOperatorDevice.templates.hh:345-398): the vector submitted
      for the gradient [g].  In two dimensions only x and the last component (kept in pz) exist. *)
  Definition conduction (dim3 : bool) (inv kx ky kz cos sin : N) (g : pt N) : pt N :=
    let v :=
      if dim3 then
        mkpt ((kx * cos * cos + ky * sin * sin) * px g + ((kx - ky) * sin * cos) * py g)
             (((kx - ky) * sin * cos) * px g + (kx * sin * sin + ky * cos * cos) * py g)
             (pz g * kz)
      else mkpt (px g * kx) (nZ 0) (pz g * kz) in
    pscale (- inv) v.

  (** Heat source term at a point (ThermalOperator.templates.hh:603-616). *)
  Definition source_term (inv : N) (beams : list N) : N := fold_left (fun acc b => acc + b) beams (nZ 0) * inv.

  (** ** Cell states and quadrature points *)
  Definition sum_list (l : list N) : N := fold_left (fun acc x => acc + x) l (nZ 0).

  (** Cells are numbered; [state c] is column [get_dof_index c] of _state; [liq]/[pow] are the tables
      _liquid_ratio/_powder_ratio: batch, quadrature point, lane.  [where_ c] is _cell_it_to_mf_cell_map; operator[]
      inserts (0,0) for a missing cell. *)
  Definition mf_table := nat -> nat -> nat -> N.
  Definition col (t : mf_table) (n_q : nat) (pos : nat * nat) : list N := map (fun q => t (fst pos) q (snd pos)) (seq 0 n_q).
  Definition nofnat (n : nat) : N := nZ (Z.of_nat n).

  (** MaterialProperty::set_state (MaterialProperty.templates.hh:537-619) for one locally owned cell. *)
  Definition set_state_cell (k : mstates) (liq pow : mf_table) (n_q : nat) (where_ : option (nat * nat)) : ratios N :=
    let pos := match where_ with Some p => p | None => (0, 0)%nat end in
    match k with
    | Solid => mkr (nZ 1) (nZ 0) (nZ 0)
    | SolidLiquid => let l := sum_list (col liq n_q pos) / nofnat n_q in mkr (nZ 1 - l) l (nZ 0)
    | SolidLiquidPowder =>
        let l := sum_list (col liq n_q pos) / nofnat n_q in
        let p := sum_list (col pow n_q pos) / nofnat n_q in
        mkr (nZ 1 - l - p) l p
    end.
  Definition set_state (k : mstates) (liq pow : mf_table) (n_q : nat) (where_ : nat -> option (nat * nat)) (cells : list nat)
      (state : nat -> ratios N) (c : nat) : ratios N :=
    if existsb (Nat.eqb c) cells then set_state_cell k liq pow n_q (where_ c) else match k with Solid => mkr (nZ 1) (nZ 0) (nZ 0) | _ => state c end.

  (** MaterialProperty::set_state_device (MaterialProperty.templates.hh:624-727): the views are indexed by one position per
      (cell, quadrature point), and only activated cells ([active]) are written. *)
  Definition set_state_device (k : mstates) (liq pow : nat -> N) (positions : nat -> list nat) (active : list nat)
      (state : nat -> ratios N) (c : nat) : ratios N :=
    match k with
    | Solid => mkr (nZ 1) (nZ 0) (nZ 0)
    | _ =>
        if existsb (Nat.eqb c) active then
          let n := nofnat (List.length (positions c)) in
          let l := sum_list (map liq (positions c)) / n in
          let p := match k with SolidLiquidPowder => sum_list (map pow (positions c)) / n | _ => nZ 0 end in
          match k with
          | SolidLiquidPowder => mkr (nZ 1 - l - p) l p
          | _ => mkr (nZ 1 - l) l (nZ 0)
          end
        else state c
    end.

  (** get_state_from_material_properties (ThermalOperator.templates.hh:777-799): every quadrature point of a cell gets the
      cell's ratio.  [cell_at batch lane] is get_cell_iterator. *)
  Definition get_state_liquid (state : nat -> ratios N) (cell_at : nat -> nat -> nat) : mf_table := fun b _ i => r_liquid (state (cell_at b i)).
  Definition get_state_powder (state : nat -> ratios N) (cell_at : nat -> nat -> nat) : mf_table := fun b _ i => r_powder (state (cell_at b i)).

  (** set_initial_state (MaterialProperty.templates.hh:750-786): _state(user_index, dof) = 1, everything else 0; a user
      index that is not a state of the template parameter is out of bounds. *)
  Definition initial_state (k : mstates) (user_index : nat) : res (ratios N) :=
    if Nat.ltb user_index (n_states k) then
      Ok (match user_index with
          | 0 => mkr (nZ 1) (nZ 0) (nZ 0)
          | 1 => mkr (nZ 0) (nZ 1) (nZ 0)
          | _ => mkr (nZ 0) (nZ 0) (nZ 1)
          end)
    else UB.
End State.
Arguments state_law N : clear implicits.
Arguments prop_law N : clear implicits.
Arguments mf_table N : clear implicits.
