(** MaterialProperties.v -- C16 to C23.  Only statements, witnesses and assumptions. *)
From Coq Require Import Reals ZArith QArith Bool List String Ascii Lra Lia Floats.
From Flocq Require Import Core.
From Verif Require Import Base BaseFacts Decimal ScanPathModel MaterialModel MaterialSpec MaterialProofs MaterialProofs2 MaterialFloat.
Import ListNotations.
Local Open Scope R_scope.

(** A material melting between 1000 and 2000 with latent heat 300. *)
Example steel_melts : melts mat_1k_2k.
Proof. unfold melts; simpl; lra. Qed.

(** * C16 *)
Theorem C16_device_partition : forall k (m : mat_props RNum) p0 Ts T, melts m -> 0 <= p0 <= 1 ->
  let p := stored_powder (fun p T => device_ratios k m p T) p0 Ts in
  partition (device_ratios k m p T) /\ (r_powder (device_ratios k m p T) : R) <= p.
Proof. exact history_ok. Qed.
Print Assumptions C16_device_partition.
Theorem C16_device_powder_is_least : forall (m : mat_props RNum) Ts, melts m -> forall p0, 0 <= p0 <= 1 ->
  smallest_so_far (fun T => liquid_ratio m T) p0 Ts (stored_powder (fun p T => device_ratios SolidLiquidPowder m p T) p0 Ts).
Proof. exact history_min. Qed.
Print Assumptions C16_device_powder_is_least.
Theorem C16_device_liquid : forall k (m : mat_props RNum) (p T : R), melts m -> 0 <= p <= 1 -> k <> Solid ->
  r_liquid (device_ratios k m p T) = liquid_ratio m T.
Proof. exact (fun k m p T M P => proj2 (proj2 (ratios_step k m p T M P))). Qed.
Print Assumptions C16_device_liquid.
(** The per-cell update of MaterialProperty computes the same ratios. *)
Theorem C16_cell_same : forall k (m : mat_props RNum) (p T : R), cell_ratios k m p T = device_ratios k m p T.
Proof. exact (fun k m p T => eq_sym (device_is_cell k m p T)). Qed.
Print Assumptions C16_cell_same.
(** The same in binary64: ranges exactly, the sum up to 2^-52. *)
Theorem C16_device_binary64 : forall k (m : mat_props FNum) (p0 : FNum) Ts (T : FNum), Fmelts m ->
  (forall T', In T' (T :: Ts) -> Ffinite T') -> Ffinite p0 -> 0 <= Fval p0 <= 1 ->
  let p := fold_left (fun p T => r_powder (device_ratios k m p T)) Ts p0 in
  let r := device_ratios k m p T in
  0 <= Fval (r_solid r) <= 1 /\ 0 <= Fval (r_liquid r) <= 1 /\ 0 <= Fval (r_powder r) <= 1 /\
  Rabs (Fval (r_solid r) + Fval (r_liquid r) + Fval (r_powder r) - 1) <= bpow radix2 (-52) /\
  Fval (r_powder r) <= Fval p <= Fval p0.
Proof. exact Fhistory_ok. Qed.
Print Assumptions C16_device_binary64.
(** The host, on a batch of lanes: every lane but the last keeps its stored powder ratio. *)
Theorem C16_host_batch : forall (stored init : list R) (lanes : list (mat_props RNum * R)) sol liq pow,
  List.length stored = List.length lanes -> List.length init = List.length lanes ->
  host_ratios (N := RNum) SolidLiquidPowder stored lanes init = (sol, liq, pow) ->
  forall i m T, nth_error lanes i = Some (m, T) ->
    nth i sol 0 = r_solid (device_ratios SolidLiquidPowder m (nth i stored 0) T) /\
    nth i liq 0 = liquid_ratio m T /\
    nth i pow 0 = (if Nat.eqb (S i) (List.length lanes) then r_powder (device_ratios SolidLiquidPowder m (nth i stored 0) T) else nth i stored 0).
Proof. exact host_exact. Qed.
Print Assumptions C16_host_batch.
Theorem C16_host_solid_liquid : forall (stored init : list R) (lanes : list (mat_props RNum * R)) sol liq pow,
  List.length init = List.length lanes -> host_ratios (N := RNum) SolidLiquid stored lanes init = (sol, liq, pow) ->
  forall i m T, nth_error lanes i = Some (m, T) -> nth i sol 0 = 1 - liquid_ratio m T /\ nth i liq 0 = liquid_ratio m T.
Proof. exact host_sl_exact. Qed.
Print Assumptions C16_host_solid_liquid.
Theorem C16_host_sum_refuted : exists sol liq pow,
  host_ratios (N := RNum) SolidLiquidPowder [1; 1] [(mat_1k_2k, 2500); (mat_1k_2k, 2500)] [0; 0] = (sol, liq, pow) /\
  nth 0 sol 0 + nth 0 liq 0 + nth 0 pow 0 = 2 /\ nth 0 pow 0 = 1 /\ nth 0 liq 0 = 1 /\ nth 1 sol 0 + nth 1 liq 0 + nth 1 pow 0 = 1.
Proof. exact host_sum_two. Qed.
Print Assumptions C16_host_sum_refuted.
Example C16_witness64 : let m := mkmp (N := FNum) 1650%float 1700%float 300000%float 300%float 300%float in
  PrimFloat.is_finite (p_solidus m) = true /\ PrimFloat.ltb (p_solidus m) (p_liquidus m) = true /\
  let r := device_ratios (N := FNum) SolidLiquidPowder m 0.75%float 1690%float in
  r_liquid r = (40 / 50)%float /\ r_powder r = (1 - 40 / 50)%float /\ r_solid r = 0%float.
Proof. vm_compute. repeat split; reflexivity. Qed.
Example C16_witness_history : let m := mkmp (N := QNum) (1000 # 1)%Q (2000 # 1)%Q (300 # 1)%Q (300 # 1)%Q (300 # 1)%Q in
  fold_left (fun p T => r_powder (device_ratios (N := QNum) SolidLiquidPowder m p T)) [500 # 1; 1500 # 1; 500 # 1]%Q (1 # 1)%Q = (1 # 2)%Q.
Proof. vm_compute. reflexivity. Qed.

(** * C17 *)
Theorem C17_law : forall (m : mat_props RNum) (T : R), melts m ->
  (T <= (p_solidus m : R) -> (liquid_ratio m T : R) = 0) /\ ((p_liquidus m : R) <= T -> (liquid_ratio m T : R) = 1) /\
  ((p_solidus m : R) <= T <= p_liquidus m -> (liquid_ratio m T : R) * (p_liquidus m - p_solidus m) = T - p_solidus m).
Proof. exact liquid_law. Qed.
Print Assumptions C17_law.
Theorem C17_monotone : forall (m : mat_props RNum) (T T' : R), melts m -> T <= T' -> (liquid_ratio m T : R) <= liquid_ratio m T'.
Proof. exact liquid_mono. Qed.
Print Assumptions C17_monotone.
Theorem C17_continuous : forall (m : mat_props RNum) (T T' : R), melts m ->
  Rabs (liquid_ratio m T - liquid_ratio m T') <= Rabs (T - T') / (p_liquidus m - p_solidus m).
Proof. exact liquid_lipschitz. Qed.
Print Assumptions C17_continuous.
Theorem C17_binary64_range : forall (m : mat_props FNum) (T : FNum), Fmelts m -> Ffinite T ->
  Ffinite (liquid_ratio m T) /\ 0 <= Fval (liquid_ratio m T) <= 1.
Proof. exact Fliquid_range. Qed.
Print Assumptions C17_binary64_range.
Theorem C17_unset_never_liquid : forall (lat ri ci : option R) (T : R), T < nmax RNum ->
  (liquid_ratio (N := RNum) (mkmp (N := RNum) (prop_or_max (N := RNum) None) (prop_or_max (N := RNum) None) (prop_or_max (N := RNum) lat) (prop_or_max (N := RNum) ri) (prop_or_max (N := RNum) ci)) T : R) = 0.
Proof. exact unset_never_liquid. Qed.
Print Assumptions C17_unset_never_liquid.
Theorem C17_equal_temperatures_nan_refuted :
  PrimFloat.is_nan (liquid_ratio (N := FNum) (mkmp (N := FNum) 1000%float 1000%float 300%float 300%float 300%float) 1000%float) = true.
Proof. vm_compute. reflexivity. Qed.
Print Assumptions C17_equal_temperatures_nan_refuted.
Example C17_witness : (liquid_ratio mat_1k_2k 1250 : R) = / 4.
Proof. destruct (C17_law mat_1k_2k 1250 steel_melts) as (_ & _ & H). specialize (H ltac:(simpl; lra)). simpl in *. lra. Qed.

(** * C18 -- [rows]: the rows of the table, [full]: what is stored. *)
Theorem C18_parse : forall (N : Num) (P : parser N) s full, parse_table P s = Ok full <->
  exists rows, Forall2 (row_of_field P) (split_off "|"%char (remove_blanks s)) rows /\ (1 <= List.length rows <= 12)%nat /\ padded rows full.
Proof. exact @parse_table_ok. Qed.
Print Assumptions C18_parse.
Theorem C18_below : forall rows full, padded rows full -> forall t0 v0 T, nth_error rows 0 = Some (t0, v0) -> T <= t0 -> table_value (N := RNum) full T = Ok v0.
Proof. exact table_below. Qed.
Print Assumptions C18_below.
Theorem C18_above : forall rows full, increasing rows -> (1 <= List.length rows <= 12)%nat -> padded rows full -> forall tl vl T,
  nth_error rows (List.length rows - 1) = Some (tl, vl) -> tl <= T -> table_value (N := RNum) full T = Ok vl.
Proof. exact table_above. Qed.
Print Assumptions C18_above.
Theorem C18_between : forall rows full, increasing rows -> (1 <= List.length rows <= 12)%nat -> padded rows full -> forall i ti vi tj vj T,
  nth_error rows i = Some (ti, vi) -> nth_error rows (S i) = Some (tj, vj) ->
  (List.length rows < 12)%nat \/ (S i < 11)%nat /\ T < tj -> ti <= T <= tj ->
  table_value (N := RNum) full T = Ok (vi + (T - ti) * (vj - vi) / (tj - ti)).
Proof. exact table_between. Qed.
Print Assumptions C18_between.
Theorem C18_full_table_last_interval_refuted : forall rows full, increasing rows -> (1 <= List.length rows <= 12)%nat -> padded rows full -> forall t10 v10 t11 v11 T,
  nth_error rows 10 = Some (t10, v10) -> nth_error rows 11 = Some (t11, v11) -> t10 <= T -> table_value (N := RNum) full T = Ok v11.
Proof. exact table_full_last. Qed.
Print Assumptions C18_full_table_last_interval_refuted.
Theorem C18_range : forall (rows : list (R * R)) (T lo hi : R), rows <> [] -> (forall t v, In (t, v) rows -> lo <= v <= hi) ->
  exists v, table_value (N := RNum) rows T = Ok v /\ lo <= v <= hi.
Proof. exact table_range. Qed.
Print Assumptions C18_range.
Example C18_witness : exists full, parse_table QParser "300, 10 | 600,20|900 , 40"%string = Ok full /\ List.length full = 12%nat /\
  table_value (N := QNum) full (450 # 1)%Q = Ok (15 # 1)%Q /\ table_value (N := QNum) full (800 # 1)%Q = Ok (100 # 3)%Q /\ table_value (N := QNum) full (1000 # 1)%Q = Ok (40 # 1)%Q.
Proof. eexists. split; [vm_compute; reflexivity|]. vm_compute. repeat split. Qed.
Example C18_one_field_ub : parse_table QParser "300"%string = UB.
Proof. vm_compute. reflexivity. Qed.
Example C18_increasing_witness : increasing [(300, 10); (600, 20); (900, 40)] /\ padded [(300, 10); (600, 20); (900, 40)] ([(300, 10); (600, 20); (900, 40)] ++ repeat (900, 40) 9).
Proof.
  split; [|exists (900, 40); split; reflexivity]. intros [|[|[|i]]] t v t' v' H H'; simpl in *; try discriminate; try (injection H as <- <-; injection H' as <- <-; lra).
Qed.

(** * C19 *)
Theorem C19_weighted_mean : forall k p_order (law : prop_law RNum) (r : ratios RNum) (T vs vl vp : R),
  law_size p_order (l_solid law) -> law_size p_order (l_liquid law) -> law_size p_order (l_powder law) ->
  law_at (l_solid law) T vs -> law_at (l_liquid law) T vl -> law_at (l_powder law) T vp ->
  eval_scalar k law r T = Ok (weighted k r vs vl vp) /\ eval_host k p_order law r T = Ok (weighted k r vs vl vp).
Proof. exact eval_weighted. Qed.
Print Assumptions C19_weighted_mean.
Theorem C19_unrolled : forall k p_order cs0 cs1 cs2 (r : ratios RNum) (T : R),
  List.length cs0 = (p_order + 1)%nat -> List.length cs1 = (p_order + 1)%nat -> List.length cs2 = (p_order + 1)%nat ->
  (eval_unrolled k p_order [cs0; cs1; cs2] r T : R) = weighted k r (poly_at cs0 T) (poly_at cs1 T) (poly_at cs2 T).
Proof. exact unrolled_weighted. Qed.
Print Assumptions C19_unrolled.
Theorem C19_between : forall k (r : ratios RNum) vs vl vp lo hi, partition r -> only_states k r ->
  lo <= vs <= hi -> lo <= vl <= hi -> lo <= vp <= hi -> lo <= weighted k r vs vl vp <= hi.
Proof. exact weighted_between. Qed.
Print Assumptions C19_between.
Example C19_witness : eval_scalar (N := QNum) SolidLiquid (mklaw (N := QNum) (Poly (N := QNum) [1 # 1; 2 # 1]%Q) (Table (N := QNum) [(0 # 1, 5 # 1); (10 # 1, 7 # 1); (20 # 1, 8 # 1); (20 # 1, 8 # 1)]%Q) (Poly (N := QNum) []))
    (mkr (N := QNum) (1 # 4) (3 # 4) (0 # 1))%Q (10 # 1)%Q = Ok (21 # 2)%Q.
Proof. vm_compute. reflexivity. Qed.

(** * C20 -- [w c]: the batch and lane of cell c. *)
Theorem C20_mean : forall k (liq pow : mf_table RNum) n_q w cells state c, In c cells ->
  let r := set_state k liq pow n_q w cells state c in
  (k <> Solid -> (r_liquid r : R) = mean (col liq n_q (pos_of (w c)))) /\
  (k = SolidLiquidPowder -> (r_powder r : R) = mean (col pow n_q (pos_of (w c)))) /\
  (r_solid r + r_liquid r + r_powder r : R) = 1 /\ only_states k r.
Proof. exact set_state_mean. Qed.
Print Assumptions C20_mean.
Theorem C20_partition : forall k (liq pow : mf_table RNum) n_q w cells state c, In c cells -> (0 < n_q)%nat ->
  (forall q, (q < n_q)%nat -> let p := pos_of (w c) in
     0 <= (liq (fst p) q (snd p) : R) /\ 0 <= (pow (fst p) q (snd p) : R) /\ (liq (fst p) q (snd p) + pow (fst p) q (snd p) : R) <= 1) ->
  partition (set_state k liq pow n_q w cells state c).
Proof. exact set_state_partition. Qed.
Print Assumptions C20_partition.
Theorem C20_round_trip : forall k (state : nat -> ratios RNum) cell_at n_q w cells c, (0 < n_q)%nat -> In c cells ->
  partition (state c) -> only_states k (state c) -> cell_at (fst (pos_of (w c))) (snd (pos_of (w c))) = c ->
  set_state k (get_state_liquid state cell_at) (get_state_powder state cell_at) n_q w cells state c = state c.
Proof. exact state_round_trip. Qed.
Print Assumptions C20_round_trip.
Theorem C20_device_agrees : forall k (liq pow : mf_table RNum) n_q w cells state (dliq dpow : nat -> R) positions active c,
  In c cells -> In c active ->
  map dliq (positions c) = col liq n_q (pos_of (w c)) -> map dpow (positions c) = col pow n_q (pos_of (w c)) ->
  set_state_device (N := RNum) k dliq dpow positions active state c = set_state k liq pow n_q w cells state c.
Proof. exact set_state_device_same. Qed.
Print Assumptions C20_device_agrees.
Theorem C20_device_leaves_inactive : forall k (dliq dpow : nat -> R) positions active (state : nat -> ratios RNum) c,
  ~ In c active -> k <> Solid -> set_state_device (N := RNum) k dliq dpow positions active state c = state c.
Proof. exact set_state_device_other. Qed.
Print Assumptions C20_device_leaves_inactive.
Theorem C20_initial : forall k u r, initial_state (N := RNum) k u = Ok r -> partition r /\ only_states k r.
Proof. exact initial_ok. Qed.
Print Assumptions C20_initial.
Theorem C20_initial_ub : forall k u, initial_state (N := RNum) k u = UB <-> (n_states k <= u)%nat.
Proof. exact initial_ub. Qed.
Print Assumptions C20_initial_ub.
Theorem C20_leaves_others : forall k (liq pow : mf_table RNum) n_q w cells state c, ~ In c cells ->
  (k <> Solid -> set_state k liq pow n_q w cells state c = state c) /\ (k = Solid -> set_state k liq pow n_q w cells state c = mkr (N := RNum) 1 0 0).
Proof. exact set_state_other. Qed.
Print Assumptions C20_leaves_others.
Example C20_witness : set_state (N := QNum) SolidLiquidPowder (fun b q i => if Nat.eqb q 0 then 1 # 2 else 0 # 1)%Q (fun b q i => 1 # 4)%Q 2 (fun c => Some (c, 0%nat)) [0%nat; 1%nat]
  (fun _ => mkr (N := QNum) (1 # 1) (0 # 1) (0 # 1))%Q 1 = mkr (N := QNum) (1 # 2) (1 # 4) (1 # 4)%Q.
Proof. vm_compute. reflexivity. Qed.

(** * C21 *)
Theorem C21_flux : forall cv rd (inv h ci e ri T : R), boundary_val (N := RNum) cv rd inv h ci e ri T = - inv * outflux cv rd h ci e ri T.
Proof. exact boundary_is_flux. Qed.
Print Assumptions C21_flux.
Theorem C21_sign : forall cv rd (inv h ci e ri T : R), 0 < inv -> 0 <= h -> 0 <= e -> 0 <= ri -> 0 <= T ->
  let f := boundary_val (N := RNum) cv rd inv h ci e ri T : R in
  ((cv = true -> ci <= T) -> (rd = true -> ri <= T) -> f <= 0) /\
  ((cv = true -> T <= ci) -> (rd = true -> T <= ri) -> 0 <= f) /\
  (rd = true -> 0 < e -> (cv = true -> ci <= T) -> ri < T -> f < 0) /\
  (rd = true -> 0 < e -> (cv = true -> T <= ci) -> T < ri -> 0 < f) /\
  (cv = true -> 0 < h -> ci < T -> (rd = true -> ri <= T) -> f < 0) /\
  (cv = true -> 0 < h -> T < ci -> (rd = true -> T <= ri) -> 0 < f).
Proof. exact flux_sign. Qed.
Print Assumptions C21_sign.
Theorem C21_equilibrium : forall cv rd (inv h e T : R), boundary_val (N := RNum) cv rd inv h T e T T = 0.
Proof. exact flux_equilibrium. Qed.
Print Assumptions C21_equilibrium.
(** The coefficient MaterialProperty stores per cell. *)
Theorem C21_cell_coefficient : forall (e T Ti fl : R), Ti <> nmax RNum -> cell_rad_coef (N := RNum) e T Ti fl * (T - Ti) = e * sigma * (T ^ 4 - Ti ^ 4).
Proof. exact cell_coef_set. Qed.
Print Assumptions C21_cell_coefficient.
Theorem C21_cell_coefficient_unset : forall (e T fl : R), cell_rad_coef (N := RNum) e T (prop_or_max (N := RNum) None) fl = fl.
Proof. exact cell_coef_unset. Qed.
Print Assumptions C21_cell_coefficient_unset.
Example C21_witness : boundary_val (N := QNum) true true (1 # 2)%Q (10 # 1)%Q (300 # 1)%Q (1 # 2)%Q (300 # 1)%Q (400 # 1)%Q = (-119692620933 # 160000000)%Q.
Proof. vm_compute. reflexivity. Qed.

(** * C22 *)
Theorem C22_solid_liquid : forall (m : mat_props RNum) (r : ratios RNum) (c : R), partition r -> only_states SolidLiquid r ->
  host_latent SolidLiquid m r c = device_latent SolidLiquid m r c.
Proof. exact latent_sl. Qed.
Print Assumptions C22_solid_liquid.
Theorem C22_powder_iff : forall (m : mat_props RNum) (r : ratios RNum) (c : R), partition r -> p_latent m / (p_liquidus m - p_solidus m) <> 0 ->
  ((host_latent SolidLiquidPowder m r c : R) = device_latent SolidLiquidPowder m r c <->
   ~ (0 < (r_liquid r : R) /\ (r_solid r : R) = 0 /\ 0 < (r_powder r : R))).
Proof. exact latent_slp_iff. Qed.
Print Assumptions C22_powder_iff.
Theorem C22_fresh_powder_refuted : forall (m : mat_props RNum) (T c : R), melts m -> (p_solidus m : R) < T < p_liquidus m ->
  let r := device_ratios SolidLiquidPowder m 1 T in
  (host_latent SolidLiquidPowder m r c : R) = c /\ (device_latent SolidLiquidPowder m r c : R) = c + p_latent m / (p_liquidus m - p_solidus m).
Proof. exact fresh_powder. Qed.
Print Assumptions C22_fresh_powder_refuted.
Theorem C22_cell_agrees : forall k (m : mat_props RNum) (r : ratios RNum) (c : R), partition r -> only_states k r -> (p_liquidus m - p_solidus m : R) <> 0 ->
  (cell_latent k m r c : R) = device_latent k m r c.
Proof. exact cell_device_latent. Qed.
Print Assumptions C22_cell_agrees.
(** The heat taken per unit volume from solidus to liquidus, at the rate the codes use between the two, is density times
    (specific heat times the temperature difference plus latent heat); outside, the specific heat alone counts. *)
Theorem C22_heat_of_melting : forall k (m : mat_props RNum) (r : ratios RNum) (rho c : R), k <> Solid -> 0 < (r_liquid r : R) < 1 -> 0 < (r_solid r : R) -> melts m -> 0 < rho -> 0 < c -> 0 <= (p_latent m : R) ->
  let heat (inv : R) := ((p_liquidus m - p_solidus m) / inv)%R in let expected : R := rho * (c * (p_liquidus m - p_solidus m) + p_latent m) in
  heat (inv_rho_cp (N := RNum) rho (host_latent k m r c)) = expected /\ heat (inv_rho_cp (N := RNum) rho (device_latent k m r c)) = expected.
Proof. exact heat_of_melting. Qed.
Print Assumptions C22_heat_of_melting.
Theorem C22_outside : forall k (m : mat_props RNum) (r : ratios RNum) (rho c : R), (r_liquid r : R) = 0 \/ ((r_liquid r : R) = 1 /\ (r_solid r : R) = 0) -> 0 < rho -> 0 < c ->
  (inv_rho_cp (N := RNum) rho (host_latent k m r c) * (rho * c) = 1)%R /\ (inv_rho_cp (N := RNum) rho (device_latent k m r c) * (rho * c) = 1)%R.
Proof. exact heat_outside. Qed.
Print Assumptions C22_outside.
Example C22_witness : partition (mkr (N := RNum) (/ 2) (/ 4) (/ 4)) /\ p_latent mat_1k_2k / (p_liquidus mat_1k_2k - p_solidus mat_1k_2k) <> 0.
Proof. unfold partition; simpl; repeat split; lra. Qed.

(** * C23 -- c, s: cosine and sine of the deposition angle. *)
Theorem C23_symmetric : forall dim3 (inv kx ky kz c s : R) g h,
  dot (conduction (N := RNum) dim3 inv kx ky kz c s g) h = dot g (conduction (N := RNum) dim3 inv kx ky kz c s h).
Proof. exact cond_symmetric. Qed.
Print Assumptions C23_symmetric.
Theorem C23_principal_directions : forall inv kx ky kz c s : R, c * c + s * s = 1 ->
  conduction (N := RNum) true inv kx ky kz c s (mkpt (N := RNum) c s 0) = pscale (N := RNum) (- inv * kx) (mkpt (N := RNum) c s 0) /\
  conduction (N := RNum) true inv kx ky kz c s (mkpt (N := RNum) (- s) c 0) = pscale (N := RNum) (- inv * ky) (mkpt (N := RNum) (- s) c 0) /\
  conduction (N := RNum) true inv kx ky kz c s (mkpt (N := RNum) 0 0 1) = pscale (N := RNum) (- inv * kz) (mkpt (N := RNum) 0 0 1).
Proof. exact cond_eigen. Qed.
Print Assumptions C23_principal_directions.
Theorem C23_dissipative : forall (dim3 : bool) (inv kx ky kz c s lo hi : R) (g : pt RNum), c * c + s * s = 1 -> 0 <= inv ->
  lo <= kx <= hi -> lo <= ky <= hi -> lo <= kz <= hi -> (dim3 = false -> (py g : R) = 0) ->
  - inv * hi * dot g g <= dot (conduction (N := RNum) dim3 inv kx ky kz c s g) g <= - inv * lo * dot g g.
Proof. exact cond_bounds. Qed.
Print Assumptions C23_dissipative.
Example C23_witness : (3 / 5) * (3 / 5) + (4 / 5) * (4 / 5) = 1 /\
  conduction (N := QNum) true (1 # 1)%Q (2 # 1)%Q (1 # 1)%Q (3 # 1)%Q (3 # 5)%Q (4 # 5)%Q (mkpt (N := QNum) (3 # 1) (4 # 1) (1 # 1))%Q = mkpt (N := QNum) (-6 # 1)%Q (-8 # 1)%Q (-3 # 1)%Q.
Proof. split; [lra|vm_compute; reflexivity]. Qed.
