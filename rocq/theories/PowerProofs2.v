(** PowerProofs2.v -- proofs of C75: the share of the power, bounded by rationals. *)
From Coq Require Import Reals Lra Psatz Bool List Machin.
From Coquelicot Require Import Coquelicot.
From Verif Require Import Base BaseFacts QuaternionModel ScanPathModel HeatSourceModel HeatSourceSpec HeatSourceProofs PowerSpec PowerProofs.
Local Open Scope R_scope.

Fixpoint fa (n : nat) : R := match n with O => 1 | S m => fa m * INR (S m) end.
Lemma fa_neq n : fa n <> 0.
Proof. induction n as [|n IH]; [simpl; lra|]. change (fa n * INR (S n) <> 0). apply Rmult_integral_contrapositive_currified; [exact IH|apply not_0_INR; discriminate]. Qed.
(** Alternating Taylor polynomials of exp (- y). *)
Fixpoint T (n : nat) (y : R) : R := match n with O => 1 | S m => T m y + (- y) ^ n / fa n end.
Definition sgn (n : nat) : R := (-1) ^ n.
Lemma mono_deriv m K y : is_derive (fun y => (- y) ^ S m / K) y (- (INR (S m) * (- y) ^ m / K)).
Proof.
  assert (X : is_derive (fun y => (- y) ^ S m) y (INR (S m) * -1 * (- y) ^ m)).
  { apply (is_derive_pow (fun y => - y)). auto_derive; [exact I|reflexivity]. }
  apply (is_derive_ext (fun y => / K * (- y) ^ S m)); [intros z; Req; unfold Rdiv; ring|].
  replace (- (INR (S m) * (- y) ^ m / K)) with (/ K * (INR (S m) * -1 * (- y) ^ m)) by (unfold Rdiv; ring).
  apply (is_derive_scal (fun y => (- y) ^ S m)). exact X.
Qed.
Lemma pow_deriv m C K y : is_derive (fun y => C * y ^ S m / K) y (C * (INR (S m) * y ^ m) / K).
Proof.
  assert (X : is_derive (fun y => y ^ S m) y (INR (S m) * 1 * y ^ m)).
  { apply (is_derive_pow (fun y => y)). auto_derive; [exact I|reflexivity]. }
  apply (is_derive_ext (fun y => C / K * y ^ S m)); [intros z; Req; unfold Rdiv; ring|].
  replace (C * (INR (S m) * y ^ m) / K) with (C / K * (INR (S m) * 1 * y ^ m)) by (unfold Rdiv; ring).
  apply (is_derive_scal (fun y => y ^ S m)). exact X.
Qed.
Lemma T_deriv n y : is_derive (T (S n)) y (- T n y).
Proof.
  induction n as [|n IH].
  - simpl. auto_derive; [exact I|]. field.
  - change (is_derive (fun y => T (S n) y + (- y) ^ S (S n) / fa (S (S n))) y (- (T n y + (- y) ^ S n / fa (S n)))).
    replace (- (T n y + (- y) ^ S n / fa (S n))) with (- T n y + - ((- y) ^ S n / fa (S n))) by ring.
    apply (is_derive_plus (V := R_NormedModule)); [exact IH|].
    assert (F : fa (S n) <> 0) by apply fa_neq. assert (G : INR (S (S n)) <> 0) by (apply not_0_INR; discriminate).
    replace (- ((- y) ^ S n / fa (S n))) with (- (INR (S (S n)) * (- y) ^ S n / fa (S (S n)))).
    2: { change (fa (S (S n))) with (fa (S n) * INR (S (S n))). field. split; assumption. }
    apply mono_deriv.
Qed.
Lemma T_0 n : T n 0 = 1.
Proof. induction n as [|n IH]; [reflexivity|]. change (T n 0 + (- 0) ^ S n / fa (S n) = 1). rewrite IH, Ropp_0. simpl. unfold Rdiv. rewrite !Rmult_0_l. ring. Qed.
Lemma T_side n y : 0 <= y -> 0 <= sgn n * (T n y - exp (- y)).
Proof.
  revert y. induction n as [|n IH]; intros y Hy.
  - unfold sgn; simpl. assert (exp (- y) <= 1). { rewrite <- exp_0. destruct Hy as [Hy| <-]; [left; apply exp_increasing; lra|rewrite Ropp_0; right; reflexivity]. } lra.
  - destruct Hy as [Hy| <-].
    + destruct (MVT_gen (fun y => sgn (S n) * (T (S n) y - exp (- y))) 0 y (fun y => sgn n * (T n y - exp (- y)))) as (c & Hc & E).
      * intros x _. replace (sgn n * (T n x - exp (- x))) with (sgn (S n) * (- T n x - (-1 * exp (- x)))) by (unfold sgn; simpl; ring).
        apply (is_derive_scal (fun y => T (S n) y - exp (- y))).
        apply (is_derive_minus (V := R_NormedModule)); [apply T_deriv|]. auto_derive; [exact I|]. ring.
      * intros x _. apply derivable_continuous_pt. apply ex_derive_Reals_0. exists (sgn (S n) * (- T n x - (-1 * exp (- x)))).
        apply (is_derive_scal (fun y => T (S n) y - exp (- y))).
        apply (is_derive_minus (V := R_NormedModule)); [apply T_deriv|]. auto_derive; [exact I|]. ring.
      * rewrite Rmin_left, Rmax_right in Hc by lra. rewrite T_0, Ropp_0, exp_0 in E. assert (P := IH c ltac:(lra)). nra.
    + rewrite T_0, Ropp_0, exp_0. lra.
Qed.
(** The antiderivative of the Taylor polynomial at 3 u^2. *)
Fixpoint A (n : nat) (u : R) : R := match n with O => u | S m => A m u + (-3) ^ n * u ^ S (2 * n) / (fa n * INR (S (2 * n))) end.
Lemma A_deriv n u : is_derive (A n) u (T n (3 * (u * u))).
Proof.
  induction n as [|n IH]; [simpl; auto_derive; [exact I|reflexivity]|].
  change (is_derive (fun u => A n u + (-3) ^ S n * u ^ S (2 * S n) / (fa (S n) * INR (S (2 * S n)))) u (T n (3 * (u * u)) + (- (3 * (u * u))) ^ S n / fa (S n))).
  apply (is_derive_plus (V := R_NormedModule)); [exact IH|].
  assert (F : fa (S n) <> 0) by apply fa_neq. assert (G : INR (S (2 * S n)) <> 0) by (apply not_0_INR; discriminate).
  replace ((- (3 * (u * u))) ^ S n / fa (S n)) with ((-3) ^ S n * (INR (S (2 * S n)) * u ^ (2 * S n)) / (fa (S n) * INR (S (2 * S n)))).
  2: { rewrite pow_mult. replace (- (3 * (u * u))) with (-3 * u ^ 2) by ring. rewrite Rpow_mult_distr. field. split; assumption. }
  apply pow_deriv.
Qed.
Lemma T_int n : is_RInt (fun u => T n (3 * (u * u))) (-1) 0 (A n 0 - A n (-1)).
Proof.
  apply (is_RInt_derive (V := R_CompleteNormedModule) (A n)); intros u _; [apply A_deriv|].
  induction n as [|n IH]; [apply continuous_const|]. apply (ex_derive_continuous (V := R_NormedModule)).
  exists (6 * u * - T n (3 * (u * u))). assert (X := is_derive_comp (V := R_NormedModule) (T (S n)) (fun u => 3 * (u * u)) u (- T n (3 * (u * u))) (6 * u) (T_deriv n _)).
  unfold scal in X; simpl in X; unfold mult in X; simpl in X. apply X. auto_derive; [exact I|]. ring.
Qed.
Definition I0 : R := RInt (fun u => exp (-3 * (u * u))) (-1) 0.
Lemma I0_int : is_RInt (fun u => exp (-3 * (u * u))) (-1) 0 I0.
Proof. apply (RInt_correct (V := R_CompleteNormedModule)). apply gauss_ex. Qed.
Lemma I0_side n : 0 <= sgn n * ((A n 0 - A n (-1)) - I0).
Proof.
  assert (X := is_RInt_scal (V := R_NormedModule) _ _ _ (sgn n) _ (is_RInt_minus (V := R_NormedModule) _ _ _ _ _ _ (T_int n) I0_int)).
  apply (is_RInt_le (fun _ => 0) (fun u => sgn n * (T n (3 * (u * u)) - exp (-3 * (u * u)))) (-1) 0 0); [lra|apply is_RInt_zero|exact X|].
  intros u _. replace (-3 * (u * u)) with (- (3 * (u * u))) by ring. apply T_side. nra.
Qed.
Lemma I0_bounds : 50433 / 100000 < I0 < 50435 / 100000.
Proof.
  split.
  - assert (X := I0_side 13). unfold sgn, A in X. simpl in X. lra.
  - assert (X := I0_side 14). unfold sgn, A in X. simpl in X. lra.
Qed.
Lemma PI_bounds : 314159 / 100000 < PI < 314160 / 100000.
Proof.
  destruct (PI_2_3_7_ineq 3) as [L _]. destruct (PI_2_3_7_ineq 3) as [_ U].
  unfold PI_2_3_7_tg, tg_alt, Ratan_seq in L, U. simpl in L, U. lra.
Qed.
Lemma share_square : goldak_share 0 * goldak_share 0 * PI = 12 * (I0 * I0).
Proof.
  unfold goldak_share. fold I0. assert (P := PI_RGT_0). assert (Q : 0 <= 3 / PI) by (apply Rlt_le, Rdiv_lt_0_compat; lra).
  replace (2 * sqrt (3 / PI) * I0 * (2 * sqrt (3 / PI) * I0)) with (4 * (sqrt (3 / PI) * sqrt (3 / PI)) * (I0 * I0)) by ring.
  rewrite sqrt_sqrt by exact Q. field. lra.
Qed.
Lemma share_bounds : 9856 / 10000 < goldak_share 0 < 9858 / 10000.
Proof.
  assert (S := share_square). assert (P := PI_bounds). assert (B := I0_bounds).
  assert (N : 0 <= goldak_share 0). { unfold goldak_share. fold I0. assert (X := sqrt_pos (3 / PI)). nra. }
  set (s := goldak_share 0) in *. assert (L : (50433/100000) * (50433/100000) < I0 * I0 < (50435/100000)*(50435/100000)) by nra.
  split; apply Rnot_le_lt; intros H.
  - assert (s * s * PI <= (9856/10000 * (9856/10000)) * (314160/100000)) by (apply Rmult_le_compat; nra). lra.
  - assert ((9858/10000 * (9858/10000)) * (314159/100000) <= s * s * PI) by (apply Rmult_le_compat; nra). lra.
Qed.
Lemma exp_lower n : (5 / 2) ^ n <= exp (INR n).
Proof.
  assert (E : 5 / 2 <= exp 1).
  { assert (Y := T_side 4 1 ltac:(lra)). assert (X := T_side 6 1 ltac:(lra)). unfold sgn in X, Y. simpl in X, Y. assert (P := exp_pos (-1)).
    replace (exp 1) with (/ exp (-1)) by (rewrite <- exp_Ropp; f_equal; ring).
    replace (- (1)) with (-1) in * by ring.
    apply Rle_trans with (/ (3 / 8)); [lra|]. apply Rinv_le_contravar; [assumption|]. lra. }
  induction n as [|n IH]; [simpl; rewrite exp_0; lra|].
  rewrite S_INR, exp_plus. change ((5 / 2) ^ S n) with (5 / 2 * (5 / 2) ^ n). rewrite Rmult_comm. apply Rmult_le_compat; try lra. apply pow_le; lra.
Qed.
Lemma exp15 : 0 < exp (-15) < 5 / 1000000.
Proof.
  split; [apply exp_pos|]. replace (-15) with (- (INR 15)) by (simpl; ring). rewrite exp_Ropp.
  assert (X := exp_lower 15). apply Rle_lt_trans with (/ ((5 / 2) ^ 15)); [apply Rinv_le_contravar; [apply pow_lt; lra|exact X]|]. simpl. lra.
Qed.
Lemma share_factor : 985 / 1000 < (1 - exp (-15)) * goldak_share 0 < 986 / 1000.
Proof. assert (E := exp15). assert (S := share_bounds). nra. Qed.
Lemma I_symmetric : RInt (fun u => exp (-3 * (u * u))) 0 1 = I0.
Proof.
  unfold I0. assert (H := is_RInt_comp_opp (V := R_NormedModule) (fun u => exp (-3 * (u * u))) 0 1 I0).
  rewrite Ropp_0 in H. assert (J := is_RInt_swap (V := R_NormedModule) _ _ _ _ I0_int). 
  assert (H' := is_RInt_comp_opp (V := R_NormedModule) (fun u => exp (-3 * (u * u))) 0 1 (opp I0)).
  rewrite Ropp_0 in H'. apply is_RInt_unique. assert (K := is_RInt_opp (V := R_NormedModule) _ _ _ _ (H' J)). rewrite opp_opp in K.
  eapply is_RInt_ext; [|exact K]. intros u _. unfold opp; simpl. rewrite Ropp_involutive. f_equal. ring.
Qed.
Lemma share_twice : goldak_share 1 = 2 * goldak_share 0.
Proof.
  unfold goldak_share. replace (RInt (fun u => exp (-3 * (u * u))) (-1) 1) with (I0 + I0); [unfold I0; ring|].
  rewrite <- I_symmetric at 2. unfold I0. apply (RInt_Chasles (V := R_CompleteNormedModule)); apply gauss_ex.
Qed.
(** The integral is determined by the density. *)
Lemma heat_in_unique q c R0 a b x y : heat_in q c R0 a b x -> heat_in q c R0 a b y -> x = y.
Proof.
  intros (g1 & h1 & A1 & B1 & C1) (g2 & h2 & A2 & B2 & C2).
  assert (G : forall z rho, g1 z rho = g2 z rho). { intros z rho. rewrite <- (is_RInt_unique _ _ _ _ (A1 z rho)). apply is_RInt_unique. apply A2. }
  assert (Hh : forall z, h1 z = h2 z).
  { intros z. rewrite <- (is_RInt_unique _ _ _ _ (B1 z)). apply is_RInt_unique. eapply is_RInt_ext; [|apply B2]. intros rho _. symmetry. apply G. }
  rewrite <- (is_RInt_unique _ _ _ _ C1). apply is_RInt_unique. eapply is_RInt_ext; [|exact C2]. intros z _. symmetry. apply Hh.
Qed.
(** ** Two dimensions *)
Lemma beside_value (g : goldak) (x z : R) :
  goldak_value false g (beside (g_center g) x z) =
  if Rltb (z + g_depth g) 0 then Some 0 else if Rltb (5 * b_radius2 (g_beam g)) (x * x) then Some 0 else Some (g_alpha g * exp (-3 * (x * x) * g_ir2 g + -3 * (z * z) * g_id2 g)).
Proof.
  unfold goldak_value, rotated, ax_z, beside, xpy_squared. cbn [px py pz].
  set (X := px (g_center g)). set (Y := py (g_center g)). cbn [num RNum] in X, Y.
  assert (E1 : Y + z - Y = z) by ring. assert (E2 : (X + x - X) ^ 2 = x * x) by ring.
  change (nadd RNum) with Rplus. change (nmul RNum) with Rmult.
  rewrite E1, E2. reflexivity.
Qed.
Lemma width_gauss (r s : R) : 0 < r -> is_RInt (fun x => exp (- (3 / (r * r)) * (x * x))) (- (s * r)) (s * r) (r * RInt (fun u => exp (-3 * (u * u))) (- s) s).
Proof.
  intros D. pose proof (RInt_correct (V := R_CompleteNormedModule) _ _ _ (gauss_ex 3 (- s) s)) as H.
  assert (E1 : - s = / r * (- (s * r)) + 0) by (field; lra). assert (E2 : s = / r * (s * r) + 0) by (field; lra).
  rewrite E1 in H at 1. rewrite E2 in H at 2. apply (is_RInt_comp_lin (V := R_NormedModule)) in H.
  apply (is_RInt_scal (V := R_NormedModule)) with (k := r) in H.
  eapply is_RInt_ext; [|exact H].
  intros z _. unfold scal; simpl; unfold mult; simpl. rewrite <- Rmult_assoc, Rinv_r, Rmult_1_l by lra. f_equal. field. lra.
Qed.
Lemma goldak_total_2d g t g' pm sp1 r R0 D : goldak_update_time g t = Ok g' -> good_beam (g_beam g) -> get_power_modifier (g_path g) t = Ok (pm, sp1) ->
  0 < r -> b_radius2 (g_beam g) = r * r -> 0 <= R0 -> 5 * b_radius2 (g_beam g) <= R0 * R0 -> b_depth (g_beam g) <= D ->
  heat_in_2d (goldak_value false g') (g_center g') R0 (- D) 0 (b_eff (g_beam g) * b_power (g_beam g) * pm * goldak_share_2d / r).
Proof.
  intros U (Hd & Hr & He & Hp) Pm Pr E P0 P1 HD. destruct (goldak_fields g t g' U) as (pm' & sp' & Pm' & B & F' & De & Ir & Id & Al). rewrite Pm in Pm'. injection Pm' as <- <-.
  set (d := b_depth (g_beam g)) in *. rewrite E in *. set (A := g_alpha g') in *.
  set (J := RInt (fun u => exp (-3 * (u * u))) (- sqrt 5) (sqrt 5)). set (w := fun z : R => exp (- (3 / (d * d)) * (z * z))).
  assert (S5 : sqrt 5 * sqrt 5 = 5) by (apply sqrt_sqrt; lra). assert (SP := sqrt_pos 5).
  assert (SR : sqrt 5 * r <= R0) by (apply Rsqr_incr_0; unfold Rsqr; nra).
  exists (fun z => if Rltb (z + d) 0 then 0 else A * w z * (r * J)). split.
  - intros z. destruct (Rltb (z + d) 0) eqn:Ez.
    + eapply is_RInt_ext; [|exact (is_RInt_zero (- R0) R0)]. intros x _. rewrite beside_value. rewrite De. fold d. rewrite Ez. reflexivity.
    + assert (H := width_gauss r (sqrt 5) Pr). apply (is_RInt_scal (V := R_NormedModule)) with (k := A * w z) in H.
      unfold scal in H; simpl in H; unfold mult in H; simpl in H. fold J in H.
      assert (V : forall x, heat_of (goldak_value false g' (beside (g_center g') x z)) = if Rltb (5 * (r * r)) (x * x) then 0 else A * w z * exp (- (3 / (r * r)) * (x * x))).
      { intros x. rewrite beside_value. rewrite De, B, Ir, Id, E. fold d A. rewrite Ez. destruct (Rltb (5 * (r * r)) (x * x)); [reflexivity|].
        cbn [heat_of]. unfold w. rewrite (Rmult_assoc A), <- exp_plus. f_equal. f_equal. field. lra. }
      apply (is_RInt_cut_low (fun x => if Rltb (5 * (r * r)) (x * x) then 0 else A * w z * exp (- (3 / (r * r)) * (x * x))) _ (- R0) (- (sqrt 5 * r)) R0).
      * nra.
      * intros x _. apply V.
      * intros x Hx. rewrite V. destruct (Rltb (5 * (r * r)) (x * x)) eqn:E2; [reflexivity|]. exfalso. unfold Rltb in E2. destruct (Rlt_dec (5 * (r * r)) (x * x)) as [|N]; [discriminate|]. apply N.
        assert (sqrt 5 * r < - x) by lra. assert (0 <= sqrt 5 * r) by nra. nra.
      * apply (is_RInt_cut (fun x => A * w z * exp (- (3 / (r * r)) * (x * x))) _ (- (sqrt 5 * r)) (sqrt 5 * r) R0); [nra| | |exact H].
        -- intros x Hx. destruct (Rltb (5 * (r * r)) (x * x)) eqn:E2; [|reflexivity]. exfalso. unfold Rltb in E2. destruct (Rlt_dec (5 * (r * r)) (x * x)) as [L|]; [|discriminate].
           assert (x * x <= sqrt 5 * r * (sqrt 5 * r)) by (apply Rsqr_neg_pos_le_1 in Hx || nra; nra). nra.
        -- intros x Hx. destruct (Rltb (5 * (r * r)) (x * x)) eqn:E2; [reflexivity|]. exfalso. unfold Rltb in E2. destruct (Rlt_dec (5 * (r * r)) (x * x)) as [|N]; [discriminate|]. apply N. assert (0 <= sqrt 5 * r) by nra. nra.
  - assert (H := depth_gauss d 0 Hd). rewrite Rmult_0_l in H. apply (is_RInt_scal (V := R_NormedModule)) with (k := A * (r * J)) in H. unfold scal in H; simpl in H; unfold mult in H; simpl in H.
    replace (b_eff (g_beam g) * b_power (g_beam g) * pm * goldak_share_2d / r) with (A * (r * J) * (d * RInt (fun u => exp (-3 * (u * u))) (-1) 0)).
    2: { unfold goldak_share_2d. fold J. rewrite Al. assert (C := c_pos). unfold c in C || idtac. field. repeat split; try lra. apply Rgt_not_eq. unfold Rpower. apply exp_pos. }
    apply (is_RInt_cut_low (fun z => A * (r * J) * w z) _ (- D) (- d) 0).
    + lra.
    + intros x Hx. destruct (Rltb (x + d) 0) eqn:E2; [|ring]. exfalso. unfold Rltb in E2. destruct (Rlt_dec (x + d) 0); [lra|discriminate].
    + intros x Hx. destruct (Rltb (x + d) 0) eqn:E2; [reflexivity|]. exfalso. unfold Rltb in E2. destruct (Rlt_dec (x + d) 0); [discriminate|lra].
    + exact H.
Qed.
Lemma goldak_power g t g' pm sp1 R0 D : goldak_update_time g t = Ok g' -> good_beam (g_beam g) -> g_five g = false -> get_power_modifier (g_path g) t = Ok (pm, sp1) -> 0 <= pm ->
  0 <= R0 -> 5 * b_radius2 (g_beam g) <= R0 * R0 -> b_depth (g_beam g) <= D ->
  exists total, heat_in (goldak_value true g') (g_center g') R0 (- D) 0 total /\
    985 / 1000 * (b_eff (g_beam g) * b_power (g_beam g) * pm) <= total <= 986 / 1000 * (b_eff (g_beam g) * b_power (g_beam g) * pm).
Proof.
  intros U G F Pm Pp P0 P1 HD. assert (H := goldak_total g t g' pm sp1 R0 D 0 U G F Pm P0 P1 HD ltac:(lra)). rewrite Rmult_0_l in H. eexists. split; [exact H|].
  destruct G as (_ & _ & He & Hp). assert (S := share_factor). set (s := (1 - exp (-15)) * goldak_share 0) in *.
  assert (Q : 0 <= b_eff (g_beam g) * b_power (g_beam g) * pm) by (apply Rmult_le_pos; [apply Rmult_le_pos; assumption|assumption]).
  set (P := b_eff (g_beam g) * b_power (g_beam g) * pm) in *. replace (P * (1 - exp (-15)) * goldak_share 0) with (P * s) by (unfold s; ring). nra.
Qed.
Lemma goldak_above g t g' pm sp1 R0 D : goldak_update_time g t = Ok g' -> good_beam (g_beam g) -> g_five g = false -> get_power_modifier (g_path g) t = Ok (pm, sp1) ->
  0 < b_eff (g_beam g) * b_power (g_beam g) * pm -> 0 <= R0 -> 5 * b_radius2 (g_beam g) <= R0 * R0 -> b_depth (g_beam g) <= D ->
  exists total, heat_in (goldak_value true g') (g_center g') R0 (- D) (b_depth (g_beam g)) total /\ 197 / 100 * (b_eff (g_beam g) * b_power (g_beam g) * pm) < total.
Proof.
  intros U G F Pm Pp P0 P1 HD. assert (H := goldak_total g t g' pm sp1 R0 D 1 U G F Pm P0 P1 HD ltac:(lra)). rewrite Rmult_1_l in H. eexists. split; [exact H|].
  rewrite share_twice. assert (S := share_factor). set (P := b_eff (g_beam g) * b_power (g_beam g) * pm) in *.
  replace (P * (1 - exp (-15)) * (2 * goldak_share 0)) with (P * (2 * ((1 - exp (-15)) * goldak_share 0))) by ring. nra.
Qed.
Lemma share_2d_pos : 0 < goldak_share_2d.
Proof.
  unfold goldak_share_2d. fold I0. assert (B := I0_bounds). assert (R := Rinv_0_lt_compat _ (exp_pos (3 / 2 * ln (PI / 3)))). fold (Rpower (PI / 3) (3 / 2)) in R.
  assert (J : 0 < RInt (fun u => exp (-3 * (u * u))) (- sqrt 5) (sqrt 5)).
  { assert (S : 0 < sqrt 5) by (apply sqrt_lt_R0; lra). apply RInt_gt_0; [lra|intros; apply exp_pos|intros; apply gauss_continuous]. }
  apply Rmult_lt_0_compat; [|lra]. apply Rmult_lt_0_compat; [|exact J]. lra.
Qed.
Lemma ebeam_power g t g' pm sp1 R0 D : ebeam_update_time g t = Ok g' -> good_beam (e_beam g) -> e_five g = false -> get_power_modifier (e_path g) t = Ok (pm, sp1) ->
  0 <= R0 -> 5 * b_radius2 (e_beam g) <= R0 * R0 -> b_depth (e_beam g) <= D ->
  heat_in (ebeam_value true g') (e_center g') R0 (- D) 0 (b_eff (e_beam g) * b_power (e_beam g) * pm * (1 - / 100000)).
Proof.
  intros U G F Pm P0 P1 HD. assert (H := ebeam_total g t g' pm sp1 R0 D 0 U G F Pm P0 P1 HD ltac:(lra)). rewrite Rmult_0_l in H.
  replace (b_eff (e_beam g) * b_power (e_beam g) * pm * (1 - / 100000)) with (b_eff (e_beam g) * b_power (e_beam g) * pm * (1 - / 100000) * (1 + 0 - 0 * 0 - 0 * 0 * 0)) by ring. exact H.
Qed.
Lemma ebeam_above g t g' pm sp1 R0 D h : ebeam_update_time g t = Ok g' -> good_beam (e_beam g) -> e_five g = false -> get_power_modifier (e_path g) t = Ok (pm, sp1) ->
  0 < b_eff (e_beam g) * b_power (e_beam g) * pm -> 0 <= R0 -> 5 * b_radius2 (e_beam g) <= R0 * R0 -> b_depth (e_beam g) <= D -> b_depth (e_beam g) < h ->
  exists total, heat_in (ebeam_value true g') (e_center g') R0 (- D) h total /\ total < 0.
Proof.
  intros U G F Pm Pp P0 P1 HD Hh. assert (Hd := proj1 G). set (x := h / b_depth (e_beam g)). assert (X : 1 < x) by (unfold x; apply Rlt_div_r; lra).
  assert (H := ebeam_total g t g' pm sp1 R0 D x U G F Pm P0 P1 HD ltac:(lra)). replace (x * b_depth (e_beam g)) with h in H by (unfold x; field; lra).
  eexists. split; [exact H|]. replace (1 + x - x * x - x * x * x) with ((1 + x) * ((1 + x) * (1 - x))) by ring.
  assert ((1 + x) * ((1 + x) * (1 - x)) < 0) by nra. assert (0 < b_eff (e_beam g) * b_power (e_beam g) * pm * (1 - / 100000)) by (apply Rmult_lt_0_compat; lra). nra.
Qed.
Lemma heat_in_2d_unique q c R0 a b x y : heat_in_2d q c R0 a b x -> heat_in_2d q c R0 a b y -> x = y.
Proof.
  intros (h1 & B1 & C1) (h2 & B2 & C2).
  assert (Hh : forall z, h1 z = h2 z). { intros z. rewrite <- (is_RInt_unique _ _ _ _ (B1 z)). apply is_RInt_unique. apply B2. }
  rewrite <- (is_RInt_unique _ _ _ _ C1). apply is_RInt_unique. eapply is_RInt_ext; [|exact C2]. intros z _. symmetry. apply Hh.
Qed.
Lemma radius_2d : forall g h t g1 h1 pm sp1 r R0 D x y, goldak_update_time g t = Ok g1 -> goldak_update_time h t = Ok h1 -> g_path h = g_path g -> get_power_modifier (g_path g) t = Ok (pm, sp1) ->
    good_beam (g_beam g) -> good_beam (g_beam h) -> b_eff (g_beam h) = b_eff (g_beam g) -> b_power (g_beam h) = b_power (g_beam g) ->
    0 < r -> b_radius2 (g_beam g) = r * r -> b_radius2 (g_beam h) = r / 2 * (r / 2) -> 0 <= R0 -> 5 * (r * r) <= R0 * R0 -> b_depth (g_beam g) <= D -> b_depth (g_beam h) <= D ->
    heat_in_2d (goldak_value false g1) (g_center g1) R0 (- D) 0 x -> heat_in_2d (goldak_value false h1) (g_center h1) R0 (- D) 0 y -> y = 2 * x.
Proof.
  intros g h t g1 h1 pm sp1 r R0 D x y U V Pa Pm G H E P Hr R1 R2 P0 P1 D1 D2 X Y. assert (Pm' := Pm). rewrite <- Pa in Pm'.
  rewrite (heat_in_2d_unique _ _ _ _ _ _ _ X (goldak_total_2d g t g1 pm sp1 r R0 D U G Pm Hr R1 P0 ltac:(rewrite R1; lra) D1)).
  rewrite (heat_in_2d_unique _ _ _ _ _ _ _ Y (goldak_total_2d h t h1 pm sp1 (r / 2) R0 D V H Pm' ltac:(lra) R2 P0 ltac:(rewrite R2; nra) D2)).
  rewrite E, P. field. lra.
Qed.
