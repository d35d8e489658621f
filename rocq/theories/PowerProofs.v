(** PowerProofs.v -- proofs of C75. *)
From Coq Require Import Reals Lra Psatz Bool List.
From Coquelicot Require Import Coquelicot.
From Verif Require Import Base BaseFacts QuaternionModel ScanPathModel HeatSourceModel HeatSourceSpec HeatSourceProofs PowerSpec.
Local Open Scope R_scope.

Ltac Req := cbv beta; match goal with |- @eq _ ?a ?b => change (@eq R a b) end.
Lemma gauss_continuous k u : continuous (fun u => exp (- k * (u * u))) u.
Proof. apply (ex_derive_continuous (V := R_NormedModule)). auto_derive. exact I. Qed.
Lemma gauss_ex k a b : ex_RInt (fun u => exp (- k * (u * u))) a b.
Proof. apply (ex_RInt_continuous (V := R_CompleteNormedModule)). intros u _. apply gauss_continuous. Qed.
Lemma is_RInt_zero (a b : R) : is_RInt (fun _ : R => 0) a b 0.
Proof. pose proof (is_RInt_const (V := R_NormedModule) a b (0 : R)) as H. unfold scal in H; simpl in H; unfold mult in H; simpl in H. rewrite Rmult_0_r in H. exact H. Qed.
(** A function cut off at [s]. *)
Lemma is_RInt_cut (f g : R -> R) (a s b l : R) : a <= s <= b -> (forall x, a < x < s -> g x = f x) -> (forall x, s < x < b -> g x = 0) -> is_RInt f a s l -> is_RInt g a b l.
Proof.
  intros [A B] F Z H. replace l with (plus l (0 : R)) by (unfold plus; simpl; ring).
  apply (is_RInt_Chasles (V := R_NormedModule)) with s.
  - eapply is_RInt_ext; [|exact H]. intros x Hx. rewrite Rmin_left, Rmax_right in Hx by lra. symmetry. apply F. exact Hx.
  - eapply is_RInt_ext; [|exact (is_RInt_zero s b)]. intros x Hx. rewrite Rmin_left, Rmax_right in Hx by lra. symmetry. apply Z. exact Hx.
Qed.
(** The same from below. *)
Lemma is_RInt_cut_low (f g : R -> R) (a s b l : R) : a <= s <= b -> (forall x, s < x < b -> g x = f x) -> (forall x, a < x < s -> g x = 0) -> is_RInt f s b l -> is_RInt g a b l.
Proof.
  intros [A B] F Z H. replace l with (plus (0 : R) l) by (unfold plus; simpl; ring).
  apply (is_RInt_Chasles (V := R_NormedModule)) with s.
  - eapply is_RInt_ext; [|exact (is_RInt_zero a s)]. intros x Hx. rewrite Rmin_left, Rmax_right in Hx by lra. symmetry. apply Z. exact Hx.
  - eapply is_RInt_ext; [|exact H]. intros x Hx. rewrite Rmin_left, Rmax_right in Hx by lra. symmetry. apply F. exact Hx.
Qed.
(** Radial integral of a Gaussian cut off where k rho^2 = m. *)
Lemma radial (k A s : R) : 0 < k -> is_RInt (fun rho => 2 * PI * (A * exp (- k * (rho * rho)) * rho)) 0 s (PI / k * A * (1 - exp (- k * (s * s)))).
Proof.
  intros K. pose (F := fun rho => - (PI / k) * A * exp (- k * (rho * rho))).
  replace (PI / k * A * (1 - exp (- k * (s * s)))) with (minus (F s) (F 0)).
  2:{ unfold F, minus, plus, opp; simpl. replace (- k * (0 * 0)) with 0 by ring. rewrite exp_0. ring. }
  apply (is_RInt_derive (V := R_CompleteNormedModule)).
  - intros x _. unfold F. auto_derive; [exact I|]. field. lra.
  - intros x _. apply (ex_derive_continuous (V := R_NormedModule)). auto_derive. exact I.
Qed.
(** A constant in the angle. *)
Lemma angular (v : R) : is_RInt (fun _ : R => v) 0 (2 * PI) (2 * PI * v).
Proof. pose proof (is_RInt_const (V := R_NormedModule) 0 (2 * PI) v) as H. unfold scal in H; simpl in H; unfold mult in H; simpl in H. rewrite Rminus_0_r in H. exact H. Qed.
(** Depth: change of variable. *)
Lemma depth_gauss (d x : R) : 0 < d -> is_RInt (fun z => exp (- (3 / (d * d)) * (z * z))) (- d) (x * d) (d * RInt (fun u => exp (-3 * (u * u))) (-1) x).
Proof.
  intros D. pose proof (RInt_correct (V := R_CompleteNormedModule) _ _ _ (gauss_ex 3 (-1) x)) as H.
  assert (E1 : -1 = / d * (- d) + 0) by (field; lra). assert (E2 : x = / d * (x * d) + 0) by (field; lra).
  rewrite E1 in H at 1. rewrite E2 in H at 1. apply (is_RInt_comp_lin (V := R_NormedModule)) in H.
  apply (is_RInt_scal (V := R_NormedModule)) with (k := d) in H.
  eapply is_RInt_ext; [|exact H].
  intros z _. unfold scal; simpl; unfold mult; simpl. rewrite <- Rmult_assoc, Rinv_r, Rmult_1_l by lra. f_equal. field. lra.
Qed.

(** ** Goldak *)
Lemma pow15 : Rpower (PI / 3) (3 / 2) = PI / 3 * sqrt (PI / 3).
Proof.
  assert (P : 0 < PI / 3) by (pose proof PI_RGT_0; lra).
  replace (3 / 2) with (1 + / 2) by lra. rewrite Rpower_plus, Rpower_1, Rpower_sqrt by exact P. reflexivity.
Qed.
Lemma around_value (g : goldak) (rho phi z : R) : g_five g = false ->
  goldak_value true g (around (g_center g) rho phi z) =
  if Rltb (z + g_depth g) 0 then Some 0 else if Rltb (5 * b_radius2 (g_beam g)) (rho * rho) then Some 0 else Some (g_alpha g * exp (-3 * (rho * rho) * g_ir2 g + -3 * (z * z) * g_id2 g)).
Proof.
  intros F. unfold goldak_value, rotated. rewrite F. unfold ax_z, around, xpy_squared. cbn [px py pz].
  set (X := px (g_center g)). set (Y := py (g_center g)). set (Z := pz (g_center g)). cbn [num RNum] in X, Y, Z.
  assert (E1 : Z + z - Z = z) by ring. assert (E2 : (X + rho * cos phi - X) ^ 2 + (Y + rho * sin phi - Y) ^ 2 = rho * rho).
  { pose proof (sin2_cos2 phi) as S. unfold Rsqr in S. transitivity (rho * rho * (sin phi * sin phi + cos phi * cos phi)); [ring|]. rewrite S. ring. }
  change (nadd RNum) with Rplus. change (nmul RNum) with Rmult.
  rewrite E1, E2. reflexivity.
Qed.
Lemma goldak_fields g t g' : goldak_update_time g t = Ok g' -> exists pm sp1, get_power_modifier (g_path g) t = Ok (pm, sp1) /\
  g_beam g' = g_beam g /\ g_five g' = g_five g /\ g_depth g' = b_depth (g_beam g) /\ g_ir2 g' = 1 / b_radius2 (g_beam g) /\ g_id2 g' = 1 / (b_depth (g_beam g) * b_depth (g_beam g)) /\
  g_alpha g' = 2 * b_eff (g_beam g) * b_power (g_beam g) * pm / (b_radius2 (g_beam g) * b_depth (g_beam g) * Rpower (PI / 3) (3 / 2)).
Proof.
  unfold goldak_update_time. destruct (get_power_modifier (g_path g) t) as [[pm sp1]| |]; cbn [bind]; try discriminate.
  destruct (value sp1 t true) as [[c sp2]| |]; cbn [bind]; try discriminate. destruct (get_quaternion qpow sp2 t) as [q| |]; cbn [bind]; try discriminate.
  intros H. injection H as <-. exists pm, sp1. cbn. repeat split; reflexivity.
Qed.
Definition gd (A kr : R) (w : R -> R) (r2 d rho z : R) : R := if Rltb (z + d) 0 then 0 else if Rltb (5 * r2) (rho * rho) then 0 else A * exp (- kr * (rho * rho)) * w z.
Lemma cut_integral (A kr : R) (w : R -> R) (r2 d R0 D b I : R) : 0 < kr -> 0 < r2 -> 0 <= R0 -> 5 * r2 <= R0 * R0 -> d <= D -> - d <= b ->
  is_RInt w (- d) b I ->
  exists (h : R -> R), (forall z, is_RInt (fun rho => 2 * PI * (gd A kr w r2 d rho z * rho)) 0 R0 (h z)) /\ is_RInt h (- D) b (PI / kr * A * (1 - exp (- kr * (5 * r2))) * I).
Proof.
  intros K R2 P0 P1 HD Hb HI.
  exists (fun z => if Rltb (z + d) 0 then 0 else PI / kr * (A * w z) * (1 - exp (- kr * (5 * r2)))). split.
  - intros z. unfold gd. destruct (Rltb (z + d) 0) eqn:E.
    + eapply is_RInt_ext; [|exact (is_RInt_zero 0 R0)]. intros x _. Req. ring.
    + assert (S : sqrt (5 * r2) * sqrt (5 * r2) = 5 * r2) by (apply sqrt_sqrt; lra). pose proof (sqrt_pos (5 * r2)) as SP.
      assert (SR : sqrt (5 * r2) <= R0) by (apply Rsqr_incr_0; unfold Rsqr; lra).
      apply (is_RInt_cut (fun rho => 2 * PI * (A * w z * exp (- kr * (rho * rho)) * rho)) _ 0 (sqrt (5 * r2)) R0).
      * lra.
      * intros x Hx. destruct (Rltb (5 * r2) (x * x)) eqn:E2.
        -- exfalso. unfold Rltb in E2. destruct (Rlt_dec (5 * r2) (x * x)); [|discriminate]. nra.
        -- Req. ring.
      * intros x Hx. destruct (Rltb (5 * r2) (x * x)) eqn:E2; [Req; ring|]. exfalso. unfold Rltb in E2. destruct (Rlt_dec (5 * r2) (x * x)); [discriminate|]. nra.
      * pose proof (radial kr (A * w z) (sqrt (5 * r2)) K) as H. rewrite S in H. exact H.
  - apply (is_RInt_cut_low (fun z => PI / kr * (A * w z) * (1 - exp (- kr * (5 * r2)))) _ (- D) (- d) b).
    + lra.
    + intros x Hx. destruct (Rltb (x + d) 0) eqn:E; [|reflexivity]. exfalso. unfold Rltb in E. destruct (Rlt_dec (x + d) 0); [lra|discriminate].
    + intros x Hx. destruct (Rltb (x + d) 0) eqn:E; [reflexivity|]. exfalso. unfold Rltb in E. destruct (Rlt_dec (x + d) 0); [discriminate|lra].
    + apply (is_RInt_scal (V := R_NormedModule)) with (k := PI / kr * A * (1 - exp (- kr * (5 * r2)))) in HI. eapply is_RInt_ext; [|exact HI].
      intros x _. unfold scal; simpl; unfold mult; simpl. ring.
Qed.
Lemma goldak_total g t g' pm sp1 R0 D x : goldak_update_time g t = Ok g' -> good_beam (g_beam g) -> g_five g = false -> get_power_modifier (g_path g) t = Ok (pm, sp1) ->
  0 <= R0 -> 5 * b_radius2 (g_beam g) <= R0 * R0 -> b_depth (g_beam g) <= D -> -1 <= x ->
  heat_in (goldak_value true g') (g_center g') R0 (- D) (x * b_depth (g_beam g)) (b_eff (g_beam g) * b_power (g_beam g) * pm * (1 - exp (-15)) * goldak_share x).
Proof.
  intros U (Hd & Hr & He & Hp) F Pm P0 P1 HD Hx. destruct (goldak_fields g t g' U) as (pm' & sp' & Pm' & B & F' & De & Ir & Id & Al). rewrite Pm in Pm'. injection Pm' as <- <-.
  set (d := b_depth (g_beam g)) in *. set (r2 := b_radius2 (g_beam g)) in *. set (A := g_alpha g') in *.
  assert (K : 0 < 3 / r2) by (apply Rdiv_lt_0_compat; lra).
  destruct (cut_integral A (3 / r2) (fun z => exp (- (3 / (d * d)) * (z * z))) r2 d R0 D (x * d) (d * RInt (fun u => exp (-3 * (u * u))) (-1) x) K Hr P0 P1 HD ltac:(nra) (depth_gauss d x Hd)) as (h & H1 & H2).
  exists (fun z rho => 2 * PI * (gd A (3 / r2) (fun z => exp (- (3 / (d * d)) * (z * z))) r2 d rho z * rho)), h. split; [|split].
  - intros z rho. eapply is_RInt_ext; [|exact (angular (gd A (3 / r2) (fun z => exp (- (3 / (d * d)) * (z * z))) r2 d rho z * rho))].
    intros phi _. rewrite around_value by (rewrite F'; exact F). rewrite B, De, Ir, Id. unfold gd. fold d r2 A.
    destruct (Rltb (z + d) 0); [reflexivity|]. destruct (Rltb (5 * r2) (rho * rho)); [reflexivity|]. cbn [heat_of]. rewrite Rmult_assoc with (r1 := A), <- exp_plus. f_equal. f_equal. f_equal. field. lra.
  - exact H1.
  - replace (b_eff (g_beam g) * b_power (g_beam g) * pm * (1 - exp (-15)) * goldak_share x) with (PI / (3 / r2) * A * (1 - exp (- (3 / r2) * (5 * r2))) * (d * RInt (fun u => exp (-3 * (u * u))) (-1) x)); [exact H2|].
    replace (- (3 / r2) * (5 * r2)) with (-15) by (field; lra). unfold goldak_share. rewrite Al, pow15.
    assert (P : 0 < PI) by exact PI_RGT_0. assert (Q : 0 < PI / 3) by lra. pose proof (sqrt_lt_R0 _ Q) as SQ.
    assert (SI : sqrt (3 / PI) = / sqrt (PI / 3)) by (replace (3 / PI) with (/ (PI / 3)) by (field; lra); rewrite sqrt_inv; reflexivity).
    rewrite SI. field. repeat split; lra.
Qed.

(** ** Electron beam *)
Lemma ln10_pos : 0 < ln 10. Proof. rewrite <- ln_1. apply ln_increasing; lra. Qed.
Lemma log_01_eq : log_01 = - ln 10.
Proof. unfold log_01. replace (1 / 10) with (/ 10) by lra. apply ln_Rinv. lra. Qed.
Lemma ebeam_fields g t g' : ebeam_update_time g t = Ok g' -> exists pm sp1, get_power_modifier (e_path g) t = Ok (pm, sp1) /\
  e_beam g' = e_beam g /\ e_five g' = e_five g /\ e_depth g' = b_depth (e_beam g) /\ e_ir2 g' = 1 / b_radius2 (e_beam g) /\ e_id g' = 1 / b_depth (e_beam g) /\ e_r2 g' = b_radius2 (e_beam g) /\
  e_alpha g' = - b_eff (e_beam g) * b_power (e_beam g) * pm * log_01 / (PI * b_radius2 (e_beam g) * b_depth (e_beam g)).
Proof.
  unfold ebeam_update_time. destruct (get_power_modifier (e_path g) t) as [[pm sp1]| |]; cbn [bind]; try discriminate.
  destruct (value sp1 t true) as [[c sp2]| |]; cbn [bind]; try discriminate. destruct (get_quaternion qpow sp2 t) as [q| |]; cbn [bind]; try discriminate.
  intros H. injection H as <-. exists pm, sp1. cbn. repeat split; reflexivity.
Qed.
Lemma around_value_e (g : ebeam) (rho phi z : R) : e_five g = false ->
  ebeam_value true g (around (e_center g) rho phi z) =
  if Rltb (z + e_depth g) 0 then Some 0 else if Rltb (5 * e_r2 g) (rho * rho) then Some 0
  else Some (e_alpha g * exp (log_01 * (rho * rho) * e_ir2 g) * (-3 * (z * e_id g * (z * e_id g)) - 2 * (z * e_id g) + 1)).
Proof.
  intros F. unfold ebeam_value, rotated. rewrite F. unfold ax_z, around, xpy_squared. cbn [px py pz].
  set (X := px (e_center g)). set (Y := py (e_center g)). set (Z := pz (e_center g)). cbn [num RNum] in X, Y, Z.
  assert (E1 : Z + z - Z = z) by ring. assert (E2 : (X + rho * cos phi - X) ^ 2 + (Y + rho * sin phi - Y) ^ 2 = rho * rho).
  { pose proof (sin2_cos2 phi) as S. unfold Rsqr in S. transitivity (rho * rho * (sin phi * sin phi + cos phi * cos phi)); [ring|]. rewrite S. ring. }
  change (nadd RNum) with Rplus. change (nmul RNum) with Rmult.
  rewrite E1, E2. reflexivity.
Qed.
Definition profile (d z : R) : R := -3 * (z * (1 / d) * (z * (1 / d))) - 2 * (z * (1 / d)) + 1.
Lemma profile_integral (d x : R) : 0 < d -> is_RInt (profile d) (- d) (x * d) (d * (1 + x - x * x - x * x * x)).
Proof.
  intros D. pose (F := fun z => - (z * z * z) / (d * d) - z * z / d + z).
  replace (d * (1 + x - x * x - x * x * x)) with (minus (F (x * d)) (F (- d))).
  2:{ unfold F, minus, plus, opp; simpl. field. lra. }
  apply (is_RInt_derive (V := R_CompleteNormedModule)).
  - intros z _. unfold F, profile. auto_derive; [exact I|]. field. lra.
  - intros z _. apply (ex_derive_continuous (V := R_NormedModule)). unfold profile. auto_derive. exact I.
Qed.
Lemma ebeam_total g t g' pm sp1 R0 D x : ebeam_update_time g t = Ok g' -> good_beam (e_beam g) -> e_five g = false -> get_power_modifier (e_path g) t = Ok (pm, sp1) ->
  0 <= R0 -> 5 * b_radius2 (e_beam g) <= R0 * R0 -> b_depth (e_beam g) <= D -> -1 <= x ->
  heat_in (ebeam_value true g') (e_center g') R0 (- D) (x * b_depth (e_beam g)) (b_eff (e_beam g) * b_power (e_beam g) * pm * (1 - / 100000) * (1 + x - x * x - x * x * x)).
Proof.
  intros U (Hd & Hr & He & Hp) F Pm P0 P1 HD Hx. destruct (ebeam_fields g t g' U) as (pm' & sp' & Pm' & B & F' & De & Ir & Id & R2 & Al). rewrite Pm in Pm'. injection Pm' as <- <-.
  set (d := b_depth (e_beam g)) in *. set (r2 := b_radius2 (e_beam g)) in *. set (A := e_alpha g') in *.
  pose proof ln10_pos as L10. assert (K : 0 < ln 10 / r2) by (apply Rdiv_lt_0_compat; lra).
  destruct (cut_integral A (ln 10 / r2) (profile d) r2 d R0 D (x * d) (d * (1 + x - x * x - x * x * x)) K Hr P0 P1 HD ltac:(nra) (profile_integral d x Hd)) as (h & H1 & H2).
  exists (fun z rho => 2 * PI * (gd A (ln 10 / r2) (profile d) r2 d rho z * rho)), h. split; [|split].
  - intros z rho. eapply is_RInt_ext; [|exact (angular (gd A (ln 10 / r2) (profile d) r2 d rho z * rho))].
    intros phi _. rewrite around_value_e by (rewrite F'; exact F). rewrite De, Ir, Id, R2. unfold gd. fold d r2 A.
    destruct (Rltb (z + d) 0); [reflexivity|]. destruct (Rltb (5 * r2) (rho * rho)); [reflexivity|]. cbn [heat_of]. rewrite log_01_eq. unfold profile. f_equal. f_equal. f_equal. f_equal. field. lra.
  - exact H1.
  - replace (b_eff (e_beam g) * b_power (e_beam g) * pm * (1 - / 100000) * (1 + x - x * x - x * x * x)) with (PI / (ln 10 / r2) * A * (1 - exp (- (ln 10 / r2) * (5 * r2))) * (d * (1 + x - x * x - x * x * x))); [exact H2|].
    replace (- (ln 10 / r2) * (5 * r2)) with (- (5 * ln 10)) by (field; lra).
    assert (E5 : exp (- (5 * ln 10)) = / 100000).
    { rewrite exp_Ropp. f_equal. replace (5 * ln 10) with (ln 10 + ln 10 + ln 10 + ln 10 + ln 10) by ring. rewrite !exp_plus, exp_ln by lra. lra. }
    rewrite E5, Al, log_01_eq. pose proof PI_RGT_0. field. repeat split; lra.
Qed.
