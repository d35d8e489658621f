(** GeometryFloat.v -- C51 in binary64: value of the words, scaling, bounding box. *)
From Coq Require Import Reals ZArith Bool List Lia Lra.
From Flocq Require Import Core IEEE754.BinarySingleNaN IEEE754.PrimFloat.
From Coq Require Import Floats.
From Verif Require Import Base BaseFacts MaterialFloat AdaptProofs AdaptFloat EnsembleProofs2 GeometryModel GeometrySpec GeometryProofs.
Import ListNotations.
Local Open Scope R_scope.

Local Instance vexpg : Valid_exp fexp64.
Proof. apply (@fexp_correct prec emax Hprec). Qed.

Lemma fmt_scaled (m e : Z) : (Z.abs m < 2 ^ 53)%Z -> (-1074 <= e)%Z -> generic_format radix2 fexp64 (IZR m * bpow radix2 e).
Proof.
  intros M E. change fexp64 with (FLT_exp (3 - emax - prec) prec). apply generic_format_FLT. exists (Defs.Float radix2 m e); simpl.
  - reflexivity.
  - exact M.
  - unfold emax, prec. lia.
Qed.
Lemma ldexp_exact (m e : Z) : (0 <= m < 2 ^ 24)%Z -> (-1074 <= e <= 900)%Z -> Ffinite (Z.ldexp (F_ofZ m) e) /\ Fval (Z.ldexp (F_ofZ m) e) = IZR m * bpow radix2 e.
Proof.
  intros M E. destruct (Fval_ofZ m ltac:(lia)) as [F V]. change (nofZ FNum m) with (F_ofZ m) in *.
  assert (B := Bldexp_correct prec emax Hprec Hmax mode_NE (Prim2B (F_ofZ m)) e). fold (Fval (F_ofZ m)) in B. rewrite V in B.
  rewrite (round_generic radix2 fexp64 (round_mode mode_NE) _ (fmt_scaled m e ltac:(lia) ltac:(lia))) in B.
  rewrite Rlt_bool_true in B.
  - destruct B as (B1 & B2 & _). unfold Ffinite, Fval in *. rewrite is_finite_equiv in *. rewrite ldexp_equiv. rewrite B2. split; [exact F|exact B1].
  - rewrite Rabs_pos_eq by (apply Rmult_le_pos; [apply IZR_le; lia|apply bpow_ge_0]).
    apply Rlt_le_trans with (bpow radix2 24 * bpow radix2 e).
    + apply Rmult_lt_compat_r; [apply bpow_gt_0|]. change (bpow radix2 24) with (IZR (2 ^ 24)). apply IZR_lt. lia.
    + rewrite <- bpow_plus. apply bpow_le. unfold emax. lia.
Qed.
Lemma opp_value (x : FNum) : (Ffinite (PrimFloat.opp x) <-> Ffinite x) /\ Fval (PrimFloat.opp x) = - Fval x.
Proof. unfold Ffinite, Fval. rewrite !is_finite_equiv, opp_equiv, is_finite_Bopp, B2R_Bopp. tauto. Qed.

Lemma exp_field w : (w / 2 ^ 23 mod 2 ^ 8)%Z = sg_exp w.
Proof. unfold sg_exp. change 255%Z with (Z.ones 8). rewrite Z.land_ones by lia. rewrite Z.shiftr_div_pow2 by lia. reflexivity. Qed.
Lemma frac_field w : (w mod 2 ^ 23)%Z = sg_frac w.
Proof. unfold sg_frac. change (2 ^ 23 - 1)%Z with (Z.ones 23). rewrite Z.land_ones by lia. reflexivity. Qed.
Lemma sign_field w : (0 <= w < 2 ^ 32)%Z -> (w / 2 ^ 31 =? 1)%Z = Z.testbit w 31.
Proof.
  intros H. assert (E := Z.testbit_spec' w 31 ltac:(lia)). assert (0 <= w / 2 ^ 31 < 2)%Z as B by (split; [apply Z.div_pos; lia|apply Z.div_lt_upper_bound; lia]).
  rewrite Z.mod_small in E by lia. rewrite <- E. destruct (Z.testbit w 31); reflexivity.
Qed.
Lemma fields_range w : (0 <= sg_exp w < 256)%Z /\ (0 <= sg_frac w < 2 ^ 23)%Z.
Proof. rewrite <- exp_field, <- frac_field. split; apply Z.mod_pos_bound; lia. Qed.

Lemma single_finite w : (0 <= w < 2 ^ 32)%Z -> sg_exp w <> 255%Z -> Ffinite (single w) /\ Fval (single w) = sg_value w.
Proof.
  intros W E. destruct (fields_range w) as [RE RF]. unfold single. cbv zeta. rewrite exp_field, frac_field, sign_field by exact W.
  assert ((sg_exp w =? 255)%Z = false) as -> by (apply Z.eqb_neq; exact E).
  set (mag := if (sg_exp w =? 0)%Z then _ else _).
  assert (Ffinite mag /\ Fval mag = if Z.eqb (sg_exp w) 0 then IZR (sg_frac w) * bpow radix2 (-149) else (1 + IZR (sg_frac w) * bpow radix2 (-23)) * bpow radix2 (sg_exp w - 127)) as [FM VM].
  { unfold mag. destruct (Z.eqb_spec (sg_exp w) 0) as [Z0|NZ].
    - apply ldexp_exact; lia.
    - destruct (ldexp_exact (sg_frac w + 2 ^ 23) (sg_exp w - 150) ltac:(lia) ltac:(lia)) as [A B]. split; [exact A|]. etransitivity; [exact B|].
      rewrite plus_IZR. replace (sg_exp w - 150)%Z with (-23 + (sg_exp w - 127))%Z by lia. rewrite bpow_plus. change (IZR (2 ^ 23)) with (bpow radix2 23). rewrite <- Rmult_assoc. f_equal.
      rewrite Rmult_plus_distr_r. rewrite <- bpow_plus. simpl (bpow radix2 (23 + -23)). ring. }
  unfold sg_value, sg_sign. destruct (Z.testbit w 31).
  - destruct (opp_value mag) as [A B]. split; [apply A; exact FM|]. rewrite B, VM. destruct (Z.eqb (sg_exp w) 0); ring.
  - split; [exact FM|]. rewrite VM. destruct (Z.eqb (sg_exp w) 0); ring.
Qed.
Lemma single_special w : (0 <= w < 2 ^ 32)%Z -> sg_exp w = 255%Z ->
  single w = if Z.eqb (sg_frac w) 0 then (if Z.testbit w 31 then neg_infinity else infinity) else (if Z.testbit w 31 then PrimFloat.opp nan else nan).
Proof.
  intros W E. unfold single. cbv zeta. rewrite exp_field, frac_field, sign_field by exact W. rewrite E. change (255 =? 255)%Z with true. cbv iota.
  destruct (Z.eqb (sg_frac w) 0); destruct (Z.testbit w 31); reflexivity.
Qed.
Lemma single_nan w : (0 <= w < 2 ^ 32)%Z -> sg_exp w = 255%Z -> sg_frac w <> 0%Z -> PrimFloat.is_nan (single w) = true.
Proof. intros W E F. rewrite (single_special w W E). assert (Z.eqb (sg_frac w) 0 = false) as -> by (apply Z.eqb_neq; exact F). destruct (Z.testbit w 31); reflexivity. Qed.

(** The product with the unit of length is rounded once. *)
Lemma sg_bound w : (0 <= w < 2 ^ 32)%Z -> sg_exp w <> 255%Z -> Rabs (sg_value w) < bpow radix2 128.
Proof.
  intros W E. destruct (fields_range w) as [RE RF]. unfold sg_value. rewrite Rabs_mult.
  assert (Rabs (sg_sign w) = 1) as -> by (unfold sg_sign; destruct (Z.testbit w 31); [rewrite Rabs_left by lra; lra|rewrite Rabs_pos_eq by lra; lra]). rewrite Rmult_1_l.
  assert (0 <= IZR (sg_frac w) < bpow radix2 23) as B by (split; [apply IZR_le; lia|change (bpow radix2 23) with (IZR (2 ^ 23)); apply IZR_lt; lia]).
  destruct (Z.eqb_spec (sg_exp w) 0) as [Z0|NZ].
  - rewrite Rabs_pos_eq by (apply Rmult_le_pos; [lra|apply bpow_ge_0]). apply Rlt_trans with (bpow radix2 23 * bpow radix2 (-149)).
    + apply Rmult_lt_compat_r; [apply bpow_gt_0|lra].
    + rewrite <- bpow_plus. apply bpow_lt. lia.
  - assert (0 <= IZR (sg_frac w) * bpow radix2 (-23) < 1) as B'.
    { split; [apply Rmult_le_pos; [lra|apply bpow_ge_0]|]. apply Rlt_le_trans with (bpow radix2 23 * bpow radix2 (-23)); [apply Rmult_lt_compat_r; [apply bpow_gt_0|lra]|]. rewrite <- bpow_plus. simpl. lra. }
    rewrite Rabs_pos_eq by (apply Rmult_le_pos; [lra|apply bpow_ge_0]). apply Rlt_le_trans with (2 * bpow radix2 (sg_exp w - 127)).
    + apply Rmult_lt_compat_r; [apply bpow_gt_0|lra].
    + change 2 with (bpow radix2 1). rewrite <- bpow_plus. apply bpow_le. lia.
Qed.
Lemma scaled_value w (s : FNum) : (0 <= w < 2 ^ 32)%Z -> sg_exp w <> 255%Z -> Ffinite s -> Rabs (Fval s) <= bpow radix2 800 ->
  Ffinite (PrimFloat.mul (single w) s) /\ Fval (PrimFloat.mul (single w) s) = rnd64 (sg_value w * Fval s).
Proof.
  intros W E FS BS. destruct (single_finite w W E) as [FW VW]. assert (SB := sg_bound w W E).
  assert (B := Bmult_correct prec emax Hprec Hmax mode_NE (Prim2B (single w)) (Prim2B s)). fold (Fval (single w)) in B. fold (Fval s) in B. rewrite VW in B.
  rewrite Rlt_bool_true in B.
  - destruct B as (B1 & B2 & _). unfold Ffinite, Fval in *. rewrite is_finite_equiv in *. rewrite mul_equiv. rewrite B2, FW, FS. split; [reflexivity|exact B1].
  - apply Rle_lt_trans with (bpow radix2 928); [|apply bpow_lt; reflexivity].
    assert (Rabs (sg_value w * Fval s) <= bpow radix2 928) as P.
    { rewrite Rabs_mult. replace (bpow radix2 928) with (bpow radix2 128 * bpow radix2 800) by (rewrite <- bpow_plus; reflexivity). apply Rmult_le_compat; try apply Rabs_pos; lra. }
    apply abs_round_le_generic; [exact _|exact _| |exact P]. rewrite <- (Rmult_1_l (bpow radix2 928)). apply (fmt_scaled 1); lia.
Qed.

(** ** Bounding box *)
Local Open Scope nat_scope.
Lemma pick_fold {A} (lt : A -> A -> bool) (l : list A) x0 :
  (forall a b c, lt a b = true -> lt b c = true -> lt a c = true) -> (forall a, lt a a = false) ->
  let r := fold_left (fun r y => if lt y r then y else r) l x0 in
  (r = x0 /\ forall y, In y l -> lt y x0 = false) \/ (In r l /\ lt r x0 = true /\ forall y, In y l -> lt y r = false).
Proof.
  intros T I. cbv zeta. induction l as [|y l IH] using rev_ind.
  - left. split; [reflexivity|]. intros y [].
  - rewrite fold_left_app. cbn [fold_left]. set (r := fold_left _ l x0) in *. destruct (lt y r) eqn:E.
    + right. destruct IH as [[E0 N]|[Ir [Lr N]]].
      * rewrite E0 in E. split; [apply in_or_app; right; left; reflexivity|]. split; [exact E|]. intros z Hz. apply in_app_or in Hz as [Hz|[<-|[]]]; [|apply I].
        destruct (lt z y) eqn:Q; [|reflexivity]. rewrite <- (N z Hz). symmetry. apply (T z y x0); assumption.
      * split; [apply in_or_app; right; left; reflexivity|]. split; [apply (T y r x0); assumption|]. intros z Hz. apply in_app_or in Hz as [Hz|[<-|[]]]; [|apply I].
        destruct (lt z y) eqn:Q; [|reflexivity]. rewrite <- (N z Hz). symmetry. apply (T z y r); assumption.
    + destruct IH as [[E0 N]|[Ir [Lr N]]].
      * left. split; [exact E0|]. intros z Hz. apply in_app_or in Hz as [Hz|[<-|[]]]; [apply N; exact Hz|]. rewrite <- E0. exact E.
      * right. split; [apply in_or_app; left; exact Ir|]. split; [exact Lr|]. intros z Hz. apply in_app_or in Hz as [Hz|[<-|[]]]; [apply N; exact Hz|exact E].
Qed.
Lemma axis_folds (c : pt FNum -> float) (ts : list (triangle FNum)) : forall a b : float,
  fold_left (fun mm t => let '(a, b, c0) := t in (min_of (N := FNum) (fst mm) [c a; c b; c c0], max_of (N := FNum) (snd mm) [c a; c b; c c0])) ts (a, b) =
  (fold_left (fun r y => if PrimFloat.ltb y r then y else r) (map c (vertices ts)) a, fold_left (fun r y => if PrimFloat.ltb r y then y else r) (map c (vertices ts)) b).
Proof.
  induction ts as [|[[u v] w] ts IH]; intros a b; [reflexivity|]. cbn [fold_left]. etransitivity; [apply IH|]. cbn [vertices flat_map fst snd map app fold_left]. reflexivity.
Qed.
Lemma Fopp_max : nopp FNum (nmax FNum) = (- F_max)%float. Proof. reflexivity. Qed.
Lemma axis_spec (c : pt FNum -> float) ts : lowest (map c (vertices ts)) (fst (axis_bounds (N := FNum) c ts)) /\ highest (map c (vertices ts)) (snd (axis_bounds (N := FNum) c ts)).
Proof.
  destruct ordered_F as [T [_ I]]. cbn in T, I. unfold axis_bounds. rewrite axis_folds. cbn [fst snd]. split.
  - apply (pick_fold PrimFloat.ltb); assumption.
  - apply (pick_fold (fun a b => PrimFloat.ltb b a)); [intros a b d H1 H2; apply (T d b a); assumption|assumption].
Qed.
Lemma corners_3 ts : exists x1 y1 z1 x2 y2 z2, stl_corners (N := FNum) 3 ts = ([x1; y1; z1], [x2; y2; z2]) /\
  lowest (map px (vertices ts)) x1 /\ lowest (map py (vertices ts)) y1 /\ lowest (map pz (vertices ts)) z1 /\
  highest (map px (vertices ts)) x2 /\ highest (map py (vertices ts)) y2 /\ highest (map pz (vertices ts)) z2.
Proof. do 6 eexists. split; [reflexivity|]. repeat split; apply axis_spec. Qed.
Lemma corners_2 ts : exists x1 z1 x2 z2, stl_corners (N := FNum) 2 ts = ([x1; z1], [x2; z2]) /\
  lowest (map px (vertices ts)) x1 /\ lowest (map pz (vertices ts)) z1 /\ highest (map px (vertices ts)) x2 /\ highest (map pz (vertices ts)) z2.
Proof. do 4 eexists. split; [reflexivity|]. repeat split; apply axis_spec. Qed.

(** In exact terms, for finite coordinates. *)
Local Open Scope R_scope.
Lemma F_max_finite : Ffinite F_max. Proof. reflexivity. Qed.
Lemma F_max_value : Fval F_max = bpow radix2 1024 - bpow radix2 971.
Proof.
  unfold Fval. rewrite <- (SF2R_B2SF prec emax), B2SF_Prim2B. replace (Prim2SF F_max) with (S754_finite false 9007199254740991 971) by (vm_compute; reflexivity).
  cbn [SF2R cond_Zopp]. unfold F2R. cbn [Fnum Fexp]. replace (bpow radix2 1024) with (bpow radix2 53 * bpow radix2 971) by (rewrite <- bpow_plus; reflexivity).
  change (bpow radix2 53) with (IZR (2 ^ 53)). change (2 ^ 53)%Z with (9007199254740991 + 1)%Z. rewrite plus_IZR. ring.
Qed.
Lemma F_max_top (x : FNum) : - Fval F_max <= Fval x <= Fval F_max.
Proof. rewrite F_max_value. assert (H := abs_B2R_le_emax_minus_prec prec emax Hprec (Prim2B x)). change (B2R (Prim2B x)) with (Fval x) in H. change (emax - prec)%Z with 971%Z in H. change emax with 1024%Z in H. unfold Rabs in H. destruct (Rcase_abs (Fval x)); lra. Qed.
Lemma lowest_real l lo : l <> [] -> (forall x, In x l -> Ffinite x) -> lowest l lo -> Ffinite lo /\ (forall x, In x l -> Fval lo <= Fval x) /\ exists x, In x l /\ Fval x = Fval lo.
Proof.
  intros NE FIN [[-> N]|[I [_ N]]].
  - split; [exact F_max_finite|]. assert (forall x, In x l -> Fval x = Fval F_max) as E.
    { intros x Hx. specialize (N x Hx). change (nltb FNum x F_max = false) in N. rewrite (emb_ltb _ _ _ Embeds_F _ _ (FIN x Hx) F_max_finite) in N. destruct (F_max_top x). destruct (Rltb_spec (Fval x) (Fval F_max)); [discriminate|lra]. }
    split; [intros x Hx; rewrite (E x Hx); lra|]. destruct l as [|x l]; [contradiction|]. exists x. split; [left; reflexivity|]. apply E. left. reflexivity.
  - split; [apply FIN; exact I|]. split; [|exists lo; split; [exact I|reflexivity]]. intros x Hx. specialize (N x Hx). change (nltb FNum x lo = false) in N. rewrite (emb_ltb _ _ _ Embeds_F _ _ (FIN x Hx) (FIN lo I)) in N.
    destruct (Rltb_spec (Fval x) (Fval lo)); [discriminate|lra].
Qed.
Lemma highest_real l hi : l <> [] -> (forall x, In x l -> Ffinite x) -> highest l hi -> Ffinite hi /\ (forall x, In x l -> Fval x <= Fval hi) /\ exists x, In x l /\ Fval x = Fval hi.
Proof.
  intros NE FIN [[-> N]|[I [_ N]]].
  - destruct (opp_value F_max) as [_ V]. assert (Ffinite (- F_max)%float) as FO by reflexivity. split; [exact FO|]. assert (forall x, In x l -> Fval x = Fval (- F_max)%float) as E.
    { intros x Hx. specialize (N x Hx). change (nltb FNum (- F_max)%float x = false) in N. rewrite (emb_ltb _ _ _ Embeds_F _ _ FO (FIN x Hx)) in N. destruct (F_max_top x). destruct (Rltb_spec (Fval (- F_max)%float) (Fval x)); [discriminate|lra]. }
    split; [intros x Hx; rewrite (E x Hx); lra|]. destruct l as [|x l]; [contradiction|]. exists x. split; [left; reflexivity|]. apply E. left. reflexivity.
  - split; [apply FIN; exact I|]. split; [|exists hi; split; [exact I|reflexivity]]. intros x Hx. specialize (N x Hx). change (nltb FNum hi x = false) in N. rewrite (emb_ltb _ _ _ Embeds_F _ _ (FIN hi I) (FIN x Hx)) in N.
    destruct (Rltb_spec (Fval hi) (Fval x)); [discriminate|lra].
Qed.
(** The box is the smallest one that contains every vertex. *)
Lemma corners_real (ts : list (triangle FNum)) : ts <> [] -> (forall v, In v (vertices ts) -> Ffinite (px v) /\ Ffinite (py v) /\ Ffinite (pz v)) ->
  exists p1 p2, stl_corners (N := FNum) 3 ts = (p1, p2) /\ length p1 = 3%nat /\ length p2 = 3%nat /\
    forall k (c : pt FNum -> FNum) lo hi, nth_error [px; py; pz] k = Some c -> nth_error p1 k = Some lo -> nth_error p2 k = Some hi ->
      (forall v, In v (vertices ts) -> Fval lo <= Fval (c v) <= Fval hi) /\ (exists v, In v (vertices ts) /\ Fval (c v) = Fval lo) /\ (exists v, In v (vertices ts) /\ Fval (c v) = Fval hi).
Proof.
  intros NE FIN. destruct (corners_3 ts) as (x1 & y1 & z1 & x2 & y2 & z2 & E & X1 & Y1 & Z1 & X2 & Y2 & Z2). exists [x1; y1; z1], [x2; y2; z2].
  split; [exact E|]. split; [reflexivity|]. split; [reflexivity|].
  assert (vertices ts <> []) as NV by (destruct ts as [|t ts']; [contradiction|intros C; discriminate C]).
  assert (forall (c : pt FNum -> FNum) lo hi, (forall v, In v (vertices ts) -> Ffinite (c v)) -> lowest (map c (vertices ts)) lo -> highest (map c (vertices ts)) hi ->
    (forall v, In v (vertices ts) -> Fval lo <= Fval (c v) <= Fval hi) /\ (exists v, In v (vertices ts) /\ Fval (c v) = Fval lo) /\ (exists v, In v (vertices ts) /\ Fval (c v) = Fval hi)) as A.
  { intros c lo hi FC L H. assert (forall x, In x (map c (vertices ts)) -> Ffinite x) as FM by (intros x Hx; apply in_map_iff in Hx as [v [<- Hv]]; apply FC; exact Hv).
    assert (map c (vertices ts) <> []) as NM by (intros C; apply map_eq_nil in C; contradiction).
    destruct (lowest_real _ _ NM FM L) as (_ & L1 & x & Ix & Ex). destruct (highest_real _ _ NM FM H) as (_ & H1 & y & Iy & Ey).
    apply in_map_iff in Ix as [u [<- Iu]]. apply in_map_iff in Iy as [w [<- Iw]].
    split; [intros v Hv; split; [apply L1|apply H1]; apply in_map; exact Hv|]. split; [exists u; split; assumption|exists w; split; assumption]. }
  intros k c lo hi Ec El Eh. destruct k as [|[|[|k]]]; cbn [nth_error] in *; try (destruct k; discriminate); injection Ec as <-; injection El as <-; injection Eh as <-; (apply A; [intros v Hv; apply FIN; exact Hv|assumption|assumption]).
Qed.

(** ** C62 in binary64 *)
Lemma lower_is_older (h z1 z2 : FNum) (l : option FNum) : Ffinite h -> Ffinite z1 -> Ffinite z2 -> (forall x, l = Some x -> Ffinite (PrimFloat.sub h x)) -> Fval z1 <= Fval z2 ->
  (initially_active (N := FNum) h z2 = true -> initially_active (N := FNum) h z1 = true) /\
  (assign_state (N := FNum) h l z2 = solid -> assign_state (N := FNum) h l z1 = solid).
Proof.
  intros Fh F1 F2 Fl L. split.
  - unfold initially_active. rewrite !(emb_ltb _ _ _ Embeds_F) by assumption. rewrite !Rltb_true. lra.
  - unfold assign_state. destruct l as [x|]; [|reflexivity]. specialize (Fl x eq_refl). change (nsub FNum h x) with (PrimFloat.sub h x). rewrite !(emb_ltb _ _ _ Embeds_F) by assumption.
    destruct (Rltb_spec (Fval z2) (Fval (PrimFloat.sub h x))) as [Q|Q]; [|intros C; discriminate C]. intros _. destruct (Rltb_spec (Fval z1) (Fval (PrimFloat.sub h x))) as [Q'|Q']; [reflexivity|lra].
Qed.
