(** MaterialFloat.v -- C16 in binary64: the ratios computed with the machine's arithmetic. *)
From Coq Require Import Reals ZArith Bool List Lra Lia Floats Psatz.
From Flocq Require Import IEEE754.BinarySingleNaN IEEE754.PrimFloat Core Plus_error.
From Verif Require Import Base BaseFacts ScanPathModel MaterialModel.
Import ListNotations.
Local Open Scope R_scope.

Notation fexp64 := (SpecFloat.fexp prec emax).
Notation rnd64 := (round radix2 fexp64 (round_mode mode_NE)).

Local Instance vexp64 : Valid_exp fexp64.
Proof. apply (@fexp_correct prec emax Hprec). Qed.
Local Instance mono64 : Monotone_exp fexp64.
Proof. apply (@fexp_monotone prec emax). Qed.
Local Instance notftz64 : Exp_not_FTZ fexp64.
Proof. change fexp64 with (FLT_exp (3 - emax - prec) prec). apply FLT_exp_monotone || exact _. Qed.

Lemma F1 : nofZ FNum 1 = one. Proof. vm_compute. reflexivity. Qed.
Lemma F0 : nofZ FNum 0 = zero. Proof. vm_compute. reflexivity. Qed.
Lemma Fval_one : Fval one = 1.
Proof. unfold Fval. rewrite one_equiv, Prim2B_B2Prim. apply Bone_correct. Qed.
Lemma Fval_zero : Fval zero = 0.
Proof. unfold Fval. reflexivity. Qed.
Lemma Ffin_one : Ffinite one. Proof. reflexivity. Qed.
Lemma Ffin_zero : Ffinite zero. Proof. reflexivity. Qed.
Lemma Ffmt (x : FNum) : generic_format radix2 fexp64 (Fval x).
Proof. apply (@generic_format_B2R prec emax). Qed.
Lemma Flt_emax (x : FNum) : Rabs (Fval x) < bpow radix2 emax.
Proof. apply abs_B2R_lt_emax. Qed.

(** A subtraction whose result lies between 0 and a finite number. *)
Lemma Fsub_ok (x y : FNum) : Ffinite x -> Ffinite y -> 0 <= Fval y <= Fval x ->
  Ffinite (nsub FNum x y) /\ Fval (nsub FNum x y) = rnd64 (Fval x - Fval y) /\ 0 <= Fval (nsub FNum x y) <= Fval x.
Proof.
  intros HX HY H. assert (B1 : 0 <= rnd64 (Fval x - Fval y)) by (apply round_ge_generic; [exact _|exact _|apply generic_format_0|lra]).
  assert (B2 : rnd64 (Fval x - Fval y) <= Fval x) by (apply round_le_generic; [exact _|exact _|apply Ffmt|lra]).
  assert (E := Bminus_correct prec emax Hprec Hmax mode_NE (Prim2B x) (Prim2B y)).
  unfold Ffinite in *. rewrite is_finite_equiv in *. specialize (E HX HY).
  fold (Fval x) in E. fold (Fval y) in E.
  rewrite Rlt_bool_true in E.
  - destruct E as (E1 & E2 & _).
    assert (V : Fval (nsub FNum x y) = rnd64 (Fval x - Fval y)).
    { change (nsub FNum x y) with (PrimFloat.sub x y). unfold Fval at 1. rewrite sub_equiv. exact E1. }
    split; [change (nsub FNum x y) with (PrimFloat.sub x y); rewrite sub_equiv; exact E2|]. rewrite V. auto.
  - rewrite Rabs_pos_eq by exact B1. apply Rle_lt_trans with (1 := B2). apply Rle_lt_trans with (1 := Rle_abs _). apply Flt_emax.
Qed.

(** The difference of distinct numbers is not rounded to 0. *)
Lemma Fsub_pos (x y : FNum) : Ffinite x -> Ffinite y -> 0 <= Fval y < Fval x -> 0 < Fval (nsub FNum x y).
Proof.
  intros HX HY H. destruct (Fsub_ok x y HX HY ltac:(lra)) as (_ & V & B). rewrite V in *.
  assert (N : rnd64 (Fval x - Fval y) <> 0).
  { unfold Rminus. apply round_plus_neq_0; try exact _; [apply Ffmt|apply generic_format_opp, Ffmt|lra]. }
  lra.
Qed.

(** A quotient in [0, 1]. *)
Lemma Fdiv_ok (x y : FNum) : Ffinite x -> Ffinite y -> 0 <= Fval x <= Fval y -> 0 < Fval y ->
  Ffinite (ndiv FNum x y) /\ Fval (ndiv FNum x y) = rnd64 (Fval x / Fval y) /\ 0 <= Fval (ndiv FNum x y) <= 1.
Proof.
  intros HX HY H P.
  assert (Q : 0 <= Fval x / Fval y <= 1).
  { split; [apply Rmult_le_pos; [lra|apply Rlt_le, Rinv_0_lt_compat, P]|]. apply (Rmult_le_reg_r (Fval y)); [exact P|]. unfold Rdiv. rewrite Rmult_assoc, Rinv_l by lra. lra. }
  assert (B1 : 0 <= rnd64 (Fval x / Fval y)) by (apply round_ge_generic; [exact _|exact _|apply generic_format_0|lra]).
  assert (B2 : rnd64 (Fval x / Fval y) <= 1) by (apply round_le_generic; [exact _|exact _|rewrite <- Fval_one; apply Ffmt|lra]).
  unfold Ffinite in *. rewrite is_finite_equiv in *.
  assert (E := Bdiv_correct prec emax Hprec Hmax mode_NE (Prim2B x) (Prim2B y)).
  fold (Fval x) in E. fold (Fval y) in E. specialize (E ltac:(lra)).
  rewrite Rlt_bool_true in E.
  - destruct E as (E1 & E2 & _).
    assert (V : Fval (ndiv FNum x y) = rnd64 (Fval x / Fval y)).
    { change (ndiv FNum x y) with (PrimFloat.div x y). unfold Fval at 1. rewrite div_equiv. exact E1. }
    split; [change (ndiv FNum x y) with (PrimFloat.div x y); rewrite div_equiv, E2; exact HX|]. rewrite V. auto.
  - rewrite Rabs_pos_eq by exact B1. apply Rle_lt_trans with (1 := B2). apply Rle_lt_trans with (Rabs (Fval one)); [rewrite Fval_one; apply Rle_abs|apply Flt_emax].
Qed.

Lemma Fltb (x y : FNum) : Ffinite x -> Ffinite y -> nltb FNum x y = Rltb (Fval x) (Fval y).
Proof. apply (emb_ltb _ _ _ Embeds_F). Qed.

(** Material data a run can use: finite, solidus and liquidus nonnegative and distinct. *)
Definition Fmelts (m : mat_props FNum) : Prop :=
  Ffinite (p_solidus m) /\ Ffinite (p_liquidus m) /\ 0 <= Fval (p_solidus m) < Fval (p_liquidus m).

Lemma Fliquid_range (m : mat_props FNum) (T : FNum) : Fmelts m -> Ffinite T ->
  Ffinite (liquid_ratio m T) /\ 0 <= Fval (liquid_ratio m T) <= 1.
Proof.
  intros (HS & HL & HSL) HT. unfold liquid_ratio. rewrite F0, F1. rewrite !Fltb by assumption.
  destruct (Rltb_spec (Fval T) (Fval (p_solidus m))); [split; [exact Ffin_zero|rewrite Fval_zero; lra]|].
  destruct (Rltb_spec (Fval (p_liquidus m)) (Fval T)); [split; [exact Ffin_one|rewrite Fval_one; lra]|].
  destruct (Fsub_ok T (p_solidus m)) as (A1 & A2 & A3); try assumption; [lra|].
  destruct (Fsub_ok (p_liquidus m) (p_solidus m)) as (B1 & B2 & B3); try assumption; [lra|].
  assert (B4 := Fsub_pos (p_liquidus m) (p_solidus m) HL HS HSL).
  destruct (Fdiv_ok (nsub FNum T (p_solidus m)) (nsub FNum (p_liquidus m) (p_solidus m)) A1 B1) as (C1 & _ & C3); [|exact B4|split; assumption].
  split; [lra|]. rewrite A2, B2. apply round_le; [exact _|exact _|lra].
Qed.

Lemma ulp_1 : ulp radix2 fexp64 1 = bpow radix2 (-52).
Proof. change 1 with (bpow radix2 0). rewrite ulp_bpow. reflexivity. Qed.
Lemma half_ulp x : Rabs x <= 1 -> Rabs (rnd64 x - x) <= / 2 * bpow radix2 (-52).
Proof.
  intros H. apply Rle_trans with (1 := error_le_half_ulp radix2 fexp64 _ x). apply Rmult_le_compat_l; [lra|]. rewrite <- ulp_1.
  apply ulp_le; [exact _|exact _|]. rewrite (Rabs_pos_eq 1) by lra. exact H.
Qed.

(** One update, for any finite temperature and any stored powder ratio in [0,1]. *)
Lemma Fratios_step k (m : mat_props FNum) (p T : FNum) : Fmelts m -> Ffinite T -> Ffinite p -> 0 <= Fval p <= 1 ->
  let r := device_ratios k m p T in
  (Ffinite (r_solid r) /\ 0 <= Fval (r_solid r) <= 1) /\ (Ffinite (r_liquid r) /\ 0 <= Fval (r_liquid r) <= 1) /\
  (Ffinite (r_powder r) /\ 0 <= Fval (r_powder r) <= 1) /\
  Rabs (Fval (r_solid r) + Fval (r_liquid r) + Fval (r_powder r) - 1) <= bpow radix2 (-52) /\
  Fval (r_powder r) <= Fval p.
Proof.
  intros M HT HP P. assert (B52 : 0 < bpow radix2 (-52)) by apply bpow_gt_0.
  destruct (Fliquid_range m T M HT) as [L1 L2]. unfold device_ratios. rewrite F0, F1.
  assert (Z : Ffinite zero /\ 0 <= Fval zero <= 1) by (split; [exact Ffin_zero|rewrite Fval_zero; lra]).
  assert (U : Ffinite one /\ 0 <= Fval one <= 1) by (split; [exact Ffin_one|rewrite Fval_one; lra]).
  destruct k; cbv zeta.
  - cbn [r_solid r_liquid r_powder]. repeat (split; [assumption|]). rewrite Fval_one, Fval_zero. split; [|lra].
    replace (1 + 0 + 0 - 1) with 0 by lra. rewrite Rabs_R0. lra.
  - set (l := liquid_ratio m T) in *. destruct (Fsub_ok one l) as (S1 & S2 & S3); [exact Ffin_one|exact L1|rewrite Fval_one; lra|]. rewrite Fval_one in *.
    cbn [r_solid r_liquid r_powder]. split; [split; [exact S1|lra]|]. split; [split; [exact L1|lra]|]. split; [exact Z|]. rewrite Fval_zero. split; [|lra].
    rewrite S2. replace (rnd64 (1 - Fval l) + Fval l + 0 - 1) with (rnd64 (1 - Fval l) - (1 - Fval l)) by ring.
    apply Rle_trans with (1 := half_ulp (1 - Fval l) ltac:(rewrite Rabs_pos_eq; lra)). lra.
  - set (l := liquid_ratio m T) in *. destruct (Fsub_ok one l) as (S1 & S2 & S3); [exact Ffin_one|exact L1|rewrite Fval_one; lra|]. rewrite Fval_one in *.
    set (a := nsub FNum one l) in *. change (nsub FNum one l) with a.
    set (q := if nltb FNum a p then a else p).
    assert (Q : Ffinite q /\ 0 <= Fval q <= 1 /\ Fval q <= Fval a /\ Fval q <= Fval p).
    { unfold q. rewrite Fltb by assumption. destruct (Rltb_spec (Fval a) (Fval p)); repeat split; try assumption; lra. }
    destruct Q as (Q1 & Q2 & Q3 & Q4). destruct (Fsub_ok a q) as (D1 & D2 & D3); [exact S1|exact Q1|lra|].
    cbn [r_solid r_liquid r_powder]. split; [split; [exact D1|lra]|]. split; [split; [exact L1|lra]|]. split; [split; [exact Q1|lra]|]. split; [|exact Q4].
    rewrite D2.
    assert (E1 := half_ulp (1 - Fval l) ltac:(rewrite Rabs_pos_eq; lra)). rewrite <- S2 in E1.
    assert (E2 := half_ulp (Fval a - Fval q) ltac:(rewrite Rabs_pos_eq; lra)).
    replace (rnd64 (Fval a - Fval q) + Fval l + Fval q - 1) with ((rnd64 (Fval a - Fval q) - (Fval a - Fval q)) + (Fval a - (1 - Fval l))) by ring.
    apply Rle_trans with (1 := Rabs_triang _ _). lra.
Qed.

Definition Fpowder (k : mstates) (m : mat_props FNum) (p0 : FNum) (Ts : list FNum) : FNum :=
  fold_left (fun p T => r_powder (device_ratios k m p T)) Ts p0.
Lemma Fhistory k (m : mat_props FNum) Ts : Fmelts m -> (forall T, In T Ts -> Ffinite T) -> forall p0, Ffinite p0 -> 0 <= Fval p0 <= 1 ->
  Ffinite (Fpowder k m p0 Ts) /\ 0 <= Fval (Fpowder k m p0 Ts) <= 1 /\ Fval (Fpowder k m p0 Ts) <= Fval p0.
Proof.
  intros M. induction Ts as [|T Ts IH]; intros HT p0 F P; [repeat split; try assumption; simpl; lra|].
  destruct (Fratios_step k m p0 T M (HT T (or_introl eq_refl)) F P) as (_ & _ & (Q1 & Q2) & _ & Q3).
  destruct (IH (fun T' H' => HT T' (or_intror H')) _ Q1 Q2) as (I1 & I2 & I3).
  change (Fpowder k m p0 (T :: Ts)) with (Fpowder k m (r_powder (device_ratios k m p0 T)) Ts). repeat split; try assumption; lra.
Qed.

Lemma Fhistory_ok k (m : mat_props FNum) (p0 : FNum) Ts (T : FNum) : Fmelts m -> (forall T', In T' (T :: Ts) -> Ffinite T') -> Ffinite p0 -> 0 <= Fval p0 <= 1 ->
  let r := device_ratios k m (Fpowder k m p0 Ts) T in
  0 <= Fval (r_solid r) <= 1 /\ 0 <= Fval (r_liquid r) <= 1 /\ 0 <= Fval (r_powder r) <= 1 /\
  Rabs (Fval (r_solid r) + Fval (r_liquid r) + Fval (r_powder r) - 1) <= bpow radix2 (-52) /\
  Fval (r_powder r) <= Fval (Fpowder k m p0 Ts) <= Fval p0.
Proof.
  intros M HT F P. destruct (Fhistory k m Ts M (fun T' H' => HT T' (or_intror H')) p0 F P) as (H1 & H2 & H3).
  destruct (Fratios_step k m _ T M (HT T (or_introl eq_refl)) H1 H2) as ((A1 & A2) & (B1 & B2) & (C1 & C2) & D & E). cbv zeta. auto 10.
Qed.
