(** RunFloat.v -- the time loop in binary64 arithmetic (C37). *)
From Coq Require Import Reals ZArith Bool List Lra Lia Floats Psatz.
From Flocq Require Import IEEE754.BinarySingleNaN IEEE754.PrimFloat Core Plus_error Mult_error Sterbenz.
From Verif Require Import Base BaseFacts ScanPathModel MaterialModel MaterialFloat RunModel RunSpec RunProofs.
Import ListNotations.
Local Open Scope R_scope.

Section Any.
  Context {N : Num}.
  Variables (cfg : config N) (reread : nat -> nat -> path N) (redep : nat -> list N).
  Lemma step_time st : regular cfg -> exists e st', step cfg reread redep st = Ok (e, st') /\
    let dt := if nltb N (s_duration st) (nadd N (s_time st) (s_dt st)) then nsub N (s_duration st) (s_time st) else s_dt st in
    e_from e = s_time st /\ e_to e = nadd N (s_time st) dt /\ s_time st' = nadd N (s_time st) dt /\ s_dt st' = dt /\ s_duration st' = s_duration st.
  Proof.
    intros (TH & SD & R0 & O0 & M0 & C0). unfold step. cbv zeta. rewrite SD. cbn [andb bind].
    assert (RR : exists b, (if Nat.eqb (s_n st) 1 then Ok true else divides (s_n st) (c_refine cfg)) = Ok b).
    { destruct (Nat.eqb (s_n st) 1); [eauto|]. rewrite divides_nz by exact R0. eauto. }
    destruct RR as [b RR]. rewrite RR. cbn [bind]. rewrite TH.
    assert (MM : exists m, (if c_mech cfg then do a <- divides (s_n st) (c_mech_factor cfg); if (a : bool) then Ok true else divides (s_n st) (c_output cfg) else Ok false) = Ok m).
    { destruct (c_mech cfg); [|eauto]. rewrite divides_nz by exact M0. cbn [bind]. destruct (Nat.eqb (Nat.modulo (s_n st) (c_mech_factor cfg)) 0); [eauto|]. rewrite divides_nz by exact O0. eauto. }
    destruct MM as [m MM].
    assert (CC : exists c, match c_checkpoint cfg with Some p => do c <- divides (s_n st) p; if (c : bool) && negb true then UB else Ok c | None => Ok false end = Ok c).
    { destruct (c_checkpoint cfg) as [p|]; [|eauto]. rewrite divides_nz by congruence. cbn [bind]. rewrite andb_false_r. eauto. }
    destruct CC as [c CC]. rewrite MM. cbn [bind]. rewrite CC. rewrite (divides_nz _ _ O0). cbn [bind].
    destruct (nltb N _ (nsub N (s_time st) (s_act_end st))); eexists _, _; (split; [reflexivity|]); cbn; auto.
  Qed.
End Any.

Local Instance vexp64' : Valid_exp fexp64.
Proof. apply (@fexp_correct prec emax Hprec). Qed.
Local Instance mono64' : Monotone_exp fexp64.
Proof. apply (@fexp_monotone prec emax). Qed.

Lemma Fadd_ok (x y : FNum) : Ffinite x -> Ffinite y -> Rabs (rnd64 (Fval x + Fval y)) < bpow radix2 emax ->
  Ffinite (nadd FNum x y) /\ Fval (nadd FNum x y) = rnd64 (Fval x + Fval y).
Proof.
  intros HX HY H. assert (E := Bplus_correct prec emax Hprec Hmax mode_NE (Prim2B x) (Prim2B y)).
  unfold Ffinite in *. rewrite is_finite_equiv in *. specialize (E HX HY). fold (Fval x) in E. fold (Fval y) in E.
  rewrite Rlt_bool_true in E by exact H. destruct E as (E1 & E2 & _). change (nadd FNum x y) with (PrimFloat.add x y).
  split; [rewrite add_equiv; exact E2|]. unfold Fval at 1. rewrite add_equiv. exact E1.
Qed.

(** The last step: time + (duration - time) is the duration. *)
Lemma Flast (t dt D : FNum) : Ffinite t -> Ffinite D -> 0 <= Fval t < Fval D -> Fval t = 0 \/ Fval D <= 2 * Fval t ->
  Ffinite (nadd FNum t (nsub FNum D t)) /\ Fval (nadd FNum t (nsub FNum D t)) = Fval D.
Proof.
  intros FT FD B Q. destruct (Fsub_ok D t FD FT ltac:(lra)) as (FS & VS & _).
  assert (EX : Fval (nsub FNum D t) = Fval D - Fval t).
  { rewrite VS. destruct Q as [Q|Q].
    - rewrite Q, Rminus_0_r. apply round_generic; [exact _|apply Ffmt].
    - apply round_generic; [exact _|]. apply sterbenz; [exact _|exact _|apply Ffmt|apply Ffmt|]. lra. }
  assert (EQ : rnd64 (Fval t + Fval (nsub FNum D t)) = Fval D).
  { rewrite EX. replace (Fval t + (Fval D - Fval t)) with (Fval D) by ring. apply round_generic; [exact _|apply Ffmt]. }
  destruct (Fadd_ok t (nsub FNum D t) FT FS) as [A1 A2]; [rewrite EQ; apply Flt_emax|]. rewrite EQ in A2. auto.
Qed.

Section Loop.
  Variables (cfg : config FNum) (reread : nat -> nat -> path FNum) (redep : nat -> list FNum) (dt D : FNum).
  Hypothesis REG : regular cfg.
  Hypothesis FDT : Ffinite dt.
  Hypothesis PDT : 0 < Fval dt.
  Hypothesis FD : Ffinite D.
  Hypothesis NOV : Rabs (rnd64 (Fval D + Fval dt)) < bpow radix2 emax.

  Definition Finv (st : state FNum) : Prop :=
    Ffinite (s_time st) /\ s_duration st = D /\ 0 <= Fval (s_time st) <= Fval D /\
    (Fval (s_time st) < Fval D -> s_dt st = dt /\ (Fval (s_time st) = 0 \/ Fval dt <= Fval (s_time st))).

  Lemma Fstep st : Finv st -> Fval (s_time st) < Fval D -> exists e st', step cfg reread redep st = Ok (e, st') /\ Finv st' /\
    e_from e = s_time st /\ e_to e = s_time st' /\ Fval (s_time st) <= Fval (s_time st') /\
    (Fval (s_time st') = Fval D \/ Fval (s_time st') = rnd64 (Fval (s_time st) + Fval dt)).
  Proof.
    intros (FT & SD & B & INV) LT. destruct (INV LT) as [E Q]. destruct (step_time cfg reread redep st REG) as (e & st' & S1 & E1 & E2 & E3 & E4 & E5). cbv zeta in *.
    exists e, st'. split; [exact S1|]. rewrite SD, E in *.
    assert (LE : 0 <= rnd64 (Fval (s_time st) + Fval dt) <= rnd64 (Fval D + Fval dt)).
    { split; [apply round_ge_generic; [exact _|exact _|apply generic_format_0|lra]|apply round_le; [exact _|exact _|lra]]. }
    destruct (Fadd_ok (s_time st) dt FT FDT) as [A1 A2].
    { rewrite Rabs_pos_eq by lra. apply Rle_lt_trans with (2 := NOV). apply Rle_trans with (2 := Rle_abs _). lra. }
    rewrite (Fltb D (nadd FNum (s_time st) dt) FD A1) in E2, E3, E4. rewrite A2 in *.
    destruct (Rltb_spec (Fval D) (rnd64 (Fval (s_time st) + Fval dt))) as [C|C].
    - assert (QQ : Fval (s_time st) = 0 \/ Fval D <= 2 * Fval (s_time st)).
      { destruct Q as [Q|Q]; [left; exact Q|right]. apply Rlt_le. apply Rlt_le_trans with (1 := C).
        assert (G : rnd64 (Fval (s_time st) + Fval dt) <= rnd64 (2 * Fval (s_time st))) by (apply round_le; [exact _|exact _|lra]).
        apply Rle_trans with (1 := G). apply Req_le. apply round_generic; [exact _|].
        assert (X := mult_bpow_pos_exact_FLT radix2 (3 - emax - prec) prec (Fval (s_time st)) 1).
        replace (2 * Fval (s_time st)) with (Fval (s_time st) * bpow radix2 1) by (change (bpow radix2 1) with 2; ring). apply X. 2: lia. apply Ffmt. }
      destruct (Flast (s_time st) dt D FT FD ltac:(lra) QQ) as [L1 L2]. rewrite <- E3 in L1, L2.
      split; [|split; [exact E1|split; [congruence|split; [lra|left; exact L2]]]].
      unfold Finv. rewrite L2. repeat split; auto; try lra.
    - rewrite E3 in *. split; [|split; [exact E1|split; [congruence|split; [|right; exact A2]]]].
      + unfold Finv. rewrite E3, A2. repeat split; auto; try lra. right. apply round_ge_generic; [exact _|exact _|apply Ffmt|lra].
      + rewrite A2. apply round_ge_generic; [exact _|exact _|apply Ffmt|lra].
  Qed.

  Fixpoint nondec (l : list (event FNum)) (t : FNum) : Prop :=
    match l with [] => True | e :: l' => e_from e = t /\ Fval t <= Fval (e_to e) /\ Fval (e_to e) <= Fval D /\ nondec l' (e_to e) end.
  Lemma Frun fuel : forall st, Finv st -> exists es st' fin, run cfg reread redep fuel st = Ok (es, st', fin) /\ Finv st' /\ nondec es (s_time st) /\
    (fin = true -> Fval (s_time st') = Fval D).
  Proof.
    induction fuel as [|f IH]; intros st INV; cbn [run]; assert (INV0 := INV); destruct INV0 as (FT & SD & B & _); rewrite SD, (Fltb _ _ FT FD).
    - destruct (Rltb_spec (Fval (s_time st)) (Fval D)) as [C|C]; eexists _, _, _; (split; [reflexivity|]); (split; [exact INV|]); (split; [exact I|]); [discriminate|intros _; lra].
    - destruct (Rltb_spec (Fval (s_time st)) (Fval D)) as [C|C].
      + destruct (Fstep st INV C) as (e & st1 & S1 & INV1 & E1 & E2 & MON & _). destruct (IH st1 INV1) as (es & st' & fin & R & I' & ND & Q).
        rewrite S1. cbn [bind]. rewrite R. cbn [bind]. eexists _, _, _. split; [reflexivity|]. split; [exact I'|]. split; [|exact Q].
        simpl. rewrite E2. split; [exact E1|]. split; [exact MON|]. split; [|exact ND]. destruct INV1 as (_ & _ & B1 & _). lra.
      + eexists _, _, _. split; [reflexivity|]. split; [exact INV|]. split; [exact I|]. intros _. lra.
  Qed.
  (** A step is at least half the requested size when the step is at least the spacing of the numbers at the duration. *)
  Lemma Fends m : ulp radix2 fexp64 (Fval D) <= Fval dt -> forall st, Finv st -> Fval D - Fval (s_time st) <= INR m * (Fval dt / 2) ->
    exists es st', run cfg reread redep m st = Ok (es, st', true).
  Proof.
    intros U. induction m as [|m IH]; intros st INV H; cbn [run]; assert (INV0 := INV); destruct INV0 as (FT & SD & B & _); rewrite SD, (Fltb _ _ FT FD).
    - simpl in H. destruct (Rltb_spec (Fval (s_time st)) (Fval D)) as [C|C]; [lra|]. eauto.
    - destruct (Rltb_spec (Fval (s_time st)) (Fval D)) as [C|C]; [|eauto].
      destruct (Fstep st INV C) as (e & st1 & S1 & INV1 & E1 & E2 & MON & G). destruct (IH st1 INV1) as (es & st' & R).
      + rewrite S_INR in H. assert (0 <= INR m) by apply pos_INR. destruct G as [G|G]; [rewrite G; nra|].
        assert (ER := error_le_half_ulp_round radix2 fexp64 (fun x => negb (Z.even x)) (Fval (s_time st) + Fval dt)).
        change (round radix2 fexp64 (Znearest (fun x => negb (Z.even x)))) with rnd64 in ER. rewrite <- G in ER.
        assert (UL : ulp radix2 fexp64 (Fval (s_time st1)) <= ulp radix2 fexp64 (Fval D)).
        { destruct INV1 as (_ & _ & B1 & _). apply ulp_le_pos; [exact _|exact _|lra|lra]. }
        apply Rabs_le_inv in ER. lra.
      + rewrite S1. cbn [bind]. rewrite R. cbn [bind]. eauto.
  Qed.
End Loop.

(** From a start at time 0. *)
Lemma Frun_fresh (cfg : config FNum) reread redep ps dep st fuel : regular cfg -> Ffinite (c_time_step cfg) -> 0 < Fval (c_time_step cfg) -> Ffinite (c_duration cfg) -> 0 <= Fval (c_duration cfg) ->
  Rabs (rnd64 (Fval (c_duration cfg) + Fval (c_time_step cfg))) < bpow radix2 emax -> start cfg None ps dep = Ok st ->
  exists es st' fin, run cfg reread redep fuel st = Ok (es, st', fin) /\ nondec (c_duration cfg) es zero /\ (fin = true -> Fval (s_time st') = Fval (c_duration cfg)) /\
  (ulp radix2 fexp64 (Fval (c_duration cfg)) <= Fval (c_time_step cfg) -> 2 * Fval (c_duration cfg) <= INR fuel * Fval (c_time_step cfg) -> fin = true).
Proof.
  intros REG F1' P1 F2 P2 NOV S0. assert (SD := REG). destruct SD as (_ & SD & _). unfold start, startup_duration in S0. rewrite SD in S0. cbn [bind] in S0. injection S0 as <-.
  match goal with |- context [run _ _ _ _ ?x] => set (st := x) end.
  assert (TZ : s_time st = zero) by (vm_compute; reflexivity).
  assert (INV : Finv (c_time_step cfg) (c_duration cfg) st).
  { unfold Finv. rewrite TZ, Fval_zero. repeat split; auto; try lra; reflexivity. }
  destruct (Frun cfg reread redep (c_time_step cfg) (c_duration cfg) REG F1' P1 F2 NOV fuel st INV) as (es & st' & fin & R & _ & ND & Q).
  exists es, st', fin. split; [exact R|]. split; [|split; [exact Q|]].
  - rewrite TZ in ND. exact ND.
  - intros U L. destruct (Fends cfg reread redep (c_time_step cfg) (c_duration cfg) REG F1' P1 F2 NOV fuel U st INV) as (es2 & st2 & R2).
    + rewrite TZ, Fval_zero. lra.
    + rewrite R in R2. congruence.
Qed.

(** A step below half the spacing: the time stands still. *)
Definition stuck_cfg : config FNum := mkcfg (N := FNum) true false 10 1 1 None 0%float false 1%float 18014398509481984%float.
Definition stuck_state : state FNum := mkst (N := FNum) 9007199254740992%float 1%float 18014398509481984%float 7 (-1)%float 0%float [] [].
Lemma stuck reread redep fuel : exists es st', run stuck_cfg reread redep fuel stuck_state = Ok (es, st', false).
Proof.
  assert (G : forall fuel n a, exists es st', run stuck_cfg reread redep fuel (mkst (N := FNum) 9007199254740992%float 1%float 18014398509481984%float n a 0%float [] []) = Ok (es, st', false)).
  { clear fuel. induction fuel as [|f IH]; intros n a; cbn [run s_time s_duration].
    - change (nltb FNum 9007199254740992%float 18014398509481984%float) with true. eauto.
    - change (nltb FNum 9007199254740992%float 18014398509481984%float) with true.
      match goal with |- context [step ?c ?r ?d ?s] => assert (X : exists e a', step c r d s = Ok (e, mkst (N := FNum) 9007199254740992%float 1%float 18014398509481984%float (n + 1) a' 0%float [] [])) end.
      { unfold step. cbn [s_n s_time s_dt s_duration s_act_end s_dep s_paths s_scan_end c_scan_duration stuck_cfg andb bind c_refine c_output c_mech c_mech_factor c_checkpoint c_thermal c_activation].
        assert (RR : exists b, (if Nat.eqb n 1 then Ok true else divides n 10) = Ok b) by (destruct (Nat.eqb n 1); [eauto|rewrite divides_nz by discriminate; eauto]).
        destruct RR as [b ->]. cbn [bind]. rewrite (divides_nz n 1) by discriminate. cbn [bind].
        change (nltb FNum 18014398509481984%float (nadd FNum 9007199254740992%float 1%float)) with false. cbn iota.
        change (nadd FNum 9007199254740992%float 1%float) with 9007199254740992%float.
        destruct (nltb FNum _ (nsub FNum 9007199254740992%float a)); eexists _, _; reflexivity. }
      destruct X as (e & a' & X). rewrite X. cbn [bind]. destruct (IH (n + 1)%nat a') as (es & st' & R). rewrite R. cbn [bind]. eauto. }
  apply G.
Qed.
