(** RunProofs2.v -- the time loop over the real numbers: C15, C37, C39, C40. *)
From Coq Require Import Reals ZArith Bool List String Sorted Lra Lia.
From Flocq Require Import Core.Raux.
From Verif Require Import Base BaseFacts RunModel RunSpec RunProofs.
Import ListNotations.
Local Open Scope R_scope.

Lemma nmin_R (a b : R) : nmin (N := RNum) a b = Rmin a b.
Proof. unfold nmin. cbn [nltb RNum]. unfold Rmin. destruct (Rltb_spec b a); destruct Rle_dec; lra. Qed.
Lemma nmaxi_R (a b : R) : nmaxi (N := RNum) a b = Rmax a b.
Proof. unfold nmaxi. cbn [nltb RNum]. unfold Rmax. destruct (Rltb_spec a b); destruct Rle_dec; lra. Qed.

Section Regular.
  Variables (cfg : config RNum) (reread : nat -> nat -> path RNum) (redep : nat -> list RNum).
  Hypothesis REG : regular cfg.

  (** The size of a step that starts at [t]. *)
  Definition stepsize (t dt D : R) : R := if Rltb D (t + dt) then D - t else dt.
  Definition tol_of (dt : R) : R := dt * (1 / 1000000).
  (** The activation part of a pass: window and new end of the window. *)
  Definition window_of (st : state RNum) : option (nat * nat) * R :=
    let t := s_time st in let tol := tol_of (s_dt st) in let dt := stepsize t (s_dt st) (s_duration st) in
    if Rltb (- tol) (t - s_act_end st) then
      let e := nmin (N := RNum) (t + nmaxi (N := RNum) (c_activation cfg) dt) (s_duration st) in
      (if Nat.ltb (lower_bound (N := RNum) (s_dep st) (t - tol)) (lower_bound (N := RNum) (s_dep st) e) then Some (lower_bound (N := RNum) (s_dep st) (t - tol), lower_bound (N := RNum) (s_dep st) e) else None, e)
    else (None, s_act_end st).

  Lemma step_regular (st : state RNum) : exists e st', step cfg reread redep st = Ok (e, st') /\
    let dt := stepsize (s_time st) (s_dt st) (s_duration st) in
    e_n e = s_n st /\ e_from e = s_time st /\ e_dt e = dt /\ e_to e = s_time st + dt /\ e_window e = fst (window_of st) /\
    e_refine e = (if Nat.eqb (s_n st) 1 || Nat.eqb (Nat.modulo (s_n st) (c_refine cfg)) 0 then Some (s_time st, s_time st + IZR (Z.of_nat (c_refine cfg)) * dt) else None) /\
    e_mark e = c_mech cfg /\
    e_mech e = c_mech cfg && (Nat.eqb (Nat.modulo (s_n st) (c_mech_factor cfg)) 0 || Nat.eqb (Nat.modulo (s_n st) (c_output cfg)) 0) /\
    e_checkpoint e = match c_checkpoint cfg with Some p => Nat.eqb (Nat.modulo (s_n st) p) 0 | None => false end /\
    e_output e = Nat.eqb (Nat.modulo (s_n st) (c_output cfg)) 0 /\
    st' = mkst (N := RNum) (s_time st + dt) dt (s_duration st) (s_n st + 1) (snd (window_of st)) (s_scan_end st) (s_paths st) (s_dep st).
  Proof.
    destruct REG as (TH & SD & R0 & O0 & M0 & C0). unfold step. cbv zeta. rewrite SD. cbn [andb bind].
    assert (RR : (if Nat.eqb (s_n st) 1 then Ok true else divides (s_n st) (c_refine cfg)) = Ok (Nat.eqb (s_n st) 1 || Nat.eqb (Nat.modulo (s_n st) (c_refine cfg)) 0)).
    { destruct (Nat.eqb (s_n st) 1); [reflexivity|]. rewrite divides_nz by exact R0. reflexivity. }
    rewrite RR. cbn [bind]. rewrite TH.
    assert (MM : (if c_mech cfg then do a <- divides (s_n st) (c_mech_factor cfg); if (a : bool) then Ok true else divides (s_n st) (c_output cfg) else Ok false) =
      Ok (c_mech cfg && (Nat.eqb (Nat.modulo (s_n st) (c_mech_factor cfg)) 0 || Nat.eqb (Nat.modulo (s_n st) (c_output cfg)) 0))).
    { destruct (c_mech cfg); [|reflexivity]. rewrite divides_nz by exact M0. cbn [bind]. destruct (Nat.eqb (Nat.modulo (s_n st) (c_mech_factor cfg)) 0); [reflexivity|]. rewrite divides_nz by exact O0. reflexivity. }
    rewrite MM. cbn [bind].
    assert (CC : match c_checkpoint cfg with Some p => do c <- divides (s_n st) p; if (c : bool) && negb true then UB else Ok c | None => Ok false end =
      Ok match c_checkpoint cfg with Some p => Nat.eqb (Nat.modulo (s_n st) p) 0 | None => false end).
    { destruct (c_checkpoint cfg) as [p|]; [|reflexivity]. rewrite divides_nz by congruence. cbn [bind]. rewrite andb_false_r. reflexivity. }
    rewrite CC. rewrite (divides_nz _ _ O0). cbn [bind].
    unfold window_of. cbv zeta. change ((- (s_dt st * (nofZ RNum 1 / nofZ RNum 1000000)) <? s_time st - s_act_end st)%num) with (Rltb (- tol_of (s_dt st)) (s_time st - s_act_end st)).
    destruct (Rltb (- tol_of (s_dt st)) (s_time st - s_act_end st)).
    - eexists _, _. split; [reflexivity|]. cbn [e_n e_from e_dt e_to e_window e_refine e_mark e_mech e_checkpoint e_output fst snd]. rewrite !andb_true_r. repeat split; reflexivity.
    - eexists _, _. split; [reflexivity|]. cbn [e_n e_from e_dt e_to e_window e_refine e_mark e_mech e_checkpoint e_output fst snd]. rewrite !andb_true_r. repeat split; reflexivity.
  Qed.

  Lemma stepsize_cases t dt D : (t + dt <= D /\ stepsize t dt D = dt) \/ (D < t + dt /\ stepsize t dt D = D - t).
  Proof. unfold stepsize. destruct (Rltb_spec D (t + dt)); [right|left]; split; auto; lra. Qed.

  (** ** C37 *)
  Lemma run_times m : forall st : state RNum, 0 < s_dt st -> s_time st < s_duration st -> (INR m - 1) * s_dt st < s_duration st - s_time st <= INR m * s_dt st ->
    exists es st', run cfg reread redep m st = Ok (es, st', true) /\ List.length es = m /\ s_time st' = s_duration st /\ s_duration st' = s_duration st /\
    forall i e, nth_error es i = Some e -> e_n e = (s_n st + i)%nat /\ e_from e = s_time st + INR i * s_dt st /\ e_to e = Rmin (s_time st + INR (S i) * s_dt st) (s_duration st) /\
      e_dt e = e_to e - e_from e /\ 0 < e_dt e /\ ((S i < m)%nat -> e_dt e = s_dt st).
  Proof.
    induction m as [|m IH]; intros st DT LT [B1 B2]; [simpl in B2; lra|].
    destruct (step_regular st) as (e & st1 & S1 & EN & EF & ED & ET & _ & _ & _ & _ & _ & _ & ST1). cbv zeta in *.
    assert (L : Rltb (s_time st) (s_duration st) = true) by (apply Rltb_true; exact LT).
    rewrite S_INR in B1, B2. destruct (stepsize_cases (s_time st) (s_dt st) (s_duration st)) as [[C E]|[C E]].
    - rewrite E in ET, ED, ST1. destruct (Rle_lt_or_eq_dec _ _ C) as [C'|C'].
      + destruct (IH st1) as (es & st' & R & LE & T' & D' & K).
        * rewrite ST1. simpl. exact DT.
        * rewrite ST1. simpl. exact C'.
        * rewrite ST1. simpl. split; lra.
        * rewrite ST1 in K, T', D'. cbn [s_time s_dt s_duration s_n] in K, T', D'.
          exists (e :: es), st'. cbn [run nltb RNum]. rewrite L, S1. cbn [bind]. rewrite R. cbn [bind]. split; [reflexivity|]. split; [simpl; congruence|]. split; [exact T'|]. split; [exact D'|].
          intros i e' Ei. destruct i as [|i]; simpl nth_error in Ei.
          -- injection Ei as <-. rewrite EN, EF, ET, ED. change (INR 1) with 1. simpl (INR 0). rewrite Rmin_left by lra. repeat split; try lra; try lia.
          -- destruct (K i e' Ei) as (K1 & K2 & K3 & K4 & K5 & K6). rewrite !S_INR in *. split; [lia|]. split; [lra|]. split; [rewrite K3; f_equal; lra|]. split; [exact K4|]. split; [exact K5|].
             intros Q. apply K6. lia.
      + assert (m = 0%nat). { destruct m as [|m]; [reflexivity|]. rewrite S_INR in B1. assert (0 <= INR m) by apply pos_INR. exfalso. nra. } subst m.
        assert (L1 : Rltb (s_time st1) (s_duration st1) = false) by (apply Rltb_false; rewrite ST1; simpl; lra).
        exists [e], st1. cbn [run nltb RNum]. rewrite L, S1. cbn [bind run nltb RNum]. rewrite L1. cbn [bind]. split; [reflexivity|]. split; [reflexivity|]. rewrite ST1 at 1 2. cbn [s_time s_duration].
        split; [exact C'|]. split; [reflexivity|]. intros i e' Ei. destruct i as [|i]; [|destruct i; discriminate]. injection Ei as <-. rewrite EN, EF, ET, ED.
        change (INR 1) with 1. simpl (INR 0). rewrite Rmin_left by lra. repeat split; try lra; try lia.
    - rewrite E in ET, ED, ST1.
      assert (m = 0%nat). { destruct m as [|m]; [reflexivity|]. rewrite S_INR in B1. assert (0 <= INR m) by apply pos_INR. exfalso. nra. } subst m.
      assert (L1 : Rltb (s_time st1) (s_duration st1) = false) by (apply Rltb_false; rewrite ST1; simpl; lra).
      exists [e], st1. cbn [run nltb RNum]. rewrite L, S1. cbn [bind run nltb RNum]. rewrite L1. cbn [bind]. split; [reflexivity|]. split; [reflexivity|]. rewrite ST1 at 1 2. cbn [s_time s_duration].
      split; [lra|]. split; [reflexivity|]. intros i e' Ei. destruct i as [|i]; [|destruct i; discriminate]. injection Ei as <-. rewrite EN, EF, ET, ED.
      change (INR 1) with 1. simpl (INR 0). rewrite Rmin_right by lra. repeat split; try lra; try lia.
  Qed.
  Lemma steps_exist (x dt : R) : 0 < dt -> 0 < x -> exists m : nat, (INR m - 1) * dt < x <= INR m * dt.
  Proof.
    intros DT X. exists (Z.to_nat (Zceil (x / dt))). assert (Q : 0 < x / dt) by (apply Rdiv_lt_0_compat; assumption).
    assert (B := Zceil_ub (x / dt)). assert (C : (0 <= Zceil (x / dt))%Z) by (apply le_IZR; lra).
    rewrite INR_IZR_INZ, Z2Nat.id by exact C. assert (D : IZR (Zceil (x / dt)) < x / dt + 1) by (apply Zceil_lb).
    assert (E : x = x / dt * dt) by (field; lra). split.
    - rewrite E at 2. apply Rmult_lt_compat_r; lra.
    - rewrite E at 1. apply Rmult_le_compat_r; lra.
  Qed.
  Lemma run_ends (st : state RNum) : 0 < s_dt st -> s_time st < s_duration st -> exists m es st', (INR m - 1) * s_dt st < s_duration st - s_time st <= INR m * s_dt st /\
    (forall k, run cfg reread redep (m + k) st = Ok (es, st', true)) /\ List.length es = m /\ s_time st' = s_duration st /\
    forall i e, nth_error es i = Some e -> e_n e = (s_n st + i)%nat /\ e_from e = s_time st + INR i * s_dt st /\ e_to e = Rmin (s_time st + INR (S i) * s_dt st) (s_duration st) /\
      e_dt e = e_to e - e_from e /\ 0 < e_dt e /\ ((S i < m)%nat -> e_dt e = s_dt st).
  Proof.
    intros DT LT. destruct (steps_exist (s_duration st - s_time st) (s_dt st)) as [m B]; [exact DT|lra|].
    destruct (run_times m st DT LT B) as (es & st' & R & LE & T' & _ & K). exists m, es, st'. split; [exact B|]. split; [intros k; apply run_more, R|]. auto.
  Qed.
  (** A zero time step. *)
  Lemma zero_step fuel : forall (st : state RNum), s_dt st = 0 -> s_time st < s_duration st -> exists es st', run cfg reread redep fuel st = Ok (es, st', false) /\ s_time st' = s_time st.
  Proof.
    induction fuel as [|f IH]; intros st Z LT; assert (L : Rltb (s_time st) (s_duration st) = true) by (apply Rltb_true; exact LT).
    - exists [], st. simpl. rewrite L. auto.
    - destruct (step_regular st) as (e & st1 & S1 & _ & _ & _ & _ & _ & _ & _ & _ & _ & _ & ST1). cbv zeta in ST1.
      destruct (stepsize_cases (s_time st) (s_dt st) (s_duration st)) as [[C E]|[C E]]; [|rewrite Z in C; lra]. rewrite E, Z in ST1.
      destruct (IH st1) as (es & st' & R & T).
      + rewrite ST1. reflexivity.
      + rewrite ST1. simpl. lra.
      + exists (e :: es), st'. cbn [run nltb RNum]. rewrite L, S1. cbn [bind]. rewrite R. cbn [bind]. split; [reflexivity|]. rewrite T, ST1. simpl. lra.
  Qed.

  (** ** C15 *)
  Lemma in_window (st : state RNum) j v : StronglySorted Rle (s_dep st) -> nth_error (s_dep st) j = Some v ->
    ((exists a b, fst (window_of st) = Some (a, b) /\ (a <= j < b)%nat) <->
     - tol_of (s_dt st) < s_time st - s_act_end st /\ s_time st - tol_of (s_dt st) <= v /\
     v < Rmin (s_time st + Rmax (c_activation cfg) (stepsize (s_time st) (s_dt st) (s_duration st))) (s_duration st)).
  Proof.
    intros SS E. unfold window_of. cbv zeta.
    set (lo := s_time st - tol_of (s_dt st)). set (hi := nmin (N := RNum) (s_time st + nmaxi (N := RNum) (c_activation cfg) (stepsize (s_time st) (s_dt st) (s_duration st))) (s_duration st)).
    assert (HI : hi = Rmin (s_time st + Rmax (c_activation cfg) (stepsize (s_time st) (s_dt st) (s_duration st))) (s_duration st)).
    { unfold hi. rewrite nmin_R, nmaxi_R. reflexivity. }
    rewrite <- HI. clearbody hi lo.
    destruct (lower_bound_spec (s_dep st) lo SS) as [_ BL]. destruct (lower_bound_spec (s_dep st) hi SS) as [_ BH]. specialize (BL j v E). specialize (BH j v E).
    destruct (Rltb_spec (- tol_of (s_dt st)) (s_time st - s_act_end st)) as [C|C]; cbn [fst].
    - destruct (Nat.ltb_spec (lower_bound (N := RNum) (s_dep st) lo) (lower_bound (N := RNum) (s_dep st) hi)) as [Q|Q].
      + split.
        * intros (a & b & X & L). injection X as <- <-. split; [exact C|]. split; [|apply BH; lia]. destruct (Rle_or_lt lo v) as [|Z]; [assumption|]. apply BL in Z. lia.
        * intros (_ & L & U). eexists _, _. split; [reflexivity|]. apply BH in U. split; [|exact U]. destruct (Nat.lt_ge_cases j (lower_bound (N := RNum) (s_dep st) lo)) as [Z|Z]; [apply BL in Z; lra|exact Z].
      + split; [intros (a & b & X & _); discriminate|]. intros (_ & L & U). exfalso. apply BH in U.
        destruct (Nat.lt_ge_cases j (lower_bound (N := RNum) (s_dep st) lo)) as [Z|Z]; [apply BL in Z; lra|lia].
    - split; [intros (a & b & X & _); discriminate|]. intros (C' & _). contradiction.
  Qed.
  Lemma nat_gap (i p : nat) (x : R) : 0 < x -> INR p * x < INR i * x + x * (1 / 1000000) -> (p <= i)%nat.
  Proof.
    intros X H. destruct (Nat.le_gt_cases p i) as [|G]; [assumption|]. exfalso. apply le_INR in G. rewrite S_INR in G. nra.
  Qed.
  Lemma cover (t0 dt : R) (m : nat) : 0 < dt -> (1 <= m)%nat -> Rmax (c_activation cfg) dt = INR m * dt ->
    forall fuel (st : state RNum) es st' (i : nat) lo, s_dt st = dt -> s_time st = t0 + INR i * dt -> StronglySorted Rle (s_dep st) ->
    ((s_act_end st <= s_time st /\ lo = s_time st) \/ (exists p, (i <= p)%nat /\ s_act_end st = t0 + INR p * dt /\ lo = s_act_end st)) ->
    run cfg reread redep fuel st = Ok (es, st', true) -> forall j tau, nth_error (s_dep st) j = Some tau -> lo <= tau < s_duration st -> Exists (fun e => activates e j) es.
  Proof.
    intros DT M1 ACT. assert (TOL : tol_of dt = dt * (1 / 1000000)) by reflexivity. assert (TP : 0 < tol_of dt < dt) by (rewrite TOL; lra).
    assert (MM : 1 <= INR m) by (apply (le_INR 1); exact M1).
    induction fuel as [|f IH]; intros st es st' i lo SD ST SS INV R j tau EJ TAU; apply run_cons in R.
    - destruct R as [(-> & -> & Q)|(f & e & es' & st1 & F & _)]; [|discriminate]. exfalso. specialize (Q eq_refl). apply Rltb_false in Q.
      destruct INV as [[A ->]|(p & P & A & ->)]; [lra|]. apply le_INR in P. simpl in *. nra.
    - destruct R as [(-> & -> & Q)|(f' & e & es' & st1 & F & LT & -> & S1 & R)].
      { exfalso. specialize (Q eq_refl). apply Rltb_false in Q. destruct INV as [[A ->]|(p & P & A & ->)]; [lra|]. apply le_INR in P. simpl in *. nra. }
      injection F as <-. apply Rltb_true in LT.
      destruct (step_regular st) as (e0 & st0 & S0 & _ & _ & _ & _ & EW & _ & _ & _ & _ & _ & ST0). cbv zeta in ST0. rewrite S0 in S1. injection S1 as <- <-.
      assert (WI := in_window st j tau SS EJ). unfold window_of in ST0. cbv zeta in ST0. rewrite SD in ST0, WI.
      destruct (Rltb_spec (- tol_of dt) (s_time st - s_act_end st)) as [C|C].
      + (* a window *)
        assert (LO : s_time st - tol_of dt <= tau).
        { destruct INV as [[A ->]|(p & P & A & ->)]; [lra|]. assert (p <= i)%nat by (apply (nat_gap i p dt DT); rewrite TOL in C; lra).
          assert (p = i) by lia. subst p. lra. }
        set (W := Rmax (c_activation cfg) (stepsize (s_time st) dt (s_duration st))) in *.
        destruct (Rlt_or_le tau (Rmin (s_time st + W) (s_duration st))) as [IN|OUT].
        * left. unfold activates. rewrite EW. apply WI. auto.
        * right. destruct (stepsize_cases (s_time st) dt (s_duration st)) as [[C1 E1]|[C1 E1]].
          -- assert (WE : W = INR m * dt) by (unfold W; rewrite E1; exact ACT).
             assert (HN : nmin (N := RNum) (s_time st + nmaxi (N := RNum) (c_activation cfg) (stepsize (s_time st) dt (s_duration st))) (s_duration st) = Rmin (s_time st + W) (s_duration st)).
             { rewrite nmin_R, nmaxi_R. reflexivity. }
             cbn [snd] in ST0. rewrite HN in ST0. assert (MIN : Rmin (s_time st + W) (s_duration st) = s_time st + W) by (unfold Rmin in *; destruct Rle_dec; lra).
             rewrite MIN in ST0, OUT. rewrite E1 in ST0.
             rewrite ST0 in R. eapply (IH _ es' st' (S i) (s_time st + W)) with (tau := tau); [.. | exact R | exact EJ |]; cbn [s_dt s_time s_dep s_act_end s_duration]; auto.
             ++ rewrite ST, S_INR. lra.
             ++ right. exists (i + m)%nat. split; [lia|]. rewrite plus_INR, WE, ST. cbn [num RNum]; split; [ring|reflexivity].
             ++ split; [exact OUT|apply TAU].
          -- exfalso. assert (s_duration st - s_time st <= W) by (unfold W; rewrite E1; apply Rmax_r).
             unfold Rmin in OUT. destruct Rle_dec in OUT; lra.
      + (* no window *)
        destruct INV as [[A ->]|(p & P & A & ->)]; [lra|].
        assert (P' : (S i <= p)%nat). { destruct (Nat.eq_dec p i) as [->|]; [|lia]. exfalso. apply C. lra. }
        right. apply le_INR in P'. rewrite S_INR in P'.
        assert (UN : s_time st + dt <= s_duration st) by (rewrite ST; nra).
        destruct (stepsize_cases (s_time st) dt (s_duration st)) as [[C1 E1]|[C1 E1]]; [|lra]. rewrite E1 in ST0. cbn [snd] in ST0.
        rewrite ST0 in R. eapply (IH _ es' st' (S i) (s_act_end st)) with (tau := tau); [.. | exact R | exact EJ |]; cbn [s_dt s_time s_dep s_act_end s_duration]; auto.
        * rewrite ST, S_INR. lra.
        * right. exists p. split; [apply INR_le; rewrite S_INR; exact P'|auto].
  Qed.

  (** ** C39 *)
  Definition similar (a b : state RNum) : Prop := s_time a = s_time b /\ s_dt a = s_dt b /\ s_duration a = s_duration b /\ s_n a = s_n b.
  Lemma sim fuel : forall a b es a' fin, similar a b -> run cfg reread redep fuel a = Ok (es, a', fin) ->
    exists es' b', run cfg reread redep fuel b = Ok (es', b', fin) /\ Forall2 same_pass es es' /\ similar a' b'.
  Proof.
    induction fuel as [|f IH]; intros a b es a' fin (T & D & U & NN) H; simpl in *.
    - rewrite T, U in H. destruct (Rltb (s_time b) (s_duration b)); injection H as <- <- <-; exists [], b; (split; [reflexivity|]); (split; [constructor|]); unfold similar; auto.
    - rewrite T, U in H. destruct (Rltb (s_time b) (s_duration b)) eqn:L; [|injection H as <- <- <-; exists [], b; (split; [reflexivity|]); (split; [constructor|]); unfold similar; auto].
      apply bind_inv in H. destruct H as ([e a1] & S1 & H). apply bind_inv in H. destruct H as ([[es1 a2] fin1] & R1 & H). injection H as <- <- <-.
      destruct (step_regular a) as (e0 & a0 & S0 & E1 & E2 & E3 & E4 & _ & E5 & E6 & E7 & E8 & E9 & A0). rewrite S0 in S1. injection S1 as <- <-. cbv zeta in *.
      destruct (step_regular b) as (eb & b0 & Sb & F1 & F2 & F3 & F4 & _ & F5 & F6 & F7 & F8 & F9 & B0). cbv zeta in *.
      destruct (IH a0 b0 es1 a2 fin1) as (es' & b' & R' & FF & SB); [rewrite A0, B0; unfold similar; simpl; rewrite T, D, U, NN; auto|exact R1|].
      exists (eb :: es'), b'. rewrite Sb. cbn [bind]. rewrite R'. cbn [bind]. split; [reflexivity|]. split; [|exact SB]. constructor; [|exact FF].
      unfold same_pass. rewrite E1, E2, E3, E4, E5, E6, E7, E8, E9, F1, F2, F3, F4, F5, F6, F7, F8, F9, T, D, U, NN. auto 12.
  Qed.
  Lemma run_split pre : forall fuel st e post st' fin, run cfg reread redep fuel st = Ok (pre ++ e :: post, st', fin) ->
    exists f sb, run cfg reread redep f sb = Ok (post, st', fin) /\ s_time sb = e_to e /\ s_n sb = (e_n e + 1)%nat /\ s_duration sb = s_duration st /\ (s_dt sb = s_dt st \/ s_duration sb <= s_time sb).
  Proof.
    assert (ONE : forall st e sb, step cfg reread redep st = Ok (e, sb) -> s_time sb = e_to e /\ s_n sb = (e_n e + 1)%nat /\ s_duration sb = s_duration st /\ (s_dt sb = s_dt st \/ s_duration sb <= s_time sb)).
    { intros st e sb S1. destruct (step_regular st) as (e0 & a0 & S0 & E1 & _ & _ & E4 & _ & _ & _ & _ & _ & _ & A0). rewrite S0 in S1. injection S1 as <- <-. cbv zeta in *.
      rewrite E1, E4, A0. cbn [s_time s_n s_duration s_dt]. repeat split; auto. destruct (stepsize_cases (s_time st) (s_dt st) (s_duration st)) as [[_ ->]|[_ ->]]; [left; reflexivity|right; lra]. }
    induction pre as [|x pre IH]; intros fuel st e post st' fin H; apply run_cons in H.
    - destruct H as [(X & _)|(f & e1 & es' & st1 & -> & _ & X & S1 & R)]; [discriminate|]. injection X as <- <-. exists f, st1. split; [exact R|]. apply ONE, S1.
    - destruct H as [(X & _)|(f & e1 & es' & st1 & -> & _ & X & S1 & R)]; [discriminate|]. injection X as <- <-.
      destruct (IH _ _ _ _ _ _ R) as (f' & sb & R' & T' & N' & D' & Q). destruct (ONE _ _ _ S1) as (_ & _ & D1 & Q1).
      exists f', sb. split; [exact R'|]. split; [exact T'|]. split; [exact N'|]. split; [congruence|].
      destruct Q as [Q|Q]; [|right; exact Q]. destruct Q1 as [Q1|Q1]; [left; congruence|]. exfalso.
      apply run_cons in R. destruct R as [(X & _)|(f2 & e2 & es2 & st2 & _ & L & _)]; [destruct pre; discriminate|]. apply Rltb_true in L. lra.
  Qed.
  Lemma restart_same ps dep st0 fuel pre e post st' fin : start cfg None ps dep = Ok st0 -> run cfg reread redep fuel st0 = Ok (pre ++ e :: post, st', fin) ->
    exists st1 es' st2 f, start cfg (Some (checkpoint_content e)) ps dep = Ok st1 /\ run cfg reread redep f st1 = Ok (es', st2, fin) /\ Forall2 same_pass post es'.
  Proof.
    destruct REG as (TH & SD & _). unfold start, startup_duration, checkpoint_content. rewrite SD. cbv zeta. cbn [bind]. intros S0 R. injection S0 as <-.
    destruct (run_split _ _ _ _ _ _ _ R) as (f & sb & R' & T' & N' & D' & Q). cbn [s_duration s_dt] in *.
    set (st1 := mkst (N := RNum) (e_to e) (c_time_step cfg) (c_duration cfg) (e_n e + 1) (nofZ RNum (-1)) (nofZ RNum 0) ps dep).
    destruct Q as [Q|Q].
    - destruct (sim f sb st1 post st' fin) as (es' & b' & R2 & FF & _); [unfold similar, st1; simpl; auto|exact R'|]. exists st1, es', b', f. auto.
    - assert (H : post = [] /\ fin = true).
      { assert (NL : Rltb (s_time sb) (s_duration sb) = false) by (apply Rltb_false; lra).
        destruct f; cbn [run nltb RNum] in R'; rewrite NL in R'; injection R' as <- _ <-; auto. }
      destruct H as [-> ->]. exists st1, [], st1, 0%nat. split; [reflexivity|]. split; [|constructor]. simpl. rewrite (proj2 (Rltb_false _ _)) by lra. reflexivity.
  Qed.
End Regular.

(** ** C40: the duration at start-up *)
Lemma startup_end : forall (ps : list (path RNum)) (e : R) fin r, scan_startup ps e fin = Ok r ->
  fst r <= e /\ (forall p l x, In p ps -> p_ends p = (l ++ [x])%list -> fst r <= x) /\ (fst r = e \/ exists p l, In p ps /\ p_ends p = (l ++ [fst r])%list) /\
  ((forall p, In p ps -> p_finished p = true) -> snd r = fin) /\ (forall p, In p ps -> p_ends p <> []).
Proof.
  induction ps as [|p ps IH]; intros e fin r H; cbn [scan_startup] in H.
  - injection H as <-. simpl. repeat split; auto; try (intros; contradiction); lra.
  - apply bind_inv in H. destruct H as (t & B & H). destruct (IH _ _ _ H) as (A1 & A2 & A3 & A4 & A5).
    assert (TE : exists l, p_ends p = (l ++ [t])%list).
    { destruct (p_ends p) as [|x l] using rev_ind; [discriminate|]. rewrite back_app in B. injection B as <-. eauto. }
    change (nltb RNum t e) with (Rltb t e) in *. cbn [num RNum] in *. destruct TE as [l0 TE].
    destruct (Rltb_spec t e) as [C|C].
    + split; [lra|]. split.
      { intros q l x [<-|I] E; [|eapply A2; eauto]. rewrite TE in E. apply app_inj_tail in E. destruct E as [_ <-]. exact A1. }
      split. { right. destruct A3 as [A3|(q & l & I & E)]; [exists p, l0; rewrite A3; split; [left; reflexivity|exact TE]|exists q, l; split; [right; exact I|exact E]]. }
      split. { intros F. rewrite (A4 (fun q I => F q (or_intror I))). rewrite (F p (or_introl eq_refl)). reflexivity. }
      intros q [<-|I]; [rewrite TE; destruct l0; discriminate|auto].
    + split; [exact A1|]. split.
      { intros q l x [<-|I] E; [|eapply A2; eauto]. rewrite TE in E. apply app_inj_tail in E. destruct E as [_ <-]. lra. }
      split. { destruct A3 as [A3|(q & l & I & E)]; [left; exact A3|right; exists q, l; split; [right; exact I|exact E]]. }
      split. { intros F. rewrite (A4 (fun q I => F q (or_intror I))). rewrite (F p (or_introl eq_refl)). reflexivity. }
      intros q [<-|I]; [rewrite TE; destruct l0; discriminate|auto].
Qed.
Lemma startup_min (cfg : config RNum) restart (ps : list (path RNum)) dep (st : state RNum) : c_scan_duration cfg = true -> ps <> [] -> (forall p, In p ps -> p_finished p = true) ->
  (forall p x, In p ps -> In x (p_ends p) -> (x : R) <= IZR dblmaxZ) -> start cfg restart ps dep = Ok st -> earliest_end ps (s_duration st).
Proof.
  intros SD NE FIN BND S0. unfold start, startup_duration in S0. rewrite SD in S0. cbv zeta in S0. apply bind_inv in S0. destruct S0 as ([e d] & SU & S0). apply bind_inv in SU. destruct SU as ([e1 fn] & SU & Q).
  destruct (startup_end _ _ _ _ SU) as (A1 & A2 & A3 & A4 & A5). simpl in A1, A2, A3, A4. rewrite (A4 FIN) in Q. injection Q as <- <-.
  assert (D : s_duration st = e1) by (destruct restart as [[t n]|]; injection S0 as <-; reflexivity). rewrite D. split; [|exact A2].
  destruct A3 as [A3|A3]; [|exact A3]. destruct ps as [|p ps]; [contradiction|]. destruct (p_ends p) as [|x l] eqn:E using rev_ind; [exfalso; apply (A5 p (or_introl eq_refl) E)|].
  exists p, l. split; [left; reflexivity|]. rewrite E. f_equal. f_equal. apply Rle_antisym.
  - rewrite A3. apply (BND p x (or_introl eq_refl)). rewrite E. apply in_or_app. right. left. reflexivity.
  - apply (A2 p l x (or_introl eq_refl) E).
Qed.
