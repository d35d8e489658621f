(** RunProofs.v -- lower_bound, one pass of the loop, C37, C38, C39, C40. *)
From Coq Require Import Reals ZArith Bool List String Sorted Lra Lia.
From Flocq Require Import Core.Raux.
From Verif Require Import Base BaseFacts RunModel RunSpec.
Import ListNotations.
Local Open Scope R_scope.

(** ** lower_bound *)
Lemma lower_bound_go_spec (l : list R) x : StronglySorted Rle l -> forall fuel first len, (len < fuel)%nat -> (first + len <= List.length l)%nat ->
  (forall j v, (j < first)%nat -> nth_error l j = Some v -> v < x) -> (forall j v, (first + len <= j)%nat -> nth_error l j = Some v -> x <= v) ->
  let r := lower_bound_go (N := RNum) fuel l x first len in
  (r <= List.length l)%nat /\ forall j v, nth_error l j = Some v -> ((j < r)%nat <-> v < x).
Proof.
  intros SS. assert (MON : forall i j a b, (i <= j)%nat -> nth_error l i = Some a -> nth_error l j = Some b -> a <= b).
  { clear -SS. induction SS as [|h l SS IH F]; intros i j a b L A B; [destruct i; discriminate|]. destruct i as [|i].
    - simpl in A. injection A as <-. destruct j as [|j]; [simpl in B; injection B as <-; apply Rle_refl|]. simpl in B. rewrite Forall_forall in F. apply F. eapply nth_error_In; eauto.
    - destruct j as [|j]; [lia|]. simpl in A, B. apply (IH i j a b); [lia|exact A|exact B]. }
  induction fuel as [|fuel IH]; intros first len LF LL LO HI; [lia|]. cbn [lower_bound_go].
  destruct (Nat.eqb_spec len 0) as [->|NZ].
  - split; [lia|]. intros j v E. split; [intros L; eapply LO; eauto|]. intros V. destruct (Nat.lt_ge_cases j first) as [|G]; [assumption|].
    exfalso. assert (x <= v) by (apply (HI j v); [lia|exact E]). lra.
  - set (half := Nat.div len 2). assert (HL : (half < len)%nat) by (apply Nat.div_lt; lia).
    cbn [num RNum] in *.
    destruct (nth_error l (first + half)) as [w|] eqn:EW; [|apply nth_error_None in EW; lia].
    change (nltb RNum w x) with (Rltb w x). destruct (Rltb_spec w x) as [W|W].
    + apply IH; [lia|lia| |].
      * intros j v J E. apply Rle_lt_trans with w; [|exact W]. apply (MON j (first + half)%nat v w); [lia|exact E|exact EW].
      * intros j v J E. apply (HI j v); [lia|exact E].
    + apply IH; [lia|lia|exact LO|]. intros j v J E. apply Rle_trans with w; [lra|]. apply (MON (first + half)%nat j w v); [lia|exact EW|exact E].
Qed.
Lemma lower_bound_spec (l : list R) (x : R) : StronglySorted Rle l ->
  (lower_bound (N := RNum) l x <= List.length l)%nat /\ forall j v, nth_error l j = Some v -> ((j < lower_bound (N := RNum) l x)%nat <-> v < x).
Proof.
  intros SS. unfold lower_bound. apply lower_bound_go_spec; [exact SS|simpl; lia|simpl; lia|intros; lia|].
  intros j v L E. assert (j < List.length l)%nat by (apply nth_error_Some; congruence). simpl in L. lia.
Qed.

(** ** Schedule, for every carrier *)
Lemma divides_ok a b r : divides a b = Ok r -> b <> 0%nat /\ (r = true <-> scheduled a b).
Proof.
  unfold divides, umod, scheduled. destruct (Nat.eqb_spec b 0) as [|NZ]; [discriminate|]. cbn [bind]. intros H. injection H as <-. split; [exact NZ|].
  rewrite Nat.eqb_eq, Nat.mod_divide by exact NZ. unfold Nat.divide. reflexivity.
Qed.
Lemma divides_nz a b : b <> 0%nat -> divides a b = Ok (Nat.eqb (Nat.modulo a b) 0).
Proof. intros H. unfold divides, umod. destruct (Nat.eqb_spec b 0); [contradiction|reflexivity]. Qed.

Section Any.
  Context {N : Num}.
  Variables (cfg : config N) (reread : nat -> nat -> path N) (redep : nat -> list N).

  Lemma bind_inv {A B} (r : res A) (f : A -> res B) b : bind r f = Ok b -> exists a, r = Ok a /\ f a = Ok b.
  Proof. destruct r; simpl; try discriminate. eauto. Qed.

  Lemma step_schedule st e st' : step cfg reread redep st = Ok (e, st') ->
    e_n e = s_n st /\ s_n st' = (s_n st + 1)%nat /\ e_from e = s_time st /\ e_to e = s_time st' /\
    c_output cfg <> 0%nat /\ (e_output e = true <-> scheduled (s_n st) (c_output cfg)) /\
    (s_n st <> 1%nat -> c_refine cfg <> 0%nat) /\
    ((exists w, e_refine e = Some w) <-> c_thermal cfg = true /\ (s_n st = 1%nat \/ scheduled (s_n st) (c_refine cfg))) /\
    (c_mech cfg = true -> c_mech_factor cfg <> 0%nat) /\
    (e_mech e = true <-> c_mech cfg = true /\ (scheduled (s_n st) (c_mech_factor cfg) \/ scheduled (s_n st) (c_output cfg))) /\
    c_checkpoint cfg <> Some 0%nat /\
    (e_checkpoint e = true <-> exists p, c_checkpoint cfg = Some p /\ scheduled (s_n st) p) /\
    (e_checkpoint e = true -> c_thermal cfg = true).
  Proof.
    intros H. unfold step in H. cbv zeta in H. apply bind_inv in H. destruct H as ([[[ps se] du] dep] & _ & H).
    apply bind_inv in H. destruct H as (ref & R & H).
    destruct (if (_ <? _)%num then _ else _) as [window act_end].
    apply bind_inv in H. destruct H as (mech & M & H). apply bind_inv in H. destruct H as (ckpt & C & H). apply bind_inv in H. destruct H as (out & O & H).
    injection H as <- <-. cbn [e_n e_from e_to e_output e_refine e_mech e_checkpoint s_n s_time].
    apply divides_ok in O. destruct O as [ONZ O]. split; [reflexivity|]. split; [reflexivity|]. split; [reflexivity|]. split; [reflexivity|].
    split; [exact ONZ|]. split; [exact O|].
    assert (R' : (s_n st <> 1%nat -> c_refine cfg <> 0%nat) /\ (ref = true <-> (s_n st = 1%nat \/ scheduled (s_n st) (c_refine cfg)))).
    { destruct (Nat.eqb_spec (s_n st) 1) as [E|NE].
      - injection R as <-. split; [contradiction|]. tauto.
      - apply divides_ok in R. destruct R as [Z R]. split; [auto|]. rewrite R. tauto. }
    destruct R' as [R1 R2]. split; [exact R1|]. split.
    { rewrite <- R2. destruct ref, (c_thermal cfg); simpl; split; try (intros [? ?]; discriminate); try (intros _; auto; fail); eauto. }
    assert (M' : (c_mech cfg = true -> c_mech_factor cfg <> 0%nat) /\ (mech = true <-> c_mech cfg = true /\ (scheduled (s_n st) (c_mech_factor cfg) \/ scheduled (s_n st) (c_output cfg)))).
    { destruct (c_mech cfg).
      - apply bind_inv in M. destruct M as (a & A & M). apply divides_ok in A. destruct A as [Z A]. split; [auto|]. destruct a.
        + injection M as <-. tauto.
        + apply divides_ok in M. destruct M as [_ M]. rewrite M. split; [auto|]. intros [_ [Q|Q]]; [apply A in Q; discriminate|exact Q].
      - injection M as <-. split; [discriminate|]. intuition discriminate. }
    destruct M' as [M1 M2]. split; [exact M1|]. split; [exact M2|].
    destruct (c_checkpoint cfg) as [p|].
    - apply bind_inv in C. destruct C as (c & C & Q). apply divides_ok in C. destruct C as [Z C].
      assert (QQ : ckpt = c /\ (c = true -> c_thermal cfg = true)).
      { destruct c, (c_thermal cfg); simpl in Q; try discriminate; injection Q as <-; auto. }
      destruct QQ as [-> TH]. split; [congruence|]. split; [|exact TH]. rewrite C. split; [eauto|]. intros (q & E & S'). injection E as <-. exact S'.
    - injection C as <-. split; [discriminate|]. split; [|discriminate]. split; [discriminate|]. intros (p & E & _). discriminate.
  Qed.

  Lemma run_cons fuel st es st' fin : run cfg reread redep fuel st = Ok (es, st', fin) ->
    (es = [] /\ st' = st /\ (fin = true -> nltb N (s_time st) (s_duration st) = false)) \/
    (exists f e es' st1, fuel = S f /\ nltb N (s_time st) (s_duration st) = true /\ es = e :: es' /\ step cfg reread redep st = Ok (e, st1) /\ run cfg reread redep f st1 = Ok (es', st', fin)).
  Proof.
    destruct fuel as [|f]; simpl; destruct (nltb N (s_time st) (s_duration st)) eqn:E.
    - intros H. injection H as <- <- <-. left. repeat split. discriminate.
    - intros H. injection H as <- <- <-. left. auto.
    - intros H. apply bind_inv in H. destruct H as ([e st1] & S1 & H). apply bind_inv in H. destruct H as ([[es' st2] fin'] & R & H). injection H as <- <- <-.
      right. exists f, e, es', st1. auto.
    - intros H. injection H as <- <- <-. left. auto.
  Qed.

  (** Pass number i has step number n0 + i, and what it does depends on this number only. *)
  Lemma run_schedule fuel : forall st es st' fin, run cfg reread redep fuel st = Ok (es, st', fin) ->
    s_n st' = (s_n st + List.length es)%nat /\
    forall i e, nth_error es i = Some e -> e_n e = (s_n st + i)%nat /\
    (e_output e = true <-> scheduled (e_n e) (c_output cfg)) /\
    ((exists w, e_refine e = Some w) <-> c_thermal cfg = true /\ (e_n e = 1%nat \/ scheduled (e_n e) (c_refine cfg))) /\
    (e_mech e = true <-> c_mech cfg = true /\ (scheduled (e_n e) (c_mech_factor cfg) \/ scheduled (e_n e) (c_output cfg))) /\
    (e_checkpoint e = true <-> exists p, c_checkpoint cfg = Some p /\ scheduled (e_n e) p).
  Proof.
    induction fuel as [|f IH]; intros st es st' fin H; apply run_cons in H.
    - destruct H as [(-> & -> & _)|(f & e & es' & st1 & F & _)]; [|discriminate]. split; [simpl; lia|]. intros i e E. destruct i; discriminate.
    - destruct H as [(-> & -> & _)|(f' & e & es' & st1 & F & _ & -> & S1 & R)]; [split; [simpl; lia|intros i e E; destruct i; discriminate]|].
      injection F as <-. destruct (IH _ _ _ _ R) as [N' K]. destruct (step_schedule _ _ _ S1) as (E1 & E2 & E3 & E4 & E5 & E6 & E7 & E8 & E9 & E10 & E11 & E12 & _).
      split; [simpl; lia|]. intros i e' E. destruct i as [|i]; simpl in E.
      + injection E as <-. rewrite E1. split; [lia|]. auto.
      + destruct (K i e' E) as (Q & R'). split; [lia|exact R'].
  Qed.
  (** Zero periods. *)
  Lemma run_zero fuel st es st' fin : run cfg reread redep fuel st = Ok (es, st', fin) -> es <> [] ->
    c_output cfg <> 0%nat /\ c_checkpoint cfg <> Some 0%nat /\ (c_mech cfg = true -> c_mech_factor cfg <> 0%nat) /\ ((2 <= s_n st \/ 2 <= List.length es)%nat -> s_n st <> 0%nat -> c_refine cfg <> 0%nat).
  Proof.
    intros H NE. apply run_cons in H. destruct H as [(-> & _)|(f & e & es' & st1 & -> & _ & -> & S1 & R)]; [contradiction|].
    destruct (step_schedule _ _ _ S1) as (E1 & E2 & E3 & E4 & E5 & E6 & E7 & E8 & E9 & E10 & E11 & E12 & _).
    split; [exact E5|]. split; [exact E11|]. split; [exact E9|]. intros [L|L] NZ; [apply E7; lia|].
    apply run_cons in R. destruct R as [(-> & _)|(f' & e' & es2 & st2 & _ & _ & -> & S2 & _)]; [simpl in L; lia|].
    destruct (step_schedule _ _ _ S2) as (_ & _ & _ & _ & _ & _ & Q & _). apply Q. rewrite E2. lia.
  Qed.
  (** More fuel changes nothing once the loop has ended. *)
  Lemma run_more fuel k : forall st es st', run cfg reread redep fuel st = Ok (es, st', true) -> run cfg reread redep (fuel + k) st = Ok (es, st', true).
  Proof.
    induction fuel as [|f IH]; intros st es st' H.
    - simpl in H. destruct (nltb N (s_time st) (s_duration st)) eqn:E; [discriminate|]. destruct k; simpl; rewrite E; exact H.
    - simpl in *. destruct (nltb N (s_time st) (s_duration st)) eqn:E; [|exact H].
      apply bind_inv in H. destruct H as ([e st1] & S1 & H). rewrite S1. cbn [bind]. apply bind_inv in H. destruct H as ([[es' st2] fin'] & R & H). injection H as <- <- ->.
      rewrite (IH _ _ _ R). reflexivity.
  Qed.

  (** ** C40: the loop never changes the duration *)
  Lemma reread_end (rr : nat -> path N) : forall ps i e fin ps' e' fin', scan_reread rr i ps e fin = Ok (ps', e', fin') -> fin' = true -> e' = e.
  Proof.
    induction ps as [|p ps IH]; intros i e fin ps' e' fin' H F; cbn [scan_reread] in H.
    - injection H as <- <- <-. reflexivity.
    - destruct (p_finished p).
      + apply bind_inv in H. destruct H as ([[a b] c] & R & H). injection H as <- <- <-. eapply IH; eauto.
      + apply bind_inv in H. destruct H as (t & _ & H). apply bind_inv in H. destruct H as ([[a b] c] & R & H). injection H as <- <- <-. exfalso.
        assert (G : forall ps i e ps' e' fin', scan_reread rr i ps e false = Ok (ps', e', fin') -> fin' = false).
        { clear. induction ps as [|p ps IH]; intros i e ps' e' fin' H; cbn [scan_reread] in H; [injection H as <- <- <-; reflexivity|].
          destruct (p_finished p).
          - apply bind_inv in H. destruct H as ([[a b] c] & R & H). injection H as <- <- <-. eapply IH; eauto.
          - apply bind_inv in H. destruct H as (t & _ & H). apply bind_inv in H. destruct H as ([[a b] c] & R & H). injection H as <- <- <-. eapply IH; eauto. }
        apply G in R. congruence.
  Qed.
  Lemma step_duration st e st' : neqb N (nmax N) (nmax N) = true -> step cfg reread redep st = Ok (e, st') -> s_duration st' = s_duration st.
  Proof.
    intros MX H. unfold step in H. cbv zeta in H. apply bind_inv in H. destruct H as ([[[ps se] du] dep] & SC & H).
    apply bind_inv in H. destruct H as (ref & R & H). destruct (if (_ <? _)%num then _ else _) as [window act_end].
    apply bind_inv in H. destruct H as (mech & M & H). apply bind_inv in H. destruct H as (ckpt & C & H). apply bind_inv in H. destruct H as (out & O & H).
    injection H as <- <-. cbn [s_duration].
    destruct (c_scan_duration cfg && _) in SC.
    - apply bind_inv in SC. destruct SC as ([[a b] c] & RR & SC). injection SC as <- <- <- <-. destruct c; [|reflexivity].
      rewrite (reread_end _ _ _ _ _ _ _ _ RR eq_refl), MX. reflexivity.
    - injection SC as <- <- <- <-. reflexivity.
  Qed.
  Lemma run_duration fuel : neqb N (nmax N) (nmax N) = true -> forall st es st' fin, run cfg reread redep fuel st = Ok (es, st', fin) -> s_duration st' = s_duration st.
  Proof.
    intros MX. induction fuel as [|f IH]; intros st es st' fin H; apply run_cons in H.
    - destruct H as [(-> & -> & _)|(f & e & es' & st1 & F & _)]; [reflexivity|discriminate].
    - destruct H as [(-> & -> & _)|(f' & e & es' & st1 & F & _ & -> & S1 & R)]; [reflexivity|]. injection F as <-.
      rewrite (IH _ _ _ _ R). eapply step_duration; eauto.
  Qed.
  Lemma startup_unfinished (ps : list (path N)) : forall e fin r, scan_startup ps e fin = Ok r -> (exists p, In p ps /\ p_finished p = false) \/ fin = false -> snd r = false.
  Proof.
    induction ps as [|p ps IH]; intros e fin r H Q; cbn [scan_startup] in H.
    - injection H as <-. destruct Q as [(p & [] & _)|Q]. exact Q.
    - apply bind_inv in H. destruct H as (t & _ & H). apply (IH _ _ _ H). destruct Q as [(q & [<-|I] & F)|F]; [right; rewrite F; reflexivity|left; eauto|right; rewrite F; destruct (p_finished p); reflexivity].
  Qed.
  (** A path that is not finished at start-up: the run cannot end before the largest number. *)
  Lemma unfinished_never_ends restart ps dep st fuel es st' fin : neqb N (nmax N) (nmax N) = true -> c_scan_duration cfg = true ->
    (exists p, In p ps /\ p_finished p = false) -> start cfg restart ps dep = Ok st -> run cfg reread redep fuel st = Ok (es, st', fin) ->
    s_duration st' = nmax N /\ (fin = true -> nltb N (s_time st') (nmax N) = false).
  Proof.
    intros MX SD U S0 R. assert (D : s_duration st = nmax N).
    { unfold start, startup_duration in S0. rewrite SD in S0. cbv zeta in S0. apply bind_inv in S0. destruct S0 as ([e d] & SU & S0). apply bind_inv in SU. destruct SU as ([e1 fn] & SU & Q).
      apply startup_unfinished in SU; [|left; exact U]. simpl in SU. subst fn. injection Q as <- <-.
      destruct restart as [[t n]|]; injection S0 as <-; reflexivity. }
    split; [rewrite (run_duration _ MX _ _ _ _ R); exact D|]. rewrite <- D.
    assert (G : forall fuel st es st', run cfg reread redep fuel st = Ok (es, st', true) -> nltb N (s_time st') (s_duration st') = false).
    { clear. induction fuel as [|f IH]; intros st es st' H; apply run_cons in H.
      - destruct H as [(-> & -> & Q)|(f & e & es' & st1 & F & _)]; [apply Q; reflexivity|discriminate].
      - destruct H as [(-> & -> & Q)|(f' & e & es' & st1 & F & _ & -> & S1 & R)]; [apply Q; reflexivity|]. injection F as <-. eapply IH; eauto. }
    intros ->. rewrite <- (run_duration _ MX _ _ _ _ R). eapply G; eauto.
  Qed.
  (** ** Mechanical only: the time never advances *)
  Lemma mechanical_step st e st' : c_thermal cfg = false -> step cfg reread redep st = Ok (e, st') -> s_time st' = s_time st.
  Proof.
    intros TH H. unfold step in H. cbv zeta in H. apply bind_inv in H. destruct H as ([[[ps se] du] dep] & SC & H).
    apply bind_inv in H. destruct H as (ref & R & H). destruct (if (_ <? _)%num then _ else _) as [window act_end].
    apply bind_inv in H. destruct H as (mech & M & H). apply bind_inv in H. destruct H as (ckpt & C & H). apply bind_inv in H. destruct H as (out & O & H).
    injection H as <- <-. cbn [s_time]. rewrite TH. reflexivity.
  Qed.
  Lemma mechanical_never_ends fuel : neqb N (nmax N) (nmax N) = true -> c_thermal cfg = false -> forall st es st' fin, nltb N (s_time st) (s_duration st) = true ->
    run cfg reread redep fuel st = Ok (es, st', fin) -> fin = false /\ s_time st' = s_time st /\ List.length es = fuel.
  Proof.
    intros MX TH. induction fuel as [|f IH]; intros st es st' fin L H; simpl in H; rewrite L in H.
    - injection H as <- <- <-. auto.
    - apply bind_inv in H. destruct H as ([e st1] & S1 & H). apply bind_inv in H. destruct H as ([[es' st2] fin'] & R & H). injection H as <- <- <-.
      assert (T1 := mechanical_step _ _ _ TH S1). assert (D1 := step_duration _ _ _ MX S1).
      destruct (IH st1 es' st2 fin') as (A & B & C); [congruence|exact R|]. split; [exact A|]. split; [congruence|simpl; congruence].
  Qed.
End Any.
