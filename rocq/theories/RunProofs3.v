(** RunProofs3.v -- refinement intervals, output times and successive activation windows of whole runs (C15, C38). *)
From Coq Require Import Reals ZArith Bool List Lra Lia Sorted.
From Verif Require Import Base BaseFacts RunModel RunSpec RunProofs RunProofs2.
Import ListNotations.
Local Open Scope R_scope.

Section Any.
  Context {N : Num}.
  Variables (cfg : config N) (reread : nat -> nat -> path N) (redep : nat -> list N).
  Lemma step_refine st e st' : step cfg reread redep st = Ok (e, st') -> forall w, e_refine e = Some w -> w = (e_from e, nadd N (e_from e) (nmul N (nofZ N (Z.of_nat (c_refine cfg))) (e_dt e))).
  Proof.
    unfold step. cbv zeta. intros H. apply bind_inv in H. destruct H as ([[[ps se] du] dp] & _ & H).
    apply bind_inv in H. destruct H as (ref & _ & H).
    destruct (if nltb N _ (nsub N (s_time st) (s_act_end st)) then _ else _) as [win ae] in H.
    apply bind_inv in H. destruct H as (me & _ & H). apply bind_inv in H. destruct H as (ck & _ & H). apply bind_inv in H. destruct H as (out & _ & H).
    injection H as <- <-. cbn [e_refine e_from e_dt]. intros w. destruct (ref && c_thermal cfg); [|discriminate]. intros W. injection W as <-. reflexivity.
  Qed.
  Lemma run_refine fuel : forall st es st' fin, run cfg reread redep fuel st = Ok (es, st', fin) -> forall e w, In e es -> e_refine e = Some w ->
    w = (e_from e, nadd N (e_from e) (nmul N (nofZ N (Z.of_nat (c_refine cfg))) (e_dt e))).
  Proof.
    induction fuel as [|f IH]; intros st es st' fin H e w I; apply run_cons in H.
    - destruct H as [(-> & _)|(f & e0 & es' & st1 & F & _)]; [contradiction|discriminate].
    - destruct H as [(-> & _)|(f' & e0 & es' & st1 & F & _ & -> & S1 & R)]; [contradiction|]. injection F as <-. destruct I as [<-|I]; [apply (step_refine _ _ _ S1)|apply (IH _ _ _ _ R _ _ I)].
  Qed.
End Any.

Section Regular.
  Variables (cfg : config RNum) (reread : nat -> nat -> path RNum) (redep : nat -> list RNum).
  Hypothesis REG : regular cfg.

  (** Times of the passes of a run, ended or not. *)
  Lemma run_times_any fuel : forall (st : state RNum) es st' fin, 0 < s_dt st -> run cfg reread redep fuel st = Ok (es, st', fin) ->
    forall i e, nth_error es i = Some e -> e_from e = s_time st + INR i * s_dt st /\ e_to e = Rmin (s_time st + INR (S i) * s_dt st) (s_duration st) /\ e_from e < s_duration st.
  Proof.
    induction fuel as [|f IH]; intros st es st' fin DT H i e E; apply run_cons in H.
    - destruct H as [(-> & _)|(f & e0 & es' & st1 & F & _)]; [destruct i; discriminate|discriminate].
    - destruct H as [(-> & _)|(f' & e0 & es' & st1 & F & L & -> & S1 & R)]; [destruct i; discriminate|]. injection F as <-. apply Rltb_true in L.
      destruct (step_regular cfg reread redep REG st) as (e1 & st2 & S2 & E1 & E2 & E3 & E4 & _ & _ & _ & _ & _ & _ & A0). rewrite S1 in S2. injection S2 as <- <-. cbv zeta in *.
      destruct (stepsize_cases (s_time st) (s_dt st) (s_duration st)) as [[C Q]|[C Q]]; rewrite Q in *.
      + destruct i as [|i].
        * simpl in E. injection E as <-. rewrite E2, E4. simpl. unfold Rmin. destruct (Rle_dec (s_time st + 1 * s_dt st) (s_duration st)); simpl in *; lra.
        * assert (X : 0 < s_dt st1) by (rewrite A0; exact DT). destruct (IH st1 es' st' fin X R i e E) as (A & B & D). rewrite A0 in A, B, D. cbn [s_time s_dt s_duration] in A, B, D.
          split; [rewrite A; rewrite S_INR; simpl; ring|]. split; [|exact D]. rewrite B. f_equal. rewrite !S_INR. simpl. ring.
      + destruct i as [|i].
        * simpl in E. injection E as <-. rewrite E2, E4. simpl. unfold Rmin. destruct (Rle_dec (s_time st + 1 * s_dt st) (s_duration st)); simpl in *; lra.
        * exfalso. apply run_cons in R. destruct R as [(-> & _)|(f3 & e3 & es3 & st3 & _ & L3 & _)]; [destruct i; discriminate|]. apply Rltb_true in L3. rewrite A0 in L3. simpl in L3. lra.
  Qed.
  Lemma output_times ps dep fuel (st st' : state RNum) es fin : 0 < (c_time_step cfg : R) -> 0 <= (c_duration cfg : R) -> start cfg None ps dep = Ok st -> run cfg reread redep fuel st = Ok (es, st', fin) ->
    forall n (t : R), In (n, t) (outputs st es) -> t = Rmin (INR n * c_time_step cfg) (c_duration cfg).
  Proof.
    intros DT DU S0 R n t I. destruct REG as (TH & SD & _). unfold start, startup_duration in S0. rewrite SD in S0. cbn [bind] in S0. injection S0 as <-.
    unfold outputs in I. destruct I as [I|I].
    - injection I as <- <-. simpl. rewrite Rmult_0_l. rewrite Rmin_left by exact DU. reflexivity.
    - apply in_map_iff in I. destruct I as (e & E & I). injection E as <- <-. apply filter_In in I. destruct I as [I _]. apply In_nth_error in I. destruct I as [i I].
      destruct (run_schedule _ _ _ _ _ _ _ _ R) as [_ K]. destruct (K i e I) as (Kn & _). cbn [s_n] in Kn.
      assert (X : 0 < s_dt (mkst (N := RNum) (nofZ RNum 0) (c_time_step cfg) (c_duration cfg) (0 + 1) (nofZ RNum (-1)) (nofZ RNum 0) ps dep)) by exact DT.
      destruct (run_times_any fuel _ es st' fin X R i e I) as (_ & B & _). rewrite B. cbn [s_time s_dt s_duration]. rewrite Kn. f_equal. cbn [s_n Nat.add]. change (0 + INR (S i) * c_time_step cfg = INR (S i) * c_time_step cfg). apply Rplus_0_l.
  Qed.

  (** Windows follow each other: none starts before the end of the previous one, up to the tolerance. *)
  Lemma window_inv (st : state RNum) : fst (window_of cfg st) <> None -> - tol_of (s_dt st) < s_time st - s_act_end st /\
    snd (window_of cfg st) = Rmin (s_time st + Rmax (c_activation cfg) (stepsize (s_time st) (s_dt st) (s_duration st))) (s_duration st).
  Proof.
    unfold window_of. cbv zeta. destruct (Rltb_spec (- tol_of (s_dt st)) (s_time st - s_act_end st)) as [C|C]; cbn [fst snd]; [|congruence].
    intros _. split; [exact C|]. rewrite nmin_R, nmaxi_R. reflexivity.
  Qed.
  Lemma act_end_grows (st : state RNum) : 0 < s_dt st -> s_act_end st <= s_duration st -> s_act_end st <= snd (window_of cfg st) <= s_duration st.
  Proof.
    intros DT AD. unfold window_of. cbv zeta. destruct (Rltb_spec (- tol_of (s_dt st)) (s_time st - s_act_end st)) as [C|C]; cbn [snd]; [|lra].
    rewrite nmin_R, nmaxi_R. split; [|apply Rmin_r]. unfold tol_of in C. apply Rmin_glb; [|exact AD].
    destruct (stepsize_cases (s_time st) (s_dt st) (s_duration st)) as [[_ Q]|[_ Q]]; rewrite Q.
    - assert (X := Rmax_r (c_activation cfg) (s_dt st)). simpl in *. lra.
    - assert (X := Rmax_r (c_activation cfg) (s_duration st - s_time st)). simpl in *. lra.
  Qed.
  Lemma after_end fuel : forall (st : state RNum) es st' fin, 0 < s_dt st -> s_act_end st <= s_duration st -> run cfg reread redep fuel st = Ok (es, st', fin) ->
    forall e, In e es -> e_window e <> None -> s_act_end st - s_dt st / 1000000 < e_from e.
  Proof.
    induction fuel as [|f IH]; intros st es st' fin DT AD H e I W; apply run_cons in H.
    - destruct H as [(-> & _)|(f & e0 & es' & st1 & F & _)]; [contradiction|discriminate].
    - destruct H as [(-> & _)|(f' & e0 & es' & st1 & F & L & -> & S1 & R)]; [contradiction|]. injection F as <-. apply Rltb_true in L.
      destruct (step_regular cfg reread redep REG st) as (e1 & st2 & S2 & E1 & E2 & E3 & E4 & E5 & _ & _ & _ & _ & _ & A0). rewrite S1 in S2. injection S2 as <- <-. cbv zeta in *.
      destruct I as [<-|I].
      + rewrite E5 in W. destruct (window_inv st W) as [C _]. unfold tol_of in C. rewrite E2. simpl in *. lra.
      + destruct (act_end_grows st DT AD) as [G1 G2].
        assert (SB : 0 < stepsize (s_time st) (s_dt st) (s_duration st) <= s_dt st) by (destruct (stepsize_cases (s_time st) (s_dt st) (s_duration st)) as [[_ Q]|[C Q]]; rewrite Q; simpl in *; lra).
        assert (X := IH st1 es' st' fin). rewrite A0 in X. cbn [s_dt s_act_end s_duration] in X. specialize (X ltac:(apply SB) G2). rewrite A0 in R. specialize (X R e I W). simpl in *. lra.
  Qed.
  Lemma windows_in_turn pre : forall mid fuel (st : state RNum) e e' post st' fin, 0 < s_dt st -> run cfg reread redep fuel st = Ok ((pre ++ e :: mid ++ e' :: post)%list, st', fin) ->
    e_window e <> None -> e_window e' <> None -> Rmin (e_from e + Rmax (c_activation cfg) (e_dt e)) (s_duration st) - s_dt st / 1000000 < e_from e'.
  Proof.
    induction pre as [|x pre IH]; intros mid fuel st e e' post st' fin DT H W W'; cbn [app] in H; apply run_cons in H.
    - destruct H as [(X & _)|(f & e1 & es' & st1 & -> & L & X & S1 & R)]; [discriminate|]. injection X as <- <-. apply Rltb_true in L.
      destruct (step_regular cfg reread redep REG st) as (e1 & st2 & S2 & E1 & E2 & E3 & E4 & E5 & _ & _ & _ & _ & _ & A0). rewrite S1 in S2. injection S2 as <- <-. cbv zeta in *.
      assert (W2 := W). rewrite E5 in W2. destruct (window_inv st W2) as [C A]. 
      assert (SB : 0 < stepsize (s_time st) (s_dt st) (s_duration st) <= s_dt st) by (destruct (stepsize_cases (s_time st) (s_dt st) (s_duration st)) as [[_ Q]|[C2 Q]]; rewrite Q; simpl in *; lra).
      assert (Y := after_end f st1 (mid ++ e' :: post)%list st' fin). rewrite A0 in Y. cbn [s_dt s_act_end s_duration] in Y. rewrite A0 in R.
      assert (AD : snd (window_of cfg st) <= s_duration st) by (rewrite A; apply Rmin_r).
      specialize (Y ltac:(apply SB) AD R e' ltac:(apply in_or_app; right; left; reflexivity) W'). rewrite A in Y. rewrite E2, E3. simpl in *. lra.
    - destruct H as [(X & _)|(f & e1 & es' & st1 & -> & L & X & S1 & R)]; [discriminate|]. injection X as <- <-. apply Rltb_true in L.
      destruct (step_regular cfg reread redep REG st) as (e1 & st2 & S2 & _ & _ & _ & _ & _ & _ & _ & _ & _ & _ & A0). rewrite S1 in S2. injection S2 as <- <-. cbv zeta in *.
      assert (SB : 0 < stepsize (s_time st) (s_dt st) (s_duration st) <= s_dt st) by (destruct (stepsize_cases (s_time st) (s_dt st) (s_duration st)) as [[_ Q]|[C2 Q]]; rewrite Q; simpl in *; lra).
      assert (Y := IH mid f st1 e e' post st' fin). rewrite A0 in Y. cbn [s_dt s_duration] in Y. rewrite A0 in R. specialize (Y ltac:(apply SB) R W W'). simpl in *. lra.
  Qed.
End Regular.
