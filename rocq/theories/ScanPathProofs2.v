(** ScanPathProofs2.v -- re-reading (C06), motion (C02), end times (C04), tokens. *)
From Coq Require Import Reals ZArith Bool List String Ascii Sorted Lra Lia.
From Verif Require Import Base BaseFacts QuaternionModel ScanPathModel ScanPathSpec ScanPathProofs.
Import ListNotations.

Section Reread.
  Context {N : Num} (P : parser N).
  Implicit Types (sp : scan_path N).

  Lemma event_loop_prefix ds : forall l1 l2 lp segs five o1 f1 v1 o2 f2 v2,
    load_event_loop P ds lp segs five l1 = Ok (o1, f1, v1) ->
    load_event_loop P ds lp segs five (l1 ++ l2) = Ok (o2, f2, v2) ->
    (exists new, o2 = o1 ++ new) /\ (f1 = true -> f2 = true) /\ (v1 = true -> v2 = true).
  Proof.
    induction l1 as [|line l1 IH]; intros l2 lp segs five o1 f1 v1 o2 f2 v2 H1 H2.
    - simpl in H1. injection H1 as <- <- <-. simpl in H2. apply event_loop_iff in H2.
      destruct H2 as [new [-> [_ [_ [_ V]]]]]. split; [eauto|]. split; [discriminate|].
      intros ->. rewrite V. reflexivity.
    - simpl in H1, H2. destruct (String.eqb line ""); [eapply IH; eauto|].
      destruct (has_end_marker line).
      + rewrite H1 in H2. injection H2 as <- <- <-. split; [exists []; now rewrite app_nil_r|auto].
      + inv_bind H1. rewrite E in H2. cbn [bind] in H2. destruct a as [[s lp'] f]. eapply IH; eauto.
  Qed.

  Lemma seg_loop_prefix ds vs : forall l1 l2 n n' segs o1 f1 o2 f2,
    (Z.of_nat (List.length l1) <= n <= n')%Z ->
    load_segment_loop P ds vs n segs l1 = Ok (o1, f1) ->
    load_segment_loop P ds vs n' segs (l1 ++ l2) = Ok (o2, f2) ->
    (exists new, o2 = o1 ++ new) /\ (f1 = true -> f2 = true).
  Proof.
    induction l1 as [|line l1 IH]; intros l2 n n' segs o1 f1 o2 f2 Hn H1 H2.
    - apply seg_loop_iff in H2. destruct H2 as [new [-> _]].
      assert (H1' : Ok (segs, false) = Ok (o1, f1)) by (rewrite <- H1; simpl; destruct (n <=? 0)%Z; reflexivity).
      injection H1' as <- <-. split; [eauto|discriminate].
    - simpl List.length in Hn. simpl in H1, H2.
      destruct (Z.leb_spec n 0); [lia|]. destruct (Z.leb_spec n' 0); [lia|].
      destruct (has_end_marker line).
      + rewrite H1 in H2. injection H2 as <- <-. split; [exists []; now rewrite app_nil_r|auto].
      + inv_bind H1. rewrite E in H2. cbn [bind] in H2. eapply IH; [|eauto|eauto]. lia.
  Qed.

  Lemma appended_prefix fmt ds vs old new sp sp' :
    appended P fmt old new ->
    new_scan_path P fmt ds vs old = Ok sp -> new_scan_path P fmt ds vs new = Ok sp' ->
    (exists more, sp_segs sp' = sp_segs sp ++ more) /\
    (sp_end sp = true -> sp_end sp' = true) /\ (sp_five_axis sp = true -> sp_five_axis sp' = true).
  Proof.
    unfold new_scan_path, parse_format, appended. destruct (String.eqb fmt "segment").
    - intros (h & c & th & body & h' & c' & th' & extra & n & n' & -> & -> & Sc & Sc' & L).
      cbn [bind]. unfold read_file. simpl. rewrite Sc, Sc'. intros H1 H2.
      inv_bind H1. destruct a as [s1 f1]. injection H1 as <-. inv_bind H2. destruct a as [s2 f2]. injection H2 as <-.
      simpl. destruct (seg_loop_prefix _ _ _ _ _ _ _ _ _ _ _ L E E0) as [A B]. auto.
    - destruct (String.eqb fmt "event_series"); [|discriminate].
      intros [extra ->]. cbn [bind]. unfold read_file. simpl. intros H1 H2.
      inv_bind H1. destruct a as [[s1 f1] v1]. injection H1 as <-.
      inv_bind H2. destruct a as [[s2 f2] v2]. injection H2 as <-. simpl.
      unfold load_event_series in E, E0.
      destruct (event_loop_prefix _ _ _ _ _ _ _ _ _ _ _ _ E E0) as [A [B C]]. auto.
  Qed.

  Lemma reread_same fmt ds vs old new sp0 sp :
    appended P fmt old new ->
    new_scan_path P fmt ds vs old = Ok sp0 -> set_old sp 0 = sp0 ->
    match read_file P sp new, new_scan_path P fmt ds vs new with
    | Ok sp', Ok sp1 => set_old sp' 0 = sp1 /\ sp_old sp' = sp_old sp
    | Throw, Throw => True
    | UB, UB => True
    | _, _ => False
    end.
  Proof.
    intros A H0 Hsp.
    assert (HF : forall sp1, new_scan_path P fmt ds vs new = Ok sp1 ->
              (sp_end sp0 = true -> sp_end sp1 = true) /\ (sp_five_axis sp0 = true -> sp_five_axis sp1 = true)).
    { intros sp1 H1. destruct (appended_prefix _ _ _ _ _ _ _ A H0 H1) as [_ [B C]]. auto. }
    revert HF H0. unfold new_scan_path. destruct (parse_format fmt) as [f| |]; try discriminate. cbn [bind].
    intros HF H0.
    assert (K : sp_dscale sp = ds /\ sp_vscale sp = vs /\ sp_format sp = f /\
                sp_end sp0 = sp_end sp /\ sp_five_axis sp0 = sp_five_axis sp).
    { subst sp0. destruct sp; simpl in *. unfold read_file in H0. simpl in H0.
      destruct f; inv_bind H0; [destruct a as [s' f']|destruct a as [[s' f'] v']]; inversion H0; subst; auto. }
    destruct K as [K1 [K2 [K3 [K4 K5]]]]. rewrite K4, K5 in HF.
    unfold read_file in HF |- *. rewrite K3. simpl sp_format in HF |- *. cbn [sp_dscale sp_vscale sp_end sp_five_axis sp_old] in HF |- *.
    rewrite K1, K2. destruct f.
    - destruct (load_segment P ds vs new) as [[s f]| |]; cbn [bind] in HF |- *; auto.
      split; [|reflexivity]. destruct (HF _ eq_refl) as [B C]. simpl in B, C.
      unfold set_old; simpl. f_equal.
      + destruct (sp_end sp); simpl in *; [symmetry; auto|reflexivity].
      + destruct (sp_five_axis sp); simpl in *; [symmetry; auto|reflexivity].
    - destruct (load_event_series P ds new) as [[[s f] v]| |]; cbn [bind] in HF |- *; auto.
      split; [|reflexivity]. destruct (HF _ eq_refl) as [B C]. simpl in B, C.
      unfold set_old; simpl. f_equal.
      + destruct (sp_end sp); simpl in *; [symmetry; auto|reflexivity].
      + destruct (sp_five_axis sp); simpl in *; [symmetry; auto|reflexivity].
  Qed.

  Lemma run_ops_fresh (dom : N -> Prop) (val : N -> R) (E : Embeds N dom val) pow fmt ds vs : forall ops lines sp0 sp,
    new_scan_path P fmt ds vs lines = Ok sp0 -> set_old sp 0 = sp0 ->
    Forall (fun s => dom (end_time s)) (sp_segs sp) ->
    only_appended P fmt lines ops -> files_in P dom fmt ds vs ops ->
    Forall dom (op_times ops) -> nondecreasing (map val (op_times ops)) ->
    (forall t, In t (op_times ops) -> skippable sp t) ->
    run_ops P pow sp ops = run_fresh P pow fmt ds vs lines ops.
  Proof.
    induction ops as [|[q|new] ops IH]; intros lines sp0 sp H0 Hsp F OA FI D S Hsk; [reflexivity| |].
    - simpl in *. inversion D as [|? ? Dq Dqs]; subst. inversion S as [|? ? Sq Fq]; subst.
      rewrite H0. cbn [bind].
      assert (Hq := ask_skip pow sp q (Hsk _ (or_introl eq_refl))).
      destruct (ask pow sp q) as [[a sp']| |] eqn:EA;
        destruct (ask pow (set_old sp 0) q) as [[a' sp'']| |]; try contradiction; try reflexivity.
      subst a'. cbn [bind fst snd].
      destruct (ask_after_segs _ _ _ _ _ EA) as [E1 E2].
      rewrite (IH lines (set_old sp 0) sp'); auto.
      + rewrite E1. exact F.
      + intros t Ht. eapply (skippable_after dom val E); [exact F|exact Dq| | | |exact EA].
        * rewrite Forall_forall in Dqs. auto.
        * rewrite Forall_map, Forall_forall in Fq. apply (Fq t Ht).
        * apply Hsk. left; reflexivity.
    - simpl in *. destruct OA as [A OA], FI as [FN FI].
      assert (R := reread_same _ _ _ _ _ _ _ A H0 Hsp).
      destruct (read_file P sp new) as [sp'| |] eqn:ER;
        destruct (new_scan_path P fmt ds vs new) as [sp1| |] eqn:EN; try contradiction; try reflexivity.
      destruct R as [R1 R2]. cbn [bind].
      assert (SE : sp_segs sp' = sp_segs sp1) by (rewrite <- R1; reflexivity).
      apply (IH new sp1 sp'); auto.
      + rewrite SE. apply FN. reflexivity.
      + intros t Ht j Hj. rewrite R2 in Hj. destruct (Hsk t Ht j Hj) as [s [Es Ls]].
        exists s. split; [|exact Ls]. rewrite SE.
        destruct (appended_prefix _ _ _ _ _ _ _ A H0 EN) as [[more ->] _].
        rewrite <- Hsp. simpl sp_segs. rewrite nth_error_app1; [exact Es|]. apply nth_error_Some. congruence.
  Qed.

  Lemma reread_history (dom : N -> Prop) (val : N -> R) pow fmt ds vs ops lines sp :
    Embeds N dom val ->
    new_scan_path P fmt ds vs lines = Ok sp ->
    Forall (fun s => dom (end_time s)) (sp_segs sp) ->
    only_appended P fmt lines ops -> files_in P dom fmt ds vs ops ->
    Forall dom (op_times ops) -> nondecreasing (map val (op_times ops)) ->
    run_ops P pow sp ops = run_fresh P pow fmt ds vs lines ops.
  Proof.
    intros E H0 F OA FI D S. assert (O := new_scan_path_old _ _ _ _ _ _ H0).
    apply (run_ops_fresh dom val E pow fmt ds vs ops lines sp sp); auto.
    - apply set_old_0, O.
    - intros t _ j Hj. lia.
  Qed.

  Lemma current_app (segs more : list (seg N)) t i s : current segs t i s -> current (segs ++ more) t i s.
  Proof.
    intros [C1 [C2 C3]]. assert (i < List.length segs)%nat by (apply nth_error_Some; congruence).
    split; [rewrite nth_error_app1; auto|]. split; [exact C2|].
    intros j s' Hj. rewrite nth_error_app1 by lia. apply C3; exact Hj.
  Qed.

  Lemma past_unchanged fmt ds vs old new sp sp' last last' t save :
    appended P fmt old new ->
    new_scan_path P fmt ds vs old = Ok sp -> new_scan_path P fmt ds vs new = Ok sp' ->
    last_segment (sp_segs sp) last -> last_segment (sp_segs sp') last' ->
    nltb N (end_time last) t = false -> nltb N (end_time last') t = false ->
    (exists p s1 s2, value sp t save = Ok (p, s1) /\ value sp' t save = Ok (p, s2)) /\
    (exists m s1 s2, get_power_modifier sp t = Ok (m, s1) /\ get_power_modifier sp' t = Ok (m, s2)).
  Proof.
    intros A H1 H2 L1 L2 T1 T2.
    destruct (appended_prefix _ _ _ _ _ _ _ A H1 H2) as [[more EM] _].
    assert (O1 := new_scan_path_old _ _ _ _ _ _ H1). assert (O2 := new_scan_path_old _ _ _ _ _ _ H2).
    split.
    - destruct (value_fresh sp t save last O1 L1 T1) as (i & s & p0 & t0 & s1 & C & SS & V).
      destruct (value_fresh sp' t save last' O2 L2 T2) as (i' & s' & p0' & t0' & s2 & C' & SS' & V').
      assert (CA : current (sp_segs sp') t i s) by (rewrite EM; apply current_app; exact C).
      destruct (current_unique _ _ _ _ _ _ C' CA) as [-> ->].
      assert (Q : p0 = p0' /\ t0 = t0').
      { unfold segment_start in SS, SS'. destruct i as [|k].
        - destruct SS as [-> ->], SS' as [-> ->]. auto.
        - destruct SS as [a [Ea [-> ->]]], SS' as [b [Eb [-> ->]]].
          rewrite EM, nth_error_app1 in Eb by (apply nth_error_Some; congruence).
          rewrite Ea in Eb. injection Eb as ->. auto. }
      destruct Q as [<- <-]. rewrite V, V'. eauto.
    - destruct (power_fresh sp t last O1 L1 T1) as (i & s & s1 & C & V).
      destruct (power_fresh sp' t last' O2 L2 T2) as (i' & s' & s2 & C' & V').
      assert (CA : current (sp_segs sp') t i s) by (rewrite EM; apply current_app; exact C).
      destruct (current_unique _ _ _ _ _ _ C' CA) as [-> ->].
      rewrite V, V'. eauto.
  Qed.
End Reread.

(** ** Motion over the reals *)
Section Motion.
  Local Open Scope R_scope.
  Implicit Types (segs : list (seg RNum)).

  (** The knots of the path: knot 0 is (0, first point), knot i+1 is the end of segment i. *)
  Definition knot_time segs (k : nat) : R :=
    match k with O => 0 | S i => match nth_error segs i with Some s => end_time s | None => 0 end end.
  Definition knot_pt segs (k : nat) : pt RNum :=
    match nth_error segs (k - 1) with Some s => end_point s | None => mkpt (N := RNum) 0 0 0 end.

  Lemma value_R (sp : scan_path RNum) (t : R) save (last : seg RNum) : sp_old sp = 0%nat -> last_segment (sp_segs sp) last ->
    t <= (end_time last : R) ->
    exists i s p0 (t0 : R) sp', current (sp_segs sp) t i s /\ segment_start (sp_segs sp) i s p0 t0 /\
      t <= (end_time s : R) /\
      ((t0 < end_time s) -> value sp t save = Ok (between ((t - t0) / (end_time s - t0)) p0 (end_point s), sp')).
  Proof.
    intros O L H.
    assert (H' : nltb RNum (end_time last) t = false) by (apply Rltb_false; exact H).
    destruct (value_fresh sp t save last O L H') as (i & s & p0 & t0 & sp' & C & SS & V).
    exists i, s, p0, t0, sp'. split; [exact C|]. split; [exact SS|].
    split; [destruct C as [_ [C _]]; apply Rltb_false in C; exact C|].
    intros Hd. rewrite V. f_equal. f_equal. unfold padd, pscale, pdivs, psub, between. simpl in *.
    f_equal; field; simpl in Hd |- *; lra.
  Qed.

  Definition coord (c : nat) (p : pt RNum) : R :=
    match c with O => px p | S O => py p | _ => pz p end.

  Lemma coord_between c u a b : coord c (between u a b) = (1 - u) * coord c a + u * coord c b.
  Proof. destruct c as [|[|c]]; reflexivity. Qed.

  (** Every segment lasts and is not faster than [V] in every coordinate. *)
  Definition speed_limit segs (V : R) : Prop :=
    forall i s p0 (t0 : R), nth_error segs i = Some s -> segment_start segs i s p0 t0 ->
      t0 < end_time s /\ forall c, Rabs (coord c (end_point s) - coord c p0) <= V * (end_time s - t0).

  Lemma start_knot segs i s p0 t0 : nth_error segs i = Some s -> segment_start segs i s p0 t0 ->
    p0 = knot_pt segs i /\ t0 = knot_time segs i.
  Proof.
    intros E. unfold segment_start, knot_pt, knot_time. destruct i as [|k]; cbn [Nat.sub].
    - rewrite E. auto.
    - rewrite Nat.sub_0_r. intros [s' [-> [-> ->]]]. auto.
  Qed.
  Lemma knot_start segs i s : nth_error segs i = Some s -> segment_start segs i s (knot_pt segs i) (knot_time segs i).
  Proof.
    intros E. unfold segment_start, knot_pt, knot_time. destruct i as [|k]; cbn [Nat.sub].
    - rewrite E. auto.
    - rewrite Nat.sub_0_r. destruct (at_lt segs k) as [s' [-> _]]; [|eauto].
      assert (S k < List.length segs)%nat by (apply nth_error_Some; congruence). lia.
  Qed.
  Lemma knot_end segs i s : nth_error segs i = Some s -> knot_pt segs (S i) = end_point s /\ knot_time segs (S i) = end_time s.
  Proof. intros E. unfold knot_pt, knot_time. cbn [Nat.sub]. rewrite Nat.sub_0_r, E. auto. Qed.

  Lemma knots_speed segs V : speed_limit segs V -> forall d a, (a + d <= List.length segs)%nat ->
    knot_time segs a <= knot_time segs (a + d) /\
    forall c, Rabs (coord c (knot_pt segs (a + d)) - coord c (knot_pt segs a)) <= V * (knot_time segs (a + d) - knot_time segs a).
  Proof.
    intros SL. induction d as [|d IH]; intros a Ha.
    - rewrite Nat.add_0_r. split; [lra|]. intros c. rewrite Rminus_eq_0, Rabs_R0. lra.
    - destruct (IH a) as [I1 I2]; [lia|].
      destruct (at_lt segs (a + d)) as [s [Es _]]; [lia|].
      destruct (SL _ _ _ _ Es (knot_start _ _ _ Es)) as [S1 S2].
      destruct (knot_end _ _ _ Es) as [K1 K2]. rewrite Nat.add_succ_r, K1, K2. simpl in S1.
      split; [simpl; lra|]. intros c. specialize (I2 c). specialize (S2 c).
      replace (coord c (end_point s) - coord c (knot_pt segs a)) with
        ((coord c (end_point s) - coord c (knot_pt segs (a + d))) + (coord c (knot_pt segs (a + d)) - coord c (knot_pt segs a))) by lra.
      eapply Rle_trans; [apply Rabs_triang|]. simpl in *. lra.
  Qed.

  Lemma current_mono segs (t t' : R) i s i' s' : t <= t' -> current segs t i s -> current segs t' i' s' -> (i <= i')%nat.
  Proof.
    intros L [A1 [A2 A3]] [B1 [B2 B3]]. destruct (Nat.le_gt_cases i i') as [H|H]; [exact H|].
    assert (Q := A3 _ _ H B1). simpl in Q, B2. apply Rltb_true in Q. apply Rltb_false in B2. simpl in *. lra.
  Qed.

  Lemma current_start_le segs (t : R) i s : 0 <= t -> current segs t i s -> knot_time segs i <= t.
  Proof.
    intros T [A1 [A2 A3]]. destruct i as [|k]; simpl; [lra|].
    destruct (at_lt segs k) as [s' [Es' _]].
    { assert (S k < List.length segs)%nat by (apply nth_error_Some; congruence). lia. }
    rewrite Es'. assert (Q := A3 k s' (Nat.lt_succ_diag_r k) Es'). simpl in Q. apply Rltb_true in Q. simpl in *; lra.
  Qed.

  Lemma speed_bound (sp : scan_path RNum) (V t t' : R) save save' last p p' sp1 sp2 :
    sp_old sp = 0%nat -> last_segment (sp_segs sp) last -> speed_limit (sp_segs sp) V ->
    0 <= t -> t <= t' -> t' <= (end_time last : R) ->
    value sp t save = Ok (p, sp1) -> value sp t' save' = Ok (p', sp2) ->
    forall c, Rabs (coord c p' - coord c p) <= V * (t' - t).
  Proof.
    intros O L SL T0 TT TL H1 H2 c.
    destruct (value_R sp t save last O L) as (i & s & p0 & t0 & q1 & C & SS & Ti & HV); [lra|].
    destruct (value_R sp t' save' last O L TL) as (i' & s' & p0' & t0' & q2 & C' & SS' & Ti' & HV').
    set (segs := sp_segs sp) in *.
    assert (Es := proj1 C). assert (Es' := proj1 C').
    destruct (SL _ _ _ _ Es SS) as [D SV]. destruct (SL _ _ _ _ Es' SS') as [D' SV'].
    rewrite (HV D) in H1. injection H1 as <- _. rewrite (HV' D') in H2. injection H2 as <- _.
    destruct (start_knot _ _ _ _ _ Es SS) as [-> ->]. destruct (start_knot _ _ _ _ _ Es' SS') as [-> ->].
    assert (K := current_start_le _ _ _ _ T0 C).
    assert (K' := current_start_le _ _ _ _ (Rle_trans _ _ _ T0 TT) C').
    specialize (SV c). specialize (SV' c).
    set (a := knot_time segs i) in *. set (b := end_time s : R) in *.
    set (a' := knot_time segs i') in *. set (b' := end_time s' : R) in *.
    rewrite !coord_between.
    set (xa := coord c (knot_pt segs i)) in *. set (xb := coord c (end_point s)) in *.
    set (xa' := coord c (knot_pt segs i')) in *. set (xb' := coord c (end_point s')) in *.
    simpl in D, D'. fold b in D. fold b' in D'.
    assert (V1 : Rabs ((xb - xa) / (b - a)) <= V).
    { unfold Rdiv. rewrite Rabs_mult, (Rabs_inv (b - a)), (Rabs_right (b - a)) by lra.
      apply (Rmult_le_reg_r (b - a)); [lra|]. rewrite Rmult_assoc, Rinv_l by lra. simpl in SV. lra. }
    assert (V2 : Rabs ((xb' - xa') / (b' - a')) <= V).
    { unfold Rdiv. rewrite Rabs_mult, (Rabs_inv (b' - a')), (Rabs_right (b' - a')) by lra.
      apply (Rmult_le_reg_r (b' - a')); [lra|]. rewrite Rmult_assoc, Rinv_l by lra. simpl in SV'. lra. }
    assert (Hle := current_mono _ _ _ _ _ _ _ TT C C').
    destruct (Nat.eq_dec i i') as [<-|NE].
    - assert (s' = s) by congruence. subst s'. fold b in b'. subst b' xb' a' xa'. fold a xa xb.
      match goal with |- Rabs ?e <= _ => replace e with ((xb - xa) / (b - a) * (t' - t)) by (field; lra) end.
      rewrite Rabs_mult, (Rabs_right (t' - t)) by lra. apply Rmult_le_compat_r; [lra|exact V1].
    - assert (Hlen : (i' <= List.length segs)%nat).
      { assert (i' < List.length segs)%nat by (apply nth_error_Some; congruence). lia. }
      destruct (knots_speed segs V SL (i' - S i) (S i)) as [KT KV]; [lia|].
      replace (S i + (i' - S i))%nat with i' in * by lia. specialize (KV c).
      destruct (knot_end _ _ _ Es) as [E1 E2]. rewrite E1, E2 in KV. rewrite E2 in KT.
      fold xa' xb a' in KV. fold a' in KT. change (end_time s) with b in KV, KT.
      match goal with |- Rabs ?e <= _ => replace e with
        ((xb' - xa') / (b' - a') * (t' - a') + (xa' - xb) + (xb - xa) / (b - a) * (b - t)) by (field; lra) end.
      eapply Rle_trans; [apply Rabs_triang|]. eapply Rle_trans; [apply Rplus_le_compat_r, Rabs_triang|].
      rewrite (Rabs_mult _ (t' - a')), (Rabs_mult _ (b - t)), (Rabs_right (t' - a')), (Rabs_right (b - t)) by lra.
      assert (Rabs ((xb' - xa') / (b' - a')) * (t' - a') <= V * (t' - a')) by (apply Rmult_le_compat_r; lra).
      assert (Rabs ((xb - xa) / (b - a)) * (b - t) <= V * (b - t)) by (apply Rmult_le_compat_r; lra).
      lra.
  Qed.
End Motion.

(** ** End times of segment files *)
Section EndTimes.
  Local Open Scope R_scope.
  Lemma nabs_R (x : RNum) : nabs x = Rabs x.
  Proof.
    unfold nabs. simpl. destruct (Rltb_spec x 0).
    - rewrite Rabs_left; auto.
    - rewrite Rabs_right; [reflexivity|lra].
  Qed.
End EndTimes.

(** ** Tokens *)
Definition sepless (sep : ascii -> bool) (w : string) : Prop := forall c, In c (list_ascii_of_string w) -> sep c = false.
Definition all_sep (sep : ascii -> bool) (w : string) : Prop := forall c, In c (list_ascii_of_string w) -> sep c = true.

(** A line made of words separated by nonempty runs of separators. *)
Fixpoint line_of (w : string) (rest : list (string * string)) : string :=
  match rest with
  | [] => w
  | (gap, w') :: rest' => w ++ gap ++ line_of w' rest'
  end.

Lemma string_app_assoc (a b c : string) : ((a ++ b) ++ c)%string = (a ++ (b ++ c))%string.
Proof. induction a; simpl; congruence. Qed.
Lemma string_app_nil (a : string) : (a ++ "")%string = a.
Proof. induction a; simpl; congruence. Qed.

Lemma split_go_word sep w : forall cur s, sepless sep w -> w <> EmptyString \/ True -> 
  forall b, split_go sep cur b (w ++ s) = match w with EmptyString => split_go sep cur b s | _ => split_go sep (cur ++ w) false s end.
Proof.
  induction w as [|c w IH]; intros cur s H _ b; [reflexivity|].
  simpl. rewrite (H c) by (simpl; auto).
  rewrite IH; [|intros c' Hc'; apply H; simpl; auto|auto].
  destruct w as [|c' w]; [reflexivity|]. rewrite string_app_assoc. reflexivity.
Qed.

Lemma split_go_gap sep g : forall s, all_sep sep g -> split_go sep EmptyString true (g ++ s) = split_go sep EmptyString true s.
Proof.
  induction g as [|c g IH]; intros s H; [reflexivity|]. simpl. rewrite (H c) by (simpl; auto).
  apply IH. intros c' Hc'. apply H. simpl; auto.
Qed.

Lemma split_words sep : forall rest w b, sepless sep w -> w <> EmptyString ->
  Forall (fun gw => fst gw <> EmptyString /\ all_sep sep (fst gw) /\ sepless sep (snd gw) /\ snd gw <> EmptyString) rest ->
  split_go sep EmptyString b (line_of w rest) = w :: map snd rest.
Proof.
  induction rest as [|[g w'] rest IH]; intros w b Hw Nw F; simpl line_of.
  - rewrite <- (string_app_nil w) at 1. rewrite split_go_word by auto. destruct w; [contradiction|]. reflexivity.
  - inversion F as [|? ? [Ng [Hg [Hw' Nw']]] F']; subst. simpl in *.
    rewrite split_go_word by auto. destruct w as [|c w]; [contradiction|].
    destruct g as [|cg g]; [contradiction|]. simpl.
    rewrite (Hg cg) by (simpl; auto). f_equal.
    rewrite split_go_gap by (intros c' Hc'; apply Hg; simpl; auto).
    apply IH; auto.
Qed.

Section EndTimes2.
  Local Open Scope R_scope.
  Context (P : parser RNum).

  Definition dwell_nonneg (lines : list string) : Prop :=
    forall line tok v, In line lines -> nth_error (split is_space line) 0 = Some "1"%string ->
      nth_error (split is_space line) 5 = Some tok -> stod P tok = Some v -> 0 <= v.

  Lemma before_marker_In lines l : In l (before_marker lines) -> In l lines.
  Proof.
    induction lines as [|x lines IH]; simpl; [auto|]. destruct (has_end_marker x); simpl; [contradiction|].
    intros [->|H]; auto.
  Qed.
  Lemma firstn_In {A} n (l : list A) x : In x (firstn n l) -> In x l.
  Proof. revert l; induction n; intros [|y l]; simpl; try contradiction. intros [->|H]; auto. Qed.

  Lemma seg_times ds vs h count rest segs fin :
    load_segment P ds vs (h :: count :: rest) = Ok (segs, fin) ->
    dwell_nonneg (tl rest) ->
    (forall s, nth_error segs 0 = Some s -> 0 <= (end_time s : R)) /\
    (forall i s s', nth_error segs i = Some s -> nth_error segs (S i) = Some s' -> (end_time s : R) <= end_time s').
  Proof.
    intros H HD. apply load_segment_iff in H.
    destruct H as (h' & c' & rest' & n & EQ & En & L & S & F). injection EQ as <- <- <-.
    set (body := before_marker _) in *.
    assert (HB : forall i s, nth_error segs i = Some s -> exists line, nth_error body i = Some line /\ In line (tl rest)).
    { intros i s Hi. assert (i < List.length segs)%nat by (apply nth_error_Some; congruence).
      destruct (at_lt body i) as [line [El [_ Il]]]; [simpl in *; lia|]. exists line. split; [exact El|].
      eapply firstn_In, before_marker_In, Il. }
    split.
    - intros s Hs. destruct (HB _ _ Hs) as [line [El Il]].
      destruct (S _ _ _ El Hs) as (m & sx & sy & sz & spm & sv & rs & x & y & z & pm & v & ES & V1 & V2 & V3 & V4 & V5 & EP & PM & ER & R).
      simpl in R. destruct R as [-> ->]. apply (HD line sv v Il); [rewrite ES; reflexivity|rewrite ES; reflexivity|exact V5].
    - intros i s s' Hs Hs'. destruct (HB _ _ Hs') as [line [El Il]].
      destruct (S _ _ _ El Hs') as (m & sx & sy & sz & spm & sv & rs & x & y & z & pm & v & ES & V1 & V2 & V3 & V4 & V5 & EP & PM & ER & R).
      simpl predecessor in R. rewrite Hs in R. destruct R as [[-> ->]|[-> ->]].
      + assert (0 <= v); [|simpl; lra].
        apply (HD line sv v Il); [rewrite ES; reflexivity|rewrite ES; reflexivity|exact V5].
      + rewrite nabs_R. simpl. assert (Q := Rabs_pos (pdist (end_point s') (end_point s) / (v * vs))). simpl in Q. lra.
  Qed.
End EndTimes2.

Lemma short_file (N : Num) (P : parser N) ds vs lines : (List.length lines < 2)%nat -> load_segment P ds vs lines = Throw.
Proof. destruct lines as [|a [|b r]]; cbn; intros H; try reflexivity; exfalso; lia. Qed.
Lemma bad_count (N : Num) (P : parser N) ds vs first count rest : stoi P count = None -> load_segment P ds vs (first :: count :: rest) = Throw.
Proof. intros E. unfold load_segment. rewrite E. reflexivity. Qed.
