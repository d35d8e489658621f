(** EnergyProofs.v -- proofs of C77. *)
From Coq Require Import Reals List Bool String ZArith Lra Lia Sorted.
From Verif Require Import Base BaseFacts QuaternionModel ScanPathModel ScanPathSpec ScanPathProofs HeatSourceModel HeatSourceSpec MaterialModel InputModel CellModel HeatModel HeatSpec HeatProofs HeatProofs5
  PowerSpec PowerProofs PowerProofs2 EnergyModel EnergySpec MainProofs2.
Import ListNotations.
Local Open Scope R_scope.

(** ** Time *)
Definition pw (s : seg RNum) : R := power_modifier s.
Definition et (s : seg RNum) : R := end_time s.
Fixpoint modifier (segs : list (seg RNum)) (t : R) : R :=
  match segs with [] => 0 | s :: r => if Rltb (et s) t then modifier r t else pw s end.
Definition upto (e t : R) : R := if Rltb e t then 0 else 1.
Definition points (s : scheme) (t dt : R) : list (R * R) := map (fun q => (dt * snd q, t + fst q * dt)) (quadrature s).
Fixpoint run_points (s : scheme) (t : R) (dts : list R) : list (R * R) :=
  match dts with [] => [] | dt :: r => points s t dt ++ run_points s (t + dt) r end.

Lemma upto_le e t : t <= e -> upto e t = 1.
Proof. intros H. unfold upto. destruct (Rltb e t) eqn:E; [apply Rltb_true in E; lra|reflexivity]. Qed.
Lemma upto_gt e t : e < t -> upto e t = 0.
Proof. intros H. unfold upto. destruct (Rltb e t) eqn:E; [reflexivity|apply Rltb_false in E; lra]. Qed.
Lemma upto_bounds e t : 0 <= upto e t <= 1.
Proof. unfold upto. destruct (Rltb e t); lra. Qed.
Lemma quadrature_ok s : (forall q, In q (quadrature s) -> 0 <= snd q /\ 0 <= fst q <= 1) /\ Sum (quadrature s) snd = 1.
Proof.
  split.
  - intros q H. destruct s; cbn [quadrature In] in H; repeat (destruct H as [<-|H]; [cbn [fst snd]; lra|]); contradiction.
  - destruct s; unfold quadrature; rewrite ?Sum_cons, Sum_nil; cbn [fst snd]; field.
Qed.
Lemma points_zero s t dt e : 0 <= dt -> e < t -> Sum (points s t dt) (fun p => fst p * upto e (snd p)) = 0.
Proof.
  intros D H. unfold points. rewrite Sum_map. apply Sum_zero. intros q I. cbn [fst snd]. destruct (proj1 (quadrature_ok s) q I) as [_ C].
  rewrite upto_gt; [ring|]. assert (0 <= fst q * dt) by (apply Rmult_le_pos; lra). lra.
Qed.
Lemma points_full s t dt e : 0 <= dt -> t + dt <= e -> Sum (points s t dt) (fun p => fst p * upto e (snd p)) = dt.
Proof.
  intros D H. unfold points. rewrite Sum_map. transitivity (Sum (quadrature s) (fun q => dt * snd q)).
  - apply Sum_ext. intros q I. cbn [fst snd]. destruct (proj1 (quadrature_ok s) q I) as [_ C]. rewrite upto_le; [ring|]. assert (fst q * dt <= 1 * dt) by (apply Rmult_le_compat_r; lra). lra.
  - rewrite Sum_scal. rewrite (proj2 (quadrature_ok s)). ring.
Qed.
Lemma points_part s t dt e : 0 <= dt -> 0 <= Sum (points s t dt) (fun p => fst p * upto e (snd p)) <= dt.
Proof.
  intros D. unfold points. rewrite Sum_map. split.
  - apply Sum_nonneg. intros q I. cbn [fst snd]. destruct (proj1 (quadrature_ok s) q I) as [W _]. assert (U := upto_bounds e (t + fst q * dt)). apply Rmult_le_pos; [apply Rmult_le_pos|]; lra.
  - apply Rle_trans with (Sum (quadrature s) (fun q => dt * snd q)); [|rewrite Sum_scal, (proj2 (quadrature_ok s)); lra].
    apply Sum_le. intros q I. cbn [fst snd]. destruct (proj1 (quadrature_ok s) q I) as [W _]. assert (U := upto_bounds e (t + fst q * dt)).
    assert (0 <= dt * snd q) by (apply Rmult_le_pos; lra). rewrite <- (Rmult_1_r (dt * snd q)) at 2. apply Rmult_le_compat_l; lra.
Qed.
Lemma run_zero s e dts : forall t, Forall (fun d => 0 <= d) dts -> e < t -> Sum (run_points s t dts) (fun p => fst p * upto e (snd p)) = 0.
Proof.
  induction dts as [|dt dts IH]; intros t F H; [reflexivity|]. inversion F as [|? ? D F']; subst. cbn [run_points]. rewrite Sum_app, points_zero, IH by (try assumption; lra). ring.
Qed.
Lemma sumR_nonneg l : Forall (fun d => 0 <= d) l -> 0 <= sumR l.
Proof. induction 1; simpl; lra. Qed.
(** A threshold is crossed in a single step. *)
Lemma run_threshold s e h dts : forall t, 0 <= h -> Forall (fun d => 0 <= d <= h) dts ->
  Rabs (Sum (run_points s t dts) (fun p => fst p * upto e (snd p)) - (Rmin (t + sumR dts) e - Rmin t e)) <= h.
Proof.
  induction dts as [|dt dts IH]; intros t Hh F; cbn [run_points sumR fold_right].
  - rewrite Sum_nil, Rplus_0_r. replace (0 - (Rmin t e - Rmin t e)) with 0 by ring. rewrite Rabs_R0. exact Hh.
  - inversion F as [|? ? D F']; subst. assert (N : Forall (fun d => 0 <= d) dts) by (eapply Forall_impl; [|exact F']; intros a A; simpl in A; lra).
    assert (P := sumR_nonneg _ N). fold (sumR dts).
    rewrite Sum_app. destruct (Rlt_le_dec e t) as [L|L].
    + rewrite points_zero, run_zero by (try assumption; lra). rewrite !Rmin_right by lra. replace (0 + 0 - (e - e)) with 0 by ring. rewrite Rabs_R0. exact Hh.
    + destruct (Rlt_le_dec e (t + dt)) as [M|M].
      * rewrite run_zero by (assumption || lra). assert (Q := points_part s t dt e (proj1 D)). rewrite (Rmin_right _ e) by lra. rewrite Rmin_left by lra.
        apply Rabs_le. lra.
      * rewrite points_full by (try assumption; lra). specialize (IH (t + dt) Hh F'). rewrite (Rmin_left (t + dt) e) in IH by lra. rewrite (Rmin_left t e) by lra.
        rewrite <- Rplus_assoc. replace (dt + Sum (run_points s (t + dt) dts) (fun p => fst p * upto e (snd p)) - (Rmin (t + dt + sumR dts) e - t))
          with (Sum (run_points s (t + dt) dts) (fun p => fst p * upto e (snd p)) - (Rmin (t + dt + sumR dts) e - (t + dt))) by ring. exact IH.
Qed.

(** ** The power modifier is a sum of steps *)
Definition head_power (segs : list (seg RNum)) : R := match segs with [] => 0 | s :: _ => pw s end.
Definition head_jump (s : seg RNum) (r : list (seg RNum)) : R := pw s - head_power r.
Lemma modifier_head segs t : Forall (fun s : seg RNum => t <= et s) segs -> modifier segs t = head_power segs.
Proof. intros F. destruct F as [|s r H F]; [reflexivity|]. cbn [modifier head_power]. destruct (Rltb (et s) t) eqn:E; [apply Rltb_true in E; simpl in *; lra|reflexivity]. Qed.
Lemma modifier_step (s : seg RNum) r t : Forall (fun s' : seg RNum => et s <= et s') r -> modifier (s :: r) t = head_jump s r * upto (et s) t + modifier r t.
Proof.
  intros F. cbn [modifier]. unfold upto, head_jump. destruct (Rltb (et s) t) eqn:E; [ring|].
  apply Rltb_false in E. rewrite modifier_head; [ring|]. eapply Forall_impl; [|exact F]. intros a A. simpl in *. lra.
Qed.
Lemma sorted_tail (s : seg RNum) r : nondecreasing (map et (s :: r)) ->
  nondecreasing (map et r) /\ Forall (fun s' : seg RNum => et s <= et s') r.
Proof.
  intros H. inversion H as [|? ? A B]; subst. split; [exact A|]. apply Forall_forall. intros s' I. rewrite Forall_forall in B. apply B. apply in_map_iff. exists s'. split; [reflexivity|exact I].
Qed.
(** Any weighted sum of modifiers, compared with what the file asks for. *)
Lemma energy_steps (W : list (R * R)) T h segs : forall start, nondecreasing (map et segs) ->
  (forall s : seg RNum, In s segs -> Rabs (Sum W (fun p => fst p * upto (et s) (snd p)) - Rmin T (et s)) <= h) ->
  Rabs (Sum W (fun p => fst p * modifier segs (snd p)) - (asked T start segs + Rmin T start * head_power segs)) <= h * jumps segs.
Proof.
  induction segs as [|s r IH]; intros start H B.
  - cbn [modifier asked head_power jumps]. rewrite Sum_zero by (intros; ring). replace (0 - (0 + Rmin T start * 0)) with 0 by ring. rewrite Rabs_R0. lra.
  - destruct (sorted_tail s r H) as [H' F]. specialize (IH (et s) H' (fun s' I => B s' (or_intror I))). specialize (B s (or_introl eq_refl)).
    rewrite (Sum_ext _ (fun p => head_jump s r * (fst p * upto (et s) (snd p)) + fst p * modifier r (snd p))).
    2: { intros p _. rewrite modifier_step by exact F. ring. }
    rewrite Sum_plus, Sum_scal. cbn [head_power]. replace (asked T start (s :: r)) with (pw s * (Rmin T (et s) - Rmin T start) + asked T (et s) r) by reflexivity. set (A := Sum W (fun p => fst p * upto (et s) (snd p))) in *. set (M := Sum W (fun p => fst p * modifier r (snd p))) in *.
    assert (J : jumps (s :: r) = Rabs (head_jump s r) + jumps r) by reflexivity. rewrite J.
    replace (head_jump s r * A + M - (pw s * (Rmin T (et s) - Rmin T start) + asked T (et s) r + Rmin T start * pw s))
      with (head_jump s r * (A - Rmin T (et s)) + (M - (asked T (et s) r + Rmin T (et s) * head_power r))) by (unfold head_jump; ring).
    eapply Rle_trans; [apply Rabs_triang|]. rewrite Rmult_plus_distr_l, Rabs_mult. apply Rplus_le_compat; [|exact IH].
    rewrite Rmult_comm. apply Rmult_le_compat_r; [apply Rabs_pos|exact B].
Qed.
Lemma jumps_nonneg segs : 0 <= jumps segs.
Proof. induction segs as [|s r IH]; [simpl; lra|]. change (0 <= Rabs (head_jump s r) + jumps r). assert (X := Rabs_pos (head_jump s r)). lra. Qed.
Lemma energy_run s h dts segs : 0 <= h -> Forall (fun d => 0 <= d <= h) dts -> nondecreasing (0 :: map et segs) ->
  Rabs (Sum (run_points s 0 dts) (fun p => fst p * modifier segs (snd p)) - asked (sumR dts) 0 segs) <= h * jumps segs.
Proof.
  intros Hh F H. inversion H as [|? ? H1 H2]; subst.
  assert (N : Forall (fun d => 0 <= d) dts) by (eapply Forall_impl; [|exact F]; intros a A; simpl in A; lra). assert (P := sumR_nonneg _ N).
  assert (E := energy_steps (run_points s 0 dts) (sumR dts) h segs 0 H1). rewrite (Rmin_right (sumR dts) 0) in E by lra. rewrite Rmult_0_l, Rplus_0_r in E. apply E.
  intros s0 I. rewrite Forall_forall in H2. assert (Q := H2 (et s0) ltac:(apply in_map_iff; exists s0; split; [reflexivity|exact I])).
  assert (X := run_threshold s (et s0) h dts 0 Hh F). rewrite Rplus_0_l in X. rewrite (Rmin_left 0) in X by (simpl in *; lra). rewrite Rminus_0_r in X. exact X.
Qed.

(** ** Sources *)
Definition same_kind (a b : source) : bool := match a, b with Goldak _, Goldak _ => true | ElectronBeam _, ElectronBeam _ => true | _, _ => false end.
Definition like (a b : source) : Prop := same_kind a b = true /\ source_beam b = source_beam a /\ source_five b = source_five a /\ sp_segs (source_path b) = sp_segs (source_path a).
Lemma like_refl a : like a a.
Proof. unfold like. destruct a; repeat split; reflexivity. Qed.
Lemma like_trans a b c : like a b -> like b c -> like a c.
Proof. intros (A1 & A2 & A3 & A4) (B1 & B2 & B3 & B4). unfold like. rewrite B2, B3, B4. repeat split; try assumption. destruct a, b, c; simpl in *; congruence. Qed.
Lemma like_share a b : like a b -> share b = share a /\ watts b = watts a.
Proof. intros (A1 & A2 & _). unfold watts. rewrite A2. split; [|reflexivity]. destruct a, b; simpl in *; congruence. Qed.

Lemma current_modifier segs t i s : current (N := RNum) segs t i s -> modifier segs t = pw s.
Proof.
  revert i. induction segs as [|s0 r IH]; intros i (A & B & C).
  - destruct i; discriminate.
  - destruct i as [|i].
    + simpl in A. injection A as ->. cbn [modifier]. change (Rltb (et s) t = false) in B. rewrite B. reflexivity.
    + cbn [modifier]. assert (E := C O s0 ltac:(lia) eq_refl). change (Rltb (et s0) t = true) in E. rewrite E. apply (IH i). split; [exact A|split; [exact B|]]. intros j s' L N. exact (C (S j) s' ltac:(lia) N).
Qed.
Lemma modifier_after segs t (last : seg RNum) : nondecreasing (map et segs) -> last_segment (N := RNum) segs last -> et last < t -> modifier segs t = 0.
Proof.
  intros H [l ->] L. revert H. induction l as [|s l IH]; intros H.
  - cbn. destruct (Rltb (et last) t) eqn:E; [reflexivity|]. apply Rltb_false in E. simpl in *. lra.
  - cbn [List.app] in *. destruct (sorted_tail _ _ H) as [H' F]. cbn [modifier]. assert (X : et s < t).
    { rewrite Forall_forall in F. assert (Y := F last ltac:(apply in_or_app; right; left; reflexivity)). simpl in *. lra. }
    destruct (Rltb (et s) t) eqn:E; [apply IH; exact H'|apply Rltb_false in E; simpl in *; lra].
Qed.
Lemma power_modifier_at (sp : scan_path RNum) t pm sp1 : sp_segs sp <> [] -> nondecreasing (map et (sp_segs sp)) -> skippable sp t ->
  get_power_modifier sp t = Ok (pm, sp1) -> pm = modifier (sp_segs sp) t /\ sp_segs sp1 = sp_segs sp /\ forall t', t <= t' -> skippable sp1 t'.
Proof.
  intros Ne Nd Sk E. assert (As : ask (fun _ _ => None) sp (QPower t) = Ok (APower pm, sp1)) by (simpl; rewrite E; reflexivity).
  assert (K := ask_skip (fun _ _ => None) sp (QPower t) Sk). rewrite As in K. split; [|split].
  - destruct (exists_last Ne) as [l [last El]]. assert (L : last_segment (sp_segs sp) last) by (exists l; exact El).
    destruct (nltb RNum (end_time last) t) eqn:C.
    + rewrite (modifier_after _ t last Nd L) by (apply Rltb_true; exact C). assert (X := power_after sp t last L C). rewrite E in X. injection X as -> _. reflexivity.
    + destruct (power_fresh (set_old sp 0) t last eq_refl L C) as (i & s & sp' & Cu & G). simpl in K. rewrite G in K. cbn [bind] in K. simpl in K. injection K as K. cbn [sp_segs set_old] in Cu.
      rewrite (current_modifier _ _ _ _ Cu). exact K.
  - exact (proj1 (ask_after_segs _ _ _ _ _ As)).
  - intros t' Lt. exact (skippable_after (N := RNum) (fun _ => True) (fun x : R => x) Embeds_R (fun _ _ => None) sp (QPower t) _ sp1 t' ltac:(apply Forall_forall; intros; exact I) I I Lt Sk As).
Qed.
Lemma value_next (sp : scan_path RNum) t c sp1 : skippable sp t -> value sp t true = Ok (c, sp1) -> sp_segs sp1 = sp_segs sp /\ forall t', t <= t' -> skippable sp1 t'.
Proof.
  intros Sk E. assert (As : ask (fun _ _ => None) sp (QValue t true) = Ok (APoint c, sp1)) by (simpl; rewrite E; reflexivity). split.
  - exact (proj1 (ask_after_segs _ _ _ _ _ As)).
  - intros t' Lt. exact (skippable_after (N := RNum) (fun _ => True) (fun x : R => x) Embeds_R (fun _ _ => None) sp (QValue t true) _ sp1 t' ltac:(apply Forall_forall; intros; exact I) I I Lt Sk As).
Qed.
(** What holds of a source before it is asked about time [t]. *)
Definition ready (t : R) (s : source) : Prop :=
  good_beam (source_beam s) /\ source_five s = false /\ skippable (source_path s) t /\ sp_segs (source_path s) <> [] /\
  nondecreasing (map et (sp_segs (source_path s))).
Lemma update_ready s t s' : ready t s -> update_time s t = Ok s' ->
  like s s' /\ (forall t', t <= t' -> ready t' s') /\ is_source_on s' = Rltb 0 (modifier (sp_segs (source_path s)) t) /\
  forall R0 D, covers R0 D s -> heat_in (source_value true s') (source_center s') R0 (- D) 0 (watts s * share s * modifier (sp_segs (source_path s)) t).
Proof.
  intros (G & F & Sk & Ne & Nd) U. destruct s as [g|e]; simpl in U, G, F, Sk, Ne, Nd.
  - destruct (goldak_update_time g t) as [g'| |] eqn:Eg; cbn [bind] in U; try discriminate. injection U as <-.
    assert (Eg' := Eg). unfold goldak_update_time in Eg'. destruct (get_power_modifier (g_path g) t) as [[pm sp1]| |] eqn:Ep; cbn [bind] in Eg'; try discriminate.
    destruct (value sp1 t true) as [[c sp2]| |] eqn:Ev; cbn [bind] in Eg'; try discriminate. destruct (get_quaternion qpow sp2 t) as [q| |]; cbn [bind] in Eg'; try discriminate. 
    destruct (power_modifier_at _ _ _ _ Ne Nd Sk Ep) as (P1 & P2 & P3). destruct (value_next sp1 t c sp2 (P3 t (Rle_refl t)) Ev) as (V1 & V2).
    assert (Fi : g_beam g' = g_beam g /\ g_path g' = sp2 /\ g_five g' = g_five g /\ g_on g' = Rltb 0 pm) by (injection Eg' as <-; cbn; repeat split; reflexivity).
    destruct Fi as (F1 & F2 & F3 & F4). assert (Sg : sp_segs (g_path g') = sp_segs (g_path g)) by (rewrite F2, V1; exact P2). split; [|split; [|split]].
    + unfold like. cbn [same_kind source_beam source_five source_path]. rewrite F1, F3, Sg. repeat split; reflexivity.
    + intros t' Lt. unfold ready. cbn [source_beam source_five source_path]. rewrite F1, F3, Sg, F2. repeat split; try assumption; try apply G. apply V2. exact Lt.
    + cbn [is_source_on source_path]. rewrite F4, P1. reflexivity.
    + intros R0 D (C0 & C1 & C2). cbn [source_beam] in C1, C2. assert (H := goldak_total g t g' pm sp1 R0 D 0 Eg G F Ep C0 C1 C2 ltac:(lra)). rewrite Rmult_0_l in H.
      cbn [source_value source_center source_path]. unfold watts. cbn [source_beam share]. rewrite <- P1.
      replace (b_eff (g_beam g) * b_power (g_beam g) * ((1 - exp (-15)) * goldak_share 0) * pm) with (b_eff (g_beam g) * b_power (g_beam g) * pm * (1 - exp (-15)) * goldak_share 0) by ring. exact H.
  - destruct (ebeam_update_time e t) as [g'| |] eqn:Eg; cbn [bind] in U; try discriminate. injection U as <-.
    assert (Eg' := Eg). unfold ebeam_update_time in Eg'. destruct (get_power_modifier (e_path e) t) as [[pm sp1]| |] eqn:Ep; cbn [bind] in Eg'; try discriminate.
    destruct (value sp1 t true) as [[c sp2]| |] eqn:Ev; cbn [bind] in Eg'; try discriminate. destruct (get_quaternion qpow sp2 t) as [q| |]; cbn [bind] in Eg'; try discriminate.
    destruct (power_modifier_at _ _ _ _ Ne Nd Sk Ep) as (P1 & P2 & P3). destruct (value_next sp1 t c sp2 (P3 t (Rle_refl t)) Ev) as (V1 & V2).
    assert (Fi : e_beam g' = e_beam e /\ e_path g' = sp2 /\ e_five g' = e_five e /\ e_on g' = Rltb 0 pm) by (injection Eg' as <-; cbn; repeat split; reflexivity).
    destruct Fi as (F1 & F2 & F3 & F4). assert (Sg : sp_segs (e_path g') = sp_segs (e_path e)) by (rewrite F2, V1; exact P2). split; [|split; [|split]].
    + unfold like. cbn [same_kind source_beam source_five source_path]. rewrite F1, F3, Sg. repeat split; reflexivity.
    + intros t' Lt. unfold ready. cbn [source_beam source_five source_path]. rewrite F1, F3, Sg, F2. repeat split; try assumption; try apply G. apply V2. exact Lt.
    + cbn [is_source_on source_path]. rewrite F4, P1. reflexivity.
    + intros R0 D (C0 & C1 & C2). cbn [source_beam] in C1, C2. assert (H := ebeam_total e t g' pm sp1 R0 D 0 Eg G F Ep C0 C1 C2 ltac:(lra)). rewrite Rmult_0_l in H.
      cbn [source_value source_center source_path]. unfold watts. cbn [source_beam share]. rewrite <- P1.
      replace (b_eff (e_beam e) * b_power (e_beam e) * (1 - / 100000) * pm) with (b_eff (e_beam e) * b_power (e_beam e) * pm * (1 - / 100000) * (1 + 0 - 0 * 0 - 0 * 0 * 0)) by ring. exact H.
Qed.
