(** EnergyProofs3.v -- proofs of C77: runs exist, accuracy of the temperatures, what is lost. *)
From Coq Require Import Reals List Bool String ZArith Lra Lia Sorted.
From Verif Require Import Base BaseFacts QuaternionModel ScanPathModel ScanPathSpec ScanPathProofs HeatSourceModel HeatSourceSpec HeatSourceProofs HeatSourceProofs2 MaterialModel InputModel CellModel
  HeatModel HeatSpec HeatProofs HeatProofs5 PowerSpec PowerProofs PowerProofs2 EnergyModel EnergySpec EnergyProofs EnergyProofs2 MainProofs2.
Import ListNotations.
Local Open Scope R_scope.

(** ** Sources can always be updated *)
Definition straight (s : source) : Prop := sp_five_axis (source_path s) = false.
Lemma power_ok (sp : scan_path RNum) t : sp_segs sp <> [] -> skippable sp t -> exists pm sp1, get_power_modifier sp t = Ok (pm, sp1).
Proof.
  intros Ne Sk. destruct (exists_last Ne) as [l [last El]]. assert (L : last_segment (sp_segs sp) last) by (exists l; exact El).
  destruct (nltb RNum (end_time last) t) eqn:C; [eexists; eexists; exact (power_after sp t last L C)|].
  destruct (power_fresh (set_old sp 0) t last eq_refl L C) as (i & s & sp' & Cu & G). assert (K := ask_skip (fun _ _ => None) sp (QPower t) Sk). simpl in K. rewrite G in K. cbn [bind] in K.
  destruct (get_power_modifier sp t) as [[pm sp1]| |]; [eauto|contradiction|contradiction].
Qed.
Lemma value_ok (sp : scan_path RNum) t : sp_segs sp <> [] -> skippable sp t -> exists c sp1, value sp t true = Ok (c, sp1).
Proof.
  intros Ne Sk. destruct (exists_last Ne) as [l [last El]]. assert (L : last_segment (sp_segs sp) last) by (exists l; exact El).
  destruct (nltb RNum (end_time last) t) eqn:C; [eexists; eexists; exact (value_after sp t true last L C)|].
  destruct (value_fresh (set_old sp 0) t true last eq_refl L C) as (i & s & p0 & t0 & sp' & Cu & St & G). assert (K := ask_skip (fun _ _ => None) sp (QValue t true) Sk). simpl in K. rewrite G in K. cbn [bind] in K.
  destruct (value sp t true) as [[c sp1]| |]; [eauto|contradiction|contradiction].
Qed.
Lemma ask_five pow (sp : scan_path RNum) q a sp' : ask pow sp q = Ok (a, sp') -> sp_five_axis sp' = sp_five_axis sp.
Proof. intros H. destruct (ask_after _ _ _ _ _ H) as [->|[c [-> _]]]; reflexivity. Qed.
Lemma power_five (sp : scan_path RNum) t pm sp1 : get_power_modifier sp t = Ok (pm, sp1) -> sp_five_axis sp1 = sp_five_axis sp.
Proof. intros E. apply (ask_five (fun _ _ => None) sp (QPower t) (APower pm)). simpl. rewrite E. reflexivity. Qed.
Lemma value_five (sp : scan_path RNum) t c sp1 : value sp t true = Ok (c, sp1) -> sp_five_axis sp1 = sp_five_axis sp.
Proof. intros E. apply (ask_five (fun _ _ => None) sp (QValue t true) (APoint c)). simpl. rewrite E. reflexivity. Qed.
Lemma update_ok s t : ready t s -> straight s -> exists s', update_time s t = Ok s' /\ straight s'.
Proof.
  intros (G & F & Sk & Ne & Nd) St. unfold straight in *. destruct s as [g|e]; cbn [source_path] in *.
  - destruct (power_ok (g_path g) t Ne Sk) as (pm & sp1 & Ep). destruct (power_modifier_at _ _ _ _ Ne Nd Sk Ep) as (P1 & P2 & P3).
    destruct (value_ok sp1 t ltac:(rewrite P2; exact Ne) (P3 t (Rle_refl t))) as (c & sp2 & Ev).
    assert (Q : get_quaternion qpow sp2 t = Ok (Some qone)). { unfold get_quaternion. rewrite (value_five _ _ _ _ Ev), (power_five _ _ _ _ Ep), St. reflexivity. }
    cbn [update_time]. unfold goldak_update_time. rewrite Ep. cbn [bind]. rewrite Ev. cbn [bind]. rewrite Q. cbn [bind]. eexists. split; [reflexivity|]. cbn [source_path g_path].
    rewrite (value_five _ _ _ _ Ev), (power_five _ _ _ _ Ep). exact St.
  - destruct (power_ok (e_path e) t Ne Sk) as (pm & sp1 & Ep). destruct (power_modifier_at _ _ _ _ Ne Nd Sk Ep) as (P1 & P2 & P3).
    destruct (value_ok sp1 t ltac:(rewrite P2; exact Ne) (P3 t (Rle_refl t))) as (c & sp2 & Ev).
    assert (Q : get_quaternion qpow sp2 t = Ok (Some qone)). { unfold get_quaternion. rewrite (value_five _ _ _ _ Ev), (power_five _ _ _ _ Ep), St. reflexivity. }
    cbn [update_time]. unfold ebeam_update_time. rewrite Ep. cbn [bind]. rewrite Ev. cbn [bind]. rewrite Q. cbn [bind]. eexists. split; [reflexivity|]. cbn [source_path e_path].
    rewrite (value_five _ _ _ _ Ev), (power_five _ _ _ _ Ep). exact St.
Qed.
Lemma set_time_ok srcs t : Forall (ready t) srcs -> Forall straight srcs -> exists srcs', set_time srcs t = Ok srcs' /\ Forall straight srcs'.
Proof.
  unfold set_time. induction srcs as [|s srcs IH]; intros Rd St; [exists []; split; [reflexivity|constructor]|]. inversion Rd; subst. inversion St; subst.
  destruct (update_ok s t) as (s' & U & S'); [assumption|assumption|]. destruct IH as (l & E & S2); [assumption|assumption|]. exists (s' :: l). split; [|constructor; assumption].
  cbn [mapR]. rewrite U. cbn [bind]. rewrite E. reflexivity.
Qed.
Lemma likes srcs : Forall2 like srcs srcs.
Proof. induction srcs; constructor; [apply like_refl|assumption]. Qed.
Lemma ready_mono t t' s : t <= t' -> ready t s -> ready t' s.
Proof.
  intros L (G & F & Sk & Ne & Nd). split; [exact G|split; [exact F|split; [|split; assumption]]].
  exact (skippable_mono (N := RNum) (fun _ => True) (fun x : R => x) Embeds_R _ t t' ltac:(apply Forall_forall; intros; exact I) I I L Sk).
Qed.
Lemma drive_ok ts : forall t srcs, increasing_from t ts -> Forall (ready t) srcs -> Forall straight srcs -> exists states, drive srcs ts = Ok states /\ Forall straight (last states srcs).
Proof.
  induction ts as [|t1 ts IH]; intros t srcs Inc Rd St; [exists []; split; [reflexivity|exact St]|]. inversion Inc as [|? ? Inc1 Le]; subst. assert (L1 : t <= t1) by (inversion Le; assumption).
  assert (Rd1 : Forall (ready t1) srcs) by (eapply Forall_impl; [|exact Rd]; intros a; apply ready_mono; exact L1).
  destruct (set_time_ok srcs t1 Rd1 St) as (srcs1 & E & S1). destruct (set_time_inv srcs srcs t1 srcs1 (likes srcs) Rd1 E) as (_ & _ & C).
  destruct (IH t1 srcs1 Inc1 (C t1 (Rle_refl _)) S1) as (rest & E1 & S2). exists (srcs1 :: rest). split; [cbn [drive]; rewrite E; cbn [bind]; rewrite E1; reflexivity|]. rewrite last_cons. exact S2.
Qed.
Lemma drive_run_ok s dts : forall t srcs, Forall (fun d => 0 <= d) dts -> Forall (ready t) srcs -> Forall straight srcs -> exists log, drive_run s t dts srcs = Ok log.
Proof.
  induction dts as [|dt dts IH]; intros t srcs F Rd St; [exists []; reflexivity|]. inversion F as [|? ? D F']; subst. destruct (stage_times_increasing s t dt D) as (Inc & Up).
  destruct (drive_ok _ t srcs Inc Rd St) as (states & E & S1). destruct (drive_inv _ t srcs srcs states Inc (likes srcs) Rd E) as (_ & _ & C).
  destruct (IH (t + dt) (last states srcs) F' (C (t + dt) Up) S1) as (rest & E1). eexists. cbn [drive_run]. rewrite E. cbn [bind]. rewrite E1. reflexivity.
Qed.
Lemma thermal_run_ok s m x K F dts : forall n t srcs y, Forall (fun d => 0 <= d) dts -> Forall (ready t) srcs -> Forall straight srcs -> exists t' y', thermal_run true s m x K F n t dts srcs y = Ok (t', y').
Proof.
  induction dts as [|dt dts IH]; intros n t srcs y Fd Rd St; [exists t, y; reflexivity|]. inversion Fd as [|? ? D F']; subst. destruct (stage_times_increasing s t dt D) as (Inc & Up).
  destruct (drive_ok _ t srcs Inc Rd St) as (states & E & S1). destruct (drive_inv _ t srcs srcs states Inc (likes srcs) Rd E) as (_ & _ & C).
  assert (B : beam_step true s m x (K n) (F n) states t dt y = (t + dt, snd (beam_step true s m x (K n) (F n) states t dt y))) by (destruct s; reflexivity).
  destruct (IH (S n) (t + dt) (last states srcs) (snd (beam_step true s m x (K n) (F n) states t dt y)) F' (C (t + dt) Up) S1) as (t' & y' & E1). exists t', y'. cbn [thermal_run]. rewrite E. cbn [bind]. rewrite B. exact E1.
Qed.
(** The heat of a state of a source, read from its members. *)
Definition member_heat (s : source) : R :=
  match s with
  | Goldak g => g_alpha g * (b_radius2 (g_beam g) * b_depth (g_beam g) * pi_over_3_to_1p5) / 2 * share s
  | ElectronBeam e => e_alpha e * (PI * b_radius2 (e_beam e) * b_depth (e_beam e)) / - log_01 * share s
  end.
Lemma member_heat_eq s t s' : ready t s -> update_time s t = Ok s' -> member_heat s' = watts s * share s * modifier (sp_segs (source_path s)) t.
Proof.
  intros (G & F & Sk & Ne & Nd) U. destruct s as [g|e]; simpl in U, G, F, Sk, Ne, Nd.
  - destruct (goldak_update_time g t) as [g'| |] eqn:Eg; cbn [bind] in U; try discriminate. injection U as <-. destruct (goldak_fields g t g' Eg) as (pm & sp1 & Ep & B & _ & _ & _ & _ & Al).
    destruct (power_modifier_at _ _ _ _ Ne Nd Sk Ep) as (P1 & _ & _). unfold member_heat, watts. cbn [source_beam source_path share]. rewrite <- P1, Al, B. fold pi_over_3_to_1p5.
    destruct G as (G1 & G2 & _). assert (C := c_pos). clear -G1 G2 C. generalize ((1 - exp (-15)) * goldak_share 0). intros k. field. repeat split; lra.
  - destruct (ebeam_update_time e t) as [g'| |] eqn:Eg; cbn [bind] in U; try discriminate. injection U as <-. destruct (ebeam_fields e t g' Eg) as (pm & sp1 & Ep & B & _ & _ & _ & _ & _ & Al).
    destruct (power_modifier_at _ _ _ _ Ne Nd Sk Ep) as (P1 & _ & _). unfold member_heat, watts. cbn [source_beam source_path share]. rewrite <- P1, Al, B.
    destruct G as (G1 & G2 & _). assert (C := log_01_neg). assert (P := PI_RGT_0). clear -G1 G2 C P. generalize (1 - / 100000). intros k. field. repeat split; lra.
Qed.
Lemma member_heats s dts srcs log R0 D : Forall (fun d => 0 <= d) dts -> Forall new_source srcs -> Forall (covers R0 D) srcs -> drive_run s 0 dts srcs = Ok log -> heats R0 D log member_heat.
Proof.
  intros F Nw C H ws src Iw Is. assert (Rd : Forall (ready 0) srcs) by (eapply Forall_impl; [|exact Nw]; intros a A; exact (proj1 (new_ready a A))).
  assert (X := drive_run_inv s dts 0 srcs srcs log F (likes srcs) Rd H).
  assert (Y : exists t, Forall2 (at_time t) srcs (snd ws)). { clear -X Iw. induction X as [|p ws' l l' (_ & A) X IH]; [destruct Iw|]. destruct Iw as [<-|Iw]; [exists (snd p); exact A|exact (IH Iw)]. }
  destruct Y as (t & Y). clear X. assert (Z : exists s0, In s0 srcs /\ at_time t s0 src). { clear -Y Is. induction Y as [|s0 s' l l' A Y IH]; [destruct Is|]. destruct Is as [<-|Is]; [exists s0; split; [left; reflexivity|exact A]|]. destruct (IH Is) as (s1 & I1 & A1). exists s1. split; [right; exact I1|exact A1]. }
  destruct Z as (s0 & I0 & s1 & L & R1 & U). destruct (update_ready s1 t src R1 U) as (_ & _ & _ & Hh). rewrite (member_heat_eq s1 t src R1 U). apply Hh. rewrite Forall_forall in C. exact (covers_like _ _ _ _ L (C s0 I0)).
Qed.
Lemma runs s dts srcs R0 D : Forall (fun d => 0 <= d) dts -> Forall new_source srcs -> Forall (covers R0 D) srcs -> exists log heat, drive_run s 0 dts srcs = Ok log /\ heats R0 D log heat.
Proof.
  intros F Nw C. assert (Rd : Forall (ready 0) srcs) by (eapply Forall_impl; [|exact Nw]; intros a A; exact (proj1 (new_ready a A))).
  assert (St : Forall straight srcs) by (eapply Forall_impl; [|exact Nw]; intros a (_ & _ & A & _); exact A).
  destruct (drive_run_ok s dts 0 srcs F Rd St) as (log & E). exists log, member_heat. split; [exact E|exact (member_heats s dts srcs log R0 D F Nw C E)].
Qed.
Lemma thermal_runs s m x K F dts srcs y : Forall (fun d => 0 <= d) dts -> Forall new_source srcs -> exists t' y', thermal_run true s m x K F 0 0 dts srcs y = Ok (t', y').
Proof.
  intros Fd Nw. apply thermal_run_ok; [exact Fd| |]; eapply Forall_impl; try exact Nw; intros a A; [exact (proj1 (new_ready a A))|exact (proj1 (proj2 (proj2 A)))].
Qed.

(** ** The temperatures *)
Lemma run_weights s dts : forall t, Forall (fun d => 0 <= d) dts -> Sum (run_points s t dts) fst = sumR dts /\ forall p, In p (run_points s t dts) -> 0 <= fst p.
Proof.
  induction dts as [|dt dts IH]; intros t F; [split; [reflexivity|intros p []]|]. inversion F as [|? ? D F']; subst. destruct (IH (t + dt) F') as (A & B). cbn [run_points]. rewrite Sum_app, A. split.
  - unfold points. rewrite Sum_map. cbn [fst]. rewrite Sum_scal, (proj2 (quadrature_ok s)). cbn. fold (sumR dts). ring.
  - intros p I. apply in_app_or in I. destruct I as [I|I]; [|exact (B p I)]. unfold points in I. apply in_map_iff in I. destruct I as (q & <- & Iq). cbn [fst]. destruct (proj1 (quadrature_ok s) q Iq) as (Q & _). apply Rmult_le_pos; lra.
Qed.
Lemma delivered_close s dts srcs log heat heat' eps : Forall (fun d => 0 <= d) dts -> Forall new_source srcs -> drive_run s 0 dts srcs = Ok log ->
  (forall ws src, In ws log -> In src (snd ws) -> Rabs (heat src - heat' src) <= eps) -> Rabs (delivered log heat - delivered log heat') <= eps * (INR (List.length srcs) * sumR dts).
Proof.
  intros F Nw H C. assert (Rd : Forall (ready 0) srcs) by (eapply Forall_impl; [|exact Nw]; intros a A; exact (proj1 (new_ready a A))).
  assert (X := drive_run_inv s dts 0 srcs srcs log F (likes srcs) Rd H). destruct (run_weights s dts 0 F) as (W1 & W2).
  unfold delivered. rewrite <- Sum_minus.
  apply Rle_trans with (Sum log (fun ws => fst ws * (eps * INR (List.length srcs)))).
  - apply Sum_abs_le. intros ws Iw. assert (Y : 0 <= fst ws /\ List.length (snd ws) = List.length srcs).
    { clear -X W2 Iw. revert W2. induction X as [|p ws' l l' (A & B) X IH]; intros W2; [destruct Iw|]. destruct Iw as [<-|Iw]; [|apply (IH Iw); intros; apply W2; right; assumption].
      rewrite A. split; [apply W2; left; reflexivity|]. symmetry. exact (f2len _ _ _ B). }
    destruct Y as (Y1 & Y2). rewrite <- Rmult_minus_distr_l, Rabs_mult, (Rabs_right (fst ws)) by lra. apply Rmult_le_compat_l; [exact Y1|]. rewrite <- Sum_minus, <- Y2.
    apply Rle_trans with (Sum (snd ws) (fun _ => eps)); [apply Sum_abs_le; intros src Is; exact (C ws src Iw Is)|]. clear. induction (snd ws) as [|a l IH]; [rewrite Sum_nil; simpl; lra|]. rewrite Sum_cons. change (List.length (a :: l)) with (S (List.length l)). rewrite S_INR. lra.
  - right. rewrite Sum_mul. rewrite <- (Sum_forall2 _ fst fst _ _ X), W1 by (intros a b _ _ (E & _); symmetry; exact E). ring.
Qed.
Lemma part_heat s m x (K : nat -> nat -> laws RNum) (F : nat -> nat -> face_laws RNum) rc dts srcs log (y : list R) t' (y' : list R) R0 D h eps : mesh_ok m -> massive m -> 0 < rc -> List.length y = m_n m ->
  (forall n i c q T, pl_inv (K n i c q T) = / rc) -> 0 <= h -> Forall (fun d => 0 <= d <= h) dts -> Forall new_source srcs -> Forall (covers R0 D) srcs ->
  thermal_run true s m x K F 0 0 dts srcs y = Ok (t', y') -> drive_run s 0 dts srcs = Ok log -> accurate R0 D eps m x log ->
  t' = sumR dts /\
  Rabs (rc * integral (m_C m) (m_mass m) (entry y') - rc * integral (m_C m) (m_mass m) (entry y) - Sum srcs (fun src => watts src * share src * asked (sumR dts) 0 (sp_segs (source_path src)))) <=
  h * Sum srcs (fun src => watts src * share src * jumps (sp_segs (source_path src))) + eps * (INR (List.length srcs) * sumR dts).
Proof.
  intros Mok M P L I Hh Fd Nw C H Hl Ac. assert (N : Forall (fun d => 0 <= d) dts) by (eapply Forall_impl; [|exact Fd]; intros a A; simpl in A; lra).
  assert (Rd : Forall (ready 0) srcs) by (eapply Forall_impl; [|exact Nw]; intros a A; exact (proj1 (new_ready a A))).
  assert (Pp : Forall powers_nonneg srcs) by (eapply Forall_impl; [|exact Nw]; intros a A; exact (proj2 (proj2 (new_ready a A)))).
  destruct (thermal_gain s m x K F rc dts 0 0 srcs srcs y t' y' Mok M P L I N (likes srcs) Rd Pp H) as (T & log' & Hl' & G). rewrite Hl in Hl'. injection Hl' as <-. split; [rewrite T; ring|].
  assert (Q := member_heats s dts srcs log R0 D N Nw C Hl). assert (E := energy s dts srcs log R0 D member_heat h Hh Fd Nw C Hl Q).
  assert (Cl := delivered_close s dts srcs log (mesh_heat m x) member_heat eps N Nw Hl (fun ws src Iw Is => Ac ws src _ Iw Is (Q ws src Iw Is))).
  rewrite G. set (A := Sum srcs (fun src => watts src * share src * asked (sumR dts) 0 (sp_segs (source_path src)))) in *.
  replace (rc * integral (m_C m) (m_mass m) (entry y) + delivered log (mesh_heat m x) - rc * integral (m_C m) (m_mass m) (entry y) - A)
    with ((delivered log member_heat - A) + (delivered log (mesh_heat m x) - delivered log member_heat)) by ring.
  eapply Rle_trans; [apply Rabs_triang|]. apply Rplus_le_compat; assumption.
Qed.

(** ** What short pulses lose and gain *)
Definition P00 : pt RNum := mkpt (N := RNum) 0 0 0.
Definition pulse_path (l : list (R * R)) : scan_path RNum := mkSP (N := RNum) false false 1 1 FEventSeries (map (fun p => mkseg (N := RNum) (fst p) (snd p) P00 None) l) 0.
Definition pulse_source (l : list (R * R)) : source := Goldak (mkG false unit_beam (pulse_path l) false None P00 0 0 0 0 0).
Lemma pulse_new l : l <> [] -> nondecreasing (map fst l) -> Forall (fun p => 0 < fst p /\ 0 <= snd p) l -> new_source (pulse_source l).
Proof.
  intros Ne Nd F. unfold new_source, pulse_source. cbn [source_beam source_five source_path g_beam g_five g_path pulse_path sp_five_axis sp_old sp_segs]. repeat split; try apply unit_good.
  - destruct l; [contradiction|discriminate].
  - rewrite map_map. exact Nd.
  - rewrite Forall_map. exact F.
Qed.
Lemma pulse_covers l : covers 3 1 (pulse_source l).
Proof. unfold covers, pulse_source. cbn. lra. Qed.
Lemma pulse_watts l : watts (pulse_source l) = 1.
Proof. unfold watts, pulse_source. cbn. lra. Qed.
Lemma missed s log heat : let src := pulse_source [(1/8, 0); (3/8, 1); (2, 0)] in drive_run s 0 [1] [src] = Ok log -> heats 3 1 log heat ->
  delivered log heat = 0 /\ watts src * share src * asked 1 0 (sp_segs (source_path src)) = share src / 4.
Proof.
  cbv zeta. set (l := [(1/8, 0); (3/8, 1); (2, 0)]). intros H Q. split.
  - rewrite (delivered_eq s [1] [pulse_source l] log 3 1 heat).
    + rewrite Sum_cons, Sum_nil. replace (Sum (run_points s 0 [1]) (fun p => fst p * modifier (sp_segs (source_path (pulse_source l))) (snd p))) with 0; [ring|]. symmetry. apply Sum_zero. intros p I.
      cbn [run_points] in I. rewrite app_nil_r in I. unfold points in I. apply in_map_iff in I. destruct I as (q & <- & I). cbn [fst snd].
      replace (modifier (sp_segs (source_path (pulse_source l))) (0 + fst q * 1)) with 0; [ring|]. symmetry. unfold l. cbn [pulse_source source_path g_path pulse_path sp_segs map modifier]. unfold et, pw. cbn [end_time power_modifier fst snd].
      assert (Z : fst q = 0 \/ fst q = 1/2 \/ fst q = 1) by (destruct s; cbn [quadrature In] in I; repeat (destruct I as [<-|I]; [cbn [fst]; lra|]); contradiction).
      destruct (Rltb (1/8) (0 + fst q * 1)) eqn:E1; [|reflexivity]. apply Rltb_true in E1. destruct (Rltb (3/8) (0 + fst q * 1)) eqn:E2; [|apply Rltb_false in E2; lra]. destruct (Rltb 2 (0 + fst q * 1)); reflexivity.
    + repeat constructor; lra.
    + constructor; [|constructor]. apply pulse_new; [discriminate| |]; unfold l.
      * unfold nondecreasing. cbn [map fst]. repeat (first [apply SSorted_nil|apply SSorted_cons|apply Forall_nil|apply Forall_cons]); lra.
      * repeat (apply Forall_cons; [cbn; lra|]). apply Forall_nil.
    + constructor; [apply pulse_covers|constructor].
    + exact H.
    + exact Q.
  - rewrite pulse_watts. unfold l. cbn [pulse_source source_path g_path pulse_path sp_segs map asked end_time power_modifier fst snd]. rewrite !Rmin_right by lra. rewrite (Rmin_left 1 2) by lra. field.
Qed.
Lemma exaggerated s log heat e : 0 < e < 1/2 -> let src := pulse_source [(e, 1); (2, 0)] in drive_run s 0 [1] [src] = Ok log -> heats 3 1 log heat ->
  share src / 6 <= delivered log heat /\ watts src * share src * asked 1 0 (sp_segs (source_path src)) = share src * e.
Proof.
  intros He. cbv zeta. set (l := [(e, 1); (2, 0)]). intros H Q. split.
  - rewrite (delivered_eq s [1] [pulse_source l] log 3 1 heat).
    + rewrite Sum_cons, Sum_nil, pulse_watts. assert (X : 1/6 <= Sum (run_points s 0 [1]) (fun p => fst p * modifier (sp_segs (source_path (pulse_source l))) (snd p))).
      { cbn [run_points]. rewrite app_nil_r.
        assert (M : forall u, modifier (sp_segs (source_path (pulse_source l))) u = if Rltb e u then 0 else 1). { intros u. unfold l. cbn [pulse_source source_path g_path pulse_path sp_segs map modifier]. unfold et, pw. cbn [end_time power_modifier fst snd]. destruct (Rltb e u); [|reflexivity]. destruct (Rltb 2 u); reflexivity. }
        rewrite (Sum_ext _ (fun p => fst p * upto e (snd p))) by (intros p _; rewrite M; reflexivity).
        unfold points. rewrite Sum_map. cbn [fst snd].
        assert (E0 : upto e (0 + 0 * 1) = 1) by (apply upto_le; lra). assert (E1 := upto_bounds e (0 + 1/2 * 1)). assert (E2 := upto_bounds e (0 + 1 * 1)).
        destruct s; unfold quadrature; rewrite ?Sum_cons, Sum_nil; cbn [fst snd]; rewrite E0; lra. }
      assert (S0 := share_range (pulse_source l)). rewrite Rmult_1_l, Rplus_0_r. unfold Rdiv. apply Rmult_le_compat_l; lra.
    + repeat constructor; lra.
    + constructor; [|constructor]. apply pulse_new; [discriminate| |]; unfold l.
      * unfold nondecreasing. cbn [map fst]. repeat (first [apply SSorted_nil|apply SSorted_cons|apply Forall_nil|apply Forall_cons]); lra.
      * repeat (apply Forall_cons; [cbn; lra|]). apply Forall_nil.
    + constructor; [apply pulse_covers|constructor].
    + exact H.
    + exact Q.
  - rewrite pulse_watts. unfold l. cbn [pulse_source source_path g_path pulse_path sp_segs map asked end_time power_modifier fst snd]. rewrite (Rmin_right 1 e), (Rmin_right 1 0), (Rmin_left 1 2) by lra. ring.
Qed.
Lemma missed_pulse s : exists src, new_source src /\ covers 3 1 src /\ 0 < watts src * share src * asked 1 0 (sp_segs (source_path src)) /\
  (exists log heat, drive_run s 0 [1] [src] = Ok log /\ heats 3 1 log heat) /\ forall log heat, drive_run s 0 [1] [src] = Ok log -> heats 3 1 log heat -> delivered log heat = 0.
Proof.
  set (l := [(1/8, 0); (3/8, 1); (2, 0)]). assert (N : new_source (pulse_source l)).
  { apply pulse_new; [discriminate| |]; unfold l.
    - unfold nondecreasing. cbn [map fst]. repeat (first [apply SSorted_nil|apply SSorted_cons|apply Forall_nil|apply Forall_cons]); lra.
    - repeat (apply Forall_cons; [cbn; lra|]). apply Forall_nil. }
  assert (Rn : exists log heat, drive_run s 0 [1] [pulse_source l] = Ok log /\ heats 3 1 log heat).
  { apply runs; [constructor; [lra|constructor]|constructor; [exact N|constructor]|]. repeat (apply Forall_cons; [apply pulse_covers|]). apply Forall_nil. }
  exists (pulse_source l). split; [exact N|]. split; [apply pulse_covers|]. split; [|split; [exact Rn|]].
  - destruct Rn as (log & heat & H & Q). assert (E : watts (pulse_source l) * share (pulse_source l) * asked 1 0 (sp_segs (source_path (pulse_source l))) = share (pulse_source l) / 4) by exact (proj2 (missed s log heat H Q)). rewrite E. assert (X := share_range (pulse_source l)). lra.
  - intros log heat H Q. exact (proj1 (missed s log heat H Q)).
Qed.
Lemma first_pulse s e : 0 < e < 1/2 -> exists src, new_source src /\ covers 3 1 src /\ watts src * share src * asked 1 0 (sp_segs (source_path src)) = share src * e /\
  (exists log heat, drive_run s 0 [1] [src] = Ok log /\ heats 3 1 log heat) /\ forall log heat, drive_run s 0 [1] [src] = Ok log -> heats 3 1 log heat -> share src / 6 <= delivered log heat.
Proof.
  intros He. set (l := [(e, 1); (2, 0)]). assert (N : new_source (pulse_source l)).
  { apply pulse_new; [discriminate| |]; unfold l.
    - unfold nondecreasing. cbn [map fst]. repeat (first [apply SSorted_nil|apply SSorted_cons|apply Forall_nil|apply Forall_cons]); lra.
    - repeat (apply Forall_cons; [cbn; lra|]). apply Forall_nil. }
  assert (Rn : exists log heat, drive_run s 0 [1] [pulse_source l] = Ok log /\ heats 3 1 log heat).
  { apply runs; [constructor; [lra|constructor]|constructor; [exact N|constructor]|]. repeat (apply Forall_cons; [apply pulse_covers|]). apply Forall_nil. }
  exists (pulse_source l). split; [exact N|]. split; [apply pulse_covers|]. split; [|split; [exact Rn|]].
  - destruct Rn as (log & heat & H & Q). exact (proj2 (exaggerated s log heat e He H Q)).
  - intros log heat H Q. exact (proj1 (exaggerated s log heat e He H Q)).
Qed.
Lemma some_accuracy R0 D m x log heat : heats R0 D log heat -> exists eps, accurate R0 D eps m x log.
Proof.
  intros Q. exists (Sum log (fun ws => Sum (snd ws) (fun src => Rabs (mesh_heat m x src - heat src)))). intros ws src q Iw Is Hq. rewrite (heat_in_unique _ _ _ _ _ _ _ Hq (Q ws src Iw Is)).
  assert (G : forall {A} (f : A -> R) l a, (forall b, 0 <= f b) -> In a l -> f a <= Sum l f).
  { intros A f l a P. induction l as [|b l IH]; intros I; [destruct I|]. rewrite Sum_cons. assert (Pb := P b). assert (Pl := Sum_nonneg f l (fun c _ => P c)). destruct I as [->|I]; [lra|]. specialize (IH I). lra. }
  apply Rle_trans with (Sum (snd ws) (fun src => Rabs (mesh_heat m x src - heat src))).
  - apply (G _ (fun src => Rabs (mesh_heat m x src - heat src))); [intros; apply Rabs_pos|exact Is].
  - apply (G _ (fun ws : R * list source => Sum (snd ws) (fun src => Rabs (mesh_heat m x src - heat src)))); [|exact Iw]. intros b. apply Sum_nonneg. intros; apply Rabs_pos.
Qed.
Lemma heat_content_run s m x (K : nat -> nat -> laws RNum) (F : nat -> nat -> face_laws RNum) rc dts srcs (y : list R) t' (y' : list R) : mesh_ok m -> massive m -> 0 < rc -> List.length y = m_n m ->
  (forall n i c q T, pl_inv (K n i c q T) = / rc) -> Forall (fun d => 0 <= d) dts -> Forall new_source srcs -> thermal_run true s m x K F 0 0 dts srcs y = Ok (t', y') ->
  t' = sumR dts /\ exists log, drive_run s 0 dts srcs = Ok log /\
    rc * integral (m_C m) (m_mass m) (entry y') = rc * integral (m_C m) (m_mass m) (entry y) + delivered log (mesh_heat m x).
Proof.
  intros Mok M P L I N Nw H. assert (Rd : Forall (ready 0) srcs) by (eapply Forall_impl; [|exact Nw]; intros a A; exact (proj1 (new_ready a A))).
  assert (Pp : Forall powers_nonneg srcs) by (eapply Forall_impl; [|exact Nw]; intros a A; exact (proj2 (proj2 (new_ready a A)))).
  destruct (thermal_gain s m x K F rc dts 0 0 srcs srcs y t' y' Mok M P L I N (likes srcs) Rd Pp H) as (T & X). split; [rewrite T; ring|exact X].
Qed.
