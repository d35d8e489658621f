(** EnergyProofs2.v -- proofs of C77: whole runs. *)
From Coq Require Import Reals List Bool String ZArith Lra Lia Sorted.
From Verif Require Import Base BaseFacts QuaternionModel ScanPathModel ScanPathSpec ScanPathProofs HeatSourceModel HeatSourceSpec HeatSourceProofs MaterialModel InputModel CellModel HeatModel HeatSpec HeatProofs HeatProofs2 HeatProofs3 HeatProofs4 HeatProofs5
  PowerSpec PowerProofs PowerProofs2 EnergyModel EnergySpec EnergyProofs MainProofs2.
Import ListNotations.
Local Open Scope R_scope.

(** The state [s'] of a source that started as [s0] and was last asked about time [t]. *)
Definition at_time (t : R) (s0 s' : source) : Prop := exists s1, like s0 s1 /\ ready t s1 /\ update_time s1 t = Ok s'.
Lemma set_time_inv srcs0 srcs t srcs' : Forall2 like srcs0 srcs -> Forall (ready t) srcs -> set_time srcs t = Ok srcs' ->
  Forall2 (at_time t) srcs0 srcs' /\ Forall2 like srcs0 srcs' /\ forall t', t <= t' -> Forall (ready t') srcs'.
Proof.
  intros L Rd H. unfold set_time in H. apply mapR_forall2 in H. revert srcs0 L Rd. induction H as [|s s' srcs srcs' U H IH]; intros srcs0 L Rd.
  - inversion L; subst. repeat split; constructor.
  - inversion L as [|s0 ? l0 ? L1 L2]; subst. inversion Rd as [|? ? R1 R2]; subst. destruct (IH l0 L2 R2) as (A & B & C). destruct (update_ready s t s' R1 U) as (X & Y & _).
    split; [|split].
    + constructor; [exists s; split; [exact L1|split; [exact R1|exact U]]|exact A].
    + constructor; [exact (like_trans _ _ _ L1 X)|exact B].
    + intros t' Lt. constructor; [exact (Y t' Lt)|exact (C t' Lt)].
Qed.
Lemma last_cons {A} (a : A) l d : last (a :: l) d = last l a.
Proof. revert a d. induction l as [|b l IH]; intros a d; [reflexivity|]. change (last (b :: l) d = last (b :: l) a). rewrite !IH. reflexivity. Qed.
Definition increasing_from (t : R) (ts : list R) : Prop := nondecreasing (t :: ts).
Lemma drive_inv ts : forall t srcs0 srcs states, increasing_from t ts -> Forall2 like srcs0 srcs -> Forall (ready t) srcs -> drive srcs ts = Ok states ->
  Forall2 (fun t' srcs' => Forall2 (at_time t') srcs0 srcs') ts states /\ Forall2 like srcs0 (last states srcs) /\ forall t', (forall u, In u (t :: ts) -> u <= t') -> Forall (ready t') (last states srcs).
Proof.
  induction ts as [|t1 ts IH]; intros t srcs0 srcs states Inc L Rd H.
  - injection H as <-. cbn [last]. split; [constructor|split; [exact L|]]. intros t' Lt. eapply Forall_impl; [|exact Rd]. intros s (G & F & Sk & Ne & Nd). split; [exact G|split; [exact F|split; [|split; assumption]]].
    exact (skippable_mono (N := RNum) (fun _ => True) (fun x : R => x) Embeds_R _ t t' ltac:(apply Forall_forall; intros; exact I) I I (Lt t (or_introl eq_refl)) Sk).
  - cbn [drive] in H. destruct (set_time srcs t1) as [srcs1| |] eqn:E; cbn [bind] in H; try discriminate. destruct (drive srcs1 ts) as [rest| |] eqn:E1; cbn [bind] in H; try discriminate. injection H as <-.
    inversion Inc as [|? ? Inc1 Le]; subst. assert (L1 : t <= t1) by (inversion Le; assumption).
    assert (Rd1 : Forall (ready t1) srcs).
    { eapply Forall_impl; [|exact Rd]. intros s (G & F & Sk & Ne & Nd). split; [exact G|split; [exact F|split; [|split; assumption]]].
      exact (skippable_mono (N := RNum) (fun _ => True) (fun x : R => x) Embeds_R _ t t1 ltac:(apply Forall_forall; intros; exact I) I I L1 Sk). }
    destruct (set_time_inv srcs0 srcs t1 srcs1 L Rd1 E) as (A & B & C). destruct (IH t1 srcs0 srcs1 rest Inc1 B (C t1 (Rle_refl _)) E1) as (X & Y & Z).
    assert (La := last_cons srcs1 rest srcs).
    rewrite La. split; [constructor; assumption|split; [exact Y|]]. intros t' Lt. apply Z. intros u Hu. apply Lt. right. exact Hu.
Qed.
Lemma stage_times_eq s t dt : stage_times s t dt = map (fun q => t + fst q * dt) (quadrature s).
Proof. destruct s; reflexivity. Qed.
Lemma weights_eq s dt : map (fun b => dt * b) (tableau_b (N := RNum) s) = map (fun q => dt * snd q) (quadrature s).
Proof. destruct s; reflexivity. Qed.
Lemma stage_times_increasing s t dt : 0 <= dt -> increasing_from t (stage_times s t dt) /\ forall u, In u (t :: stage_times s t dt) -> u <= t + dt.
Proof.
  intros D. rewrite stage_times_eq. split.
  - unfold increasing_from, nondecreasing. destruct s; cbn [quadrature map fst]; repeat (first [apply SSorted_nil|apply SSorted_cons|apply Forall_nil|apply Forall_cons]); lra.
  - intros u [<-|H]; [lra|]. apply in_map_iff in H. destruct H as (q & <- & I). destruct (proj1 (quadrature_ok s) q I) as [_ C]. assert (fst q * dt <= 1 * dt) by (apply Rmult_le_compat_r; lra). lra.
Qed.
Lemma combine_points {B} (P : R -> B -> Prop) (l : list (R * R)) (t dt : R) : forall states, Forall2 P (map (fun q => t + fst q * dt) l) states ->
  Forall2 (fun p ws => fst ws = fst p /\ P (snd p) (snd ws)) (map (fun q => (dt * snd q, t + fst q * dt)) l) (combine (map (fun q => dt * snd q) l) states).
Proof.
  induction l as [|q l IH]; intros states H; inversion H; subst; cbn; [constructor|]. constructor; [split; [reflexivity|assumption]|]. apply IH. assumption.
Qed.
Lemma drive_run_inv s dts : forall t srcs0 srcs log, Forall (fun d => 0 <= d) dts -> Forall2 like srcs0 srcs -> Forall (ready t) srcs -> drive_run s t dts srcs = Ok log ->
  Forall2 (fun p ws => fst ws = fst p /\ Forall2 (at_time (snd p)) srcs0 (snd ws)) (run_points s t dts) log.
Proof.
  induction dts as [|dt dts IH]; intros t srcs0 srcs log F L Rd H.
  - injection H as <-. constructor.
  - cbn [drive_run] in H. destruct (drive srcs (stage_times s t dt)) as [states| |] eqn:E; cbn [bind] in H; try discriminate.
    destruct (drive_run s (t + dt) dts (last states srcs)) as [rest| |] eqn:E1; cbn [bind] in H; try discriminate. injection H as <-. inversion F as [|? ? D F']; subst.
    destruct (stage_times_increasing s t dt D) as (Inc & Up). destruct (drive_inv _ t srcs0 srcs states Inc L Rd E) as (A & B & C).
    cbn [run_points]. apply Forall2_app; [|exact (IH (t + dt) srcs0 _ rest F' B (C (t + dt) Up) E1)].
    unfold points. rewrite weights_eq. apply (combine_points (fun u srcs' => Forall2 (at_time u) srcs0 srcs')). rewrite <- stage_times_eq. exact A.
Qed.

(** ** Energy *)
Lemma new_ready s : new_source s -> ready 0 s /\ nondecreasing (0 :: map et (sp_segs (source_path s))) /\ Forall (fun s : seg RNum => 0 <= pw s) (sp_segs (source_path s)).
Proof.
  intros (G & F & _ & O0 & Ne & Nd & Pp). split; [|split].
  - split; [exact G|split; [exact F|split; [|split; [exact Ne|exact Nd]]]]. intros j Hj. rewrite O0 in Hj. lia.
  - constructor; [exact Nd|]. rewrite Forall_map. eapply Forall_impl; [|exact Pp]. intros a (A & _). unfold et. simpl in *. lra.
  - eapply Forall_impl; [|exact Pp]. intros a (_ & A). exact A.
Qed.
Lemma covers_like R0 D a b : like a b -> covers R0 D a -> covers R0 D b.
Proof. intros (_ & E & _). unfold covers. rewrite E. exact (fun x => x). Qed.
Lemma at_time_heat R0 D t s0 s' q : at_time t s0 s' -> covers R0 D s0 -> heat_in (source_value true s') (source_center s') R0 (- D) 0 q -> q = watts s0 * share s0 * modifier (sp_segs (source_path s0)) t.
Proof.
  intros (s1 & L & Rd & U) C H. destruct (update_ready s1 t s' Rd U) as (_ & _ & _ & X). specialize (X R0 D (covers_like _ _ _ _ L C)).
  destruct (like_share _ _ L) as (S1 & W1). destruct L as (_ & _ & _ & Sg). rewrite S1, W1, Sg in X. exact (heat_in_unique _ _ _ _ _ _ _ H X).
Qed.
Lemma Sum_forall2 {A B} (P : A -> B -> Prop) (f : A -> R) (g : B -> R) l l' : Forall2 P l l' -> (forall a b, In a l -> In b l' -> P a b -> f a = g b) -> Sum l f = Sum l' g.
Proof.
  induction 1 as [|a b l l' H H' IH]; intros E; [reflexivity|]. rewrite !Sum_cons. rewrite (E a b (or_introl eq_refl) (or_introl eq_refl) H). f_equal. apply IH. intros; apply E; try (right; assumption); assumption.
Qed.
Lemma delivered_eq s dts srcs log R0 D heat : Forall (fun d => 0 <= d) dts -> Forall new_source srcs -> Forall (covers R0 D) srcs -> drive_run s 0 dts srcs = Ok log -> heats R0 D log heat ->
  delivered log heat = Sum srcs (fun src => watts src * share src * Sum (run_points s 0 dts) (fun p => fst p * modifier (sp_segs (source_path src)) (snd p))).
Proof.
  intros F Nw C H Q. assert (L : Forall2 like srcs srcs) by (clear; induction srcs; constructor; [apply like_refl|assumption]).
  assert (Rd : Forall (ready 0) srcs) by (eapply Forall_impl; [|exact Nw]; intros a A; exact (proj1 (new_ready a A))).
  assert (X := drive_run_inv s dts 0 srcs srcs log F L Rd H).
  transitivity (Sum (run_points s 0 dts) (fun p => Sum srcs (fun src => watts src * share src * (fst p * modifier (sp_segs (source_path src)) (snd p))))).
  - symmetry. unfold delivered. apply (Sum_forall2 _ _ _ _ _ X). intros p ws Ip Iw (E & A). rewrite E, <- Sum_scal. apply (Sum_forall2 _ _ _ _ _ A).
    intros s0 s' I0 I' At. rewrite Forall_forall in C. rewrite (at_time_heat R0 D (snd p) s0 s' (heat s') At (C s0 I0) (Q ws s' Iw I')). ring.
  - rewrite Sum_swap. apply Sum_ext. intros src _. rewrite Sum_scal. reflexivity.
Qed.
Lemma Sum_abs_le {A} (f g : A -> R) l : (forall a, In a l -> Rabs (f a) <= g a) -> Rabs (Sum l f) <= Sum l g.
Proof.
  induction l as [|a l IH]; intros H; [rewrite !Sum_nil, Rabs_R0; lra|]. rewrite !Sum_cons. eapply Rle_trans; [apply Rabs_triang|]. apply Rplus_le_compat; [apply H; left; reflexivity|apply IH; intros; apply H; right; assumption].
Qed.
Lemma Sum_minus {A} (f g : A -> R) l : Sum l (fun a => f a - g a) = Sum l f - Sum l g.
Proof. induction l as [|a l IH]; [rewrite !Sum_nil; ring|]. rewrite !Sum_cons, IH. ring. Qed.
Lemma share_range src : 985 / 1000 < share src < 1.
Proof. destruct src; cbn [share]; [assert (X := share_factor); lra|lra]. Qed.
Lemma watts_nonneg src : new_source src -> 0 <= watts src.
Proof. intros ((_ & _ & A & B) & _). unfold watts. apply Rmult_le_pos; assumption. Qed.
Lemma energy s dts srcs log R0 D heat h : 0 <= h -> Forall (fun d => 0 <= d <= h) dts -> Forall new_source srcs -> Forall (covers R0 D) srcs -> drive_run s 0 dts srcs = Ok log -> heats R0 D log heat ->
  Rabs (delivered log heat - Sum srcs (fun src => watts src * share src * asked (sumR dts) 0 (sp_segs (source_path src)))) <= h * Sum srcs (fun src => watts src * share src * jumps (sp_segs (source_path src))).
Proof.
  intros Hh F Nw C H Q. assert (N : Forall (fun d => 0 <= d) dts) by (eapply Forall_impl; [|exact F]; intros a A; simpl in A; lra).
  rewrite (delivered_eq s dts srcs log R0 D heat N Nw C H Q), <- Sum_minus, <- Sum_scal. apply Sum_abs_le. intros src I. rewrite Forall_forall in Nw. specialize (Nw src I).
  destruct (new_ready src Nw) as (_ & Nd & _). assert (E := energy_run s h dts (sp_segs (source_path src)) Hh F Nd). assert (W := watts_nonneg src Nw). assert (S0 := share_range src).
  rewrite <- Rmult_minus_distr_l, Rabs_mult. assert (P : 0 <= watts src * share src) by (apply Rmult_le_pos; lra). rewrite (Rabs_right (watts src * share src)) by lra.
  replace (h * (watts src * share src * jumps (sp_segs (source_path src)))) with (watts src * share src * (h * jumps (sp_segs (source_path src)))) by ring. apply Rmult_le_compat_l; [exact P|exact E].
Qed.
(** A run that goes on until the end of the path. *)
Lemma asked_all T segs : forall start, nondecreasing (start :: map et segs) -> Forall (fun s : seg RNum => et s <= T) segs -> start <= T -> asked T start segs = path_energy start segs.
Proof.
  induction segs as [|s r IH]; intros start H F L; [reflexivity|]. inversion F as [|? ? F1 F2]; subst. inversion H as [|? ? H1 H2]; subst.
  replace (asked T start (s :: r)) with (pw s * (Rmin T (et s) - Rmin T start) + asked T (et s) r) by reflexivity. rewrite (IH (et s) H1 F2 F1). rewrite !Rmin_right by lra. reflexivity.
Qed.
Lemma whole_path s dts srcs log R0 D heat h : 0 <= h -> Forall (fun d => 0 <= d <= h) dts -> Forall new_source srcs -> Forall (covers R0 D) srcs -> drive_run s 0 dts srcs = Ok log -> heats R0 D log heat ->
  (forall src (g : seg RNum), In src srcs -> In g (sp_segs (source_path src)) -> end_time g <= sumR dts) ->
  Rabs (delivered log heat - Sum srcs (fun src => watts src * share src * path_energy 0 (sp_segs (source_path src)))) <= h * Sum srcs (fun src => watts src * share src * jumps (sp_segs (source_path src))).
Proof.
  intros Hh F Nw C H Q E. rewrite <- (Sum_ext (fun src => watts src * share src * asked (sumR dts) 0 (sp_segs (source_path src)))); [exact (energy s dts srcs log R0 D heat h Hh F Nw C H Q)|].
  intros src I. rewrite Forall_forall in Nw. specialize (Nw src I). destruct (new_ready src Nw) as (_ & Nd & _). rewrite asked_all; [reflexivity|exact Nd| |].
  - apply Forall_forall. intros g Ig. exact (E src g I Ig).
  - apply sumR_nonneg. eapply Forall_impl; [|exact F]. intros a A. simpl in A. lra.
Qed.

(** ** Temperatures *)
Lemma f2len {A B} (P : A -> B -> Prop) l l' : Forall2 P l l' -> List.length l = List.length l'.
Proof. induction 1; simpl; congruence. Qed.
Lemma mesh_heat_sum m x srcs : power_in (m_cells m) (fun c q => Sum (map (fun s => match source_value true s (x c q) with Some v => v | None => 0 end) srcs) (fun b => b)) = Sum srcs (mesh_heat m x).
Proof.
  unfold mesh_heat, power_in. rewrite Sum_swap. apply Sum_ext. intros ic _. rewrite Sum_swap. apply Sum_ext. intros iq _. rewrite Sum_map, Sum_scal. reflexivity.
Qed.
Definition powers_nonneg (s : source) : Prop := Forall (fun g : seg RNum => 0 <= pw g) (sp_segs (source_path s)).
Lemma off_heat m x t s0 s' : at_time t s0 s' -> powers_nonneg s0 -> is_source_on s' = false -> mesh_heat m x s' = 0.
Proof.
  intros (s1 & L & Rd & U) P Off. destruct L as (_ & _ & _ & Sg). unfold powers_nonneg in P. rewrite <- Sg in P. rewrite Forall_forall in P.
  assert (Z : forall p, heat_of (source_value true s' p) = 0).
  { intros p. destruct s1 as [g|e]; simpl in U.
    - destruct (goldak_update_time g t) as [g'| |] eqn:E; cbn [bind] in U; try discriminate. injection U as <-. cbn [source_value is_source_on] in *.
      destruct (goldak_value true g' p) as [v|] eqn:V; [|reflexivity]. exact (goldak_off true g t g' p v E P Off V).
    - destruct (ebeam_update_time e t) as [g'| |] eqn:E; cbn [bind] in U; try discriminate. injection U as <-. cbn [source_value is_source_on] in *.
      destruct (ebeam_value true g' p) as [v|] eqn:V; [|reflexivity]. exact (ebeam_off true e t g' p v E P Off V). }
  unfold mesh_heat, power_in. apply Sum_zero. intros ic _. apply Sum_zero. intros iq _. rewrite Z. ring.
Qed.
Lemma all_off l : heat_sources_on l = false -> forall b, In b l -> b = false.
Proof. intros H [|] I; [|reflexivity]. apply sources_on in I. congruence. Qed.
Lemma srcs_heat m x t srcs0 srcs' : Forall2 (at_time t) srcs0 srcs' -> Forall powers_nonneg srcs0 ->
  (if heat_sources_on (map is_source_on srcs') then Sum srcs' (mesh_heat m x) else 0) = Sum srcs' (mesh_heat m x).
Proof.
  intros A P. destruct (heat_sources_on (map is_source_on srcs')) eqn:E; [reflexivity|]. symmetry.
  assert (O := all_off _ E). clear E. revert O. induction A as [|s0 s' l l' H A IH]; intros O; [reflexivity|]. inversion P as [|? ? P1 P2]; subst. rewrite Sum_cons.
  rewrite (off_heat m x t s0 s' H P1 (O _ (or_introl eq_refl))), IH; [ring|exact P2|]. intros b I. apply O. right. exact I.
Qed.
Lemma weights_states s dt (states : list (list source)) (G : list source -> R) : List.length states = List.length (quadrature s) ->
  dt * Sum (indexed (quadrature s)) (fun iq => snd (snd iq) * G (nth (fst iq) states [])) = Sum (combine (map (fun q => dt * snd q) (quadrature s)) states) (fun ws => fst ws * G (snd ws)).
Proof.
  intros L. destruct s; cbn [quadrature List.length] in L; repeat (destruct states as [|? states]; cbn [List.length] in L; try discriminate L);
  unfold indexed, quadrature; cbn [List.length seq combine map]; rewrite ?Sum_cons, ?Sum_nil; cbn [fst snd nth]; ring.
Qed.
Lemma beam_step_gain s m x (K : nat -> laws RNum) (F : nat -> face_laws RNum) rc states srcs0 t dt (y : list R) : mesh_ok m -> massive m -> 0 < rc -> List.length y = m_n m ->
  (forall i c q T, pl_inv (K i c q T) = / rc) -> Forall2 (fun t' srcs' => Forall2 (at_time t') srcs0 srcs') (stage_times s t dt) states -> Forall powers_nonneg srcs0 ->
  fst (beam_step true s m x K F states t dt y) = t + dt /\ List.length (snd (beam_step true s m x K F states t dt y)) = m_n m /\
  rc * integral (m_C m) (m_mass m) (entry (snd (beam_step true s m x K F states t dt y))) =
  rc * integral (m_C m) (m_mass m) (entry y) + Sum (combine (map (fun b => dt * b) (tableau_b (N := RNum) s)) states) (fun ws => fst ws * Sum (snd ws) (mesh_heat m x)).
Proof.
  intros Mok M P L I A Pp.
  set (on := fun (i : nat) (_ : R) => heat_sources_on (map is_source_on (nth i states []))).
  set (K' := fun (i : nat) (_ : R) => with_beams true (K i) x (nth i states [])). set (F' := fun (i : nat) (_ : R) => F i).
  assert (E : beam_step true s m x K F states t dt y = evolveR s (heat_rate true true m on K' F') t dt y) by reflexivity. rewrite E.
  split; [rewrite evolve_step; reflexivity|]. split; [rewrite evolve_step; cbn [snd]; apply (step_length (m_n m)); [intros; apply rate_length|exact L]|].
  rewrite (step_power true m on K' F' rc s t dt y Mok M P L).
  2: { intros i u c q T. unfold K', with_beams. cbn [pl_inv]. apply I. }
  2: { intros i u c q T T'. reflexivity. }
  f_equal. rewrite weights_eq.
  assert (Ls : List.length states = List.length (quadrature s)). { pose proof (f2len _ _ _ A) as A'. rewrite <- A', stage_times_eq, map_length. reflexivity. }
  rewrite <- (weights_states s dt states (fun srcs => Sum srcs (mesh_heat m x)) Ls). f_equal. apply Sum_ext. intros iq Iq. f_equal. cbv zeta. unfold on, K'.
  assert (Q : exists t', Forall2 (at_time t') srcs0 (nth (fst iq) states [])).
  { assert (Li : (fst iq < List.length states)%nat). { rewrite Ls. unfold indexed in Iq. destruct iq as [i q]. apply in_combine_l in Iq. apply in_seq in Iq. cbn [fst]. lia. }
    clear - A Li. revert Li. generalize (fst iq). induction A as [|t1 srcs1 ts states H A IH]; intros i Li; [simpl in Li; lia|]. destruct i as [|i]; [exists t1; exact H|]. apply IH. simpl in Li. lia. }
  destruct Q as (t' & Q). rewrite <- (srcs_heat m x t' srcs0 _ Q Pp). destruct (heat_sources_on (map is_source_on (nth (fst iq) states []))); [|reflexivity].
  exact (mesh_heat_sum m x (nth (fst iq) states [])).
Qed.
Lemma thermal_gain s m x (K : nat -> nat -> laws RNum) (F : nat -> nat -> face_laws RNum) rc dts : forall n t srcs0 srcs (y : list R) t' (y' : list R), mesh_ok m -> massive m -> 0 < rc -> List.length y = m_n m ->
  (forall n i c q T, pl_inv (K n i c q T) = / rc) -> Forall (fun d => 0 <= d) dts -> Forall2 like srcs0 srcs -> Forall (ready t) srcs -> Forall powers_nonneg srcs0 ->
  thermal_run true s m x K F n t dts srcs y = Ok (t', y') ->
  t' = t + sumR dts /\ exists log, drive_run s t dts srcs = Ok log /\
  rc * integral (m_C m) (m_mass m) (entry y') = rc * integral (m_C m) (m_mass m) (entry y) + delivered log (mesh_heat m x).
Proof.
  induction dts as [|dt dts IH]; intros n t srcs0 srcs y t' y' Mok M P L I Fd Lk Rd Pp H.
  - injection H as <- <-. split; [cbn; ring|]. exists []. split; [reflexivity|]. unfold delivered. rewrite Sum_nil. ring.
  - cbn [thermal_run] in H. destruct (drive srcs (stage_times s t dt)) as [states| |] eqn:E; cbn [bind] in H; try discriminate. inversion Fd as [|? ? D Fd']; subst.
    destruct (stage_times_increasing s t dt D) as (Inc & Up). destruct (drive_inv _ t srcs0 srcs states Inc Lk Rd E) as (A & B & C).
    destruct (beam_step_gain s m x (K n) (F n) rc states srcs0 t dt y Mok M P L (I n) A Pp) as (S1 & S2 & S3).
    destruct (beam_step true s m x (K n) (F n) states t dt y) as [t1 y1]. cbn [fst snd] in *. subst t1.
    destruct (IH (S n) (t + dt) srcs0 _ y1 t' y' Mok M P S2 I Fd' B (C (t + dt) Up) Pp H) as (T1 & log & G & Q). split; [rewrite T1; cbn; fold (sumR dts); ring|].
    exists (combine (map (fun b => dt * b) (tableau_b (N := RNum) s)) states ++ log). split; [cbn [drive_run]; rewrite E; cbn [bind]; rewrite G; reflexivity|].
    rewrite Q, S3. unfold delivered. rewrite Sum_app. apply Rplus_assoc.
Qed.
