(** ComparisonProofs3.v -- any scheme: what starts warmer stays warmer. *)
From Coq Require Import Reals List Bool String ZArith Lra Lia.
From Verif Require Import Base MaterialModel MaterialSpec InputModel HeatModel HeatSpec MaterialProofs MaterialProofs2 HeatProofs HeatProofs2 HeatProofs3 HeatProofs4 HeatProofs5 HeatProofs7 HeatExamples
  StabilitySpec StabilityProofs StabilityProofs2 StabilityProofs3 StabilityExamples MaximumSpec MaximumProofs MaximumProofs2 MaximumExamples RadiationSpec RadiationProofs EnergyModel EnergySpec SuperpositionSpec SuperpositionProofs ComparisonSpec ComparisonProofs.
Import ListNotations.
Open Scope R_scope.

Lemma still_between dim3 ad s m (P : nat -> frozen) (Q : nat -> frozen_faces) hi start : mesh_ok m -> massive m -> (ad = false -> no_radiation m) -> 0 <= hi ->
  forall dts n t (y : list R), (forall k dt, nth_error dts k = Some dt -> 0 <= dt /\ downhill dim3 ad m (P (n + k)%nat) (Q (n + k)%nat) dt /\ (ad = false -> sound_faces m (Q (n + k)%nat))) -> List.length y = m_n m -> between m 0 hi y ->
  between m 0 hi (temperatures dim3 ad s m (mksc (fun _ _ => false) (fun n _ c q _ => P n c q) (fun n _ j q _ => still (Q n) j q) start) n t dts y).
Proof.
  intros Mok M NR Hi0. induction dts as [|dt dts IH]; intros n t y Sh L B; [exact B|]. cbn [temperatures sc_on sc_laws sc_faces].
  destruct (Sh 0%nat dt eq_refl) as (D0 & Dn & Sf). rewrite Nat.add_0_r in Dn, Sf.
  pose proof (evolve_between dim3 ad s m (fun c q _ => P n c q) (P n) (fun j q _ => still (Q n) j q) (still (Q n)) 0 hi t dt y Mok M L) as Ev.
  assert (Len : List.length (snd (evolve (N := RNum) s (fun _ _ v => evaluate (N := RNum) dim3 false ad m (fun c q _ => P n c q) (fun j q _ => still (Q n) j q) v) t dt y)) = m_n m).
  { match goal with |- List.length (snd ?e) = _ => change e with (evolveR s (fun _ _ v => evaluate (N := RNum) dim3 false ad m (fun c q _ => P n c q) (fun j q _ => still (Q n) j q) v) t dt y) end. rewrite evolve_step. cbn [snd].
    apply step_length; [intros; apply rate_length|exact L]. }
  match type of Len with List.length (snd ?e) = _ => set (ev := e) in *; change (between m 0 hi (let '(t1, y1) := ev in temperatures dim3 ad s m (mksc (fun _ _ => false) (fun n _ c q _ => P n c q) (fun n _ j q _ => still (Q n) j q) start) (S n) t1 dts y1)) end.
  assert (B1 : between m 0 hi (snd ev)).
  { apply Ev; try assumption.
    - destruct s; cbn [laws_of_step]; split; intros; reflexivity.
    - intros Ad. exists 0. split; [|lra]. intros j f I Ob. destruct (Sf Ad j f I Ob) as [S1 S2]. split; [|split; [exact S1|]].
      + pose proof (in_indexed _ _ I) as If. cbn [snd] in If. exact (proj1 (Forall_forall _ _) (NR Ad) f If Ob).
      + intros q. destruct (S2 q) as [Q1 Q2]. cbn [still fl_inv fl_h fl_conv]. split; [exact Q1|]. split; [exact Q2|]. intros; reflexivity. }
  destruct ev as [t1 y1]. cbn [snd] in *. apply IH; [|exact Len|exact B1]. intros k d E. replace (S n + k)%nat with (n + S k)%nat by lia. exact (Sh (S k) d E).
Qed.
Lemma warmer_start dim3 ad s m (P : nat -> frozen) (Q : nat -> frozen_faces) A B dts : mesh_ok m -> massive m -> (ad = false -> no_radiation m) -> same_heat P Q A B ->
  List.length (sc_start A) = m_n m -> List.length (sc_start B) = m_n m -> no_colder m (sc_start A) (sc_start B) ->
  (forall n dt, nth_error dts n = Some dt -> 0 <= dt /\ downhill dim3 ad m (P n) (Q n) dt /\ (ad = false -> sound_faces m (Q n))) ->
  no_colder m (final dim3 ad s m A dts) (final dim3 ad s m B dts).
Proof.
  intros Mok M NR [H1 H2] LA LB Le Sh.
  set (d := sadd (N := RNum) (sc_start B) (-1) (sc_start A)). assert (Ld : List.length d = m_n m) by (etransitivity; [apply saddR_length; rewrite LA; exact LB|exact LB]).
  assert (Ed : forall j, entry d j = entry (sc_start B) j + -1 * entry (sc_start A) j) by (intros j; apply entry_sadd; rewrite LA; exact LB).
  set (D := mksc (fun _ _ => false) (fun n _ c q _ => P n c q) (fun n _ j q _ => still (Q n) j q) d).
  assert (C : combines m [(1, B); (-1, A)] D).
  { split; [|split; [exact Ld|split; [|split]]].
    - intros w I. cbn [In] in I. destruct I as [<-|[<-|[]]]; cbn [snd]; (split; [|assumption]); split.
      + intros n i c q T T'. exact (proj1 (proj2 (H1 n i c q T T))).
      + intros n i j q T T'. destruct (H2 n i j q T T) as (_ & _ & E1 & E2 & _). exact (conj E1 E2).
      + intros n i c q T T'. exact (proj1 (H1 n i c q T T)).
      + intros n i j q T T'. destruct (H2 n i j q T T) as (E1 & E2 & _). exact (conj E1 E2).
    - intros n i c q T Ts. rewrite !Sum_cons, Sum_nil. cbn [fst snd D sc_on]. destruct (H1 n i c q (Ts A) (Ts B)) as (_ & _ & E). rewrite E. unfold heat_density at 1. ring.
    - intros n i j q T Ts. rewrite !Sum_cons, Sum_nil. cbn [fst snd]. destruct (H2 n i j q (Ts A) (Ts B)) as (_ & _ & _ & _ & E). cbn [D sc_faces still fl_conv]. cbn [num RNum] in *. rewrite E. ring.
    - intros j. rewrite !Sum_cons, Sum_nil. cbn [fst snd D sc_start]. rewrite Ed. ring. }
  intros j Fj. pose proof (superposition dim3 ad s m [(1, B); (-1, A)] D dts j Mok NR C) as Su. rewrite !Sum_cons, Sum_nil in Su. cbn [fst snd] in Su.
  set (hi := Sum (seq 0 (m_n m)) (fun k => Rabs (entry d k))).
  assert (Hi0 : 0 <= hi) by (apply Sum_nonneg; intros; apply Rabs_pos).
  assert (B0 : between m 0 hi d).
  { intros k Fk. split; [rewrite Ed; specialize (Le k Fk); lra|]. assert (E : Sum (seq 0 (m_n m)) (fun i => entry d i * hat i k) = entry d k) by (apply sum_hat; exact (proj1 Fk)). rewrite <- E at 1. apply Sum_le. intros i _.
    pose proof (hat_range m i k Fk) as Hh. pose proof (Rle_abs (entry d i)) as Ha. pose proof (Rabs_pos (entry d i)) as Hb. nra. }
  pose proof (still_between dim3 ad s m P Q hi d Mok M NR Hi0 dts 0 0 d Sh Ld B0 j Fj) as [Bd _]. change (0 <= entry (final dim3 ad s m D dts) j) in Bd. lra.
Qed.
