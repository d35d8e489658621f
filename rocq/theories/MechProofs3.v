(** MechProofs3.v -- stress updates, whole histories, the displacement. *)
From Coq Require Import ZArith Bool List Floats Lia.
From Verif Require Import Base BaseFacts CellModel CellProofs2 CellProofs3 RefineProofs MechModel MechSpec MechProofs MechProofs2.
Import ListNotations.
Local Open Scope nat_scope.

(** ** A stress update *)
Lemma stress_ok nq nc nd w f u : well_formed nq nc nd w -> (forall pos m, shaped_data nq nc m -> shaped_data nq nc (f pos m)) ->
  exists w', run_step nq nc nd w (Stress f u) = Ok w' /\ well_formed nq nc nd w' /\ List.length (mw_data w') = List.length (mw_data w) /\ mw_cells w' = mw_cells w /\ mw_u w' = u /\
    forall pos c m, nth_error (mw_cells w) pos = Some c -> data_of w pos = Some m -> data_of w' pos = Some (if c_active c then f pos m else m).
Proof.
  intros WF HF. cbn [run_step].
  assert (forall r data, In data (mw_data w) -> exists out, stress_rank r f (mw_cells w) data = Ok out /\ List.length out = List.length (mw_cells w) /\
     forall pos c m, nth_error (mw_cells w) pos = Some c -> nth_error data pos = Some m -> nth_error out pos = Some (if Nat.eqb (c_owner c) r && c_active c then f pos m else m)) as SR.
  { intros r data HI. pose proof (mf_length _ _ _ _ WF data HI) as Ld. unfold stress_rank.
    destruct (mapRi (fun '(i, c) => do m <- at_ data i; Ok (if Nat.eqb (c_owner c) r && c_active c then f i m else m)) (mw_cells w)) as (out & E & L & H).
    - intros i c Ec. assert (i < List.length (mw_cells w)) by (apply nth_error_Some; congruence). destruct (nth_error data i) as [m|] eqn:Em; [|apply nth_error_None in Em; lia].
      rewrite (at_some _ _ _ Em). cbn. eexists. reflexivity.
    - exists out. split; [exact E|]. split; [exact L|]. intros pos c m Ec Em. destruct (H pos c Ec) as (y & Y1 & Y2). rewrite (at_some _ _ _ Em) in Y2. cbn in Y2. congruence. }
  destruct (mapRi (fun '(r, data) => stress_rank r f (mw_cells w) data) (mw_data w)) as (datas & E & L & H).
  { intros r data Er. destruct (SR r data (nth_error_In _ _ Er)) as (out & O & _). exists out. exact O. }
  rewrite E. cbn [bind]. eexists. split; [reflexivity|].
  assert (forall r out, nth_error datas r = Some out -> exists data, nth_error (mw_data w) r = Some data /\ List.length out = List.length (mw_cells w) /\
     forall pos c m, nth_error (mw_cells w) pos = Some c -> nth_error data pos = Some m -> nth_error out pos = Some (if Nat.eqb (c_owner c) r && c_active c then f pos m else m)) as HO.
  { intros r out Eo. assert (r < List.length (mw_data w)) by (rewrite <- L; apply nth_error_Some; congruence). destruct (nth_error (mw_data w) r) as [data|] eqn:Ed; [|apply nth_error_None in Ed; lia].
    exists data. split; [reflexivity|]. destruct (H r data Ed) as (y & Y1 & Y2). destruct (SR r data (nth_error_In _ _ Ed)) as (out' & O1 & O2 & O3). assert (out' = out) as -> by congruence. now split. }
  assert (forall pos c m, nth_error (mw_cells w) pos = Some c -> data_of w pos = Some m ->
            data_of {| mw_cells := mw_cells w; mw_data := datas; mw_u := u |} pos = Some (if c_active c then f pos m else m)) as HD.
  { intros pos c m Ec Em. destruct (data_of_some nq nc nd w pos c WF Ec) as (d & m' & A1 & A2 & A3 & _). assert (m' = m) as -> by congruence.
    assert (c_owner c < List.length datas) by (rewrite L; apply nth_error_Some; congruence). destruct (nth_error datas (c_owner c)) as [out|] eqn:Eo; [|apply nth_error_None in Eo; lia].
    destruct (HO _ _ Eo) as (data & D1 & D2 & D3). assert (data = d) as -> by congruence. rewrite (data_of_eq {| mw_cells := mw_cells w; mw_data := datas; mw_u := u |} pos c out Ec Eo). rewrite (D3 pos c m Ec A2). now rewrite Nat.eqb_refl. }
  split; [|split; [exact L| split; [reflexivity| split; [reflexivity| exact HD]]]].
  destruct WF as [W1 W2 W3 W4]. split; cbn [mw_cells mw_data]; try assumption.
  - intros c HI. rewrite L. now apply W2.
  - intros d HI. apply In_nth_error in HI. destruct HI as (r & Er). destruct (HO _ _ Er) as (data & _ & D & _). exact D.
  - intros pos m ED. destruct (nth_error (mw_cells w) pos) as [c|] eqn:Ec; [|unfold data_of in ED; cbn [mw_cells] in ED; rewrite Ec in ED; discriminate].
    destruct (data_of_some nq nc nd w pos c (Build_well_formed _ _ _ _ W1 W2 W3 W4) Ec) as (d & m0 & A1 & A2 & A3 & A4). rewrite (HD pos c m0 Ec A3) in ED. injection ED as <-.
    destruct (c_active c); [now apply HF| exact A4].
Qed.

(** ** Views *)
Lemma views_length w : List.length (views w) = List.length (mw_cells w).
Proof. unfold views. now rewrite map_length, seq_length. Qed.
Lemma views_nth w pos : pos < List.length (mw_cells w) -> nth_error (views w) pos = Some (view w pos).
Proof. intros H. unfold views. apply map_nth_error. rewrite (nth_error_nth' _ 0) by now rewrite seq_length. now rewrite seq_nth. Qed.
Lemma views_ext w' vs : List.length vs = List.length (mw_cells w') -> (forall pos, pos < List.length (mw_cells w') -> nth_error vs pos = Some (view w' pos)) -> views w' = vs.
Proof.
  intros L H. apply list_ext_nth; [now rewrite views_length|]. intros i Hi. rewrite views_nth by lia. symmetry. apply H. lia.
Qed.
Lemma combine_seq_nth {A} (l : list A) i x : nth_error l i = Some x -> nth_error (combine (seq 0 (List.length l)) l) i = Some (i, x).
Proof.
  assert (forall (l : list A) s i x, nth_error l i = Some x -> nth_error (combine (seq s (List.length l)) l) i = Some (s + i, x)) as G; [|exact (G l 0 i x)].
  clear. induction l as [|y l IH]; intros s [|i] x E; cbn in *; try discriminate; [injection E as <-; now rewrite Nat.add_0_r|]. rewrite (IH (S s) i x E). now rewrite Nat.add_succ_comm.
Qed.
Lemma combine_nth_error {A B} (a : list A) : forall (b : list B) i x y, nth_error a i = Some x -> nth_error b i = Some y -> nth_error (combine a b) i = Some (x, y).
Proof. induction a as [|x' a IH]; intros [|y' b] [|i] x y E F; cbn in *; try discriminate; [congruence| now apply IH]. Qed.

Lemma setup_views nq nc nd w ths rebuild have_u own : well_formed nq nc nd w -> List.length ths = List.length (views w) ->
  exists w', run_step nq nc nd w (Setup ths rebuild have_u own) = Ok w' /\ well_formed nq nc nd w' /\ List.length (mw_data w') = List.length (mw_data w) /\
    views w' = step_views nq nc (Setup ths rebuild have_u own) (views w).
Proof.
  intros WF LT. rewrite views_length in LT. destruct (setup_ok nq nc nd w ths rebuild have_u own WF LT) as (w' & E & WF' & LD & LC & HC & H1 & H2).
  exists w'. split; [exact E|]. split; [exact WF'|]. split; [exact LD|]. apply views_ext.
  { cbn [step_views]. rewrite map_length, combine_length, views_length. lia. }
  intros pos Hp. rewrite LC in Hp. destruct (nth_error (mw_cells w) pos) as [c|] eqn:Ec; [|apply nth_error_None in Ec; lia]. destruct (nth_error ths pos) as [t|] eqn:Et; [|apply nth_error_None in Et; lia].
  destruct (data_of_some nq nc nd w pos c WF Ec) as (d & m & A1 & A2 & A3 & A4).
  cbn [step_views]. pose proof (combine_nth_error ths (views w) pos t (view w pos) Et (views_nth w pos Hp)) as EN. refine (eq_trans (map_nth_error _ _ _ EN) _). f_equal. cbn [fst snd].
  unfold view. rewrite (HC pos c t Ec Et), Ec. cbn [after c_active].
  assert (solid t = true -> data_of w' pos = Some (if c_active c then m else fresh_data nq nc (th_limit t))) as HD.
  { intros ST. destruct (Bool.bool_dec (c_active c) true) as [AC|AC].
    - rewrite AC. destruct (Bool.bool_dec rebuild true) as [RB|RB].
      + destruct (H1 (or_introl RB)) as (D & _). rewrite (D pos c t m Ec Et A3). f_equal. unfold new_data, setup_cell, solid_threshold. rewrite Nat.eqb_refl. unfold solid in ST. apply andb_true_iff in ST. destruct ST as (S1 & S2). rewrite S1, S2, AC. reflexivity.
      + apply not_true_is_false in RB.
        destruct (existsb (fun p => match nth_error (mw_cells w) p, nth_error ths p with Some c, Some t => negb (Bool.eqb (c_active c) (solid t)) | _, _ => false end) (seq 0 (List.length (mw_cells w)))) eqn:EX.
        * apply existsb_exists in EX. destruct EX as (p & _ & EX). destruct (nth_error (mw_cells w) p) as [c0|] eqn:E0; [|discriminate]. destruct (nth_error ths p) as [t0|] eqn:T0; [|discriminate].
          assert (cell_changed c0 t0) as CH by (unfold cell_changed; intros EQ; rewrite EQ, eqb_reflx in EX; discriminate).
          destruct (H1 (or_intror (ex_intro _ p (ex_intro _ c0 (ex_intro _ t0 (conj E0 (conj T0 CH))))))) as (D & _).
          rewrite (D pos c t m Ec Et A3). f_equal. unfold new_data, setup_cell, solid_threshold. rewrite Nat.eqb_refl. unfold solid in ST. apply andb_true_iff in ST. destruct ST as (S1 & S2). rewrite S1, S2, AC. reflexivity.
        * assert (forall p c0 t0, nth_error (mw_cells w) p = Some c0 -> nth_error ths p = Some t0 -> ~ cell_changed c0 t0) as NC.
          { intros p c0 t0 E0 T0 CH. assert (In p (seq 0 (List.length (mw_cells w)))) as HI by (apply in_seq; split; [lia| apply nth_error_Some; congruence]).
            assert (existsb (fun p => match nth_error (mw_cells w) p, nth_error ths p with Some c, Some t => negb (Bool.eqb (c_active c) (solid t)) | _, _ => false end) (seq 0 (List.length (mw_cells w))) = true); [|congruence].
            apply existsb_exists. exists p. split; [exact HI|]. rewrite E0, T0. apply negb_true_iff, eqb_false_iff. exact CH. }
          destruct (H2 RB NC) as (D & _). unfold data_of. rewrite (HC pos c t Ec Et). cbn [after c_owner]. rewrite D, A1. exact A2.
    - apply not_true_is_false in AC. rewrite AC. assert (cell_changed c t) as CH by (unfold cell_changed; congruence).
      destruct (H1 (or_intror (ex_intro _ pos (ex_intro _ c (ex_intro _ t (conj Ec (conj Et CH))))))) as (D & _). rewrite (D pos c t m Ec Et A3). f_equal.
      unfold new_data, setup_cell, solid_threshold. rewrite Nat.eqb_refl. unfold solid in ST. apply andb_true_iff in ST. destruct ST as (S1 & S2). rewrite S1, S2, AC. reflexivity. }
  destruct (solid t) eqn:ST; [|reflexivity]. rewrite (HD eq_refl), A3. now destruct (c_active c).
Qed.
Lemma stress_views nq nc nd w f u : well_formed nq nc nd w -> (forall pos m, shaped_data nq nc m -> shaped_data nq nc (f pos m)) ->
  exists w', run_step nq nc nd w (Stress f u) = Ok w' /\ well_formed nq nc nd w' /\ List.length (mw_data w') = List.length (mw_data w) /\
    views w' = step_views nq nc (Stress f u) (views w).
Proof.
  intros WF HF. destruct (stress_ok nq nc nd w f u WF HF) as (w' & E & WF' & LD & EC & _ & H). exists w'. split; [exact E|]. split; [exact WF'|]. split; [exact LD|]. apply views_ext.
  { cbn [step_views]. rewrite map_length, combine_length, seq_length, views_length, EC. lia. }
  intros pos Hp. rewrite EC in Hp. destruct (nth_error (mw_cells w) pos) as [c|] eqn:Ec; [|apply nth_error_None in Ec; lia].
  destruct (data_of_some nq nc nd w pos c WF Ec) as (d & m & A1 & A2 & A3 & A4). cbn [step_views].
  refine (eq_trans (map_nth_error _ _ _ (combine_seq_nth (views w) pos (view w pos) (views_nth w pos Hp))) _). f_equal. cbn [fst snd].
  unfold view. rewrite EC, Ec. destruct (c_active c) eqn:AC; [|reflexivity]. rewrite A3, (H pos c m Ec A3), AC. reflexivity.
Qed.
Lemma mesh_views nq nc nd w mesh u : well_formed nq nc nd w ->
  (forall o c, In (o, c) mesh -> source o < List.length (views w) /\ c_owner c < List.length (mw_data w) /\ List.length (c_nodes c) = nd /\ (c_active c = true <-> nth (source o) (views w) None <> None)) ->
  exists w', run_step nq nc nd w (Mesh mesh u) = Ok w' /\ well_formed nq nc nd w' /\ List.length (mw_data w') = List.length (mw_data w) /\
    views w' = step_views nq nc (Mesh mesh u) (views w).
Proof.
  intros WF HM. destruct (transfer_ok nq nc nd nd w mesh u WF) as (w' & E & WF' & EC & _ & LD & H).
  { intros o c HI. destruct (HM o c HI) as (A & B & C & _). rewrite views_length in A. auto. }
  exists w'. split; [exact E|]. split; [exact WF'|]. split; [exact LD|]. apply views_ext.
  { cbn [step_views]. now rewrite map_length, EC, map_length. }
  intros pos Hp. rewrite EC, map_length in Hp. destruct (nth_error mesh pos) as [[o c]|] eqn:Em; [|apply nth_error_None in Em; lia]. cbn [step_views].
  refine (eq_trans (map_nth_error _ _ _ Em) _). f_equal. cbn [fst snd]. destruct (HM o c (nth_error_In _ _ Em)) as (A & B & C & D). rewrite views_length in A.
  pose proof (views_nth w (source o) A) as VN. rewrite (nth_error_nth _ _ None VN) in D |- *.
  destruct (H pos o c Em) as (H1 & H2). unfold view in D |- *. rewrite EC, (map_nth_error snd _ _ Em). cbn [snd].
  destruct (nth_error (mw_cells w) (source o)) as [src|] eqn:Es; [|apply nth_error_None in Es; lia].
  destruct (c_active c) eqn:AC, (c_active src) eqn:AS.
  - now rewrite H1.
  - exfalso. apply (proj1 D eq_refl). reflexivity.
  - exfalso. assert (false = true) by (apply D; exact H2). discriminate.
  - reflexivity.
Qed.
Lemma history_ok nq nc nd steps : forall w, well_formed nq nc nd w -> good_history nq nc nd (List.length (mw_data w)) (views w) steps ->
  exists w', mech_run nq nc nd steps w = Ok w' /\ well_formed nq nc nd w' /\ views w' = fold_left (fun vs s => step_views nq nc s vs) steps (views w).
Proof.
  induction steps as [|s steps IH]; intros w WF G.
  - exists w. split; [reflexivity|]. split; [exact WF| reflexivity].
  - destruct G as (G1 & G2).
    assert (exists w1, run_step nq nc nd w s = Ok w1 /\ well_formed nq nc nd w1 /\ List.length (mw_data w1) = List.length (mw_data w) /\ views w1 = step_views nq nc s (views w)) as (w1 & E1 & WF1 & L1 & V1).
    { destruct s; [now apply setup_views| now apply stress_views| now apply mesh_views]. }
    destruct (IH w1 WF1) as (w' & E & WF' & V); [rewrite L1, V1; exact G2|]. exists w'. unfold mech_run in *. rewrite (foldR_cons _ s steps w w1 E1). split; [exact E|]. split; [exact WF'|].
    cbn [fold_left]. now rewrite <- V1.
Qed.

(** ** The displacement *)
Lemma write_at owns n v : forall nodes values rw, List.length nodes = List.length values -> (forall i, nth_error nodes i = Some n -> nth_error values i = Some v) ->
  write_values owns nodes values rw n = if owns n && existsb (Nat.eqb n) nodes then v else rw n.
Proof.
  induction nodes as [|m nodes IH]; intros [|x values] rw L H; try discriminate; cbn [write_values existsb]; [now rewrite andb_false_r|].
  rewrite IH by (try (cbn in L; lia); intros i Ei; exact (H (S i) Ei)).
  destruct (Nat.eqb_spec n m) as [<-|NE].
  - cbn [orb]. rewrite andb_true_r. destruct (owns n) eqn:O; cbn [andb]; [|reflexivity]. rewrite Nat.eqb_refl. specialize (H 0 eq_refl). cbn in H. injection H as ->. now destruct (existsb (Nat.eqb n) nodes).
  - cbn [orb]. destruct (owns n) eqn:O; cbn [andb]; [|destruct (owns m); [destruct (Nat.eqb_spec n m); [contradiction|reflexivity]| reflexivity]].
    destruct (existsb (Nat.eqb n) nodes); [reflexivity|]. destruct (owns m); [|reflexivity]. now rewrite (proj2 (Nat.eqb_neq n m) NE).
Qed.
Section Displacement.
  Variables (nd r n : nat) (owns : nat -> bool) (u : nat -> float).
  Hypothesis ON : owns n = true.
  Definition tch (c : cell) : bool := Nat.eqb (c_owner c) r && c_active c && existsb (Nat.eqb n) (c_nodes c).
  Lemma restore_value : forall old new u0, List.length new = List.length old ->
    (forall i c c', nth_error old i = Some c -> nth_error new i = Some c' -> c_nodes c' = c_nodes c /\ c_owner c' = c_owner c /\ List.length (c_nodes c) = nd) ->
    let v := restore_displacement r owns new (save_displacement nd r old u) u0 n in
    (exists i c c', nth_error old i = Some c /\ nth_error new i = Some c' /\ tch c' = true /\ (forall j c2, i < j -> nth_error new j = Some c2 -> tch c2 = false) /\ v = if c_active c then u n else 0%float) \/
    ((forall j c2, nth_error new j = Some c2 -> tch c2 = false) /\ v = u0 n).
  Proof.
    induction old as [|c old IH]; intros [|c' new] u0 L H; cbn in L; try discriminate.
    - right. split; [intros [|j]; discriminate| reflexivity].
    - cbn [save_displacement map restore_displacement].
      destruct (H 0 c c' eq_refl eq_refl) as (N1 & N2 & N3).
      set (u1 := if Nat.eqb (c_owner c') r && c_active c' then write_values owns (c_nodes c') (if Nat.eqb (c_owner c) r && c_active c then map u (c_nodes c) else repeat 0%float nd) u0 else u0).
      assert (u1 n = if tch c' then (if c_active c then u n else 0%float) else u0 n) as U1.
      { unfold u1, tch. rewrite N2. destruct (Nat.eqb (c_owner c) r); cbn [andb]; [|reflexivity]. destruct (c_active c'); cbn [andb]; [|reflexivity]. rewrite N1. destruct (c_active c).
        - rewrite (write_at owns n (u n)); [now rewrite ON| now rewrite map_length| intros i Ei; exact (map_nth_error u _ _ Ei)].
        - rewrite (write_at owns n 0%float); [now rewrite ON| now rewrite repeat_length|]. intros i Ei. rewrite (nth_error_nth' _ 0%float); [now rewrite nth_repeat|]. rewrite repeat_length, <- N3. apply nth_error_Some. congruence. }
      destruct (IH new u1 ltac:(lia) (fun i a b A B => H (S i) a b A B)) as [(i & a & b & A & B & C & D & V)|(D & V)].
      + left. exists (S i), a, b. split; [exact A|]. split; [exact B|]. split; [exact C|]. split; [|exact V]. intros [|j] c2 Lj Ej; [lia|]. apply (D j c2); [lia| exact Ej].
      + unfold save_displacement in V. rewrite V, U1. destruct (tch c') eqn:T.
        * left. exists 0, c, c'. split; [reflexivity|]. split; [reflexivity|]. split; [exact T|]. split; [|reflexivity]. intros [|j] c2 Lj Ej; [lia|]. exact (D j c2 Ej).
        * right. split; [|reflexivity]. intros [|j] c2 Ej; [cbn in Ej; injection Ej as <-; exact T| exact (D j c2 Ej)].
  Qed.
End Displacement.
Lemma touches_tch w r n pos c : nth_error (mw_cells w) pos = Some c -> (touches w r n pos <-> tch r n c = true).
Proof.
  intros Ec. unfold touches, tch. rewrite !andb_true_iff, Nat.eqb_eq, existsb_exists. split.
  - intros (c0 & E0 & A & B & C). assert (c0 = c) as -> by congruence. repeat split; try assumption. exists n. split; [exact C| apply Nat.eqb_refl].
  - intros ((A & B) & (x & C & D)). apply Nat.eqb_eq in D. subst x. exists c. auto.
Qed.
Lemma displacement_value nq nc nd w ths rebuild own w' n pos : well_formed nq nc nd w -> List.length ths = List.length (mw_cells w) -> rebuilt w ths rebuild ->
  mech_setup nq nc nd w ths rebuild true own = Ok w' -> last_touch w' (own n) n pos ->
  (active_at w pos -> mw_u w' n = mw_u w n) /\ (~ active_at w pos -> mw_u w' n = 0%float).
Proof.
  intros WF LT RB E (T & TL). destruct (setup_ok nq nc nd w ths rebuild true own WF LT) as (w1 & E1 & WF' & LD & LC & HC & H1 & _). assert (w1 = w') as -> by congruence. clear E1.
  destruct (H1 RB) as (_ & U). rewrite U. clear U H1.
  assert (forall i c c', nth_error (mw_cells w) i = Some c -> nth_error (mw_cells w') i = Some c' -> c_nodes c' = c_nodes c /\ c_owner c' = c_owner c /\ List.length (c_nodes c) = nd) as HN.
  { intros i c c' Ec Ec'. assert (i < List.length (mw_cells w)) by (apply nth_error_Some; congruence). destruct (nth_error ths i) as [t|] eqn:Et; [|apply nth_error_None in Et; lia].
    rewrite (HC i c t Ec Et) in Ec'. injection Ec' as <-. repeat split. apply (mf_nodes _ _ _ _ WF). now apply (nth_error_In _ i). }
  destruct (restore_value nd (own n) n (fun k => Nat.eqb (own k) (own n)) (mw_u w) (Nat.eqb_refl _) (mw_cells w) (mw_cells w') (fun _ => 0%float) LC HN) as [(i & c & c' & A & B & C & D & V)|(D & _)].
  - assert (i = pos) as ->.
    { destruct (Nat.lt_trichotomy i pos) as [L|[L|L]]; [|exact L|].
      - exfalso. destruct T as (c2 & E2 & T2). pose proof (D pos c2 L E2) as X. apply (touches_tch w' (own n) n pos c2) in E2 as Y. rewrite (proj1 Y) in X; [discriminate|]. exists c2. now split.
      - exfalso. apply (TL i L). now apply (touches_tch w' (own n) n i c'). }
    rewrite V. split; intros HA.
    + destruct HA as (c0 & E0 & AC). assert (c0 = c) as -> by congruence. now rewrite AC.
    + destruct (c_active c) eqn:AC; [|reflexivity]. exfalso. apply HA. now exists c.
  - exfalso. destruct T as (c2 & E2 & T2). pose proof (D pos c2 E2) as X. pose proof (touches_tch w' (own n) n pos c2 E2) as Y. rewrite (proj1 Y) in X; [discriminate|]. exists c2. now split.
Qed.
Lemma last_touch_exists w r n : (exists pos, touches w r n pos) -> exists pos, last_touch w r n pos.
Proof.
  intros (p & T). assert (forall k p, touches w r n p -> List.length (mw_cells w) - p <= k -> exists pos, last_touch w r n pos) as G; [|exact (G _ p T (Nat.le_refl _))].
  clear. induction k as [|k IH]; intros p T L.
  - exfalso. destruct T as (c & E & _). assert (p < List.length (mw_cells w)) by (apply nth_error_Some; congruence). lia.
  - destruct (existsb (fun q => match nth_error (mw_cells w) q with Some c => tch r n c | None => false end) (seq (S p) (List.length (mw_cells w) - S p))) eqn:EX.
    + apply existsb_exists in EX. destruct EX as (q & HI & HQ). apply in_seq in HI. destruct (nth_error (mw_cells w) q) as [c|] eqn:Ec; [|discriminate]. apply (IH q); [now apply (touches_tch w r n q c)| lia].
    + exists p. split; [exact T|]. intros q Hq TQ. destruct TQ as (c & Ec & TQ).
      assert (existsb (fun q => match nth_error (mw_cells w) q with Some c => tch r n c | None => false end) (seq (S p) (List.length (mw_cells w) - S p)) = true); [|congruence].
      assert (q < List.length (mw_cells w)) by (apply nth_error_Some; congruence).
      apply existsb_exists. exists q. split; [apply in_seq; lia|]. rewrite Ec. apply (touches_tch w r n q c Ec). now exists c.
Qed.
Lemma displacement_kept nq nc nd w ths rebuild own w' n : well_formed nq nc nd w -> List.length ths = List.length (mw_cells w) ->
  mech_setup nq nc nd w ths rebuild true own = Ok w' -> (exists pos, touches w' (own n) n pos) -> (forall pos, touches w' (own n) n pos -> active_at w pos) ->
  mw_u w' n = mw_u w n.
Proof.
  intros WF LT E EX HA. destruct (last_touch_exists _ _ _ EX) as (pos & T).
  destruct (Bool.bool_dec rebuild true) as [RB|RB].
  - apply (displacement_value nq nc nd w ths rebuild own w' n pos WF LT (or_introl RB) E T). apply HA, T.
  - apply not_true_is_false in RB.
    destruct (existsb (fun p => match nth_error (mw_cells w) p, nth_error ths p with Some c, Some t => negb (Bool.eqb (c_active c) (solid t)) | _, _ => false end) (seq 0 (List.length (mw_cells w)))) eqn:CH.
    + apply existsb_exists in CH. destruct CH as (p & _ & CH). destruct (nth_error (mw_cells w) p) as [c0|] eqn:E0; [|discriminate]. destruct (nth_error ths p) as [t0|] eqn:T0; [|discriminate].
      assert (rebuilt w ths rebuild) as RT by (right; exists p, c0, t0; split; [exact E0| split; [exact T0|]]; intros EQ; rewrite EQ, eqb_reflx in CH; discriminate).
      apply (displacement_value nq nc nd w ths rebuild own w' n pos WF LT RT E T). apply HA, T.
    + destruct (setup_ok nq nc nd w ths rebuild true own WF LT) as (w1 & E1 & _ & _ & _ & _ & _ & H2). assert (w1 = w') as -> by congruence. clear E1.
      destruct (H2 RB) as (_ & U); [|now rewrite U]. intros p c0 t0 E0 T0 CC.
      assert (existsb (fun p => match nth_error (mw_cells w) p, nth_error ths p with Some c, Some t => negb (Bool.eqb (c_active c) (solid t)) | _, _ => false end) (seq 0 (List.length (mw_cells w))) = true); [|congruence].
      apply existsb_exists. exists p. split; [apply in_seq; split; [lia| apply nth_error_Some; congruence]|]. rewrite E0, T0. apply negb_true_iff, eqb_false_iff. exact CC.
Qed.
