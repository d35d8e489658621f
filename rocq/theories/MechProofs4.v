(** MechProofs4.v -- the constructor and one setup. *)
From Coq Require Import ZArith Bool List Floats Lia.
From Verif Require Import Base BaseFacts CellModel CellProofs2 CellProofs3 RefineProofs MechModel MechSpec MechProofs MechProofs2 MechProofs3.
Import ListNotations.
Local Open Scope nat_scope.

Lemma fresh_shaped nq nc x : shaped_data nq nc (fresh_data nq nc x).
Proof. unfold shaped_data, fresh_data. cbn. rewrite !repeat_length. repeat split; apply Forall_forall; intros t0 HI; apply repeat_spec in HI; subst; apply repeat_length. Qed.
Lemma construct_ok nq nc nd n_ranks cells solid limit : List.length solid = List.length cells -> List.length limit = List.length cells ->
  (forall c, In c cells -> List.length (fst c) = nd /\ snd c < n_ranks) ->
  exists w, construct nq nc n_ranks cells solid limit = Ok w /\ well_formed nq nc nd w /\ List.length (mw_data w) = n_ranks /\ List.length (mw_cells w) = List.length cells /\
    forall pos c s l, nth_error cells pos = Some c -> nth_error solid pos = Some s -> nth_error limit pos = Some l ->
      (active_at w pos <-> PrimFloat.ltb 0x1.fae147ae147aep-1 s = true) /\ data_of w pos = Some (stress_free nq nc l).
Proof.
  intros LS LL HC. unfold construct.
  destruct (mapRi (fun '(i, c) => do s <- at_ solid i; Ok (mkcell (fst c) (snd c) (PrimFloat.ltb solid_threshold s))) cells) as (cs & E1 & L1 & H1).
  { intros i c Ec. assert (i < List.length cells) as Hi by (apply nth_error_Some; congruence). destruct (nth_error solid i) as [s|] eqn:Es; [|apply nth_error_None in Es; lia].
    eexists. now rewrite (at_some _ _ _ Es). }
  rewrite E1. cbn [bind].
  set (g := fun (r : nat) '((i, c) : nat * (list nat * nat)) => if Nat.eqb (snd c) r then do l <- at_ limit i; Ok (fresh_data nq nc l) else Ok (fresh_data nq nc nan)).
  assert (forall r, exists d, mapR (g r) (combine (seq 0 (List.length cells)) cells) = Ok d /\ List.length d = List.length cells /\
             forall i (c : list nat * nat) l, nth_error cells i = Some c -> nth_error limit i = Some l -> exists m, nth_error d i = Some m /\ shaped_data nq nc m /\ (snd c = r -> m = stress_free nq nc l)) as HG.
  { intros r. destruct (mapRi (g r) cells) as (d & E & L & H).
    - intros i c Ec. assert (i < List.length cells) as Hi by (apply nth_error_Some; congruence). destruct (nth_error limit i) as [l|] eqn:El; [|apply nth_error_None in El; lia].
      unfold g. destruct (Nat.eqb (snd c) r); [|eexists; reflexivity]. eexists. now rewrite (at_some _ _ _ El).
    - exists d. split; [exact E|]. split; [exact L|]. intros i c l Ec El. destruct (H i c Ec) as (m & A & B). exists m. split; [exact A|]. unfold g in B. rewrite (at_some _ _ _ El) in B. cbn [bind] in B.
      destruct (Nat.eqb_spec (snd c) r) as [EQ|NE]; injection B as <-; (split; [apply fresh_shaped|]); [reflexivity| congruence]. }
  destruct (mapR_seq (fun r => mapR (g r) (combine (seq 0 (List.length cells)) cells)) n_ranks) as (ds & E2 & L2 & H2).
  { intros r _. destruct (HG r) as (d & E & _). now exists d. }
  eexists. split; [refine (eq_trans (bind_ok _ _ _ E2) _); reflexivity|].
  assert (forall pos c, nth_error cs pos = Some c -> exists c0 s, nth_error cells pos = Some c0 /\ nth_error solid pos = Some s /\ c = mkcell (fst c0) (snd c0) (PrimFloat.ltb solid_threshold s)) as INV.
  { intros pos c Ec. assert (pos < List.length cells) as Hp by (rewrite <- L1; apply nth_error_Some; congruence).
    destruct (nth_error cells pos) as [c0|] eqn:E0; [|apply nth_error_None in E0; lia]. destruct (nth_error solid pos) as [s|] eqn:Es; [|apply nth_error_None in Es; lia].
    exists c0, s. destruct (H1 pos c0 E0) as (y & Y1 & Y2). rewrite (at_some _ _ _ Es) in Y2. cbn [bind] in Y2. injection Y2 as <-. split; [reflexivity|]. split; [reflexivity|]. congruence. }
  assert (forall r d, nth_error ds r = Some d -> List.length d = List.length cells /\ forall i (c : list nat * nat) l, nth_error cells i = Some c -> nth_error limit i = Some l -> exists m, nth_error d i = Some m /\ shaped_data nq nc m /\ (snd c = r -> m = stress_free nq nc l)) as HD.
  { intros r d Er. assert (r < n_ranks) as Hr by (rewrite <- L2; apply nth_error_Some; congruence). destruct (H2 r Hr) as (y & Y1 & Y2). assert (y = d) as -> by congruence.
    destruct (HG r) as (d' & E & A). assert (d' = d) as -> by congruence. exact A. }
  split; [|split; [exact L2| split; [exact L1|]]].
  - split; cbn [mw_cells mw_data].
    + intros c HI. apply In_nth_error in HI. destruct HI as (pos & Ep). destruct (INV pos c Ep) as (c0 & s & A & _ & ->). cbn. apply HC. now apply (nth_error_In _ pos).
    + intros c HI. apply In_nth_error in HI. destruct HI as (pos & Ep). destruct (INV pos c Ep) as (c0 & s & A & _ & ->). cbn. rewrite L2. apply HC. now apply (nth_error_In _ pos).
    + intros d HI. apply In_nth_error in HI. destruct HI as (r & Er). rewrite L1. apply (HD r d Er).
    + intros pos m EM. unfold data_of in EM. cbn [mw_cells mw_data] in EM. destruct (nth_error cs pos) as [c|] eqn:Ep; [|discriminate].
      destruct (INV pos c Ep) as (c0 & s & A & _ & ->). cbn [c_owner] in EM. destruct (nth_error ds (snd c0)) as [d|] eqn:Ed; [|discriminate].
      assert (pos < List.length cells) as Hp by (apply nth_error_Some; congruence). destruct (nth_error limit pos) as [l|] eqn:El; [|apply nth_error_None in El; lia].
      destruct (HD _ _ Ed) as (_ & F). destruct (F pos c0 l A El) as (m' & M1 & M2 & _). congruence.
  - intros pos c s l Ec Es El. destruct (H1 pos c Ec) as (y & Y1 & Y2). rewrite (at_some _ _ _ Es) in Y2. cbn [bind] in Y2. injection Y2 as <-. split.
    + unfold active_at. cbn [mw_cells]. split.
      * intros (c' & A & B). rewrite Y1 in A. injection A as <-. exact B.
      * intros B. eexists. split; [exact Y1| exact B].
    + unfold data_of. cbn [mw_cells mw_data]. rewrite Y1. cbn [c_owner]. destruct (HC c (nth_error_In _ _ Ec)) as (_ & Hr). destruct (nth_error ds (snd c)) as [d|] eqn:Ed; [|apply nth_error_None in Ed; lia].
      destruct (HD _ _ Ed) as (_ & F). destruct (F pos c l Ec El) as (m & M1 & _ & M3). now rewrite M1, (M3 eq_refl).
Qed.

Lemma setup_activity nq nc nd w ths rebuild have_u own : well_formed nq nc nd w -> List.length ths = List.length (mw_cells w) ->
  exists w', mech_setup nq nc nd w ths rebuild have_u own = Ok w' /\ well_formed nq nc nd w' /\ List.length (mw_cells w') = List.length (mw_cells w) /\
    forall pos t, nth_error ths pos = Some t ->
      (active_at w' pos <-> PrimFloat.ltb 0x1.fae147ae147aep-1 (th_solid t) = true /\ th_active t = true) /\
      (active_at w' pos -> active_at w pos -> data_of w' pos = data_of w pos) /\
      (active_at w' pos -> ~ active_at w pos -> data_of w' pos = Some (stress_free nq nc (th_limit t))).
Proof.
  intros WF LT. destruct (setup_ok nq nc nd w ths rebuild have_u own WF LT) as (w1 & E1 & WF1 & _ & LC & HC & _).
  destruct (setup_views nq nc nd w ths rebuild have_u own WF) as (w' & E & _ & _ & V); [now rewrite views_length|].
  cbn [run_step] in E. assert (w1 = w') as -> by congruence. exists w'. split; [exact E|]. split; [exact WF1|]. split; [exact LC|]. intros pos t Et.
  assert (pos < List.length (mw_cells w)) as Hp by (rewrite <- LT; apply nth_error_Some; congruence).
  destruct (nth_error (mw_cells w) pos) as [c|] eqn:Ec; [|apply nth_error_None in Ec; lia]. pose proof (HC pos c t Ec Et) as Ec'.
  assert (active_at w' pos <-> solid t = true) as A1.
  { split; [intros (c' & A & B); rewrite Ec' in A; injection A as <-; exact B| intros B; eexists; split; [exact Ec'| exact B]]. }
  assert (active_at w pos <-> c_active c = true) as A0.
  { split; [intros (c' & A & B); rewrite Ec in A; injection A as <-; exact B| intros B; eexists; split; [exact Ec| exact B]]. }
  split; [rewrite A1; unfold solid; apply andb_true_iff|].
  assert (view w' pos = if solid t then match view w pos with Some m => Some m | None => Some (stress_free nq nc (th_limit t)) end else None) as VP.
  { assert (nth_error (views w') pos = Some (view w' pos)) as VN by (apply views_nth; lia). rewrite V in VN. cbn [step_views] in VN.
    rewrite (map_nth_error _ _ _ (combine_nth_error ths (views w) pos t (view w pos) Et (views_nth w pos Hp))) in VN. injection VN as <-. reflexivity. }
  destruct (data_of_some nq nc nd w pos c WF Ec) as (d & m & _ & _ & DM & _).
  split; intros H1 H0.
  - apply A1 in H1. apply A0 in H0. rewrite H1 in VP. unfold view in VP. rewrite Ec', Ec, H0 in VP. cbn [after c_active] in VP. rewrite H1, DM in VP. now rewrite VP.
  - apply A1 in H1. assert (c_active c = false) as H0' by (destruct (c_active c); [exfalso; apply H0, A0; reflexivity| reflexivity]).
    rewrite H1 in VP. unfold view in VP. rewrite Ec', Ec, H0' in VP. cbn [after c_active] in VP. rewrite H1 in VP. exact VP.
Qed.
Lemma setup_unchanged nq nc nd w ths have_u own : well_formed nq nc nd w -> List.length ths = List.length (mw_cells w) -> ~ rebuilt w ths false ->
  exists w', mech_setup nq nc nd w ths false have_u own = Ok w' /\ mw_data w' = mw_data w /\ (forall n, mw_u w' n = mw_u w n) /\ forall pos, active_at w' pos <-> active_at w pos.
Proof.
  intros WF LT NR. destruct (setup_ok nq nc nd w ths false have_u own WF LT) as (w' & E & _ & _ & LC & HC & _ & H2).
  assert (forall pos c t, nth_error (mw_cells w) pos = Some c -> nth_error ths pos = Some t -> c_active c = solid t) as EQ.
  { intros pos c t Ec Et. destruct (Bool.bool_dec (c_active c) (solid t)) as [H|H]; [exact H|]. exfalso. apply NR. right. now exists pos, c, t. }
  exists w'. split; [exact E|]. destruct (H2 eq_refl) as (A & B); [intros pos c t Ec Et H; exact (H (EQ pos c t Ec Et))|]. split; [exact A|]. split; [intros n; now rewrite B|].
  intros pos. unfold active_at. destruct (nth_error (mw_cells w) pos) as [c|] eqn:Ec.
  - assert (pos < List.length (mw_cells w)) as Hp by (apply nth_error_Some; congruence). destruct (nth_error ths pos) as [t|] eqn:Et; [|apply nth_error_None in Et; lia].
    rewrite (HC pos c t Ec Et). split; intros (c' & X & Y); injection X as <-; (eexists; split; [reflexivity|]); cbn [after c_active] in *; pose proof (EQ pos c t Ec Et); congruence.
  - assert (nth_error (mw_cells w') pos = None) as -> by (apply nth_error_None; rewrite LC; now apply nth_error_None). reflexivity.
Qed.
