(** MechProofs2.v -- transfer, setup, stress updates and whole histories. *)
From Coq Require Import ZArith Bool List Floats Lia.
From Verif Require Import Base BaseFacts CellModel CellProofs2 CellProofs3 RefineProofs MechModel MechSpec MechProofs.
Import ListNotations.
Local Open Scope nat_scope.

Lemma data_of_some nq nc nd w pos c : well_formed nq nc nd w -> nth_error (mw_cells w) pos = Some c ->
  exists d m, nth_error (mw_data w) (c_owner c) = Some d /\ nth_error d pos = Some m /\ data_of w pos = Some m /\ shaped_data nq nc m.
Proof.
  intros [W1 W2 W3 W4] E. pose proof (W2 c (nth_error_In _ _ E)) as H. destruct (nth_error (mw_data w) (c_owner c)) as [d|] eqn:Ed; [|apply nth_error_None in Ed; lia].
  pose proof (W3 d (nth_error_In _ _ Ed)) as Ld. assert (pos < List.length (mw_cells w)) as Hp by (apply nth_error_Some; congruence).
  destruct (nth_error d pos) as [m|] eqn:Em; [|apply nth_error_None in Em; lia]. exists d, m.
  assert (data_of w pos = Some m) as ED by (unfold data_of; now rewrite E, Ed). repeat split; try assumption; apply (W4 pos m ED).
Qed.
Lemma data_of_eq w pos c d : nth_error (mw_cells w) pos = Some c -> nth_error (mw_data w) (c_owner c) = Some d -> data_of w pos = nth_error d pos.
Proof. intros A B. unfold data_of. now rewrite A, B. Qed.

(** ** Transfer *)
Section Transfer.
  Variables (nq nc nd nd' : nat) (w : mworld) (mesh : list (origin * cell)) (u : nat -> float).
  Hypothesis WF : well_formed nq nc nd w.
  Hypothesis HM : forall o c, In (o, c) mesh -> source o < List.length (mw_cells w) /\ c_owner c < List.length (mw_data w) /\ List.length (c_nodes c) = nd'.
  Lemma prepare_ok r data : nth_error (mw_data w) r = Some data ->
    exists ds, prepare_transfer nq nc r (mw_cells w) data = Ok ds /\ List.length ds = List.length (mw_cells w) /\
      forall pos c, nth_error (mw_cells w) pos = Some c -> c_owner c = r -> exists x m, nth_error ds pos = Some x /\ data_of w pos = Some m /\ unpack_mech nq nc x = Ok m.
  Proof.
    intros Er. unfold prepare_transfer.
    destruct (mapRi (fun '(i, c) => if c_owner c =? r then do m <- at_ data i; pack_mech nq nc m else Ok (repeat inf (nq * n_doubles_per_quad nc))) (mw_cells w)) as (ds & E & L & H).
    - intros i c Ec. cbn. destruct (Nat.eqb_spec (c_owner c) r) as [EQ|NE]; [|eexists; reflexivity].
      destruct (data_of_some nq nc nd w i c WF Ec) as (d & m & A1 & A2 & A3 & A4). rewrite EQ, Er in A1. injection A1 as <-. rewrite (at_some _ _ _ A2). cbn [bind].
      destruct (round_trip nq nc m A4) as (x & X1 & _). exists x. exact X1.
    - exists ds. split; [exact E|]. split; [exact L|]. intros pos c Ec EQ. destruct (H pos c Ec) as (x & X1 & X2). cbn in X2. rewrite EQ, Nat.eqb_refl in X2.
      destruct (data_of_some nq nc nd w pos c WF Ec) as (d & m & A1 & A2 & A3 & A4). rewrite EQ, Er in A1. injection A1 as <-. rewrite (at_some _ _ _ A2) in X2. cbn [bind] in X2.
      destruct (round_trip nq nc m A4) as (x' & Y1 & _ & Y3). assert (x' = x) as -> by congruence. exists x, m. auto.
  Qed.
  Lemma complete_ok sent r data : List.length sent = List.length (mw_data w) ->
    (forall s ds, nth_error sent s = Some ds -> exists dt, nth_error (mw_data w) s = Some dt /\ prepare_transfer nq nc s (mw_cells w) dt = Ok ds) ->
    exists out, complete_transfer nq nc r (mw_cells w) sent mesh data = Ok out /\ List.length out = List.length mesh /\
      forall pos o c, nth_error mesh pos = Some (o, c) -> c_owner c = r -> nth_error out pos = data_of w (source o).
  Proof.
    intros LS HS. unfold complete_transfer.
    assert (forall o c, In (o, c) mesh -> exists m, data_of w (source o) = Some m /\
      (do src <- at_ (mw_cells w) (source o); do d <- at_ sent (c_owner src); do x <- at_ d (source o); unpack_mech nq nc x) = Ok m) as G.
    { intros o c HI. destruct (HM o c HI) as (M1 & _). destruct (nth_error (mw_cells w) (source o)) as [src|] eqn:Es; [|apply nth_error_None in Es; lia].
      destruct (data_of_some nq nc nd w (source o) src WF Es) as (d & m & A1 & A2 & A3 & A4).
      assert (c_owner src < List.length sent) as Ho by (rewrite LS; apply nth_error_Some; congruence).
      destruct (nth_error sent (c_owner src)) as [ds|] eqn:Eds; [|apply nth_error_None in Eds; lia]. destruct (HS _ _ Eds) as (dt & D1 & D2).
      destruct (prepare_ok (c_owner src) dt D1) as (ds' & P1 & P2 & P3). assert (ds' = ds) as -> by congruence.
      destruct (P3 (source o) src Es eq_refl) as (x & m' & X1 & X2 & X3). assert (m' = m) as -> by congruence.
      exists m. split; [exact A3|]. rewrite (at_some _ _ _ Es). cbn [bind]. rewrite (at_some _ _ _ Eds). cbn [bind]. rewrite (at_some _ _ _ X1). exact X3. }
    destruct (mapRi (fun '(i, (o, c)) => if c_owner c =? r then do src <- at_ (mw_cells w) (source o); do d <- at_ sent (c_owner src); do x <- at_ d (source o); unpack_mech nq nc x
                       else Ok (nth i data (fresh_data nq nc 0))) mesh) as (out & E & L & H).
    - intros i [o c] Ec. cbn. destruct (Nat.eqb (c_owner c) r); [|eexists; reflexivity]. destruct (G o c (nth_error_In _ _ Ec)) as (m & _ & M2). exists m. exact M2.
    - exists out. split; [exact E|]. split; [exact L|]. intros pos o c Ec EQ. destruct (H pos (o, c) Ec) as (y & Y1 & Y2). cbn in Y2. rewrite EQ, Nat.eqb_refl in Y2.
      destruct (G o c (nth_error_In _ _ Ec)) as (m & M1 & M2). rewrite Y1, M1. congruence.
  Qed.
  Lemma transfer_ok : exists w', transfer nq nc w mesh u = Ok w' /\ well_formed nq nc nd' w' /\ mw_cells w' = map snd mesh /\ mw_u w' = u /\
    List.length (mw_data w') = List.length (mw_data w) /\
    forall pos o c, nth_error mesh pos = Some (o, c) -> data_of w' pos = data_of w (source o) /\ data_of w (source o) <> None.
  Proof.
    unfold transfer.
    destruct (mapRi (fun '(r, data) => prepare_transfer nq nc r (mw_cells w) data) (mw_data w)) as (sent & E1 & L1 & H1).
    { intros r data Er. destruct (prepare_ok r data Er) as (ds & P & _). exists ds. exact P. }
    rewrite E1. cbn [bind].
    assert (forall s ds, nth_error sent s = Some ds -> exists dt, nth_error (mw_data w) s = Some dt /\ prepare_transfer nq nc s (mw_cells w) dt = Ok ds) as HS.
    { intros s ds Es. assert (s < List.length (mw_data w)) as Hs by (rewrite <- L1; apply nth_error_Some; congruence).
      destruct (nth_error (mw_data w) s) as [dt|] eqn:Ed; [|apply nth_error_None in Ed; lia]. exists dt. split; [reflexivity|].
      destruct (H1 s dt Ed) as (y & Y1 & Y2). congruence. }
    destruct (mapRi (fun '(r, data) => complete_transfer nq nc r (mw_cells w) sent mesh data) (mw_data w)) as (datas & E2 & L2 & H2).
    { intros r data Er. destruct (complete_ok sent r data L1 HS) as (out & P & _). exists out. exact P. }
    rewrite E2. cbn [bind]. eexists. split; [reflexivity|].
    assert (forall r out, nth_error datas r = Some out -> List.length out = List.length mesh /\
              forall pos o c, nth_error mesh pos = Some (o, c) -> c_owner c = r -> nth_error out pos = data_of w (source o)) as H3.
    { intros r out Eo. assert (r < List.length (mw_data w)) as Hr by (rewrite <- L2; apply nth_error_Some; congruence).
      destruct (nth_error (mw_data w) r) as [dt|] eqn:Ed; [|apply nth_error_None in Ed; lia]. destruct (H2 r dt Ed) as (y & Y1 & Y2).
      destruct (complete_ok sent r dt L1 HS) as (out' & P1 & P2 & P3). assert (out' = out) as -> by congruence. now split. }
    assert (forall pos o c, nth_error mesh pos = Some (o, c) -> data_of {| mw_cells := map snd mesh; mw_data := datas; mw_u := u |} pos = data_of w (source o) /\ data_of w (source o) <> None) as H4.
    { intros pos o c Ec. destruct (HM o c (nth_error_In _ _ Ec)) as (M1 & M2 & M3). split.
      - destruct (nth_error datas (c_owner c)) as [out|] eqn:Eo; [|apply nth_error_None in Eo; lia].
        rewrite (data_of_eq _ pos c out); [|exact (map_nth_error snd _ _ Ec)| exact Eo]. destruct (H3 _ _ Eo) as (_ & P). exact (P pos o c Ec eq_refl).
      - destruct (nth_error (mw_cells w) (source o)) as [src|] eqn:Es; [|apply nth_error_None in Es; lia].
        destruct (data_of_some nq nc nd w (source o) src WF Es) as (d & m & A1 & A2 & A3 & A4). congruence. }
    split; [|repeat split; try (exact L2); try apply (H4 pos o c H)].
    split; cbn [mw_cells mw_data].
    - intros c HI. apply in_map_iff in HI. destruct HI as ([o c'] & <- & HI). exact (proj2 (proj2 (HM o c' HI))).
    - intros c HI. apply in_map_iff in HI. destruct HI as ([o c'] & <- & HI). cbn. rewrite L2. exact (proj1 (proj2 (HM o c' HI))).
    - intros d HI. apply In_nth_error in HI. destruct HI as (r & Er). rewrite map_length. exact (proj1 (H3 r d Er)).
    - intros pos m ED. unfold data_of in ED. cbn [mw_cells mw_data] in ED. destruct (nth_error (map snd mesh) pos) as [c|] eqn:Ec; [|discriminate].
      destruct (nth_error mesh pos) as [[o c']|] eqn:Em; [|apply nth_error_None in Em; rewrite (proj2 (nth_error_None _ _)) in Ec by (now rewrite map_length); discriminate].
      pose proof (H4 pos o c' Em) as (H5 & _). assert (data_of {| mw_cells := map snd mesh; mw_data := datas; mw_u := u |} pos = Some m) as ED' by (unfold data_of; cbn [mw_cells mw_data]; now rewrite Ec).
      rewrite ED' in H5. destruct WF as [_ _ _ W4]. exact (W4 _ m (eq_sym H5)).
  Qed.
End Transfer.

(** ** Setup *)
Section Setup.
  Variables (nq nc nd : nat) (w : mworld) (ths : list thermal_cell) (rebuild have_u : bool) (dof_owner : nat -> nat).
  Hypothesis WF : well_formed nq nc nd w.
  Hypothesis LT : List.length ths = List.length (mw_cells w).
  Lemma setup_rank_ok r data : In data (mw_data w) ->
    exists rs, setup_rank nq nc r (mw_cells w) ths data = Ok rs /\ List.length rs = List.length (mw_cells w) /\
      forall pos c t m, nth_error (mw_cells w) pos = Some c -> nth_error ths pos = Some t -> nth_error data pos = Some m -> nth_error rs pos = Some (setup_cell nq nc r c t m).
  Proof.
    intros HI. pose proof (mf_length _ _ _ _ WF data HI) as Ld. unfold setup_rank.
    destruct (mapRi (fun '(i, c) => do t <- at_ ths i; do m <- at_ data i; Ok (setup_cell nq nc r c t m)) (mw_cells w)) as (rs & E & L & H).
    - intros i c Ec. assert (i < List.length (mw_cells w)) as Hi by (apply nth_error_Some; congruence).
      destruct (nth_error ths i) as [t|] eqn:Et; [|apply nth_error_None in Et; lia]. destruct (nth_error data i) as [m|] eqn:Em; [|apply nth_error_None in Em; lia].
      rewrite (at_some _ _ _ Et), (at_some _ _ _ Em). cbn. eexists. reflexivity.
    - exists rs. split; [exact E|]. split; [exact L|]. intros pos c t m Ec Et Em. destruct (H pos c Ec) as (y & Y1 & Y2). rewrite (at_some _ _ _ Et), (at_some _ _ _ Em) in Y2. cbn in Y2. congruence.
  Qed.
  Definition results_ok (results : list (list (mdata * bool * bool))) : Prop :=
    List.length results = List.length (mw_data w) /\
    forall r data, nth_error (mw_data w) r = Some data -> exists rs, nth_error results r = Some rs /\ List.length rs = List.length (mw_cells w) /\
      forall pos c t m, nth_error (mw_cells w) pos = Some c -> nth_error ths pos = Some t -> nth_error data pos = Some m -> nth_error rs pos = Some (setup_cell nq nc r c t m).
  Lemma results_exist : exists results, mapR (fun '(r, data) => setup_rank nq nc r (mw_cells w) ths data) (combine (seq 0 (List.length (mw_data w))) (mw_data w)) = Ok results /\ results_ok results.
  Proof.
    destruct (mapRi (fun '(r, data) => setup_rank nq nc r (mw_cells w) ths data) (mw_data w)) as (results & E & L & H).
    { intros r data Er. destruct (setup_rank_ok r data (nth_error_In _ _ Er)) as (rs & R & _). exists rs. exact R. }
    exists results. split; [exact E|]. split; [exact L|]. intros r data Er. destruct (H r data Er) as (rs & R1 & R2). exists rs. split; [exact R1|].
    destruct (setup_rank_ok r data (nth_error_In _ _ Er)) as (rs' & S1 & S2 & S3). assert (rs' = rs) as -> by congruence. now split.
  Qed.
  Definition after (c : cell) (t : thermal_cell) : cell := mkcell (c_nodes c) (c_owner c) (solid t).
  Lemma setup_cell_active c t m : snd (fst (setup_cell nq nc (c_owner c) c t m)) = solid t.
  Proof.
    unfold setup_cell, solid, solid_threshold. rewrite Nat.eqb_refl. destruct (PrimFloat.ltb 0x1.fae147ae147aep-1 (th_solid t)); [|reflexivity].
    destruct (Bool.eqb (c_active c) (th_active t)) eqn:E; [|reflexivity]. apply eqb_prop in E. now rewrite E.
  Qed.
  Lemma new_cells_ok results : results_ok results -> exists cells, new_cells (mw_cells w) results = Ok cells /\ List.length cells = List.length (mw_cells w) /\
    forall pos c t, nth_error (mw_cells w) pos = Some c -> nth_error ths pos = Some t -> nth_error cells pos = Some (after c t).
  Proof.
    intros (RL & RH). unfold new_cells.
    assert (forall i c t, nth_error (mw_cells w) i = Some c -> nth_error ths i = Some t ->
       (do rs <- at_ results (c_owner c); do x <- at_ rs i; Ok (mkcell (c_nodes c) (c_owner c) (snd (fst x)))) = Ok (after c t)) as G.
    { intros i c t Ec Et. destruct (data_of_some nq nc nd w i c WF Ec) as (d & m & A1 & A2 & _). destruct (RH _ _ A1) as (rs & R1 & R2 & R3).
      rewrite (at_some _ _ _ R1). cbn [bind]. rewrite (at_some _ _ _ (R3 i c t m Ec Et A2)). cbn [bind]. rewrite setup_cell_active. reflexivity. }
    assert (forall i c, nth_error (mw_cells w) i = Some c -> exists t, nth_error ths i = Some t) as GT.
    { intros i c Ec. assert (i < List.length (mw_cells w)) by (apply nth_error_Some; congruence). destruct (nth_error ths i) as [t|] eqn:Et; [eauto| apply nth_error_None in Et; lia]. }
    destruct (mapRi (fun '(i, c) => do rs <- at_ results (c_owner c); do x <- at_ rs i; Ok (mkcell (c_nodes c) (c_owner c) (snd (fst x)))) (mw_cells w)) as (cells & E & L & H).
    - intros i c Ec. destruct (GT i c Ec) as (t & Et). exists (after c t). exact (G i c t Ec Et).
    - exists cells. split; [exact E|]. split; [exact L|]. intros pos c t Ec Et. destruct (H pos c Ec) as (y & Y1 & Y2). rewrite (G pos c t Ec Et) in Y2. congruence.
  Qed.
  (** The variables of a cell after a setup that rebuilds. *)
  Definition new_data (c : cell) (t : thermal_cell) (m : mdata) : mdata := fst (fst (setup_cell nq nc (c_owner c) c t m)).
  Lemma new_data_shaped c t m : shaped_data nq nc m -> shaped_data nq nc (new_data c t m).
  Proof.
    assert (forall x, shaped_data nq nc (fresh_data nq nc x)) as F.
    { intros x. unfold shaped_data, fresh_data. cbn. rewrite !repeat_length. repeat split; apply Forall_forall; intros t0 HI; apply repeat_spec in HI; subst; apply repeat_length. }
    intros S. unfold new_data, setup_cell, solid_threshold. rewrite Nat.eqb_refl. destruct (PrimFloat.ltb 0x1.fae147ae147aep-1 (th_solid t)); [|apply F]. destruct (Bool.eqb (c_active c) (th_active t)); [exact S| apply F].
  Qed.
  Definition cell_changed (c : cell) (t : thermal_cell) : Prop := c_active c <> solid t.
  Lemma changed_flag c t m : snd (setup_cell nq nc (c_owner c) c t m) = true <-> cell_changed c t.
  Proof.
    unfold setup_cell, cell_changed, solid, solid_threshold. rewrite Nat.eqb_refl. destruct (PrimFloat.ltb 0x1.fae147ae147aep-1 (th_solid t)); cbn.
    - destruct (Bool.eqb (c_active c) (th_active t)) eqn:E; cbn; [apply eqb_prop in E; rewrite E; split; [discriminate| congruence]|].
      apply eqb_false_iff in E. split; intros; [exact E| reflexivity].
    - destruct (c_active c); split; congruence.
  Qed.
  Lemma flag_iff results : results_ok results -> (existsb (existsb snd) results = true <-> exists pos c t, nth_error (mw_cells w) pos = Some c /\ nth_error ths pos = Some t /\ cell_changed c t).
  Proof.
    intros (RL & RH). rewrite existsb_exists. split.
    - intros (rs & HI & HX). apply existsb_exists in HX. destruct HX as (x & HX & X2). apply In_nth_error in HI. destruct HI as (r & Er). apply In_nth_error in HX. destruct HX as (pos & Ep).
      assert (r < List.length (mw_data w)) as Hr by (rewrite <- RL; apply nth_error_Some; congruence). destruct (nth_error (mw_data w) r) as [data|] eqn:Ed; [|apply nth_error_None in Ed; lia].
      destruct (RH r data Ed) as (rs' & R1 & R2 & R3). assert (rs' = rs) as -> by congruence.
      assert (pos < List.length (mw_cells w)) as Hp by (rewrite <- R2; apply nth_error_Some; congruence). pose proof (mf_length _ _ _ _ WF data (nth_error_In _ _ Ed)) as Ld.
      destruct (nth_error (mw_cells w) pos) as [c|] eqn:Ec; [|apply nth_error_None in Ec; lia]. destruct (nth_error ths pos) as [t|] eqn:Et; [|apply nth_error_None in Et; lia].
      destruct (nth_error data pos) as [m|] eqn:Em; [|apply nth_error_None in Em; lia].
      rewrite (R3 pos c t m Ec Et Em) in Ep. injection Ep as <-. exists pos, c, t. split; [exact Ec|]. split; [exact Et|].
      destruct (Nat.eq_dec (c_owner c) r) as [<-|NE]; [now apply (changed_flag c t m)|]. unfold setup_cell in X2. rewrite (proj2 (Nat.eqb_neq _ _) NE) in X2. discriminate.
    - intros (pos & c & t & Ec & Et & CH). destruct (data_of_some nq nc nd w pos c WF Ec) as (d & m & A1 & A2 & _). destruct (RH _ _ A1) as (rs & R1 & R2 & R3).
      exists rs. split; [now apply (nth_error_In _ (c_owner c))|]. apply existsb_exists. exists (setup_cell nq nc (c_owner c) c t m). split; [apply (nth_error_In _ pos); now apply R3|].
      now apply changed_flag.
  Qed.
  (** The whole result. *)
  Lemma setup_ok : exists w', mech_setup nq nc nd w ths rebuild have_u dof_owner = Ok w' /\ well_formed nq nc nd w' /\ List.length (mw_data w') = List.length (mw_data w) /\
    List.length (mw_cells w') = List.length (mw_cells w) /\
    (forall pos c t, nth_error (mw_cells w) pos = Some c -> nth_error ths pos = Some t -> nth_error (mw_cells w') pos = Some (after c t)) /\
    (rebuild = true \/ (exists pos c t, nth_error (mw_cells w) pos = Some c /\ nth_error ths pos = Some t /\ cell_changed c t) ->
       (forall pos c t m, nth_error (mw_cells w) pos = Some c -> nth_error ths pos = Some t -> data_of w pos = Some m -> data_of w' pos = Some (new_data c t m)) /\
       mw_u w' = (if have_u then fun n => restore_displacement (dof_owner n) (fun k => Nat.eqb (dof_owner k) (dof_owner n)) (mw_cells w')
                                     (save_displacement nd (dof_owner n) (mw_cells w) (mw_u w)) (fun _ => 0%float) n
                 else fun _ => 0%float)) /\
    (rebuild = false -> (forall pos c t, nth_error (mw_cells w) pos = Some c -> nth_error ths pos = Some t -> ~ cell_changed c t) ->
       mw_data w' = mw_data w /\ mw_u w' = mw_u w).
  Proof.
    unfold mech_setup. destruct results_exist as (results & E & RO). rewrite E. cbn [bind]. destruct (new_cells_ok results RO) as (cells & EC & LC & HC). rewrite EC. cbn [bind].
    pose proof (flag_iff results RO) as FI. destruct RO as (RL & RH).
    assert (forall pos c', nth_error cells pos = Some c' -> exists c t, nth_error (mw_cells w) pos = Some c /\ nth_error ths pos = Some t /\ c' = after c t) as INV.
    { intros pos c' Ec'. assert (pos < List.length (mw_cells w)) as Hp by (rewrite <- LC; apply nth_error_Some; congruence).
      destruct (nth_error (mw_cells w) pos) as [c|] eqn:Ec; [|apply nth_error_None in Ec; lia]. destruct (nth_error ths pos) as [t|] eqn:Et; [|apply nth_error_None in Et; lia].
      exists c, t. rewrite (HC pos c t Ec Et) in Ec'. injection Ec' as <-. auto. }
    destruct (rebuild || existsb (existsb snd) results) eqn:RB.
    - eexists. split; [reflexivity|].
      assert (forall u, let w' := {| mw_cells := cells; mw_data := map (map (fun x => fst (fst x))) results; mw_u := u |} in
         forall pos c t m, nth_error (mw_cells w) pos = Some c -> nth_error ths pos = Some t -> data_of w pos = Some m -> data_of w' pos = Some (new_data c t m)) as HD.
      { intros u w' pos c t m Ec Et Em. destruct (data_of_some nq nc nd w pos c WF Ec) as (d & m' & A1 & A2 & A3 & _). assert (m' = m) as -> by congruence.
        destruct (RH _ _ A1) as (rs & R1 & R2 & R3). unfold data_of, w'. cbn [mw_cells mw_data]. rewrite (HC pos c t Ec Et). cbn [after c_owner].
        rewrite (map_nth_error _ _ _ R1). rewrite (map_nth_error (fun x => fst (fst x)) _ _ (R3 pos c t m Ec Et A2)). reflexivity. }
      split; [|split; [cbn [mw_data]; rewrite map_length; exact RL| split; [exact LC| split; [exact HC| split; [intros _; split; [apply HD| reflexivity]|]]]]].
      + destruct WF as [W1 W2 W3 W4]. split; cbn [mw_cells mw_data].
        * intros c' HI. apply In_nth_error in HI. destruct HI as (pos & Ep). destruct (INV pos c' Ep) as (c & t & Ec & Et & ->). cbn. apply W1. now apply (nth_error_In _ pos).
        * intros c' HI. apply In_nth_error in HI. destruct HI as (pos & Ep). destruct (INV pos c' Ep) as (c & t & Ec & Et & ->). cbn. rewrite map_length, RL. apply W2. now apply (nth_error_In _ pos).
        * intros d HI. apply in_map_iff in HI. destruct HI as (rs & <- & HI). apply In_nth_error in HI. destruct HI as (r & Er). rewrite map_length, LC.
          assert (r < List.length (mw_data w)) as Hr by (rewrite <- RL; apply nth_error_Some; congruence). destruct (nth_error (mw_data w) r) as [data|] eqn:Ed; [|apply nth_error_None in Ed; lia].
          destruct (RH r data Ed) as (rs' & R1 & R2 & _). congruence.
        * intros pos m ED. destruct (nth_error cells pos) as [c'|] eqn:Ep; [|unfold data_of in ED; cbn [mw_cells] in ED; rewrite Ep in ED; discriminate].
          destruct (INV pos c' Ep) as (c & t & Ec & Et & ->). destruct (data_of_some nq nc nd w pos c (Build_well_formed _ _ _ _ W1 W2 W3 W4) Ec) as (d & m0 & A1 & A2 & A3 & A4).
          rewrite (HD _ pos c t m0 Ec Et A3) in ED. injection ED as <-. now apply new_data_shaped.
      + intros RF NC. exfalso. rewrite RF in RB. cbn in RB. apply FI in RB. destruct RB as (pos & c & t & Ec & Et & CH). exact (NC pos c t Ec Et CH).
    - apply orb_false_iff in RB. destruct RB as (RF & RX). eexists. split; [reflexivity|].
      split; [|split; [reflexivity| split; [exact LC| split; [exact HC| split; [|intros _ _; split; reflexivity]]]]].
      + destruct WF as [W1 W2 W3 W4]. split; cbn [mw_cells mw_data].
        * intros c' HI. apply In_nth_error in HI. destruct HI as (pos & Ep). destruct (INV pos c' Ep) as (c & t & Ec & Et & ->). cbn. apply W1. now apply (nth_error_In _ pos).
        * intros c' HI. apply In_nth_error in HI. destruct HI as (pos & Ep). destruct (INV pos c' Ep) as (c & t & Ec & Et & ->). cbn. apply W2. now apply (nth_error_In _ pos).
        * intros d HI. rewrite LC. now apply W3.
        * intros pos m ED. unfold data_of in ED. cbn [mw_cells mw_data] in ED. destruct (nth_error cells pos) as [c'|] eqn:Ep; [|discriminate].
          destruct (INV pos c' Ep) as (c & t & Ec & Et & ->). apply (W4 pos m). unfold data_of. rewrite Ec. exact ED.
      + intros [RT|CH]; [congruence|]. exfalso. apply FI in CH. congruence.
  Qed.
End Setup.
