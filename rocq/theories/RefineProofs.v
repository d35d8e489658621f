(** RefineProofs.v *)
From Coq Require Import Reals ZArith Bool List Lia Lra.
From Verif Require Import Base BaseFacts ScanPathModel QuaternionModel HeatSourceModel HeatSourceSpec HeatSourceProofs HeatSourceProofs2 CellModel CellProofs2 CellProofs4 RefineModel RefineSpec.
Import ListNotations.
Local Open Scope R_scope.

Lemma intersects_spec d (a b : box) : HeatSourceSpec.well_formed d a -> HeatSourceSpec.well_formed d b ->
  intersects d a b = true <-> exists p, in_box d a p /\ in_box d b p.
Proof.
  destruct a as [[ax ay az] [ax' ay' az']], b as [[bx by_ bz] [bx' by' bz']]. unfold HeatSourceSpec.well_formed, intersects, in_box. cbn [fst snd px py pz].
  intros (A1 & A2 & A3) (B1 & B2 & B3). cbn [num RNum] in *. rewrite negb_true_iff, !orb_false_iff, andb_false_iff, !orb_false_iff.
  repeat match goal with |- context [Rltb ?x ?y] => destruct (Rltb_spec x y) end; split; intros H;
    try (exfalso; destruct H as [[? ?] ?]; intuition discriminate);
    try (destruct H as (p & (P1 & P2 & P3) & Q1 & Q2 & Q3); destruct d; [specialize (P3 eq_refl); specialize (Q3 eq_refl)|]; try (exfalso; lra); intuition auto; fail).
  all: try (exists (mkpt (N := RNum) (Rmax ax bx) (Rmax ay by_) (Rmax az bz)); cbn [px py pz]; destruct d;
    [specialize (A3 eq_refl); specialize (B3 eq_refl)|]; unfold Rmax; repeat destruct (Rle_dec _ _); repeat split; intros; try discriminate; try lra; destruct H as [_ [H|[H1 H2]]]; discriminate).
Qed.

Lemma mapR_in {A B} (f : A -> res B) l : forall ys, mapR f l = Ok ys -> forall y, In y ys <-> exists x, In x l /\ f x = Ok y.
Proof.
  induction l as [|a l IH]; intros ys H y; cbn in H.
  - injection H as <-. cbn. split; [tauto|]. intros (x & [] & _).
  - destruct (f a) as [b| |] eqn:E; try discriminate. cbn in H. destruct (mapR f l) as [ys'| |] eqn:E'; try discriminate. cbn in H. injection H as <-.
    specialize (IH ys' eq_refl y). cbn [In]. split.
    + intros [<-|H]; [exists a; auto|]. apply IH in H. destruct H as (x & H1 & H2). exists x. auto.
    + intros (x & [<-|H1] & H2); [left; congruence|right; apply IH; eauto].
Qed.

Lemma sampled_in d sources time next n boxes : sampled_boxes d sources time next n = Ok boxes ->
  forall b, In b boxes <-> exists i s, (i < n)%nat /\ In s sources /\ source_box d s (sample_time time next n i) 2 = Ok (Some b).
Proof.
  intros H b. unfold sampled_boxes in H. rewrite (mapR_in _ _ _ H). clear H. split.
  - intros ([t s] & Hin & E). apply in_flat_map in Hin. destruct Hin as (i & Hi & Hs). apply in_map_iff in Hs. destruct Hs as (s' & Es & Hs). injection Es as <- <-.
    apply in_seq in Hi. exists i, s'. cbn [fst snd] in E. split; [lia|]. split; [exact Hs|].
    destruct (source_box d s' (sample_time time next n i) 2) as [[x|]| |]; cbn in E; try discriminate. congruence.
  - intros (i & s & Li & Hs & E). exists (sample_time time next n i, s). split.
    + apply in_flat_map. exists i. split; [apply in_seq; lia|]. apply in_map_iff. eauto.
    + cbn [fst snd]. rewrite E. reflexivity.
Qed.

Lemma in_positions {A} (f : nat * A -> bool) (cells : list A) pos :
  In pos (map fst (filter f (combine (seq 0 (List.length cells)) cells))) <-> exists c, nth_error cells pos = Some c /\ f (pos, c) = true.
Proof.
  assert (forall s, In pos (map fst (filter f (combine (seq s (List.length cells)) cells))) <-> exists c, (s <= pos)%nat /\ nth_error cells (pos - s) = Some c /\ f (pos, c) = true) as G.
  { induction cells as [|c cells IH]; intros s; cbn [List.length seq combine filter map].
    - cbn. split; [tauto|]. intros (c & _ & H & _). destruct (pos - s)%nat; discriminate.
    - specialize (IH (S s)).
      assert (In pos (map fst (filter f (combine (seq (S s) (List.length cells)) cells))) <-> exists c0, (S s <= pos)%nat /\ nth_error (c :: cells) (pos - s) = Some c0 /\ f (pos, c0) = true) as IH'.
      { rewrite IH. split; intros (c0 & L & E & F); exists c0; (split; [lia|]); split; auto.
        - replace (pos - s)%nat with (S (pos - S s)) by lia. exact E.
        - replace (pos - s)%nat with (S (pos - S s)) in E by lia. exact E. }
      destruct (f (s, c)) eqn:Ef; cbn [map In fst]; rewrite IH'.
      + split.
        * intros [<-|(c0 & L & E & F)]; [exists c; rewrite Nat.sub_diag; cbn; split; [lia|auto]| exists c0; split; [lia| auto]].
        * intros (c0 & L & E & F). destruct (Nat.eq_dec pos s) as [->|N]; [left; reflexivity|right; exists c0; split; [lia|auto]].
      + split; intros (c0 & L & E & F); exists c0; (split; [|auto]); [lia|].
        destruct (Nat.eq_dec pos s) as [->|N]; [|lia]. rewrite Nat.sub_diag in E. cbn in E. injection E as <-. congruence. }
  rewrite G. split; intros (c & H); exists c; rewrite Nat.sub_0_r in *; [tauto| split; [lia| tauto]].
Qed.

Lemma to_refine_spec d cells time next n sources l : compute_cells_to_refine d cells time next n sources = Ok l ->
  forall pos, In pos l <-> exists c, nth_error cells pos = Some c /\ meets d sources time next n c.
Proof.
  intros H pos. unfold compute_cells_to_refine in H. destruct (sampled_boxes d sources time next n) as [boxes| |] eqn:E; try discriminate. cbn [bind] in H. injection H as <-.
  rewrite in_positions. split; intros (c & Ec & H); exists c; (split; [exact Ec|]).
  - cbn [snd] in H. apply existsb_exists in H. destruct H as (b & Hb & I). apply (sampled_in _ _ _ _ _ _ E) in Hb. destruct Hb as (i & s & ? & ? & ?). exists i, s, b. auto.
  - cbn [snd]. apply existsb_exists. destruct H as (i & s & b & ? & ? & ? & ?). exists b. split; [|assumption]. apply (sampled_in _ _ _ _ _ _ E). eauto.
Qed.

Lemma update_nth {A} (l : list A) : forall i v l', update l i v = Ok l' -> forall j, nth_error l' j = if Nat.eqb j i then Some v else nth_error l j.
Proof.
  induction l as [|x l IH]; intros [|i] v l' H j; cbn in H; try discriminate.
  - injection H as <-. destruct j; reflexivity.
  - destruct (update l i v) as [r| |] eqn:E; try discriminate. cbn in H. injection H as <-. destruct j; [reflexivity|]. cbn. apply (IH _ _ _ E).
Qed.

Lemma flags_fold nr co levels : forall l fl, (forall pos, In pos l -> (pos < List.length levels)%nat) -> List.length fl = List.length levels ->
  exists fl', foldR (flag_cell nr co levels) l fl = Ok fl' /\ List.length fl' = List.length levels /\
    forall pos lev f, nth_error levels pos = Some lev -> nth_error fl pos = Some f ->
      nth_error fl' pos = Some (if in_dec Nat.eq_dec pos l then (if Nat.ltb lev nr then true else fst f, if co then false else snd f) else f).
Proof.
  induction l as [|p l IH]; intros fl HL HF.
  - exists fl. split; [reflexivity|]. split; [exact HF|]. intros pos lev f _ E. cbn. exact E.
  - unfold foldR. cbn [fold_left bind].
    assert (p < List.length levels)%nat as Lp by (apply HL; now left).
    destruct (nth_error levels p) as [lp|] eqn:El; [|apply nth_error_None in El; lia].
    destruct (nth_error fl p) as [fp|] eqn:Ef; [|apply nth_error_None in Ef; lia].
    assert (exists fl1, flag_cell nr co levels fl p = Ok fl1 /\ List.length fl1 = List.length levels /\
      forall j, nth_error fl1 j = if Nat.eqb j p then Some (if Nat.ltb lp nr then true else fst fp, if co then false else snd fp) else nth_error fl j) as (fl1 & E1 & L1 & N1).
    { unfold flag_cell. rewrite (at_some _ _ _ Ef). cbn [bind]. rewrite (at_some _ _ _ El). cbn [bind].
      set (v := (if Nat.ltb lp nr then true else fst fp, if co then false else snd fp)).
      destruct (update fl p v) as [fl1| |] eqn:EU.
      - exists fl1. split; [reflexivity|]. pose proof (update_nth fl p v fl1 EU) as N. split; [|exact N].
        rewrite <- HF. clear - EU. revert p fl1 EU. induction fl as [|x fl IH]; intros [|p] fl1 EU; cbn in EU; try discriminate.
        + injection EU as <-. reflexivity.
        + destruct (update fl p v) as [r| |] eqn:E; try discriminate. cbn in EU. injection EU as <-. cbn. f_equal. apply (IH _ _ E).
      - exfalso. clear - EU. revert p EU. induction fl as [|x fl IH]; intros [|p] EU; cbn in EU; try discriminate. destruct (update fl p v) eqn:E; try discriminate. apply (IH _ E).
      - exfalso. clear - EU Lp HF. rewrite <- HF in Lp. clear HF. revert p EU Lp. induction fl as [|x fl IH]; intros [|p] EU Lp; cbn in *; try discriminate; try lia. destruct (update fl p v) eqn:E; try discriminate. apply (IH _ E). lia. }
    rewrite E1. destruct (IH fl1) as (fl' & R' & L' & N'); [intros q Hq; apply HL; now right| exact L1|].
    exists fl'. split; [exact R'|]. split; [exact L'|]. intros pos lev f Elv Efl.
    destruct (Nat.eq_dec pos p) as [->|NE].
    + rewrite El in Elv. injection Elv as <-. rewrite Ef in Efl. injection Efl as <-.
      assert (nth_error fl1 p = Some (if Nat.ltb lp nr then true else fst fp, if co then false else snd fp)) as E2 by (rewrite N1, Nat.eqb_refl; reflexivity).
      rewrite (N' p lp _ El E2). cbn [fst snd]. destruct (in_dec Nat.eq_dec p l), (in_dec Nat.eq_dec p (p :: l)) as [|NI]; try (exfalso; apply NI; now left);
        destruct (Nat.ltb lp nr), co; reflexivity.
    + assert (nth_error fl1 pos = Some f) as E2 by (rewrite N1; destruct (Nat.eqb_spec pos p); [contradiction| exact Efl]).
      rewrite (N' pos lev f Elv E2). destruct (in_dec Nat.eq_dec pos l) as [I|I], (in_dec Nat.eq_dec pos (p :: l)) as [J|J]; try reflexivity.
      * exfalso. apply J. now right.
      * exfalso. destruct J as [->|J]; [apply NE; reflexivity| apply I, J].
Qed.

Theorem flags_result d cells time next n sources nr co l : compute_cells_to_refine d cells time next n sources = Ok l ->
  exists fl, refine_mesh_flags d cells time next n sources nr co = Ok fl /\ List.length fl = List.length cells /\
    forall pos bx lev, nth_error cells pos = Some (bx, lev) ->
      exists r c, nth_error fl pos = Some (r, c) /\
        (r = true <-> (lev < nr)%nat /\ meets d sources time next n (bx, lev)) /\
        (c = true <-> co = true /\ (0 < lev)%nat /\ ~ meets d sources time next n (bx, lev)).
Proof.
  intros H. unfold refine_mesh_flags. rewrite H. cbn [bind].
  pose proof (to_refine_spec _ _ _ _ _ _ _ H) as TS.
  destruct (flags_fold nr co (map snd cells) l (map (fun lv => (false, if co then Nat.ltb 0 lv else false)) (map snd cells))) as (fl & E & L & NN).
  - intros pos Hp. apply TS in Hp. destruct Hp as (c & Ec & _). rewrite map_length. apply (proj1 (nth_error_Some cells pos)). intros X. rewrite X in Ec. discriminate.
  - now rewrite !map_length.
  - exists fl. split; [exact E|]. split; [rewrite L; apply map_length|]. intros pos bx lev Ec.
    assert (nth_error (map snd cells) pos = Some lev) as E1 by exact (map_nth_error snd pos cells Ec).
    assert (nth_error (map (fun lv => (false, if co then Nat.ltb 0 lv else false)) (map snd cells)) pos = Some (false, if co then Nat.ltb 0 lev else false)) as E2
      by (rewrite nth_error_map, E1; reflexivity).
    specialize (NN pos lev _ E1 E2). cbn [fst snd] in NN.
    assert (In pos l <-> meets d sources time next n (bx, lev)) as IN.
    { rewrite TS. split; [intros (c & Ec' & M); rewrite Ec in Ec'; injection Ec' as <-; exact M| eauto]. }
    destruct (in_dec Nat.eq_dec pos l) as [I|I].
    + eexists _, _. split; [exact NN|]. apply IN in I. split.
      * destruct (Nat.ltb_spec lev nr); split; intros; try discriminate; auto. exfalso. lia.
      * destruct co; split; try discriminate; intros (? & ? & ?); try contradiction; discriminate.
    + eexists _, _. split; [exact NN|]. rewrite IN in I. split.
      * split; [discriminate|]. intros (_ & M). contradiction.
      * destruct co; [|split; [discriminate| intros (? & _); discriminate]]. destruct (Nat.ltb_spec 0 lev); split; intros; try discriminate; auto. exfalso. lia.
Qed.

(** Cells that contain a point of the scaled beam at a sampled time. *)
Theorem beam_met d sources time next n i b sp c sp' (bx : box) lev p : In (Beam b sp) sources -> (d = true -> sp_five_axis sp = false) ->
  0 <= b_radius b -> 0 <= b_depth b -> HeatSourceSpec.well_formed d bx ->
  (i < n)%nat -> value sp (sample_time time next n i) false = Ok (c, sp') ->
  in_scaled_beam d (b_radius b) (b_depth b) 2 c p -> in_box d bx p -> meets d sources time next n (bx, lev).
Proof.
  intros Hs F Hr Hd W Li Ev Hp Hb.
  assert (exists b0, beam_bounding_box d b sp (sample_time time next n i) 2 = Ok (Some b0)) as (b0 & E0).
  { unfold beam_bounding_box. rewrite Ev. cbn [bind]. destruct d; [rewrite F by reflexivity|]; eauto. }
  exists i, (Beam b sp), b0. split; [exact Li|]. split; [exact Hs|]. split; [exact E0|]. cbn [fst].
  apply intersects_spec; [exact W| apply (box_well_formed d b sp (sample_time time next n i) 2 b0 Hr Hd); [lra| exact E0]|].
  exists p. split; [exact Hb|]. destruct (box_exact d b sp (sample_time time next n i) 2 b0 F E0) as (c0 & sp0 & Ev0 & X). rewrite Ev in Ev0. injection Ev0 as <- <-. apply X, Hp.
Qed.

Theorem samples time next n : (0 < n)%nat -> time < next ->
  sample_time time next n 0 = time /\
  (forall i, sample_time time next n (S i) - sample_time time next n i = (next - time) / INR n) /\
  (forall i, (i < n)%nat -> time <= sample_time time next n i < next).
Proof.
  intros Hn Ht. unfold sample_time. assert (0 < INR n) as P by (apply lt_0_INR; exact Hn). split; [|split].
  - cbn [INR]. unfold Rdiv. ring.
  - intros i. rewrite S_INR. field. lra.
  - intros i Li. assert (INR i < INR n) as Q by (apply lt_INR; exact Li). pose proof (pos_INR i) as I0.
    assert (0 <= INR i / INR n < 1) as (Q1 & Q2).
    { split; [apply Rmult_le_pos; [exact I0| left; apply Rinv_0_lt_compat; exact P]|]. apply (Rmult_lt_reg_r (INR n)); [exact P|]. unfold Rdiv. rewrite Rmult_assoc, Rinv_l by lra. lra. }
    split; nra.
Qed.
(** In the main loop the samples are the starts of the coming time steps. *)
Theorem samples_are_steps time dt n i : (0 < n)%nat -> sample_time time (next_refinement_time time dt n) n i = time + INR i * dt.
Proof. intros Hn. unfold sample_time, next_refinement_time. assert (0 < INR n) as P by (apply lt_0_INR; exact Hn). field. lra. Qed.

(** A beam that moves from x = 0 to x = 100 in one time step: the cell it passes over in between is not refined. *)
Definition fast : scan_path RNum :=
  mkSP (N := RNum) false false 2 1 FEventSeries [mkseg (N := RNum) 0 1 (P0 0 0 0) None; mkseg (N := RNum) 1 1 (P0 100 0 0) None] 0.
Lemma fast_value (t : R) : 0 < t <= 1 -> value fast t false = Ok (P0 (100 * t) 0 0, fast).
Proof.
  intros H. unfold value, fast, update_current_segment_info. cbn -[Rltb]. destruct (Rltb_spec 1 t); [exfalso; lra|].
  cbn -[Rltb]. destruct (Rltb_spec 0 t); [|exfalso; lra]. cbn -[Rltb]. destruct (Rltb_spec 1 t); [exfalso; lra|]. cbn -[Rltb].
  unfold padd, pscale, pdivs, psub, P0. cbn. do 2 f_equal. f_equal; field.
Qed.
Lemma fast_value0 : value fast (0 : R) false = Ok (P0 0 0 0, fast).
Proof.
  unfold value, fast, update_current_segment_info. cbn -[Rltb]. destruct (Rltb_spec 1 0); [exfalso; lra|].
  cbn -[Rltb]. destruct (Rltb_spec 0 0); [exfalso; lra|]. cbn -[Rltb].
  unfold padd, pscale, pdivs, psub, P0. cbn. do 2 f_equal. f_equal; unfold Rdiv; ring.
Qed.

Theorem between_samples : exists (b : beam) (sp : scan_path RNum) (bx : box),
  good_beam b /\ HeatSourceSpec.well_formed true bx /\
  (exists t c, 0 <= t < next_refinement_time 0 1 1 /\ value sp t false = Ok (c, sp) /\ in_box true bx c) /\
  refine_mesh_flags true [(bx, O)] 0 (next_refinement_time 0 1 1) 1 [Beam b sp] 3 false = Ok [(false, false)].
Proof.
  exists unit_beam, fast, (P0 49 (-1) (-1), P0 51 1 0). split; [exact unit_good|]. split; [unfold HeatSourceSpec.well_formed, P0; cbn; lra|]. split.
  - exists (1/2), (P0 50 0 0). split; [unfold next_refinement_time; cbn; lra|]. split.
    + rewrite fast_value by lra. do 2 f_equal. unfold P0. f_equal. lra.
    + unfold in_box, P0. cbn. lra.
  - assert (sampled_boxes true [Beam unit_beam fast] 0 (next_refinement_time 0 1 1) 1 = Ok [(P0 (-2) (-2) (-2), P0 2 2 0)]) as E.
    { unfold sampled_boxes. cbn [seq flat_map map app mapR fst snd source_box]. unfold beam_bounding_box.
      assert (sample_time 0 (next_refinement_time 0 1 1) 1 0 = 0) as -> by (unfold sample_time; cbn; lra).
      rewrite fast_value0. cbn [bind fst sp_five_axis fast]. unfold unit_beam, set_from_database, P0. cbn. do 2 f_equal. f_equal; f_equal; lra. }
    unfold refine_mesh_flags, compute_cells_to_refine. rewrite E. cbn [bind List.length seq combine filter existsb fst snd map orb].
    assert (intersects true (P0 49 (-1) (-1), P0 51 1 0) (P0 (-2) (-2) (-2), P0 2 2 0) = false) as ->.
    { unfold intersects, P0. cbn -[Rltb]. destruct (Rltb_spec 2 49); [reflexivity| exfalso; lra]. }
    reflexivity.
Qed.
