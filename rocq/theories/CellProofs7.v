(** CellProofs7.v -- melted flags, averages, when the stored state is current. *)
From Coq Require Import Reals ZArith Bool List Lia Lra Arith.
From Verif Require Import Base BaseFacts CellModel AssimilationSpec MeltedSpec AssimilationProofs CellProofs2.
Import ListNotations.

(** ** The average of a cell *)
Section Average.
  Local Open Scope R_scope.
  Lemma inner_fold (row : list R) (jxw : list R) (x : R) : forall t v : R,
    fold_left (fun (tv : R * R) (sq : R * R) => (fst tv + fst sq * x * snd sq, snd tv + fst sq * snd sq)) (combine row jxw) (t, v) =
    (t + node_weight jxw row * x, v + node_weight jxw row).
  Proof.
    revert jxw. induction row as [|s row IH]; intros [|w jxw] t v; try (unfold node_weight, Rsum; cbn; f_equal; ring).
    cbn [combine fold_left fst snd]. rewrite IH. unfold node_weight. cbn [combine map Rsum fold_right fst snd]. unfold Rsum. cbn [fold_right]. f_equal; ring.
  Qed.
  Lemma outer_fold (jxw : list R) : forall (shape : list (list R)) (values : list R) (t v : R),
    fold_left (fun acc (sv : list R * R) =>
        fold_left (fun (tv : R * R) (sq : R * R) => (fst tv + fst sq * snd sv * snd sq, snd tv + fst sq * snd sq)) (combine (fst sv) jxw) acc)
      (combine shape values) (t, v) =
    (t + Rsum (map (fun sv => node_weight jxw (fst sv) * snd sv) (combine shape values)), v + Rsum (map (fun sv => node_weight jxw (fst sv)) (combine shape values))).
  Proof.
    induction shape as [|row shape IH]; intros [|x values] t v; cbn [combine fold_left map Rsum fold_right fst snd]; try (f_equal; unfold Rsum; cbn; lra).
    rewrite inner_fold, IH. unfold Rsum. cbn [fold_right]. f_equal; lra.
  Qed.
  Lemma average_form (shape : list (list R)) (jxw values : list R) :
    cell_average (N := RNum) shape jxw values =
    Rsum (map (fun sv => node_weight jxw (fst sv) * snd sv) (combine shape values)) / Rsum (map (fun sv => node_weight jxw (fst sv)) (combine shape values)).
  Proof.
    unfold cell_average. cbn [RNum nadd nmul ndiv nofZ num]. change (nZ 0) with (0 : R).
    rewrite (outer_fold jxw shape values 0 0). f_equal; [|f_equal]; lra.
  Qed.
  Lemma average_bounds (shape : list (list R)) (jxw values : list R) (a b : R) :
    (forall row, In row shape -> 0 <= node_weight jxw row) ->
    0 < Rsum (map (fun sv => node_weight jxw (fst sv)) (combine shape values)) ->
    (forall x, In x values -> a <= x <= b) -> a <= cell_average (N := RNum) shape jxw values <= b.
  Proof.
    intros W P V. rewrite average_form.
    assert (forall l, (forall sv, In sv l -> 0 <= node_weight jxw (fst sv) /\ a <= snd sv <= b) ->
      a * Rsum (map (fun sv => node_weight jxw (fst sv)) l) <= Rsum (map (fun sv => node_weight jxw (fst sv) * snd sv) l) <= b * Rsum (map (fun sv => node_weight jxw (fst sv)) l)) as G.
    { induction l as [|sv l IH]; intros H; [unfold Rsum; cbn; lra|]. cbn [map].
      assert (forall x l', Rsum (x :: l') = x + Rsum l') as RC by reflexivity. rewrite !RC.
      specialize (IH (fun sv' h => H sv' (or_intror h))). destruct (H sv (or_introl eq_refl)) as (H1 & H2). nra. }
    specialize (G (combine shape values)).
    assert (a * Rsum (map (fun sv => node_weight jxw (fst sv)) (combine shape values)) <= Rsum (map (fun sv => node_weight jxw (fst sv) * snd sv) (combine shape values)) <=
            b * Rsum (map (fun sv => node_weight jxw (fst sv)) (combine shape values))) as (G1 & G2).
    { apply G. intros [row x] H. cbn [fst snd]. split; [apply W; apply in_combine_l with (1 := H)| apply V; apply in_combine_r with (1 := H)]. }
    split; [apply (Rmult_le_reg_r (Rsum (map (fun sv => node_weight jxw (fst sv)) (combine shape values)))); [exact P|]|
            apply (Rmult_le_reg_r (Rsum (map (fun sv => node_weight jxw (fst sv)) (combine shape values)))); [exact P|]];
      unfold Rdiv; rewrite Rmult_assoc, Rinv_l by lra; lra.
  Qed.
  Lemma weight_sum (jxw row : list R) : List.length row = List.length jxw -> node_weight jxw row = Rsum_to (List.length jxw) (fun q => nth q row 0 * nth q jxw 0).
  Proof.
    unfold node_weight, Rsum_to. revert jxw. induction row as [|s row IH]; intros [|w jxw] L; cbn in L; try discriminate; [reflexivity|].
    cbn [combine map List.length]. rewrite <- cons_seq, <- seq_shift. cbn [map]. unfold Rsum. cbn [fold_right fst snd nth]. f_equal.
    fold (Rsum (map (fun sw => fst sw * snd sw) (combine row jxw))). rewrite (IH jxw) by lia. rewrite map_map. reflexivity.
  Qed.
  Lemma combine_sum {A} (f : A -> R -> R) (da : A) : forall (l : list A) (v : list R), List.length l = List.length v ->
    Rsum (map (fun p => f (fst p) (snd p)) (combine l v)) = Rsum_to (List.length v) (fun i => f (nth i l da) (nth i v 0)).
  Proof.
    unfold Rsum_to. induction l as [|a l IH]; intros [|x v] L; cbn in L; try discriminate; [reflexivity|].
    cbn [combine map List.length]. rewrite <- cons_seq, <- seq_shift. cbn [map]. unfold Rsum. cbn [fold_right fst snd nth]. f_equal.
    fold (Rsum (map (fun p => f (fst p) (snd p)) (combine l v))). rewrite (IH v) by lia. rewrite map_map. reflexivity.
  Qed.
  Lemma sum_nth (l : list R) : Rsum l = Rsum_to (List.length l) (fun q => nth q l 0).
  Proof.
    unfold Rsum_to. induction l as [|x l IH]; [reflexivity|]. cbn [List.length]. rewrite <- cons_seq, <- seq_shift. cbn [map]. unfold Rsum in *. cbn [fold_right nth]. f_equal.
    rewrite IH, map_map. reflexivity.
  Qed.
  Lemma average_is_mean (shape : list (list R)) (jxw values : list R) :
    List.length shape = List.length values -> (forall row, In row shape -> List.length row = List.length jxw) ->
    (forall q, (q < List.length jxw)%nat -> Rsum_to (List.length values) (fun i => shape_at shape i q) = 1) ->
    cell_average (N := RNum) shape jxw values = quadrature_mean shape jxw values.
  Proof.
    intros L LR PU. rewrite average_form. unfold quadrature_mean.
    assert (forall i, (i < List.length values)%nat -> node_weight jxw (nth i shape []) = Rsum_to (List.length jxw) (fun q => shape_at shape i q * nth q jxw 0)) as NW.
    { intros i Li. apply weight_sum. apply LR. apply nth_In. lia. }
    unfold Rdiv. f_equal; [|f_equal].
    - rewrite (combine_sum (fun r x => node_weight jxw r * x) []) by exact L. unfold interpolated, Rsum_to.
      transitivity (Rsum (map (fun i => Rsum (map (fun q => shape_at shape i q * nth i values 0 * nth q jxw 0) (seq 0 (List.length jxw)))) (seq 0 (List.length values)))).
      + apply Rsum_ext. intros i Hi. apply in_seq in Hi. rewrite NW by lia. unfold Rsum_to. rewrite Rmult_comm, <- Rsum_scal. apply Rsum_ext. intros q _. ring.
      + rewrite Rsum_swap. apply Rsum_ext. intros q _. rewrite (Rmult_comm (Rsum _)), <- Rsum_scal. apply Rsum_ext. intros i _. ring.
    - eapply eq_trans; [exact (combine_sum (fun r x => node_weight jxw r) [] shape values L)|]. unfold Rsum_to.
      transitivity (Rsum (map (fun i => Rsum (map (fun q => shape_at shape i q * nth q jxw 0) (seq 0 (List.length jxw)))) (seq 0 (List.length values)))).
      + apply Rsum_ext. intros i Hi. apply in_seq in Hi. apply NW. lia.
      + rewrite Rsum_swap, (sum_nth jxw). unfold Rsum_to. apply Rsum_ext. intros q Hq. apply in_seq in Hq.
        transitivity (nth q jxw 0 * Rsum (map (fun i => shape_at shape i q) (seq 0 (List.length values)))).
        * rewrite <- Rsum_scal. apply Rsum_ext. intros i _. ring.
        * assert (Rsum (map (fun i => shape_at shape i q) (seq 0 (List.length values))) = 1) as -> by (apply PU; lia). ring.
  Qed.
End Average.

(** ** Flags *)
Section Flags.
  Context {N : Num}.
  Lemma mark_one (threshold : N) : forall averages flags, List.length averages <= List.length flags ->
    exists fl, mark_melted threshold averages flags = Ok fl /\ List.length fl = List.length flags /\
      forall k b, nth_error flags k = Some b ->
        exists b', nth_error fl k = Some b' /\ (b' = true <-> b = true \/ exists t, nth_error averages k = Some t /\ nltb N threshold t = true).
  Proof.
    induction averages as [|t averages IH]; intros flags L.
    - exists flags. split; [reflexivity|]. split; [reflexivity|]. intros k b E. exists b. split; [exact E|]. split; [auto|]. intros [H|(t & H & _)]; [exact H| destruct k; discriminate].
    - destruct flags as [|b0 flags]; [cbn in L; lia|]. destruct (IH flags) as (fl & E & Ll & H); [cbn in L; lia|].
      cbn [mark_melted]. rewrite E. cbn [bind]. eexists. split; [reflexivity|]. split; [cbn; f_equal; exact Ll|].
      intros [|k] b Eb; cbn in Eb.
      + injection Eb as <-. eexists. split; [reflexivity|]. cbn. destruct b0.
        * split; auto.
        * split; [intros X; right; eauto| intros [X|(t' & X & Y)]; [discriminate| injection X as <-; exact Y]].
      + destruct (H k b Eb) as (b' & E' & X). exists b'. split; [exact E'|exact X].
  Qed.
  Lemma mark_short (threshold : N) : forall averages flags, List.length flags < List.length averages -> mark_melted threshold averages flags = UB.
  Proof.
    induction averages as [|t averages IH]; intros flags L; [cbn in L; lia|]. destruct flags as [|b flags]; [reflexivity|].
    cbn [mark_melted]. rewrite IH by (cbn in L; lia). reflexivity.
  Qed.
  Theorem history (threshold : N) : forall fields flags, (forall f, In f fields -> List.length f = List.length flags) ->
    exists fl, mark_history threshold fields flags = Ok fl /\ List.length fl = List.length flags /\
      forall k b, nth_error flags k = Some b ->
        exists b', nth_error fl k = Some b' /\ (b' = true <-> b = true \/ exists f t, In f fields /\ nth_error f k = Some t /\ nltb N threshold t = true).
  Proof.
    induction fields as [|f fields IH]; intros flags L.
    - exists flags. split; [reflexivity|]. split; [reflexivity|]. intros k b E. exists b. split; [exact E|]. split; [auto|]. intros [H|(f & t & [] & _)]. exact H.
    - cbn [mark_history]. destruct (mark_one threshold f flags) as (fl1 & E1 & L1 & H1); [rewrite (L f); [lia|now left]|]. rewrite E1. cbn [bind].
      destruct (IH fl1) as (fl & E & Ll & H); [intros g G; rewrite L1; apply L; now right|].
      exists fl. split; [exact E|]. split; [congruence|]. intros k b Eb. destruct (H1 k b Eb) as (b1 & Eb1 & X1). destruct (H k b1 Eb1) as (b' & Eb' & X).
      exists b'. split; [exact Eb'|]. rewrite X, X1. split.
      + intros [[Y|(t & Y & Z)]|(g & t & G & Y & Z)]; [auto| right; exists f, t; cbn; auto| right; exists g, t; cbn; auto].
      + intros [Y|(g & t & [<-|G] & Y & Z)]; [auto| left; right; eauto| right; eauto].
  Qed.
End Flags.

(** ** When the stored state is current *)
Section Sync.
  Context {St : Type}.
  Local Open Scope nat_scope.
  Lemma saved_grows (cfg : sync_config) : forall steps n (s : sync_state St), exists l, saved (sync_run cfg n steps s) = saved s ++ l /\ forall m x, In (m, x) l -> n <= m < n + List.length steps /\ divides (sy_checkpoint cfg) m = true.
  Proof.
    induction steps as [|[[r a] next] steps IH]; intros n s; cbn [sync_run].
    - exists []. rewrite app_nil_r. split; [reflexivity|]. intros m x [].
    - destruct (IH (S n) (sync_step cfg n r a next s)) as (l & E & H). unfold sync_step in E at 2. cbn [saved] in E.
      destruct (divides (sy_checkpoint cfg) n) eqn:D.
      + eexists. rewrite E. rewrite <- app_assoc. split; [reflexivity|]. cbn [app List.length]. intros m x [X|X]; [injection X as <- _; split; [lia| exact D]|]. destruct (H m x X). split; [lia| assumption].
      + exists l. split; [exact E|]. cbn [List.length]. intros m x X. destruct (H m x X). split; [lia|assumption].
  Qed.
  Theorem current_with_mechanics (cfg : sync_config) factor : sy_mechanical cfg = Some factor -> forall steps n (s : sync_state St),
    forall m x, In (m, x) (saved (sync_run cfg n steps s)) -> In (m, x) (saved s) \/
      (n <= m < n + List.length steps /\
       (divides factor m || divides (sy_output cfg) m = true -> exists r a, nth_error steps (m - n) = Some (r, a, x))).
  Proof.
    intros M. induction steps as [|[[r a] next] steps IH]; intros n s m x H; cbn [sync_run] in H; [auto|].
    destruct (IH (S n) _ m x H) as [H1|(L & H1)].
    - unfold sync_step in H1. cbn [saved] in H1. rewrite M in H1. destruct (divides (sy_checkpoint cfg) n) eqn:D; [|auto].
      apply in_app_or in H1. destruct H1 as [H1|[X|[]]]; [auto|]. right. injection X as <- Ex. split; [cbn [List.length]; lia|]. intros Y. rewrite Nat.sub_diag. cbn. rewrite Y in Ex. subst. eauto.
    - right. split; [cbn [List.length]; lia|]. intros Y. destruct (H1 Y) as (r' & a' & E). exists r', a'. replace (m - n) with (S (m - S n)) by lia. exact E.
  Qed.
  (** Without mechanics and between outputs the checkpoint holds the state of the last output, refinement or activation. *)
  Theorem stale_without_mechanics (cfg : sync_config) : sy_mechanical cfg = None -> forall steps n (s : sync_state St),
    quiet steps -> (forall m, n <= m < n + List.length steps -> divides (sy_output cfg) m = false) ->
    mp_state (sync_run cfg n steps s) = mp_state s /\ forall m x, In (m, x) (saved (sync_run cfg n steps s)) -> In (m, x) (saved s) \/ x = mp_state s.
  Proof.
    intros M. induction steps as [|[[r a] next] steps IH]; intros n s Q O; cbn [sync_run]; [auto|].
    destruct (Q r a next (or_introl eq_refl)) as (-> & ->).
    assert (mp_state (sync_step cfg n false false next s) = mp_state s) as E.
    { unfold sync_step. cbn [mp_state orb]. rewrite M, (O n) by (cbn [List.length]; lia). reflexivity. }
    destruct (IH (S n) (sync_step cfg n false false next s)) as (H1 & H2); [intros r' a' x' X; apply (Q r' a' x'); now right| intros m Hm; apply O; cbn [List.length]; lia|].
    rewrite E in H1, H2. split; [exact H1|]. intros m x X. destruct (H2 m x X) as [Y|Y]; [|auto].
    unfold sync_step in Y. cbn [saved orb] in Y. rewrite M in Y. destruct (divides (sy_checkpoint cfg) n); [|auto]. apply in_app_or in Y. destruct Y as [Y|[Y|[]]]; [auto|]. injection Y as _ <-. auto.
  Qed.
  Theorem checkpoint_saved (cfg : sync_config) : forall steps n (s : sync_state St) m, n <= m < n + List.length steps -> divides (sy_checkpoint cfg) m = true ->
    exists x, In (m, x) (saved (sync_run cfg n steps s)).
  Proof.
    induction steps as [|[[r a] next] steps IH]; intros n s m L D; cbn [List.length] in L; [lia|]. cbn [sync_run].
    destruct (Nat.eq_dec m n) as [->|NE].
    - destruct (saved_grows cfg steps (S n) (sync_step cfg n r a next s)) as (l & E & _). rewrite E. eexists. apply in_or_app. left.
      unfold sync_step. cbn [saved]. rewrite D. apply in_or_app. right. now left.
    - apply IH; [lia| exact D].
  Qed.
End Sync.

Lemma first_solidus_for_all {N : Num} (s : N) solidus initial averages flags :
  run_mark_melted (reference_temperatures (s :: solidus) initial) averages flags = mark_melted s averages flags.
Proof. reflexivity. Qed.
