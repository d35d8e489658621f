(** EnsembleProofs2.v -- random parameters (C28), bounding sources (C29), the binary64 quotient of C26. *)
From Coq Require Import Reals ZArith Bool List String Ascii Lia Lra Floats Uint63.
From Flocq Require Import Core IEEE754.BinarySingleNaN IEEE754.PrimFloat.
From Verif Require Import Base BaseFacts ScanPathModel MaterialModel MaterialProofs MaterialFloat InputModel EnsembleModel EnsembleSpec EnsembleProofs.
Import ListNotations.
Local Open Scope string_scope.

(** ** put *)
Lemma kid_update_same n f ks d : exists c, kid (Node d (update_first n f ks)) n = Some c /\ c = f (kid (Node d ks) n).
Proof.
  unfold kid. cbn [pkids]. induction ks as [|[k c] ks IH]; cbn [update_first find fst].
  - rewrite String.eqb_refl. eauto.
  - destruct (String.eqb k n) eqn:E; cbn [find fst]; rewrite E; cbn [snd]; eauto.
Qed.
Lemma kid_update_other n m f ks d : n <> m -> kid (Node d (update_first n f ks)) m = kid (Node d ks) m.
Proof.
  intros NE. unfold kid. cbn [pkids]. induction ks as [|[k c] ks IH]; cbn [update_first find fst].
  - destruct (String.eqb_spec n m); [contradiction|reflexivity].
  - destruct (String.eqb_spec k n) as [->|K]; cbn [find fst].
    + destruct (String.eqb_spec n m); [contradiction|reflexivity].
    + destruct (String.eqb k m); [reflexivity|exact IH].
Qed.
Lemma kid_data d ks n : kid (Node d ks) n = kid (Node "" ks) n. Proof. reflexivity. Qed.
Lemma put_get_same path : forall t v, get_str_opt (put t path v) path = Some v.
Proof.
  induction path as [|n path IH]; intros t v; [reflexivity|]. unfold get_str_opt in *. cbn [put child_opt].
  match goal with |- context [update_first n ?f ?ks] => destruct (kid_update_same n f ks (pdata t)) as (c & -> & ->) end. apply IH.
Qed.
(** Other paths keep their value when the path exists. *)
Lemma put_get_other path : forall t v q, q <> path -> (exists s, get_str_opt t path = Some s) -> get_str_opt (put t path v) q = get_str_opt t q.
Proof.
  induction path as [|n path IH]; intros t v q NE [s G].
  - destruct q as [|m q]; [contradiction|]. unfold get_str_opt. cbn [put child_opt]. destruct t. reflexivity.
  - destruct q as [|m q]; [reflexivity|]. unfold get_str_opt in *. cbn [put child_opt] in *. destruct t as [d ks]. cbn [pdata pkids].
    destruct (string_dec n m) as [->|NM].
    + match goal with |- context [update_first m ?f ks] => destruct (kid_update_same m f ks d) as (c & E & C) end. rewrite E, C. clear E C.
      destruct (kid (Node d ks) m) as [c0|]; [|discriminate]. apply IH; [congruence|eauto].
    + rewrite kid_update_other by exact NM. reflexivity.
Qed.

(** ** traverse runs over the leaves in order *)
Section Traverse.
  Context {N : Num} (tdouble : string -> option N) (fmt : N -> string) (z : nat -> N).
  Fixpoint over_leaves (fuel local global : nat) (ps : list (list string)) (st : tstate) : res (option tstate) :=
    match ps with
    | [] => Ok (Some st)
    | p :: rest => do o <- leaf tdouble fmt z fuel local global st p; match o with Some st' => over_leaves fuel local global rest st' | None => Ok None end
    end.
  Lemma over_app fuel local global ps qs st : over_leaves fuel local global (ps ++ qs) st =
    (do o <- over_leaves fuel local global ps st; match o with Some st' => over_leaves fuel local global qs st' | None => Ok None end).
  Proof.
    revert st. induction ps as [|p ps IH]; intros st; [reflexivity|]. cbn [app over_leaves].
    destruct (leaf tdouble fmt z fuel local global st p) as [[st'|]| |]; cbn [bind]; auto.
  Qed.
  (** Induction over trees. *)
  Lemma ptree_ind2 (Q : ptree -> Prop) : (forall d ks, Forall (fun p => Q (snd p)) ks -> Q (Node d ks)) -> forall t, Q t.
  Proof.
    intros H. fix IH 1. intros [d ks]. apply H. induction ks as [|[k c] ks IHk]; constructor; [apply IH|exact IHk].
  Qed.
  Lemma traverse_leaves fuel local global : forall t path st, traverse tdouble fmt z fuel local global t path st = over_leaves fuel local global (leaves path t) st.
  Proof.
    induction t as [d ks IH] using ptree_ind2. intros path st. cbn [traverse leaves]. revert st.
    induction IH as [|[k c] ks Hc _ IHk]; intros st; [reflexivity|]. cbn [snd] in Hc. rewrite over_app. destruct c as [dc kc]. destruct kc as [|k0 kc].
    - cbn [over_leaves]. destruct (leaf tdouble fmt z fuel local global st (path ++ [k])) as [[st'|]| |]; cbn [bind]; auto.
    - rewrite Hc. destruct (over_leaves fuel local global (leaves (path ++ [k]) (Node dc (k0 :: kc))) st) as [[st'|]| |]; cbn [bind]; auto.
  Qed.

  (** ** Draws *)
  Lemma draw_one_ok fuel mean sd : forall k v k', draw_one z fuel mean sd k = Some (v, k') -> nltb N v (nofZ N 0) = false /\ exists j, (k <= j)%nat /\ v = draw z mean sd j.
  Proof.
    induction fuel as [|f IH]; intros k v k' H; [discriminate|]. cbn [draw_one] in H. destruct (nltb N (draw z mean sd k) (nofZ N 0)) eqn:E.
    - destruct (IH _ _ _ H) as [A (j & L & B)]. split; [exact A|]. exists j. split; [lia|exact B].
    - injection H as <- <-. split; [exact E|]. exists k. split; [lia|reflexivity].
  Qed.
  Lemma draw_vector_ok fuel mean sd : forall len k vs, draw_vector z fuel len mean sd k = Some vs -> List.length vs = len /\ Forall (fun v => nltb N v (nofZ N 0) = false) vs.
  Proof.
    induction len as [|l IH]; intros k vs H; cbn [draw_vector] in H; [injection H as <-; split; [reflexivity|constructor]|].
    destruct (draw_one z fuel mean sd k) as [[v k']|] eqn:E; [|discriminate]. destruct (draw_vector z fuel l mean sd k') as [vs'|] eqn:R; [|discriminate]. injection H as <-.
    destruct (IH _ _ R) as [A B]. split; [simpl; congruence|]. constructor; [apply (draw_one_ok _ _ _ _ _ _ E)|exact B].
  Qed.
  (** No draw rejected. *)
  Lemma draw_vector_plain fuel mean sd : forall len k, (forall j, (k <= j < k + len)%nat -> nltb N (draw z mean sd j) (nofZ N 0) = false) ->
    draw_vector z (S fuel) len mean sd k = Some (map (draw z mean sd) (seq k len)).
  Proof.
    induction len as [|l IH]; intros k H; [reflexivity|]. cbn [draw_vector draw_one]. rewrite H by lia. rewrite IH by (intros; apply H; lia). reflexivity.
  Qed.
  Lemma put_all_length path : forall dbs vs, List.length (put_all fmt dbs path vs) = List.length dbs.
  Proof. induction dbs as [|d dbs IH]; intros [|v vs]; simpl; auto. Qed.
  Lemma put_all_nth path : forall dbs vs m db v, nth_error dbs m = Some db -> nth_error vs m = Some v -> nth_error (put_all fmt dbs path vs) m = Some (put db path (fmt v)).
  Proof.
    induction dbs as [|d dbs IH]; intros vs m db v A B; [destruct m; discriminate|]. destruct vs as [|w vs]; [destruct m; discriminate|].
    destruct m as [|m]; simpl in *; [congruence|]. eapply IH; eauto.
  Qed.

  (** ** C28: nonnegative *)
  Definition nonneg_at (db : ptree) (key : list string) : Prop := exists v, get tdouble db key = Ok v /\ nltb N v (nofZ N 0) = false.
  Lemma leaf_inv fuel local global st p st' : leaf tdouble fmt z fuel local global st p = Ok (Some st') ->
    (is_param p = false /\ st' = st) \/
    (is_param p = true /\ exists db0 key mean sd vs, nth_error (ts_dbs st) 0 = Some db0 /\ get tdouble db0 ("ensemble" :: p) = Ok sd /\ strip_stddev p = Ok key /\ get tdouble db0 key = Ok mean /\
      draw_vector z fuel local mean sd (ts_rejected st) = Some vs /\ st' = mkts (put_all fmt (ts_dbs st) key vs) (ts_keys st ++ [key]) (ts_rejected st + global)).
  Proof.
    unfold leaf, is_param. destruct (list_eq_dec string_dec p ["ensemble_simulation"]); [intros H; injection H as <-; auto|].
    destruct (list_eq_dec string_dec p ["ensemble_size"]); [intros H; injection H as <-; auto|]. intros H. right. split; [reflexivity|].
    destruct (ts_dbs st) as [|db0 dbs] eqn:E; [discriminate|].
    destruct (get tdouble db0 ("ensemble" :: p)) as [sd| |] eqn:G1; cbn [bind] in H; try discriminate.
    destruct (strip_stddev p) as [key| |] eqn:G2; cbn [bind] in H; try discriminate.
    destruct (get tdouble db0 key) as [mean| |] eqn:G3; cbn [bind] in H; try discriminate. unfold normal_random_vector in H.
    destruct (draw_vector z fuel local mean sd (ts_rejected st)) as [vs|] eqn:G4; [|discriminate]. injection H as <-. exists db0, key, mean, sd, vs. repeat split; auto.
  Qed.
End Traverse.

Section Random.
  Context {N : Num} (tdouble : string -> option N) (fmt : N -> string) (z : nat -> N).
  Hypothesis round_trip : forall v, tdouble (fmt v) = Some v.
  Lemma get_put_same db key v : get tdouble (put db key (fmt v)) key = Ok v.
  Proof. unfold get, get_opt. rewrite put_get_same, round_trip. reflexivity. Qed.
  Lemma get_put_other db key v q a : q <> key -> get tdouble db key = Ok a -> get tdouble (put db key (fmt v)) q = get tdouble db q.
  Proof.
    intros NE G. unfold get, get_opt in *. rewrite put_get_other; [reflexivity|exact NE|]. destruct (get_str_opt db key) as [s|]; [eauto|discriminate].
  Qed.

  (** Every key drawn so far has a nonnegative value in every member. *)
  Lemma get_other_exists db key v q b : (exists s, get_str_opt db key = Some s) -> get tdouble db q = Ok b -> exists c, get tdouble (put db key (fmt v)) q = Ok c /\ (c = b \/ c = v).
  Proof.
    intros EX G. destruct (list_eq_dec string_dec q key) as [->|NE]; [exists v; split; [apply get_put_same|auto]|]. exists b. split; [|auto].
    unfold get, get_opt in *. rewrite put_get_other; auto.
  Qed.
  Definition all_nonneg (st : tstate) : Prop := forall db key, In db (ts_dbs st) -> In key (ts_keys st) -> exists v, get tdouble db key = Ok v /\ nltb N v (nofZ N 0) = false.
  (** The members have the same paths. *)
  Definition same_paths (dbs : list ptree) : Prop := forall d d' q, In d dbs -> In d' dbs -> (get_str_opt d q = None <-> get_str_opt d' q = None).
  Lemma put_paths db key v q : (exists s, get_str_opt db key = Some s) -> (get_str_opt (put db key v) q = None <-> get_str_opt db q = None).
  Proof.
    intros EX. destruct (list_eq_dec string_dec q key) as [->|NE]; [rewrite put_get_same; destruct EX as [s ->]; split; discriminate|]. rewrite put_get_other by auto. reflexivity.
  Qed.
  Lemma put_all_in path dbs vs x : List.length vs = List.length dbs -> In x (put_all fmt dbs path vs) -> exists db v, In db dbs /\ In v vs /\ x = put db path (fmt v).
  Proof.
    revert vs. induction dbs as [|d dbs IH]; intros [|v vs] L I; try discriminate; [contradiction|]. simpl in I, L. destruct I as [<-|I]; [exists d, v; simpl; auto|].
    destruct (IH vs ltac:(lia) I) as (db & w & A & B & C). exists db, w. simpl. auto.
  Qed.
  Lemma leaf_nonneg fuel local global st p st' : List.length (ts_dbs st) = local -> same_paths (ts_dbs st) -> all_nonneg st -> leaf tdouble fmt z fuel local global st p = Ok (Some st') ->
    List.length (ts_dbs st') = local /\ same_paths (ts_dbs st') /\ all_nonneg st'.
  Proof.
    intros L SP NN H. apply leaf_inv in H. destruct H as [(_ & ->)|(_ & db0 & key & mean & sd & vs & D0 & G1 & G2 & G3 & DV & ->)]; [auto|].
    destruct (draw_vector_ok _ _ _ _ _ _ _ DV) as [LV NV]. cbn [ts_dbs ts_keys].
    assert (EX0 : exists s, get_str_opt db0 key = Some s) by (unfold get, get_opt in G3; destruct (get_str_opt db0 key); [eauto|discriminate]).
    assert (EX : forall db, In db (ts_dbs st) -> exists s, get_str_opt db key = Some s).
    { intros db I. destruct (get_str_opt db key) eqn:E; [eauto|]. exfalso. apply (SP db db0 key I) in E; [|apply nth_error_In with 0%nat; exact D0]. destruct EX0 as [s E0]. congruence. }
    split; [rewrite put_all_length; exact L|]. split.
    - intros d d' q I I'. apply put_all_in in I; [|congruence]. apply put_all_in in I'; [|congruence]. destruct I as (a & v & A1 & A2 & ->), I' as (b & w & B1 & B2 & ->).
      rewrite !put_paths by auto. apply SP; assumption.
    - intros x k I K. apply put_all_in in I; [|congruence]. destruct I as (a & v & A1 & A2 & ->). rewrite Forall_forall in NV. apply in_app_or in K. destruct K as [K|[<-|[]]].
      + destruct (NN a k A1 K) as (b & B1 & B2). destruct (get_other_exists a key v k b (EX a A1) B1) as (c & C1 & C2). exists c. split; [exact C1|]. destruct C2 as [->| ->]; auto.
      + exists v. split; [apply get_put_same|auto].
  Qed.
  Lemma leaves_nonneg fuel local global ps : forall st st', List.length (ts_dbs st) = local -> same_paths (ts_dbs st) -> all_nonneg st ->
    over_leaves tdouble fmt z fuel local global ps st = Ok (Some st') -> all_nonneg st'.
  Proof.
    induction ps as [|p ps IH]; intros st st' L SP NN H; cbn [over_leaves] in H; [injection H as <-; exact NN|].
    destruct (leaf tdouble fmt z fuel local global st p) as [[st1|]| |] eqn:E; cbn [bind] in H; try discriminate.
    destruct (leaf_nonneg _ _ _ _ _ _ L SP NN E) as (L1 & S1 & N1). eapply IH; eauto.
  Qed.
  Lemma drawn_nonneg fuel db first local global st : create_database_ensemble tdouble fmt z fuel db first local global = Ok (Some st) ->
    forall d key, In d (ts_dbs st) -> In key (ts_keys st) -> exists v, get tdouble d key = Ok v /\ nltb N v (nofZ N 0) = false.
  Proof.
    unfold create_database_ensemble. destruct (child db ["ensemble"]) as [ens| |]; cbn [bind]; try discriminate. rewrite traverse_leaves. intros H.
    apply (leaves_nonneg _ _ _ _ (mkts (repeat db local) [] first) _ (repeat_length db local)) in H; [exact H| |].
    - intros d d' q I I'. apply repeat_spec in I, I'. subst. reflexivity.
    - intros d key _ [].
  Qed.

  (** ** C28: independent of the partition when nothing is rejected *)
  Definition drawn_so_far (db : ptree) (first global : nat) (ps : list (param N)) (m : nat) (d : ptree) : Prop :=
    (forall i p, nth_error ps i = Some p -> get tdouble d (pr_key p) = Ok (draw z (pr_mean p) (pr_stddev p) (first + m + i * global))) /\
    (forall q, ~ In q (map pr_key ps) -> get_str_opt d q = get_str_opt db q).
  Lemma leaf_false fuel local global st p : is_param p = false -> leaf tdouble fmt z fuel local global st p = Ok (Some st).
  Proof. unfold is_param, leaf. destruct (list_eq_dec string_dec p ["ensemble_simulation"]); [reflexivity|]. destruct (list_eq_dec string_dec p ["ensemble_size"]); [reflexivity|discriminate]. Qed.
  Lemma leaf_true fuel local global st p db0 sd key mean vs : is_param p = true -> nth_error (ts_dbs st) 0 = Some db0 -> get tdouble db0 ("ensemble" :: p) = Ok sd -> strip_stddev p = Ok key ->
    get tdouble db0 key = Ok mean -> draw_vector z fuel local mean sd (ts_rejected st) = Some vs ->
    leaf tdouble fmt z fuel local global st p = Ok (Some (mkts (put_all fmt (ts_dbs st) key vs) (ts_keys st ++ [key]) (ts_rejected st + global))).
  Proof.
    unfold is_param, leaf. destruct (list_eq_dec string_dec p ["ensemble_simulation"]); [discriminate|]. destruct (list_eq_dec string_dec p ["ensemble_size"]); [discriminate|].
    intros _ D0 G1 G2 G3 DV. destruct (ts_dbs st) as [|d0 ds]; [discriminate|]. injection D0 as ->. rewrite G1. cbn [bind]. rewrite G2. cbn [bind]. rewrite G3. cbn [bind].
    unfold normal_random_vector. rewrite DV. reflexivity.
  Qed.
  Lemma get_str_get d db q : get_str_opt d q = get_str_opt db q -> get tdouble d q = get tdouble db q.
  Proof. intros H. unfold get, get_opt. rewrite H. reflexivity. Qed.
  Lemma partition_go fuel db first local global (all : list (param N)) : (1 <= local)%nat -> NoDup (map pr_key all) -> (forall p rest, In p all -> pr_key p <> "ensemble" :: rest) ->
    (forall i p j, nth_error all i = Some p -> (first <= j < first + local)%nat -> nltb N (draw z (pr_mean p) (pr_stddev p) (j + i * global)) (nofZ N 0) = false) ->
    forall leafs done todo st, all = (done ++ todo)%list ->
    Forall2 (fun path p => strip_stddev path = Ok (pr_key p) /\ get tdouble db ("ensemble" :: path) = Ok (pr_stddev p) /\ get tdouble db (pr_key p) = Ok (pr_mean p)) (filter is_param leafs) todo ->
    List.length (ts_dbs st) = local -> ts_keys st = map pr_key done -> ts_rejected st = (first + List.length done * global)%nat ->
    (forall m d, nth_error (ts_dbs st) m = Some d -> drawn_so_far db first global done m d) ->
    exists st', over_leaves tdouble fmt z (S fuel) local global leafs st = Ok (Some st') /\ List.length (ts_dbs st') = local /\ ts_keys st' = map pr_key all /\
      forall m d, nth_error (ts_dbs st') m = Some d -> drawn_so_far db first global all m d.
  Proof.
    intros L1 ND NE NR. induction leafs as [|path leafs IH]; intros done todo st EQ F2 LD KS RJ INV.
    - simpl in F2. inversion F2; subst. rewrite app_nil_r in *. exists st. auto.
    - cbn [filter] in F2. cbn [over_leaves]. destruct (is_param path) eqn:IP.
      + inversion F2 as [|? p ? todo' (H1 & H2 & H3) F2']; subst. 
        destruct (nth_error (ts_dbs st) 0) as [db0|] eqn:D0; [|apply nth_error_None in D0; lia].
        assert (I0 := INV 0%nat db0 D0). destruct I0 as [_ I0].
        assert (NIN : ~ In (pr_key p) (map pr_key done)).
        { rewrite map_app in ND. cbn [map] in ND. apply NoDup_remove_2 in ND. intros I. apply ND. apply in_or_app. left. exact I. }
        assert (NENS : ~ In ("ensemble" :: path) (map pr_key done)).
        { intros I. apply in_map_iff in I. destruct I as (q & E & I). apply (NE q path); [apply in_or_app; left; exact I|exact E]. }
        assert (NTH : nth_error (done ++ p :: todo') (List.length done) = Some p) by (rewrite nth_error_app2, Nat.sub_diag by lia; reflexivity).
        assert (DV : draw_vector z (S fuel) (List.length (ts_dbs st)) (pr_mean p) (pr_stddev p) (ts_rejected st) = Some (map (draw z (pr_mean p) (pr_stddev p)) (seq (ts_rejected st) (List.length (ts_dbs st))))).
        { apply draw_vector_plain. intros j J. rewrite RJ in J. assert (X := NR (List.length done) p (j - List.length done * global)%nat NTH ltac:(lia)).
          replace (j - List.length done * global + List.length done * global)%nat with j in X by lia. exact X. }
        rewrite (leaf_true _ _ _ _ _ db0 (pr_stddev p) (pr_key p) (pr_mean p) (map (draw z (pr_mean p) (pr_stddev p)) (seq (ts_rejected st) (List.length (ts_dbs st)))) IP D0); [|rewrite (get_str_get _ _ _ (I0 _ NENS)); exact H2|exact H1|rewrite (get_str_get _ _ _ (I0 _ NIN)); exact H3|exact DV].
        cbn [bind]. apply (IH (done ++ [p])%list todo').
        * rewrite <- app_assoc. reflexivity.
        * exact F2'.
        * cbn [ts_dbs]. apply put_all_length.
        * cbn [ts_keys]. rewrite KS, map_app. reflexivity.
        * cbn [ts_rejected]. rewrite RJ, app_length. simpl. lia.
        * cbn [ts_dbs]. intros m d' E. assert (ML : (m < List.length (ts_dbs st))%nat) by (rewrite <- (put_all_length fmt (pr_key p) (ts_dbs st) (map (draw z (pr_mean p) (pr_stddev p)) (seq (ts_rejected st) (List.length (ts_dbs st))))); apply nth_error_Some; congruence).
          destruct (nth_error (ts_dbs st) m) as [d|] eqn:Ed; [|apply nth_error_None in Ed; lia].
          assert (Ev : nth_error (map (draw z (pr_mean p) (pr_stddev p)) (seq (ts_rejected st) (List.length (ts_dbs st)))) m = Some (draw z (pr_mean p) (pr_stddev p) (ts_rejected st + m))).
          { apply map_nth_error. rewrite (nth_error_nth' _ 0%nat) by (rewrite seq_length; exact ML). rewrite seq_nth by exact ML. reflexivity. }
          rewrite (put_all_nth fmt _ _ _ _ _ _ Ed Ev) in E. injection E as <-.
          destruct (INV m d Ed) as [V O]. assert (GK : get tdouble d (pr_key p) = Ok (pr_mean p)) by (rewrite (get_str_get _ _ _ (O _ NIN)); exact H3).
          split.
          -- intros i q E. destruct (Nat.lt_ge_cases i (List.length done)) as [LI|LI].
             ++ rewrite nth_error_app1 in E by exact LI. rewrite (get_put_other _ _ _ _ _ (fun X => NIN (eq_ind _ (fun k => In k (map pr_key done)) (in_map pr_key _ _ (nth_error_In _ _ E)) _ X)) GK). apply V, E.
             ++ rewrite nth_error_app2 in E by exact LI. destruct (i - List.length done)%nat as [|j] eqn:J; [|destruct j; discriminate]. injection E as <-.
                rewrite get_put_same. f_equal. f_equal. rewrite RJ. assert (i = List.length done) by lia. subst i. lia.
          -- intros q NQ. rewrite map_app in NQ. cbn [map] in NQ. rewrite put_get_other.
             ++ apply O. intros I. apply NQ, in_or_app. left. exact I.
             ++ intros ->. apply NQ, in_or_app. right. left. reflexivity.
             ++ unfold get, get_opt in GK. destruct (get_str_opt d (pr_key p)); [eauto|discriminate].
      + rewrite leaf_false by exact IP. cbn [bind]. apply (IH done todo); auto.
  Qed.
  Lemma partition_independent fuel db first local global ps : (1 <= local)%nat -> described tdouble db ps ->
    (forall i p g, nth_error ps i = Some p -> (first <= g < first + local)%nat -> nltb N (draw z (pr_mean p) (pr_stddev p) (g + i * global)) (nofZ N 0) = false) ->
    exists st, create_database_ensemble tdouble fmt z (S fuel) db first local global = Ok (Some st) /\ List.length (ts_dbs st) = local /\ ts_keys st = map pr_key ps /\
    forall m d, nth_error (ts_dbs st) m = Some d ->
      (forall i p, nth_error ps i = Some p -> get tdouble d (pr_key p) = Ok (draw z (pr_mean p) (pr_stddev p) (first + m + i * global))) /\
      (forall q, ~ In q (map pr_key ps) -> get_str_opt d q = get_str_opt db q).
  Proof.
    intros L1 (ens & C & F2 & ND & NE) NR. unfold create_database_ensemble, child. rewrite C. cbn [bind].
    destruct (partition_go fuel db first local global ps L1 ND NE NR (leaves [] ens) [] ps (mkts (repeat db local) [] first) eq_refl F2) as (st & H & A & B & D); cbn [ts_dbs ts_keys ts_rejected].
    - apply repeat_length.
    - reflexivity.
    - simpl. lia.
    - intros m d E. split; [intros i p X; destruct i; discriminate|]. intros q _. apply nth_error_In, repeat_spec in E. congruence.
    - exists st. rewrite traverse_leaves. auto.
  Qed.
End Random.

(** A deviation of zero around a negative mean: the loop never ends. *)
Lemma never_drawn fuel : forall (z : nat -> R) (mean : R) k, (mean < 0)%R -> draw_one (N := RNum) z fuel mean 0%R k = None.
Proof.
  induction fuel as [|f IH]; intros z mean k H; [reflexivity|]. cbn [draw_one]. unfold draw. cbn [nltb nadd nmul nofZ RNum]. rewrite (proj2 (Rltb_true _ _)) by (simpl; lra). apply IH, H.
Qed.

(** ** C29 *)
Section Bounding.
  Local Open Scope R_scope.
  Lemma max_member_ok : forall acc pairs r, max_member (N := RNum) acc pairs = Ok r -> List.length r = List.length acc /\
    forall i a, nth_error r i = Some a -> exists b, nth_error acc i = Some b /\ fst b <= fst a /\ snd b <= snd a /\
      (forall q, nth_error pairs i = Some q -> fst q <= fst a /\ snd q <= snd a) /\
      (fst a = fst b \/ exists q, nth_error pairs i = Some q /\ fst a = fst q) /\ (snd a = snd b \/ exists q, nth_error pairs i = Some q /\ snd a = snd q).
  Proof.
    induction acc as [|[dm pm] acc IH]; intros pairs r H.
    - destruct pairs as [|[d p] pairs]; [|discriminate]. injection H as <-. split; [reflexivity|]. intros i a E. destruct i; discriminate.
    - destruct pairs as [|[d p] pairs]; cbn [max_member] in H.
      + injection H as <-. split; [reflexivity|]. intros i a E. exists a. split; [exact E|]. split; [lra|]. split; [lra|]. split; [intros q X; destruct i; discriminate|]. auto.
      + destruct (max_member (N := RNum) acc pairs) as [r'| |] eqn:R; cbn [bind] in H; try discriminate. injection H as <-. destruct (IH _ _ R) as [L K]. split; [simpl; f_equal; exact L|].
        intros i a E. destruct i as [|i]; simpl in E.
        * injection E as <-. exists (dm, pm). split; [reflexivity|]. cbn [fst snd nltb RNum].
          destruct (Rltb_spec dm d), (Rltb_spec pm p); (split; [lra|]; split; [lra|]; split; [intros q X; simpl in X; inversion X; subst; simpl; lra|]; split); first [left; reflexivity|right; exists (d, p); split; reflexivity].
        * destruct (K i a E) as (b & A & B). exists b. simpl. auto.
  Qed.
  Lemma max_members_ok ms : forall acc r, max_members (N := RNum) acc ms = Ok r -> List.length r = List.length acc /\
    forall i a, nth_error r i = Some a -> exists b, nth_error acc i = Some b /\ fst b <= fst a /\ snd b <= snd a /\
      (forall m q, In m ms -> nth_error m i = Some q -> fst q <= fst a /\ snd q <= snd a) /\
      (fst a = fst b \/ exists m q, In m ms /\ nth_error m i = Some q /\ fst a = fst q).
  Proof.
    induction ms as [|m ms IH]; intros acc r H; cbn [max_members] in H.
    - injection H as <-. split; [reflexivity|]. intros i a E. exists a. repeat split; auto; try lra; contradiction.
    - destruct (max_member (N := RNum) acc m) as [acc1| |] eqn:M; cbn [bind] in H; try discriminate. destruct (max_member_ok _ _ _ M) as [L1 K1]. destruct (IH _ _ H) as [L2 K2].
      split; [congruence|]. intros i a E. destruct (K2 i a E) as (b & B1 & B2 & B3 & B4 & B5). destruct (K1 i b B1) as (c & C1 & C2 & C3 & C4 & C5 & _).
      exists c. split; [exact C1|]. split; [lra|]. split; [lra|]. split.
      + intros m' q [<-|I] X; [destruct (C4 q X); lra|eapply B4; eauto].
      + destruct B5 as [B5|(m' & q & I & X & Y)]; [|right; exists m', q; simpl; auto]. destruct C5 as [C5|(q & X & Y)]; [left; exact (eq_trans B5 C5)|]. right. exists m, q. simpl. repeat split; auto. exact (eq_trans B5 Y).
  Qed.
  Lemma moving_not_cube b : moving b -> String.eqb (b_type b) "cube" = false /\ (String.eqb (b_type b) "goldak" || String.eqb (b_type b) "electron_beam") = true.
  Proof. intros [E|E]; rewrite E; split; reflexivity. Qed.
  Lemma bounding_ok : forall (m0 : list (beam RNum)) maxima r, Forall known m0 -> bounding maxima m0 = Ok r -> List.length r = List.length m0 /\
    forall i b, nth_error m0 i = Some b -> exists s, nth_error r i = Some (Some s) /\ b_type s = b_type b /\
      (moving b -> exists j, nth_error maxima j = Some (b_diameter s, b_depth s) /\
         forall m, same_types m0 m -> forall b', nth_error m i = Some b' -> nth_error (member_pairs m) j = Some (beam_pair b')) /\
      (b_type b = "cube" -> s = b).
  Proof.
    induction m0 as [|b0 m0 IH]; intros maxima r KN H; cbn [bounding] in H.
    - injection H as <-. split; [reflexivity|]. intros i b E. destruct i; discriminate.
    - inversion KN as [|? ? K0 KN']; subst. destruct K0 as [MV|CU].
      + destruct (moving_not_cube _ MV) as [NC MVb]. rewrite MVb in H. destruct maxima as [|[d p] maxima]; [discriminate|].
        destruct (bounding maxima m0) as [r'| |] eqn:B; cbn [bind] in H; try discriminate. injection H as <-. destruct (IH _ _ KN' B) as [L K]. split; [simpl; congruence|].
        intros i b E. destruct i as [|i]; simpl in E.
        * injection E as <-. exists (mkbeam (N := RNum) (b_type b0) d p). split; [reflexivity|]. split; [reflexivity|]. split.
          -- intros _. exists 0%nat. split; [reflexivity|]. intros m ST b' E'. inversion ST as [|? b1 ? m1 T ST']; subst. injection E' as <-.
             unfold member_pairs. cbn [filter]. rewrite <- T, NC. reflexivity.
          -- intros C. rewrite C in NC. discriminate.
        * destruct (K i b E) as (s & S1 & S2 & S3 & S4). exists s. split; [exact S1|]. split; [exact S2|]. split; [|exact S4].
          intros M. destruct (S3 M) as (j & J1 & J2). exists (S j). split; [exact J1|]. intros m ST b' E'. inversion ST as [|? b1 ? m1 T ST']; subst. simpl in E'.
          unfold member_pairs. cbn [filter]. rewrite <- T, NC. cbn [negb map nth_error]. apply (J2 m1 ST' b' E').
      + assert (NM : (String.eqb (b_type b0) "goldak" || String.eqb (b_type b0) "electron_beam") = false) by (rewrite CU; reflexivity). rewrite NM in H.
        assert (CUb : String.eqb (b_type b0) "cube" = true) by (rewrite CU; reflexivity). rewrite CUb in H.
        destruct (bounding maxima m0) as [r'| |] eqn:B; cbn [bind] in H; try discriminate. injection H as <-. destruct (IH _ _ KN' B) as [L K]. split; [simpl; congruence|].
        intros i b E. destruct i as [|i]; simpl in E.
        * injection E as <-. exists b0. split; [reflexivity|]. split; [reflexivity|]. split; [intros M; destruct (moving_not_cube _ M); congruence|auto].
        * destruct (K i b E) as (s & S1 & S2 & S3 & S4). exists s. split; [exact S1|]. split; [exact S2|]. split; [|exact S4].
          intros M. destruct (S3 M) as (j & J1 & J2). exists j. split; [exact J1|]. intros m ST b' E'. inversion ST as [|? b1 ? m1 T ST']; subst. simpl in E'.
          unfold member_pairs. cbn [filter]. rewrite <- T, CUb. cbn [negb]. apply (J2 m1 ST' b' E').
  Qed.
  Lemma bounding_all (local : list (list (beam RNum))) all m0 rest r : local = m0 :: rest -> Forall known m0 -> (forall rank m, In rank all -> In m rank -> same_types m0 m) ->
    bounding_heat_sources local all = Ok r -> List.length r = List.length m0 /\
    forall i b, nth_error m0 i = Some b -> exists s, nth_error r i = Some (Some s) /\ b_type s = b_type b /\ (b_type b = "cube" -> s = b) /\
    (moving b -> forall rank m b', In rank all -> In m rank -> nth_error m i = Some b' -> b_diameter b' <= b_diameter s /\ b_diameter b' <= b_depth s).
  Proof.
    intros -> KN ST H. unfold bounding_heat_sources in H. destruct (max_members (N := RNum) _ _) as [mx| |] eqn:M in H; cbn [bind] in H; try discriminate.
    destruct (bounding_ok _ _ _ KN H) as [L K]. split; [exact L|]. intros i b E. destruct (K i b E) as (s & S1 & S2 & S3 & S4). exists s. split; [exact S1|]. split; [exact S2|]. split; [exact S4|].
    intros MV rank m b' IR IM E'. destruct (S3 MV) as (j & J1 & J2). destruct (max_members_ok _ _ _ M) as [_ KM]. destruct (KM j _ J1) as (_ & _ & _ & _ & KB & _).
    assert (X := KB (member_pairs m) (beam_pair b')). cbn [fst snd beam_pair] in X. apply X.
    - apply in_concat. exists (map member_pairs rank). split; [apply in_map; exact IR|apply in_map; exact IM].
    - apply (J2 m (ST rank m IR IM) b' E').
  Qed.
  Lemma bounding_attained (local : list (list (beam RNum))) all m0 rest r : local = m0 :: rest -> Forall known m0 -> (forall rank m, In rank all -> In m rank -> same_types m0 m) ->
    (exists rank, In rank all /\ In m0 rank) -> Forall (fun b : beam RNum => -1 < b_diameter b) m0 -> bounding_heat_sources local all = Ok r ->
    forall i b s, nth_error m0 i = Some b -> moving b -> nth_error r i = Some (Some s) ->
    exists rank m b', In rank all /\ In m rank /\ nth_error m i = Some b' /\ b_diameter s = b_diameter b'.
  Proof.
    intros -> KN ST (rank0 & IR0 & IM0) POS H i b s E MV ES. unfold bounding_heat_sources in H. destruct (max_members (N := RNum) _ _) as [mx| |] eqn:M in H; cbn [bind] in H; try discriminate.
    destruct (bounding_ok _ _ _ KN H) as [L K]. destruct (K i b E) as (s' & S1 & S2 & S3 & S4). rewrite S1 in ES. injection ES as <-.
    destruct (S3 MV) as (j & J1 & J2). destruct (max_members_ok _ _ _ M) as [_ KM]. destruct (KM j _ J1) as (b0 & B0 & _ & _ & KB & AT).
    assert (Jb := J2 m0 (ST rank0 m0 IR0 IM0) b E).
    assert (X := KB (member_pairs m0) (beam_pair b) ltac:(apply in_concat; exists (map member_pairs rank0); split; apply in_map; assumption) Jb).
    rewrite Forall_forall in POS. assert (P := POS b (nth_error_In _ _ E)). cbn [fst snd beam_pair] in X, AT.
    destruct AT as [AT|(m' & q & I' & Q1 & Q2)].
    - exfalso. rewrite nth_error_map in B0. destruct (nth_error (member_pairs m0) j); [|discriminate]. injection B0 as <-. simpl in AT, X, P. change (b_diameter s' = -1) in AT. simpl in *. lra.
    - apply in_concat in I'. destruct I' as (l & I1 & I2). apply in_map_iff in I1. destruct I1 as (rank & <- & IR). apply in_map_iff in I2. destruct I2 as (m & <- & IM).
      assert (SM := ST rank m IR IM). assert (EX : exists b', nth_error m i = Some b').
      { destruct (nth_error m i) as [b'|] eqn:Z; [eauto|]. exfalso. apply nth_error_None in Z. assert (LM := Forall2_len _ _ _ SM). assert ((i < List.length m0)%nat) by (apply nth_error_Some; rewrite E; discriminate).
        rewrite LM in H0. apply (Nat.lt_irrefl i). eapply Nat.lt_le_trans; eauto. }
      destruct EX as [b' Eb]. exists rank, m, b'. repeat split; auto. rewrite (J2 m SM b' Eb) in Q1. injection Q1 as <-. exact Q2.
  Qed.
  Lemma max_member_total : forall acc pairs, (List.length pairs <= List.length acc)%nat -> exists r, max_member (N := RNum) acc pairs = Ok r /\ List.length r = List.length acc.
  Proof.
    induction acc as [|[dm pm] acc IH]; intros [|[d p] pairs] L; cbn [max_member]; simpl in L; [eexists; split; reflexivity|inversion L|eexists; split; reflexivity|].
    destruct (IH pairs (le_S_n _ _ L)) as (r & E & LR). rewrite E. cbn [bind]. eexists. split; [reflexivity|]. simpl. f_equal. exact LR.
  Qed.
  Lemma max_members_total ms : forall acc, (forall m, In m ms -> (List.length m <= List.length acc)%nat) -> exists r, max_members (N := RNum) acc ms = Ok r /\ List.length r = List.length acc.
  Proof.
    induction ms as [|m ms IH]; intros acc H; cbn [max_members]; [eauto|]. destruct (max_member_total acc m (H m (or_introl eq_refl))) as (r & E & L). rewrite E. cbn [bind].
    destruct (IH r) as (r' & E' & L'); [intros x I; rewrite L; apply H; right; exact I|]. exists r'. split; [exact E'|congruence].
  Qed.
  Lemma pairs_length (m0 m : list (beam RNum)) : same_types m0 m -> List.length (member_pairs m) = List.length (member_pairs m0).
  Proof. unfold member_pairs. induction 1 as [|b b' m0 m T ST IH]; [reflexivity|]. cbn [filter]. rewrite <- T. destruct (negb (String.eqb (b_type b) "cube")); simpl; [f_equal|]; exact IH. Qed.
  Lemma bounding_fun_total : forall (m0 : list (beam RNum)) maxima, Forall known m0 -> List.length maxima = List.length (member_pairs m0) -> exists r, bounding maxima m0 = Ok r.
  Proof.
    induction m0 as [|b m0 IH]; intros maxima KN L; cbn [bounding]; [eauto|]. inversion KN as [|? ? K0 KN']; subst. unfold member_pairs in L. cbn [filter] in L. destruct K0 as [MV|CU].
    - destruct (moving_not_cube _ MV) as [NC MVb]. rewrite NC in L. rewrite MVb. simpl in L. destruct maxima as [|[d p] maxima]; [discriminate|]. destruct (IH maxima KN') as [r E]; [simpl in L; injection L as L; exact L|].
      rewrite E. cbn [bind]. eauto.
    - assert (NM : (String.eqb (b_type b) "goldak" || String.eqb (b_type b) "electron_beam") = false) by (rewrite CU; reflexivity). rewrite NM.
      assert (CUb : String.eqb (b_type b) "cube" = true) by (rewrite CU; reflexivity). rewrite CUb in L. destruct (IH maxima KN' L) as [r E]. rewrite E. cbn [bind]. eauto.
  Qed.
  Lemma bounding_total (local : list (list (beam RNum))) all m0 rest : local = m0 :: rest -> Forall known m0 -> (forall rank m, In rank all -> In m rank -> same_types m0 m) ->
    exists r, bounding_heat_sources local all = Ok r.
  Proof.
    intros -> KN ST. unfold bounding_heat_sources. edestruct max_members_total as (mx & E & L); [|rewrite E; cbn [bind]; apply bounding_fun_total; [exact KN|rewrite L; apply map_length]].
    intros m I. apply in_concat in I. destruct I as (l & I1 & I2). apply in_map_iff in I1. destruct I1 as (rank & <- & IR). apply in_map_iff in I2. destruct I2 as (m' & <- & IM).
    rewrite map_length. rewrite (pairs_length m0 m' (ST rank m' IR IM)). apply le_n.
  Qed.
End Bounding.


(** ** C26: the quotient of the two counts in binary64 (adamantine.hh:1451-1463) *)
Section Quotient.
  Local Open Scope R_scope.
  Local Instance vexpq : Valid_exp fexp64.
  Proof. apply (@fexp_correct prec emax Hprec). Qed.
  Lemma dyadic_fmt (m : Z) (e : nat) : (Z.abs m < 2 ^ 53)%Z -> (e <= 1000)%nat -> generic_format radix2 fexp64 (IZR m * bpow radix2 (- Z.of_nat e)).
  Proof.
    intros M E. change fexp64 with (FLT_exp (3 - emax - prec) prec). apply generic_format_FLT. exists (Float radix2 m (- Z.of_nat e)); simpl.
    - reflexivity.
    - exact M.
    - unfold emax, prec. lia.
  Qed.
  Lemma int_fmt (m : Z) : (Z.abs m < 2 ^ 53)%Z -> generic_format radix2 fexp64 (IZR m).
  Proof. intros M. assert (H := dyadic_fmt m 0 M ltac:(lia)). simpl in H. rewrite Rmult_1_r in H. exact H. Qed.
  (** A rational between two integers stays strictly between them. *)
  Lemma round_strict (p n k : Z) : (0 < n < 2 ^ 32)%Z -> (0 <= p < 2 ^ 32)%Z -> (k * n < p < (k + 1) * n)%Z -> IZR k < rnd64 (IZR p / IZR n) < IZR (k + 1).
  Proof.
    intros Hn Hp Hk. set (e := Z.to_nat (Z.log2_up n)). assert (E0 : (0 <= Z.log2_up n)%Z) by apply Z.log2_up_nonneg.
    assert (EL : (Z.log2_up n <= 32)%Z) by (transitivity (Z.log2_up (2 ^ 32)); [apply Z.log2_up_le_mono; lia|rewrite Z.log2_up_pow2; lia]).
    assert (EU : (n <= 2 ^ Z.log2_up n)%Z) by (destruct (Z.eq_dec n 1) as [->|]; [simpl; lia|apply Z.log2_up_spec; lia]).
    assert (E2 : (2 ^ Z.log2_up n < 2 * n)%Z).
    { destruct (Z.eq_dec n 1) as [->|]; [simpl; lia|]. assert (H := Z.log2_up_spec n ltac:(lia)). replace (Z.log2_up n) with (Z.succ (Z.pred (Z.log2_up n))) by lia.
      rewrite Z.pow_succ_r; [lia|]. assert (X := Z.log2_up_pos n ltac:(lia)). lia. }
    set (d := (2 ^ Z.log2_up n)%Z) in *. assert (ZE : Z.of_nat e = Z.log2_up n) by (unfold e; lia).
    assert (BP : bpow radix2 (- Z.of_nat e) = / IZR d).
    { rewrite bpow_opp, ZE. f_equal. unfold d. rewrite <- IZR_Zpower by lia. reflexivity. }
    assert (N0 : 0 < IZR n) by (apply IZR_lt; lia). assert (D0 : 0 < IZR d) by (apply IZR_lt; lia). assert (K0 : (0 <= k)%Z) by nia.
    assert (Q1 : IZR k + / IZR n <= IZR p / IZR n).
    { apply (Rmult_le_reg_r (IZR n)); [exact N0|]. unfold Rdiv. rewrite Rmult_plus_distr_r, Rmult_assoc, !Rinv_l by lra. rewrite Rmult_1_r. rewrite <- mult_IZR, <- plus_IZR. apply IZR_le. lia. }
    assert (Q2 : IZR p / IZR n <= IZR (k + 1) - / IZR n).
    { apply (Rmult_le_reg_r (IZR n)); [exact N0|]. unfold Rdiv. rewrite Rmult_minus_distr_r, Rmult_assoc, !Rinv_l by lra. rewrite Rmult_1_r. rewrite <- mult_IZR, <- minus_IZR. apply IZR_le. lia. }
    assert (IN : / IZR d <= / IZR n) by (apply Rinv_le_contravar; [exact N0|apply IZR_le; lia]).
    assert (ID : 0 < / IZR d) by (apply Rinv_0_lt_compat; exact D0).
    assert (F1 : generic_format radix2 fexp64 (IZR k + / IZR d)).
    { replace (IZR k + / IZR d) with (IZR (k * d + 1) * bpow radix2 (- Z.of_nat e)); [apply dyadic_fmt; [nia|lia]|]. rewrite BP, plus_IZR, mult_IZR. field. lra. }
    assert (F2 : generic_format radix2 fexp64 (IZR (k + 1) - / IZR d)).
    { replace (IZR (k + 1) - / IZR d) with (IZR ((k + 1) * d - 1) * bpow radix2 (- Z.of_nat e)); [apply dyadic_fmt; [nia|lia]|]. rewrite BP, minus_IZR, mult_IZR. field. lra. }
    split.
    - apply Rlt_le_trans with (IZR k + / IZR d); [lra|]. apply round_ge_generic; [exact _|exact _|exact F1|lra].
    - apply Rle_lt_trans with (IZR (k + 1) - / IZR d); [|lra]. apply round_le_generic; [exact _|exact _|exact F2|lra].
  Qed.
  Lemma round_int (p n k : Z) : (0 < n < 2 ^ 32)%Z -> (0 <= p < 2 ^ 32)%Z -> (p = k * n)%Z -> rnd64 (IZR p / IZR n) = IZR k.
  Proof.
    intros Hn Hp E. assert (N0 : 0 < IZR n) by (apply IZR_lt; lia). replace (IZR p / IZR n) with (IZR k) by (rewrite E, mult_IZR; field; lra).
    apply round_generic; [exact _|]. apply int_fmt. nia.
  Qed.
  Lemma Fval_ofZ z : (0 <= z < 2 ^ 53)%Z -> Ffinite (nofZ FNum z) /\ Fval (nofZ FNum z) = IZR z.
  Proof.
    intros H. assert (IV : Ffinite (PrimFloat.of_uint63 (Uint63.of_Z z)) /\ Fval (PrimFloat.of_uint63 (Uint63.of_Z z)) = IZR z).
    { assert (B := binary_normalize_correct prec emax Hprec Hmax mode_NE z 0 false). cbv zeta in B.
      assert (E : F2R (Float radix2 z 0) = IZR z) by (unfold F2R; simpl; ring). rewrite E in B.
      rewrite (round_generic radix2 fexp64 (round_mode mode_NE) _ (int_fmt z ltac:(lia))) in B.
      assert (U : Uint63.to_Z (Uint63.of_Z z) = z) by (rewrite Uint63.of_Z_spec; apply Z.mod_small; change Uint63.wB with (2 ^ 63)%Z; lia).
      rewrite Rlt_bool_true in B.
      - destruct B as (B1 & B2 & _). unfold Ffinite, Fval. rewrite is_finite_equiv, of_int63_equiv, U. auto.
      - rewrite Rabs_pos_eq by (apply IZR_le; lia). apply Rlt_trans with (bpow radix2 53); [|apply bpow_lt; reflexivity]. change (bpow radix2 53) with (IZR (2 ^ 53)). apply IZR_lt. lia. }
    destruct z as [|z|z]; [split; [reflexivity|apply Fval_zero]|exact IV|lia].
  Qed.
  Lemma quotient_rounded (p n : nat) : (0 < n)%nat -> (Z.of_nat n < 2 ^ 32)%Z -> (Z.of_nat p < 2 ^ 32)%Z ->
    let q := rnd64 (INR p / INR n) in
    (1 < q <-> (n < p)%nat) /\ (q = IZR (Zfloor q) <-> Nat.modulo p n = 0%nat) /\ Zfloor q = Z.of_nat (Nat.div p n).
  Proof.
    intros N0 HN HP. cbv zeta. rewrite !INR_IZR_INZ. set (k := Nat.div p n). set (r := Nat.modulo p n).
    assert (DM : p = (n * k + r)%nat) by (apply Nat.div_mod; lia). assert (RB : (r < n)%nat) by (apply Nat.mod_upper_bound; lia).
    destruct (Nat.eq_dec r 0) as [Z0|NZ].
    - rewrite (round_int _ _ (Z.of_nat k)) by nia. rewrite Zfloor_IZR. split; [|tauto]. split; intros H; [apply lt_IZR in H; nia|apply IZR_lt; nia].
    - assert (RS := round_strict (Z.of_nat p) (Z.of_nat n) (Z.of_nat k) ltac:(lia) ltac:(lia) ltac:(nia)). set (x := rnd64 _) in *.
      assert (FL : Zfloor x = Z.of_nat k) by (apply Zfloor_imp; split; [apply Rlt_le; apply RS|apply RS]). rewrite FL. split; [|split; [split; intros H; [lra|lia]|reflexivity]].
      split; intros H.
      + assert (X : 1 < IZR (Z.of_nat k + 1)) by lra. apply lt_IZR in X. assert (1 <= k)%nat by lia. nia.
      + assert (X : (1 <= Z.of_nat k)%Z) by (assert (k <> 0)%nat by (intros ->; lia); lia). apply IZR_le in X. lra.
  Qed.
  Lemma quotient_binary64 (p n : nat) : (0 < n)%nat -> (Z.of_nat n < 2 ^ 32)%Z -> (Z.of_nat p < 2 ^ 32)%Z ->
    let q := ndiv FNum (nofZ FNum (Z.of_nat p)) (nofZ FNum (Z.of_nat n)) in
    Ffinite q /\ (nltb FNum (nofZ FNum 1) q = Nat.ltb n p) /\ (Fval q = IZR (Zfloor (Fval q)) <-> Nat.modulo p n = 0%nat) /\ Zfloor (Fval q) = Z.of_nat (Nat.div p n).
  Proof.
    intros N0 HN HP q. destruct (Fval_ofZ (Z.of_nat p) ltac:(lia)) as [FP VP]. destruct (Fval_ofZ (Z.of_nat n) ltac:(lia)) as [FN VN].
    assert (NP : 1 <= IZR (Z.of_nat n)) by (apply IZR_le; lia). assert (PP : 0 <= IZR (Z.of_nat p) < bpow radix2 32) by (split; [apply IZR_le; lia|change (bpow radix2 32) with (IZR (2 ^ 32)); apply IZR_lt; lia]).
    assert (QB : 0 <= IZR (Z.of_nat p) / IZR (Z.of_nat n) <= bpow radix2 32).
    { split; [apply Rmult_le_pos; [lra|apply Rlt_le, Rinv_0_lt_compat; lra]|]. apply (Rmult_le_reg_r (IZR (Z.of_nat n))); [lra|]. unfold Rdiv. rewrite Rmult_assoc, Rinv_l by lra. nra. }
    assert (V : Ffinite q /\ Fval q = rnd64 (INR p / INR n)).
    { rewrite !INR_IZR_INZ. unfold q. unfold Ffinite in *. rewrite is_finite_equiv in *.
      assert (E := Bdiv_correct prec emax Hprec Hmax mode_NE (Prim2B (nofZ FNum (Z.of_nat p))) (Prim2B (nofZ FNum (Z.of_nat n)))).
      fold (Fval (nofZ FNum (Z.of_nat p))) in E. fold (Fval (nofZ FNum (Z.of_nat n))) in E. rewrite VP, VN in E. specialize (E ltac:(lra)). rewrite Rlt_bool_true in E.
      - destruct E as (E1 & E2 & _). change (ndiv FNum ?a ?b) with (PrimFloat.div a b). split; [rewrite div_equiv, E2; exact FP|]. unfold Fval. rewrite div_equiv. exact E1.
      - rewrite Rabs_pos_eq by (apply round_ge_generic; [exact _|exact _|apply generic_format_0|lra]). apply Rle_lt_trans with (bpow radix2 32); [|apply bpow_lt; reflexivity].
        apply round_le_generic; [exact _|exact _|change (bpow radix2 32) with (IZR (2 ^ 32)); apply int_fmt; lia|lra]. }
    destruct V as [FQ VQ]. destruct (quotient_rounded p n N0 HN HP) as (A & B & C). rewrite <- VQ in A, B, C. split; [exact FQ|]. split; [|auto].
    destruct (Fval_ofZ 1 ltac:(lia)) as [F1 V1]. rewrite (Fltb _ _ F1 FQ), V1. destruct (Nat.ltb_spec n p) as [L|L].
    - apply Rltb_true, A, L.
    - apply Rltb_false. apply Rnot_lt_le. intros X. apply A in X. lia.
  Qed.
End Quotient.
