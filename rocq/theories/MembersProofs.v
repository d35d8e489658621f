(** MembersProofs.v -- proofs of C74. *)
From Coq Require Import ZArith Bool List String Lia.
From Verif Require Import Base BaseFacts MaterialModel InputModel EnsembleModel EnsembleSpec EnsembleProofs EnsembleProofs2 AssimilationModel CellModel MainProofs2 ElasticProofs7 MembersModel MembersSpec.
Import ListNotations.
Local Open Scope string_scope.

(** ** Databases *)
Lemma child_opt_app a : forall t b, child_opt t (a ++ b) = match child_opt t a with Some c => child_opt c b | None => None end.
Proof. induction a as [|k a IH]; intros t b; [reflexivity|]. cbn [List.app child_opt]. destruct (kid t k); [apply IH|reflexivity]. Qed.
Lemma child_get t k c q : child t [k] = Ok c -> get_str_opt c q = get_str_opt t (k :: q).
Proof.
  unfold child. cbn [child_opt]. intros H. destruct (kid t k) as [d|] eqn:E; [|discriminate]. injection H as H. subst.
  unfold get_str_opt. cbn [child_opt]. rewrite E. reflexivity.
Qed.
Lemma child_exists t p : (exists c, child t p = Ok c) <-> (exists s, get_str_opt t p = Some s).
Proof.
  unfold child, get_str_opt. destruct (child_opt t p); cbn; split; intros [x H]; try discriminate; eexists; reflexivity.
Qed.
Lemma get_def_eq {A} (tr : string -> option A) d t t' q : get_str_opt t q = get_str_opt t' q -> get_def tr d t q = get_def tr d t' q.
Proof. unfold get_def, get_opt. intros ->. reflexivity. Qed.
Lemma get_eq {A} (tr : string -> option A) t t' q : get_str_opt t q = get_str_opt t' q -> get tr t q = get tr t' q.
Proof. unfold get, get_opt. intros ->. reflexivity. Qed.
Lemma get_exists {A} (tr : string -> option A) t q v : get tr t q = Ok v -> exists s, get_str_opt t q = Some s.
Proof. unfold get, get_opt. destruct (get_str_opt t q) as [s|]; [eauto|discriminate]. Qed.

Lemma mapR_len {A B} (f : A -> res B) l : forall ys, mapR f l = Ok ys -> List.length ys = List.length l.
Proof. intros ys H. apply mapR_forall2 in H. induction H; cbn; auto. Qed.

Section Refresh.
  Context {N : Num} (tuint : string -> option nat) (tdouble : string -> option N) (fmt : N -> string) (dim3 : bool).
  Hypothesis round : forall v, tdouble (fmt v) = Some v.

  (** The database [db] has the parameters [bl]; apart from them it is [db0]. *)
  Definition holds (ps : list parameter) (bl : list N) (db0 db : ptree) : Prop :=
    (forall q, ~ In q (map parameter_key ps) -> get_str_opt db q = get_str_opt db0 q) /\ mapR (fun p => get tdouble db (parameter_key p)) ps = Ok bl.

  Lemma key_inv a w (k : string) d : In ("sources" :: k :: d) (map parameter_key (selected a w)) -> k = "beam_0" /\ (d = ["absorption_efficiency"] \/ d = ["max_power"]).
  Proof.
    generalize k. clear k. intros k K. destruct a, w; cbn [map selected List.app parameter_key In] in K; repeat (destruct K as [K|K]);
      first [contradiction | apply (f_equal (fun l => match l with _ :: x :: y => (x, y) | _ => ("", []) end)) in K; injection K as K1 K2; split; [symmetry; exact K1|subst d; auto]].
  Qed.
  Lemma holds_same a w bl db0 db d i : holds (selected a w) bl db0 db -> i <> 0%nat -> (forall q, ~ In q (map parameter_key (selected a w)) -> get_str_opt db q = get_str_opt db0 q) ->
    get_str_opt db ("sources" :: beam_name i :: d) = get_str_opt db0 ("sources" :: beam_name i :: d).
  Proof.
    intros _ I H. apply H. intros K.
    assert (B : beam_name i <> "beam_0").
    { unfold beam_name. change "beam_0" with ("beam_" ++ to_string 0). intros E. apply append_inj_l in E. apply to_string_inj in E. contradiction. }
    exact (B (proj1 (key_inv _ _ _ _ K))).
  Qed.

  Definition props_at (db : ptree) (k : string) (d w : N) : res (properties N) := set_from_database tdouble d w (match child_opt db ["sources"; k] with Some b => b | None => Node "" [] end).
  Lemma set_eq d w b b' : (forall k, In k ["depth"; "absorption_efficiency"; "diameter"; "max_power"] -> get_str_opt b [k] = get_str_opt b' [k]) ->
    set_from_database tdouble d w b = set_from_database tdouble d w b'.
  Proof.
    intros H. unfold set_from_database.
    rewrite (get_eq tdouble b b' ["depth"]) by (apply H; simpl; auto).
    rewrite (get_eq tdouble b b' ["absorption_efficiency"]) by (apply H; simpl; auto).
    rewrite (get_eq tdouble b b' ["diameter"]) by (apply H; simpl; auto).
    rewrite (get_eq tdouble b b' ["max_power"]) by (apply H; simpl; auto). reflexivity.
  Qed.
  Lemma beam_with_fixed ps : forall vs t0 t1 v lo hi, beam_with ps vs (Fixed (N := N) t0 t1 v lo hi) = Fixed t0 t1 v lo hi.
  Proof. induction ps as [|p ps IH]; intros vs t0 t1 v lo hi; [reflexivity|]. destruct vs; [reflexivity|]. apply IH. Qed.
  (** One source re-read from the database. *)
  Lemma update_one a w bl bl' db0 db src src0 i (s : source N) b0 : holds (selected a w) bl db0 db -> List.length bl' = List.length (selected a w) ->
    child db0 ["sources"] = Ok src0 -> child db ["sources"] = Ok src -> child src0 [beam_name i] = Ok b0 -> make_source tdouble dim3 (child_opt db0 ["units"]) b0 = Ok s ->
    update_source tdouble src i (if Nat.eqb i 0 then beam_with (selected a w) bl' s else s) = Ok (if Nat.eqb i 0 then beam_with (selected a w) bl s else s).
  Proof.
    intros Hh L S0 S1 B0 M. destruct Hh as [Ho Hb].
    assert (NK : forall d, ~ In d [["absorption_efficiency"]; ["max_power"]] -> ~ In ("sources" :: beam_name i :: d) (map parameter_key (selected a w))).
    { intros d D K. apply D. destruct (key_inv _ _ _ _ K) as [_ [->| ->]]; simpl; auto. }
    assert (G0 : forall d, get_str_opt b0 d = get_str_opt db0 ("sources" :: beam_name i :: d)).
    { intros d. rewrite (child_get _ _ _ d B0), (child_get _ _ _ _ S0). reflexivity. }
    assert (NE : forall d, In d [["type"]; ["depth"]; ["diameter"]] -> ~ In d [["absorption_efficiency"]; ["max_power"]]).
    { intros d [<-|[<-|[<-|[]]]] [K|[K|[]]]; discriminate. }
    unfold make_source in M. destruct (get_str b0 ["type"]) as [ty| |] eqn:T0; cbn [bind] in M; try discriminate.
    assert (Tt : get_str_opt db ("sources" :: beam_name i :: ["type"]) = Some ty).
    { rewrite Ho by (apply NK, NE; simpl; auto). rewrite <- G0. unfold get_str in T0. destruct (get_str_opt b0 ["type"]) as [s0|]; [injection T0 as <-; reflexivity|discriminate]. }
    assert (CB : exists b, child src [beam_name i] = Ok b).
    { unfold child. cbn [child_opt]. destruct (kid src (beam_name i)) as [c|] eqn:E; [eexists; reflexivity|]. exfalso.
      rewrite <- (child_get _ _ _ _ S1) in Tt. unfold get_str_opt in Tt. cbn [child_opt] in Tt. rewrite E in Tt. discriminate. }
    destruct CB as [b B]. unfold update_source. rewrite B. cbn [bind].
    assert (G1 : forall d, get_str_opt b d = get_str_opt db ("sources" :: beam_name i :: d)).
    { intros d. rewrite (child_get _ _ _ d B), (child_get _ _ _ _ S1). reflexivity. }
    unfold get_str at 1. rewrite G1, Tt. cbn [bind].
    destruct (String.eqb ty "goldak" || String.eqb ty "electron_beam") eqn:TY.
    - unfold make_moving in M. destruct (set_from_database tdouble _ _ b0) as [q| |] eqn:Q0; cbn [bind] in M; try discriminate.
      destruct (get_str b0 ["scan_path_file"]) as [f| |]; cbn [bind] in M; try discriminate. destruct (get_str b0 ["scan_path_file_format"]) as [fo| |]; cbn [bind] in M; try discriminate.
      destruct (String.eqb fo "segment" || String.eqb fo "event_series"); [|discriminate]. injection M as <-.
      set (d := scaling _ ["heat_source"; "dimension"]) in *. set (pw := scaling _ ["heat_source"; "power"]) in *. clearbody d pw.
      assert (De : get tdouble b ["depth"] = get tdouble b0 ["depth"]) by (apply get_eq; rewrite G1, G0; apply Ho, NK, NE; simpl; auto).
      assert (Di : get tdouble b ["diameter"] = get tdouble b0 ["diameter"]) by (apply get_eq; rewrite G1, G0; apply Ho, NK, NE; simpl; auto).
      destruct (Nat.eqb i 0) eqn:I.
      + apply Nat.eqb_eq in I. subst i.
        assert (Pa : forall k, get_str_opt b [k] = get_str_opt db ["sources"; "beam_0"; k]) by (intros k; exact (G1 [k])).
        assert (Pa0 : forall k, get_str_opt b0 [k] = get_str_opt db0 ["sources"; "beam_0"; k]) by (intros k; exact (G0 [k])).
        unfold set_from_database in Q0 |- *.
        destruct (get tdouble b0 ["depth"]) as [dv| |] eqn:E1; cbn [bind] in Q0; try discriminate.
        destruct (get tdouble b0 ["absorption_efficiency"]) as [av| |] eqn:E2; cbn [bind] in Q0; try discriminate.
        destruct (get tdouble b0 ["diameter"]) as [iv| |] eqn:E3; cbn [bind] in Q0; try discriminate.
        destruct (get tdouble b0 ["max_power"]) as [pv| |] eqn:E4; cbn [bind] in Q0; try discriminate. injection Q0 as <-.
        destruct a, w; cbn [selected List.app mapR parameter_key] in *.
        * destruct bl' as [|x1 [|x2 [|x3 bl']]]; try discriminate.
          destruct (get tdouble db ["sources"; "beam_0"; "absorption_efficiency"]) as [a1| |] eqn:A1; cbn [bind] in Hb; try discriminate.
          destruct (get tdouble db ["sources"; "beam_0"; "max_power"]) as [w1| |] eqn:W1; cbn [bind] in Hb; try discriminate. injection Hb as <-.
          cbn [beam_with with_parameter bp_depth bp_absorption bp_radius bp_max_power]. rewrite De, Di. cbn [bind].
          unfold get, get_opt in A1, W1 |- *. rewrite !Pa. destruct (get_str_opt db ["sources"; "beam_0"; "absorption_efficiency"]); [|discriminate]. destruct (tdouble s); [injection A1 as <-|discriminate].
          destruct (get_str_opt db ["sources"; "beam_0"; "max_power"]); [|discriminate]. destruct (tdouble s0); [injection W1 as <-|discriminate]. reflexivity.
        * destruct bl' as [|x1 [|x2 bl']]; try discriminate.
          destruct (get tdouble db ["sources"; "beam_0"; "absorption_efficiency"]) as [a1| |] eqn:A1; cbn [bind] in Hb; try discriminate. injection Hb as <-.
          assert (W1 : get tdouble b ["max_power"] = get tdouble b0 ["max_power"]) by (apply get_eq; rewrite Pa, Pa0; apply Ho; cbn; intros [K|[]]; discriminate).
          cbn [beam_with with_parameter bp_depth bp_absorption bp_radius bp_max_power]. rewrite De, Di, W1, E4. cbn [bind].
          unfold get, get_opt in A1 |- *. rewrite !Pa. destruct (get_str_opt db ["sources"; "beam_0"; "absorption_efficiency"]); [|discriminate]. destruct (tdouble s); [injection A1 as <-|discriminate]. reflexivity.
        * destruct bl' as [|x1 [|x2 bl']]; try discriminate.
          destruct (get tdouble db ["sources"; "beam_0"; "max_power"]) as [w1| |] eqn:W1; cbn [bind] in Hb; try discriminate. injection Hb as <-.
          assert (A1 : get tdouble b ["absorption_efficiency"] = get tdouble b0 ["absorption_efficiency"]) by (apply get_eq; rewrite Pa, Pa0; apply Ho; cbn; intros [K|[]]; discriminate).
          cbn [beam_with with_parameter bp_depth bp_absorption bp_radius bp_max_power]. rewrite De, Di, A1, E2. cbn [bind].
          unfold get, get_opt in W1 |- *. rewrite !Pa. destruct (get_str_opt db ["sources"; "beam_0"; "max_power"]); [|discriminate]. destruct (tdouble s); [injection W1 as <-|discriminate]. reflexivity.
        * destruct bl' as [|x1 bl']; try discriminate. injection Hb as <-. cbn [beam_with].
          assert (A1 : get tdouble b ["absorption_efficiency"] = get tdouble b0 ["absorption_efficiency"]) by (apply get_eq; rewrite Pa, Pa0; apply Ho; cbn; intros []).
          assert (W1 : get tdouble b ["max_power"] = get tdouble b0 ["max_power"]) by (apply get_eq; rewrite Pa, Pa0; apply Ho; cbn; intros []).
          rewrite De, Di, A1, W1, E2, E4. reflexivity.
      + apply Nat.eqb_neq in I. rewrite (set_eq d pw b b0), Q0; [reflexivity|]. intros k _. rewrite G1, G0. apply (holds_same a w bl db0 db [k] i (conj Ho Hb) I Ho).
    - destruct (String.eqb ty "cube"); [|discriminate]. unfold make_cube in M.
      destruct (get tdouble b0 ["start_time"]); cbn [bind] in M; try discriminate. destruct (get tdouble b0 ["end_time"]); cbn [bind] in M; try discriminate. destruct (get tdouble b0 ["value"]); cbn [bind] in M; try discriminate.
      destruct (mapR _ _) in M; cbn [bind] in M; try discriminate. destruct (mapR _ _) in M; cbn [bind] in M; try discriminate. injection M as <-.
      destruct (Nat.eqb i 0); [|reflexivity]. rewrite !beam_with_fixed. reflexivity.
  Qed.

  (** All the sources. *)
  Lemma make_sources_inv db ss : make_sources tuint tdouble dim3 db = Ok ss ->
    exists src, child db ["sources"] = Ok src /\ forall i s, nth_error ss i = Some s -> exists b, child src [beam_name i] = Ok b /\ make_source tdouble dim3 (child_opt db ["units"]) b = Ok s.
  Proof.
    unfold make_sources. intros H. destruct (child db ["sources"]) as [src| |] eqn:S0; cbn [bind] in H; try discriminate. exists src. split; [reflexivity|].
    destruct (get tuint src ["n_beams"]) as [n| |]; cbn [bind] in H; try discriminate. apply mapR_forall2 in H.
    assert (G : forall k l ss, Forall2 (fun i s => (do b <- child src [beam_name i]; make_source tdouble dim3 (child_opt db ["units"]) b) = Ok s) (seq k l) ss ->
      forall i s, nth_error ss i = Some s -> exists b, child src [beam_name (k + i)] = Ok b /\ make_source tdouble dim3 (child_opt db ["units"]) b = Ok s).
    { clear. intros k l. revert k. induction l as [|l IH]; intros k ss F i s E; inversion F; subst; [destruct i; discriminate|].
      destruct i as [|i]; cbn in E.
      - injection E as <-. rewrite Nat.add_0_r. destruct (child src [beam_name k]) as [b| |]; cbn [bind] in *; try discriminate. eauto.
      - replace (k + S i)%nat with (S k + i)%nat by lia. eapply IH; eauto. }
    intros i s E. exact (G 0%nat n ss H i s E).
  Qed.
  Lemma update_all a w bl bl' db0 db sg0 src : holds (selected a w) bl db0 db -> List.length bl' = List.length (selected a w) ->
    make_sources tuint tdouble dim3 db0 = Ok (sg_sources sg0) -> child db ["sources"] = Ok src ->
    update_physics_parameters tdouble src (sg_sources (with_parameters (selected a w) bl' sg0)) = Ok (sg_sources (with_parameters (selected a w) bl sg0)).
  Proof.
    intros Hh L M S1. destruct (make_sources_inv _ _ M) as [src0 [S0 G]]. destruct sg0 as [ss me he]. unfold with_parameters. cbn [sg_sources sg_method sg_height] in *. clear M.
    assert (G' : forall i s, nth_error ss i = Some s -> update_source tdouble src i (if Nat.eqb i 0 then beam_with (selected a w) bl' s else s) = Ok (if Nat.eqb i 0 then beam_with (selected a w) bl s else s)).
    { intros i s E. destruct (G i s E) as [b [B1 B2]]. exact (update_one a w bl bl' db0 db src src0 i s b Hh L S0 S1 B1 B2). }
    assert (T : forall rest k, (forall i s, nth_error rest i = Some s -> update_source tdouble src (S k + i) s = Ok s) ->
      mapR (fun '(i, s) => update_source tdouble src i s) (combine (seq (S k) (List.length rest)) rest) = Ok rest).
    { induction rest as [|s rest IH]; intros k H; [reflexivity|]. cbn [List.length seq combine mapR].
      pose proof (H 0%nat s eq_refl) as H0. rewrite Nat.add_0_r in H0. rewrite H0. cbn [bind]. rewrite IH; [reflexivity|]. intros i s' E. replace (S (S k) + i)%nat with (S k + S i)%nat by lia. apply H. exact E. }
    unfold update_physics_parameters. destruct ss as [|s rest]; [reflexivity|]. cbn [List.length seq combine mapR].
    pose proof (G' 0%nat s eq_refl) as H0. cbn [Nat.eqb] in H0. rewrite H0. cbn [bind]. rewrite T; [reflexivity|]. intros i s' E. exact (G' (S i) s' E).
  Qed.

  (** Writing the parameters. *)
  Lemma put_holds p (db0 db : ptree) v : (exists s, get_str_opt db (parameter_key p) = Some s) ->
    get_str_opt (put db (parameter_key p) (fmt v)) (parameter_key p) = Some (fmt v) /\ forall q, q <> parameter_key p -> get_str_opt (put db (parameter_key p) (fmt v)) q = get_str_opt db q.
  Proof. intros E. split; [apply put_get_same|]. intros q Q. apply put_get_other; auto. Qed.
  Lemma write_holds a w bl bl' db0 db : holds (selected a w) bl db0 db -> List.length bl' = List.length (selected a w) ->
    exists db', write_parameters fmt (selected a w) bl' db = Ok db' /\ holds (selected a w) bl' db0 db'.
  Proof.
    intros [Ho Hb] L.
    assert (KK : parameter_key beam_0_absorption <> parameter_key beam_0_max_power) by discriminate.
    destruct a, w; cbn [selected List.app] in *; cbn [write_parameters mapR] in *.
    - destruct bl' as [|x1 [|x2 [|x3 bl']]]; try discriminate. cbn [write_parameters]. eexists. split; [reflexivity|].
      destruct (get tdouble db (parameter_key beam_0_absorption)) as [a1| |] eqn:A1; cbn [bind] in Hb; try discriminate.
      destruct (get tdouble db (parameter_key beam_0_max_power)) as [w1| |] eqn:W1; cbn [bind] in Hb; try discriminate.
      apply get_exists in A1. apply get_exists in W1.
      destruct (put_holds beam_0_absorption db0 db x1 A1) as [P1 P2].
      assert (W2 : exists s, get_str_opt (put db (parameter_key beam_0_absorption) (fmt x1)) (parameter_key beam_0_max_power) = Some s) by (rewrite P2 by (apply not_eq_sym; exact KK); exact W1).
      destruct (put_holds beam_0_max_power db0 (put db (parameter_key beam_0_absorption) (fmt x1)) x2 W2) as [P3 P4]. split.
      + intros q Q. cbn [map In] in Q. rewrite P4, P2 by (intros E; apply Q; auto). apply Ho. cbn [map In]. exact Q.
      + cbn [mapR]. unfold get, get_opt. rewrite P4 by exact KK. rewrite P1, P3, !round. reflexivity.
    - destruct bl' as [|x1 [|x2 bl']]; try discriminate. cbn [write_parameters]. eexists. split; [reflexivity|].
      destruct (get tdouble db (parameter_key beam_0_absorption)) as [a1| |] eqn:A1; cbn [bind] in Hb; try discriminate. apply get_exists in A1.
      destruct (put_holds beam_0_absorption db0 db x1 A1) as [P1 P2]. split.
      + intros q Q. cbn [map In] in Q. rewrite P2 by (intros E; apply Q; auto). apply Ho. cbn [map In]. exact Q.
      + cbn [mapR]. unfold get, get_opt. rewrite P1, round. reflexivity.
    - destruct bl' as [|x1 [|x2 bl']]; try discriminate. cbn [write_parameters]. eexists. split; [reflexivity|].
      destruct (get tdouble db (parameter_key beam_0_max_power)) as [a1| |] eqn:A1; cbn [bind] in Hb; try discriminate. apply get_exists in A1.
      destruct (put_holds beam_0_max_power db0 db x1 A1) as [P1 P2]. split.
      + intros q Q. cbn [map In] in Q. rewrite P2 by (intros E; apply Q; auto). apply Ho. cbn [map In]. exact Q.
      + cbn [mapR]. unfold get, get_opt. rewrite P1, round. reflexivity.
    - destruct bl' as [|x1 bl']; try discriminate. exists db. split; [reflexivity|]. split; [exact Ho|reflexivity].
  Qed.
  Lemma new_temperature_holds a w bl db0 db : holds (selected a w) bl db0 db -> new_material_temperature tdouble db = new_material_temperature tdouble db0.
  Proof. intros [Ho _]. apply get_def_eq, Ho. intros K. destruct a, w; cbn in K; repeat (destruct K as [K|K]; [discriminate K|]); exact K. Qed.

  Lemma update_ignores src i b units s0 : child src [beam_name i] = Ok b -> make_source tdouble dim3 units b = Ok s0 -> forall ps vs,
    update_source tdouble src i (beam_with ps vs s0) = update_source tdouble src i s0.
  Proof.
    intros B M ps. destruct s0 as [ty d pw q f fo di ve|]; [|intros vs; rewrite beam_with_fixed; reflexivity].
    unfold update_source. rewrite B. cbn [bind]. unfold make_source in M. destruct (get_str b ["type"]) as [ty'| |]; cbn [bind] in *; try discriminate.
    destruct (String.eqb ty' "goldak" || String.eqb ty' "electron_beam").
    - clear M. revert q. induction ps as [|p ps IH]; intros q vs; [reflexivity|]. destruct vs as [|v vs]; [reflexivity|]. cbn [beam_with]. destruct p; cbn [with_parameter]; rewrite IH; reflexivity.
    - destruct (String.eqb ty' "cube"); [|discriminate]. unfold make_cube in M.
      destruct (get tdouble b ["start_time"]); cbn [bind] in M; try discriminate. destruct (get tdouble b ["end_time"]); cbn [bind] in M; try discriminate. destruct (get tdouble b ["value"]); cbn [bind] in M; try discriminate.
      destruct (mapR _ _) in M; cbn [bind] in M; try discriminate. destruct (mapR _ _) in M; cbn [bind] in M; discriminate.
  Qed.
  Lemma start_unchanged a w bl db sg : make_sources tuint tdouble dim3 db = Ok (sg_sources sg) -> mapR (fun p => get tdouble db (parameter_key p)) (selected a w) = Ok bl ->
    with_parameters (selected a w) bl sg = sg.
  Proof.
    intros M B. destruct (make_sources_inv _ _ M) as [src [S0 G]]. destruct sg as [[|s rest] me he]; [reflexivity|]. unfold with_parameters. cbn [sg_sources sg_method sg_height] in *.
    destruct (G 0%nat s eq_refl) as [b [B1 B2]].
    assert (L : List.length bl = List.length (selected a w)) by (exact (mapR_len _ _ _ B)).
    assert (H1 : holds (selected a w) bl db db) by (split; [reflexivity|exact B]).
    assert (H2 : holds (selected false false) [] db db) by (split; [reflexivity|reflexivity]).
    pose proof (update_one a w bl bl db db src src 0 s b H1 L S0 S0 B1 B2) as U1. pose proof (update_one false false [] [] db db src src 0 s b H2 eq_refl S0 S0 B1 B2) as U2.
    cbn [Nat.eqb] in U1, U2. rewrite (update_ignores src 0 b _ s B1 B2) in U1. change (beam_with (selected false false) [] s) with s in U2. rewrite U2 in U1. injection U1 as U1. rewrite <- U1. reflexivity.
  Qed.

  Context {State Shared : Type} (init : setting N -> N -> State) (advance : Shared -> nat -> setting N -> N -> State -> State) (distribute : State -> State).
  Variables (a w : bool).
  Local Notation ps := (selected a w).
  (** Model member and reference member, with sources of some earlier parameters [bl']. *)
  Definition mid (m : member N State) (r : reference N State) : Prop := exists db0 bl', make_sources tuint tdouble dim3 db0 = Ok (sg_sources (rf_start r)) /\
    holds ps (mb_block m) db0 (mb_db m) /\ List.length bl' = List.length ps /\ mb_setting m = with_parameters ps bl' (rf_start r) /\
    rf_new r = new_material_temperature tdouble db0 /\ rf_state r = mb_state m /\ rf_block r = mb_block m.
  Definition rel (m : member N State) (r : reference N State) : Prop := mid m r /\ mb_setting m = with_parameters ps (rf_block r) (rf_start r).
  Lemma refreshed_mid m r : mid m r -> exists m', refreshed tdouble m = Ok m' /\ rel m' r.
  Proof.
    intros (db0 & bl' & M & Hh & L & Sg & Nw & St & Bl). unfold refreshed.
    assert (C : exists src, child (mb_db m) ["sources"] = Ok src).
    { apply child_exists. destruct Hh as [Ho _]. rewrite Ho; [|intros K; destruct a, w; cbn in K; repeat (destruct K as [K|K]; [discriminate K|]); exact K].
      apply child_exists. destruct (make_sources_inv _ _ M) as [src [S0 _]]. eauto. }
    destruct C as [src C]. rewrite C. cbn [bind]. rewrite Sg. rewrite (update_all a w (mb_block m) bl' db0 (mb_db m) (rf_start r) src Hh L M C). cbn [bind].
    eexists. split; [reflexivity|]. split.
    - exists db0, (mb_block m). repeat split; cbn [mb_db mb_setting mb_state mb_block]; auto; try apply Hh.
      destruct Hh as [_ Hb]. exact (mapR_len _ _ _ Hb).
    - cbn [mb_setting]. rewrite Bl. reflexivity.
  Qed.
  Lemma refreshed_all ms rs : Forall2 mid ms rs -> exists ms', mapR (refreshed tdouble) ms = Ok ms' /\ Forall2 rel ms' rs.
  Proof.
    induction 1 as [|m r ms rs H F [ms' [E F']]]; [exists []; split; [reflexivity|constructor]|].
    destruct (refreshed_mid m r H) as [m' [E' R']]. exists (m' :: ms'). cbn [mapR]. rewrite E', E. split; [reflexivity|constructor; auto].
  Qed.
  Lemma moved sh n m r : rel m r -> mb_state (distributed distribute (evolve tdouble advance sh n m)) = reference_move advance distribute ps sh n r /\
    mb_block (distributed distribute (evolve tdouble advance sh n m)) = rf_block r.
  Proof.
    intros [(db0 & bl' & M & Hh & L & Sg & Nw & St & Bl) S]. unfold distributed, evolve, reference_move. cbn [mb_state mb_block].
    rewrite S, Nw, St, (new_temperature_holds a w _ _ _ Hh). auto.
  Qed.
  Lemma moved_all sh n ms rs : Forall2 rel ms rs ->
    map (fun m => (mb_state m, mb_block m)) (map (distributed distribute) (map (evolve tdouble advance sh n) ms)) = map (fun m => (reference_move advance distribute ps sh n m, rf_block m)) rs.
  Proof.
    induction 1 as [|m r ms rs H F IH]; [reflexivity|]. cbn [map]. rewrite IH. destruct (moved sh n m r H) as [-> ->]. reflexivity.
  Qed.
  Lemma analysed_all sh n ms rs : Forall2 rel ms rs -> forall xs, map (fun x => List.length (snd x)) xs = map (fun m => List.length (rf_block m)) rs ->
    exists ms', mapR (analysed fmt ps) (combine (map (distributed distribute) (map (evolve tdouble advance sh n) ms)) xs) = Ok ms' /\
    Forall2 mid ms' (map (fun '(m, (s, b)) => mkreference (rf_start m) (rf_new m) s b) (combine rs xs)).
  Proof.
    induction 1 as [|m r ms rs H F IH]; intros xs L; [destruct xs; [|discriminate]; exists []; split; [reflexivity|constructor]|].
    destruct xs as [|[s b] xs]; [discriminate|]. cbn [map] in L. injection L as L1 L2. destruct (IH xs L2) as [ms' [E G]].
    destruct H as [(db0 & bl' & M & Hh & L & Sg & Nw & St & Bl) S]. cbn [snd] in L1.
    assert (Lb : List.length b = List.length ps).
    { rewrite L1, Bl. destruct Hh as [_ Hb]. exact (mapR_len _ _ _ Hb). }
    destruct (write_holds a w (mb_block m) b db0 (mb_db m) Hh Lb) as [db' [W Hd]].
    exists (mkmember db' (mb_setting m) s b :: ms'). cbn [map combine mapR]. unfold analysed at 1. cbn [mb_db distributed evolve mb_setting]. rewrite W. cbn [bind]. rewrite E. split; [reflexivity|].
    constructor; [|exact G]. exists db0, bl'. cbn [rf_start rf_new rf_state rf_block mb_db mb_setting mb_state mb_block]. repeat split; auto; apply Hd.
  Qed.
  Lemma combine_map_same {A B} (f : A -> B) l : combine l (map f l) = map (fun x => (x, f x)) l.
  Proof. induction l as [|x l IH]; [reflexivity|]. cbn [map combine]. rewrite IH. reflexivity. Qed.

  Definition both (x : res (list (member N State))) (y : res (list (reference N State))) : Prop :=
    match x, y with Ok ms, Ok rs => Forall2 rel ms rs | Throw, Throw => True | UB, UB => True | _, _ => False end.
  Lemma pass_both sh nu ms rs : Forall2 rel ms rs -> (forall u, snd nu = Some u -> keeps_sizes u) ->
    both (pass tdouble fmt advance distribute sh true ps ms nu) (reference_pass advance distribute ps sh rs nu).
  Proof.
    intros F K. destruct nu as [n [u|]]; cbn [snd] in K; unfold pass, reference_pass.
    - unfold assimilated. rewrite (moved_all sh n ms rs F). destruct (u _) as [xs| |] eqn:U; cbn [bind]; [|exact I|exact I].
      pose proof (K u eq_refl _ _ U) as Hs. rewrite map_map in Hs. cbn [snd] in Hs. destruct (analysed_all sh n ms rs F xs Hs) as [ms' [E G]]. rewrite E. cbn [bind].
      destruct (refreshed_all _ _ G) as [ms'' [E' G']]. rewrite E'. exact G'.
    - cbn [bind].
      replace (map (fun '(m, (s, b)) => mkreference (rf_start m) (rf_new m) s b) (combine rs (map (fun m => (reference_move advance distribute ps sh n m, rf_block m)) rs)))
        with (map (fun x => mkreference (rf_start x) (rf_new x) (reference_move advance distribute ps sh n x) (rf_block x)) rs) by (rewrite combine_map_same, map_map; reflexivity).
      assert (G : Forall2 mid (map (distributed distribute) (map (evolve tdouble advance sh n) ms))
                    (map (fun x => mkreference (rf_start x) (rf_new x) (reference_move advance distribute ps sh n x) (rf_block x)) rs)).
      { induction F as [|m r ms rs H F IH]; [constructor|]. cbn [map]. constructor; [|exact IH].
        destruct (moved sh n m r H) as [Ms Mb]. destruct H as [(db0 & bl' & M & Hh & L & Sg & Nw & St & Bl) S].
        exists db0, bl'. cbn [rf_start rf_new rf_state rf_block]. rewrite Ms, Mb. rewrite <- Bl in Hh. repeat split; auto; apply Hh. }
      destruct (refreshed_all _ _ G) as [ms' [E G']]. rewrite E. exact G'.
  Qed.
  Lemma run_both sh passes : Forall (fun nu => forall u, snd nu = Some u -> keeps_sizes u) passes -> forall ms rs, Forall2 rel ms rs ->
    both (run tdouble fmt advance distribute sh true ps passes ms) (reference_run advance distribute ps sh passes rs).
  Proof.
    induction passes as [|nu passes IH]; intros K ms rs F; [exact F|]. inversion K as [|? ? K1 K2]; subst. unfold run, reference_run. rewrite !foldR_bind.
    pose proof (pass_both sh nu ms rs F K1) as P. destruct (pass _ _ _ _ _ _ _ _ _) as [ms'| |], (reference_pass _ _ _ _ _ _) as [rs'| |]; cbn [bind]; try contradiction; try exact I.
    apply (IH K2 ms' rs' P).
  Qed.
  Definition start_of (m : member N State) : reference N State := mkreference (mb_setting m) (new_material_temperature tdouble (mb_db m)) (mb_state m) (mb_block m).
  Lemma setup_rel n_beams restart dbs ms : (0 < n_beams)%nat -> setup tuint tdouble dim3 init n_beams true ps restart dbs = Ok ms -> Forall2 rel ms (map start_of ms).
  Proof.
    intros NB H. apply mapR_forall2 in H. induction H as [|[r db] m l ms E F IH]; [constructor|]. cbn [map]. constructor; [|exact IH]. clear IH F.
    unfold setup_member, initial_block in E. apply Nat.ltb_lt in NB. rewrite NB in E. cbn [andb] in E.
    destruct (mapR _ ps) as [bl| |] eqn:B in E; cbn [bind] in E; try discriminate. destruct (make_setting _ _ _ _) as [sg| |] eqn:Sg in E; cbn [bind] in E; try discriminate. injection E as <-.
    unfold make_setting in Sg. destruct (make_sources _ _ _ _) as [ss| |] eqn:M in Sg; cbn [bind] in Sg; try discriminate. destruct (child db ["time_stepping"]) as [ts| |] in Sg; cbn [bind] in Sg; try discriminate.
    destruct (get_str ts ["method"]) as [me| |] in Sg; cbn [bind] in Sg; try discriminate. injection Sg as <-.
    assert (L : List.length bl = List.length ps) by (exact (mapR_len _ _ _ B)).
    match goal with |- rel (mkmember _ ?sg _ _) _ => assert (U : with_parameters ps bl sg = sg) by (apply (start_unchanged a w bl db); [exact M|exact B]) end.
    unfold start_of. cbn [mb_setting mb_db mb_state mb_block]. split; [exists db, bl|]; cbn [rf_start rf_new rf_state rf_block mb_setting mb_db mb_state mb_block]; [|symmetry; exact U].
    repeat split; auto.
  Qed.
  Lemma run_refines n_beams restart dbs ms sh passes : (0 < n_beams)%nat -> setup tuint tdouble dim3 init n_beams true ps restart dbs = Ok ms ->
    Forall (fun nu => forall u, snd nu = Some u -> keeps_sizes u) passes ->
    observed (run tdouble fmt advance distribute sh true ps passes ms) = observed_reference ps (reference_run advance distribute ps sh passes (map start_of ms)).
  Proof.
    intros NB E K. pose proof (run_both sh passes K ms (map start_of ms) (setup_rel _ _ _ _ NB E)) as B. unfold observed, observed_reference.
    destruct (run _ _ _ _ _ _ _ _ _) as [ms'| |], (reference_run _ _ _ _ _ _) as [rs'| |]; cbn [bind both] in *; try contradiction; try reflexivity. f_equal.
    clear - B. induction B as [|m r ms' rs' H F IH]; [reflexivity|]. cbn [map]. rewrite IH. destruct H as [(db0 & bl' & M & Hh & L & Sg & Nw & St & Bl) S].
    rewrite S, St, Bl. reflexivity.
  Qed.
End Refresh.
