(** MembersProofs2.v -- proofs of C74: sources as read, no assimilation, no spread, restart, data files. *)
From Coq Require Import ZArith Bool List String Lia.
From Verif Require Import Base BaseFacts MaterialModel InputModel EnsembleModel EnsembleSpec EnsembleProofs EnsembleProofs2 AssimilationModel CellModel MainProofs2 ElasticProofs7 MembersModel MembersSpec MembersProofs.
Import ListNotations.
Local Open Scope string_scope.

Lemma get_child {A} (tr : string -> option A) t k c q : child t [k] = Ok c -> get tr c q = get tr t (k :: q).
Proof. intros H. unfold get, get_opt. rewrite (child_get _ _ _ _ H). reflexivity. Qed.
Lemma gets_child t k c q : child t [k] = Ok c -> get_str c q = get_str t (k :: q).
Proof. intros H. unfold get_str. rewrite (child_get _ _ _ _ H). reflexivity. Qed.

Section Sources.
  Context {N : Num} (tuint : string -> option nat) (tdouble : string -> option N) (dim3 : bool).
  Lemma sources_read db ss : make_sources tuint tdouble dim3 db = Ok ss ->
    get tuint db ["sources"; "n_beams"] = Ok (List.length ss) /\ forall i s, nth_error ss i = Some s -> is_beam tdouble db i s.
  Proof.
    intros M. destruct (make_sources_inv tuint tdouble dim3 db ss M) as [src [S0 G]]. split.
    - unfold make_sources in M. rewrite S0 in M. cbn [bind] in M. rewrite <- (get_child tuint db "sources" src ["n_beams"] S0).
      destruct (get tuint src ["n_beams"]) as [n| |]; cbn [bind] in M; try discriminate. apply mapR_len in M. rewrite seq_length in M. rewrite M. reflexivity.
    - intros i s E. destruct (G i s E) as [b [B MS]]. clear E G M.
      assert (T1 : forall q, get tdouble b q = get tdouble db ("sources" :: beam_name i :: q)) by (intros q; rewrite (get_child _ _ _ _ _ B), (get_child _ _ _ _ _ S0); reflexivity).
      assert (T2 : forall q, get_str b q = get_str db ("sources" :: beam_name i :: q)) by (intros q; rewrite (gets_child _ _ _ _ B), (gets_child _ _ _ _ S0); reflexivity).
      unfold is_beam, entry. change ("beam_" ++ to_string i) with (beam_name i). unfold make_source in MS.
      destruct (get_str b ["type"]) as [ty| |] eqn:Ty; cbn [bind] in MS; try discriminate. rewrite T2 in Ty.
      destruct (String.eqb ty "goldak" || String.eqb ty "electron_beam") eqn:TY.
      + unfold make_moving, set_from_database in MS. rewrite !T1, !T2 in MS.
        destruct (get tdouble db ["sources"; beam_name i; "depth"]) as [dv| |] eqn:E1; cbn [bind] in MS; try discriminate.
        destruct (get tdouble db ["sources"; beam_name i; "absorption_efficiency"]) as [av| |] eqn:E2; cbn [bind] in MS; try discriminate.
        destruct (get tdouble db ["sources"; beam_name i; "diameter"]) as [iv| |] eqn:E3; cbn [bind] in MS; try discriminate.
        destruct (get tdouble db ["sources"; beam_name i; "max_power"]) as [pv| |] eqn:E4; cbn [bind] in MS; try discriminate.
        destruct (get_str db ["sources"; beam_name i; "scan_path_file"]) as [f| |] eqn:E5; cbn [bind] in MS; try discriminate.
        destruct (get_str db ["sources"; beam_name i; "scan_path_file_format"]) as [fo| |] eqn:E6; cbn [bind] in MS; try discriminate.
        destruct (String.eqb fo "segment" || String.eqb fo "event_series"); [|discriminate]. injection MS as <-.
        apply orb_true_iff in TY. rewrite !String.eqb_eq in TY. repeat split; auto. exists dv, iv, pv. repeat split; auto.
      + destruct (String.eqb ty "cube") eqn:TC; [|discriminate]. apply String.eqb_eq in TC. subst ty. unfold make_cube in MS. rewrite !T1 in MS.
        destruct (get tdouble db ["sources"; beam_name i; "start_time"]) as [t0| |] eqn:E1; cbn [bind] in MS; try discriminate.
        destruct (get tdouble db ["sources"; beam_name i; "end_time"]) as [t1| |] eqn:E2; cbn [bind] in MS; try discriminate.
        destruct (get tdouble db ["sources"; beam_name i; "value"]) as [v| |] eqn:E3; cbn [bind] in MS; try discriminate.
        destruct (mapR _ _) as [lo| |] eqn:LO in MS; cbn [bind] in MS; try discriminate. destruct (mapR _ _) as [hi| |] eqn:HI in MS; cbn [bind] in MS; try discriminate. injection MS as <-.
        repeat split; auto; [exists v; auto|]. intros j k J L.
        assert (K : nth_error (["x"; "y"] ++ (if dim3 then ["z"] else []))%list j = Some k).
        { pose proof (mapR_len _ _ _ LO) as LL. destruct J as [J|[J|[J|[]]]]; injection J as <- <-; destruct dim3; cbn [List.app List.length nth_error] in *; try reflexivity. exfalso. rewrite LL in L. lia. }
        apply mapR_forall2 in LO. apply mapR_forall2 in HI.
        assert (NT : forall (f : string -> res N) l ys, Forall2 (fun x y => f x = Ok y) l ys -> forall j k, nth_error l j = Some k -> exists y, nth_error ys j = Some y /\ f k = Ok y).
        { clear. intros f l ys H. induction H as [|x y l ys E F IH]; intros j k Hj; [destruct j; discriminate|]. destruct j; cbn in *; [injection Hj as <-; eauto|apply IH; exact Hj]. }
        destruct (NT _ _ _ LO j k K) as [y1 [Y1 Y2]]. destruct (NT _ _ _ HI j k K) as [y2 [Y3 Y4]]. rewrite T1 in Y2, Y4.
        change (String _ (String _ (String _ (String _ k)))) with ("min_" ++ k) in Y2 || idtac.
        destruct (get tdouble db ["sources"; beam_name i; "min_" ++ k]) as [l| |]; cbn [bind] in Y2; try discriminate.
        destruct (get tdouble db ["sources"; beam_name i; "max_" ++ k]) as [h| |]; cbn [bind] in Y4; try discriminate. injection Y2 as <-. injection Y4 as <-.
        exists l, h. auto.
  Qed.
End Sources.

(** ** Entries outside the member's own *)
Lemma child_opt_put r : forall t p v, ~ (exists rest, p = r ++ rest)%list -> child_opt (put t p v) r = child_opt t r.
Proof.
  induction r as [|a r IH]; intros t p v H; [exfalso; apply H; exists p; reflexivity|].
  destruct t as [d ks]. destruct p as [|b p]; [reflexivity|]. cbn [put child_opt pdata pkids].
  destruct (string_dec b a) as [->|NE].
  - destruct (kid_update_same a (fun o => put (match o with Some c => c | None => Node "" [] end) p v) ks d) as [c [C1 C2]]. rewrite C1, C2.
    destruct (kid (Node d ks) a) as [x|] eqn:K.
    + apply IH. intros [rest ->]. apply H. exists rest. reflexivity.
    + rewrite IH by (intros [rest ->]; apply H; exists rest; reflexivity). destruct r as [|a' r]; [exfalso; apply H; exists p; reflexivity|]. reflexivity.
  - rewrite kid_update_other by exact NE. reflexivity.
Qed.
Lemma get_str_opt_below t t' e rest : child_opt t e = child_opt t' e -> get_str_opt t (e ++ rest) = get_str_opt t' (e ++ rest).
Proof. intros H. unfold get_str_opt. rewrite !child_opt_app, H. reflexivity. Qed.

Section Own.
  Context {N : Num} (tuint : string -> option nat) (tdouble : string -> option N) (fmt : N -> string) (dim3 : bool).
  Definition same_own (db db' : ptree) : Prop := forall e, In e own_entries -> child_opt db' e = child_opt db e.
  Lemma same_own_put db db' key v : same_own db db' -> ~ own key -> same_own db (put db' key v).
  Proof. intros S K e E. rewrite child_opt_put; [apply S; exact E|]. intros [rest ->]. apply K. exists e, rest. auto. Qed.
  Lemma same_setting db db' : same_own db db' -> make_setting tuint tdouble dim3 db' = make_setting tuint tdouble dim3 db.
  Proof.
    intros S. unfold make_setting, make_sources. unfold child.
    rewrite (S ["sources"]), (S ["units"]), (S ["time_stepping"]) by (cbn; auto 10).
    rewrite (get_def_eq tdouble (nofZ N 1000000000) db' db ["geometry"; "material_height"]); [reflexivity|].
    unfold get_str_opt. rewrite S by (cbn; auto 10). reflexivity.
  Qed.
  Lemma same_initial db db' : same_own db db' -> initial_temperature tdouble db' = initial_temperature tdouble db.
  Proof. intros S. apply get_def_eq. unfold get_str_opt. rewrite S by (cbn; auto 10). reflexivity. Qed.
  Lemma same_new db db' : same_own db db' -> new_material_temperature tdouble db' = new_material_temperature tdouble db.
  Proof. intros S. apply get_def_eq. unfold get_str_opt. rewrite S by (cbn; auto 10). reflexivity. Qed.

  Variable z : nat -> N.
  (** Databases differ from the input in the keys only. *)
  Definition kept (db : ptree) (st : tstate) : Prop := (forall key, In key (ts_keys st) -> ~ own key) -> Forall (same_own db) (ts_dbs st).
  Lemma put_all_own db key vs : ~ own key -> forall dbs, Forall (same_own db) dbs -> Forall (same_own db) (put_all fmt dbs key vs).
  Proof.
    intros K. induction vs as [|v vs IH]; intros dbs F; destruct dbs as [|d dbs]; cbn [put_all]; try exact F. inversion F; subst. constructor; [apply same_own_put; assumption|apply IH; assumption].
  Qed.
  Lemma leaf_kept fuel local global db st path st' : kept db st -> leaf tdouble fmt z fuel local global st path = Ok (Some st') -> kept db st' /\ exists l, ts_keys st' = (ts_keys st ++ l)%list.
  Proof.
    intros K E. unfold leaf in E. destruct (list_eq_dec _ _ _) in E; [injection E as <-; split; [exact K|exists []; rewrite app_nil_r; reflexivity]|].
    destruct (list_eq_dec _ _ _) in E; [injection E as <-; split; [exact K|exists []; rewrite app_nil_r; reflexivity]|].
    destruct (ts_dbs st) as [|db0 rest] eqn:D; [discriminate|]. destruct (get tdouble db0 _) in E; cbn [bind] in E; try discriminate. destruct (strip_stddev path) as [key| |]; cbn [bind] in E; try discriminate.
    destruct (get tdouble db0 key) in E; cbn [bind] in E; try discriminate. destruct (normal_random_vector _ _ _ _ _ _) as [vs|]; [|discriminate]. injection E as <-.
    split; [|eexists; reflexivity]. intros H. cbn [ts_keys] in H. change (Forall (same_own db) (put_all fmt (db0 :: rest) key vs)). apply put_all_own; [apply H; apply in_or_app; right; left; reflexivity|]. rewrite <- D. apply K. intros key' Hk. apply H. apply in_or_app. left. exact Hk.
  Qed.
  Lemma traverse_kept fuel local global db : forall t path st st', kept db st -> traverse tdouble fmt z fuel local global t path st = Ok (Some st') -> kept db st' /\ exists l, ts_keys st' = (ts_keys st ++ l)%list.
  Proof.
    fix IH 1. intros t. destruct t as [d ks]. cbn [traverse].
    induction ks as [|[k c] rest IHr]; intros path st st' K E.
    - injection E as <-. split; [exact K|exists []; rewrite app_nil_r; reflexivity].
    - cbn in E.
      assert (Hc : forall o, (match c with Node _ [] => leaf tdouble fmt z fuel local global st (path ++ [k])%list | Node _ (_ :: _) => traverse tdouble fmt z fuel local global c (path ++ [k])%list st end) = Ok (Some o) -> kept db o /\ exists l, ts_keys o = (ts_keys st ++ l)%list).
      { intros o Ho. pose proof (IH c (path ++ [k])%list st o K) as IHc. clear IH IHr E. destruct c as [dc kc]. destruct kc as [|kc1 kcs]; [exact (leaf_kept _ _ _ _ _ _ _ K Ho)|exact (IHc Ho)]. }
      destruct (match c with Node _ [] => _ | Node _ (_ :: _) => _ end) as [[o|]| |] in E, Hc; cbn [bind] in E; try discriminate.
      destruct (Hc o eq_refl) as [K1 [l1 L1]]. destruct (IHr path o st' K1 E) as [K2 [l2 L2]]. split; [exact K2|]. exists (l1 ++ l2)%list. rewrite L2, L1, app_assoc. reflexivity.
  Qed.
  Lemma ensemble_kept fuel db first local global st : create_database_ensemble tdouble fmt z fuel db first local global = Ok (Some st) ->
    (forall key, In key (ts_keys st) -> ~ own key) -> Forall (same_own db) (ts_dbs st).
  Proof.
    unfold create_database_ensemble. destruct (child db ["ensemble"]) as [ens| |]; cbn [bind]; try discriminate. intros E.
    refine (proj1 (traverse_kept _ _ _ db _ _ _ _ _ E)). intros _. cbn [ts_dbs]. apply Forall_forall. intros d Hd. apply repeat_spec in Hd. subst d. intros e _. reflexivity.
  Qed.
End Own.

Section Alone.
  Context {N : Num} (tuint : string -> option nat) (tdouble : string -> option N) (fmt : N -> string) (dim3 : bool).
  Context {State Shared : Type} (init : setting N -> N -> State) (advance : Shared -> nat -> setting N -> N -> State -> State) (distribute : State -> State).
  Lemma run_alone sh ps passes : forall ms, run tdouble fmt advance distribute sh false ps passes ms =
    Ok (map (fun m => mkmember (mb_db m) (mb_setting m) (alone advance sh (mb_setting m) (new_material_temperature tdouble (mb_db m)) (map fst passes) (mb_state m)) (mb_block m)) ms).
  Proof.
    induction passes as [|[n u] passes IH]; intros ms.
    - unfold run, foldR. cbn [fold_left map alone]. f_equal. induction ms as [|[d sg s b] ms IH]; [reflexivity|]. cbn [map mb_db mb_setting mb_state mb_block]. rewrite <- IH. reflexivity.
    - unfold run in *. rewrite foldR_bind. unfold pass at 1. cbn [bind]. rewrite IH, map_map. reflexivity.
  Qed.
  Lemma setup_fresh n_beams ps dbs : setup tuint tdouble dim3 init n_beams false ps (repeat None (List.length dbs)) dbs =
    mapR (fun db => do sg <- make_setting tuint tdouble dim3 db; Ok (mkmember db sg (init sg (initial_temperature tdouble db)) [])) dbs.
  Proof.
    unfold setup. induction dbs as [|db dbs IH]; [reflexivity|]. cbn [List.length repeat combine mapR]. rewrite IH.
    unfold setup_member, initial_block. rewrite andb_false_r. cbn [bind]. destruct (make_setting tuint tdouble dim3 db); reflexivity.
  Qed.
  (** No key among the member's own entries: every member is the unperturbed simulation. *)
  Lemma no_spread (z : nat -> N) fuel db first local global st n_beams ps sh passes ms ms' :
    create_database_ensemble tdouble fmt z fuel db first local global = Ok (Some st) -> (forall key, In key (ts_keys st) -> ~ own key) ->
    setup tuint tdouble dim3 init n_beams false ps (repeat None (List.length (ts_dbs st))) (ts_dbs st) = Ok ms ->
    run tdouble fmt advance distribute sh false ps passes ms = Ok ms' ->
    forall m, In m ms' -> exists sg, make_setting tuint tdouble dim3 db = Ok sg /\ mb_setting m = sg /\
      mb_state m = alone advance sh sg (new_material_temperature tdouble db) (map fst passes) (init sg (initial_temperature tdouble db)).
  Proof.
    intros E K S R m I. pose proof (ensemble_kept tdouble fmt z fuel db first local global st E K) as F. rewrite setup_fresh in S. rewrite run_alone in R. injection R as <-.
    apply in_map_iff in I. destruct I as [m0 [<- I]]. cbn [mb_setting mb_state]. apply mapR_forall2 in S. clear E K. remember (ts_dbs st) as dbs0 eqn:D0. clear D0.
    induction S as [|d x dbs ms0 E S IH]; [destruct I|]. inversion F as [|? ? F1 F2]; subst. destruct I as [<-|I]; [|exact (IH I F2)].
    rewrite (same_setting tuint tdouble dim3 db d F1) in E. destruct (make_setting tuint tdouble dim3 db) as [sg| |]; cbn [bind] in E; try discriminate. injection E as <-. cbn [mb_setting mb_state mb_db].
    exists sg. rewrite (same_initial tdouble db d F1), (same_new tdouble db d F1). auto.
  Qed.
  (** A restarted member: sources and parameters of its database. *)
  Lemma restart_setting n_beams da ps dbs : forall saved ms ms0, List.length saved = List.length dbs ->
    setup tuint tdouble dim3 init n_beams da ps (map Some saved) dbs = Ok ms -> setup tuint tdouble dim3 init n_beams da ps (repeat None (List.length dbs)) dbs = Ok ms0 ->
    map mb_state ms = saved /\ map mb_setting ms = map mb_setting ms0 /\ map mb_block ms = map mb_block ms0 /\ map mb_db ms = map mb_db ms0.
  Proof.
    unfold setup. induction dbs as [|db dbs IH]; intros saved ms ms0 L E E0.
    - destruct saved; [|discriminate]. injection E as <-. injection E0 as <-. repeat split.
    - destruct saved as [|s saved]; [discriminate|]. cbn [List.length] in L. injection L as L. cbn [map List.length repeat combine mapR] in E, E0.
      unfold setup_member in E at 1. unfold setup_member in E0 at 1. destruct (initial_block _ _ _ _ _) as [b| |]; cbn [bind] in E, E0; try discriminate. destruct (make_setting _ _ _ _) as [sg| |]; cbn [bind] in E, E0; try discriminate.
      destruct (mapR _ _) as [l| |] eqn:El in E; cbn [bind] in E; try discriminate. destruct (mapR _ _) as [l0| |] eqn:El0 in E0; cbn [bind] in E0; try discriminate.
      injection E as <-. injection E0 as <-. destruct (IH saved l l0 L El El0) as (A1 & A2 & A3 & A4). cbn [map mb_state mb_setting mb_block mb_db]. rewrite A1, A2, A3, A4. auto.
  Qed.
  Lemma alone_app sh sg nw ns1 : forall ns2 s, alone advance sh sg nw (ns1 ++ ns2) s = alone advance sh sg nw ns2 (alone advance sh sg nw ns1 s).
  Proof. induction ns1 as [|n ns1 IH]; intros ns2 s; [reflexivity|]. cbn [List.app alone]. apply IH. Qed.
  (** No assimilation: a restarted ensemble goes on as if it had not been stopped. *)
  Lemma restart_continues sh n_beams ps dbs p1 p2 ms0 ms1 : setup tuint tdouble dim3 init n_beams false ps (repeat None (List.length dbs)) dbs = Ok ms0 ->
    run tdouble fmt advance distribute sh false ps p1 ms0 = Ok ms1 ->
    exists ms2, setup tuint tdouble dim3 init n_beams false ps (map Some (map mb_state ms1)) dbs = Ok ms2 /\
      run tdouble fmt advance distribute sh false ps p2 ms2 = run tdouble fmt advance distribute sh false ps (p1 ++ p2) ms0.
  Proof.
    intros S R. rewrite run_alone in R. injection R as <-. rewrite setup_fresh in S. exists (map (fun m => mkmember (mb_db m) (mb_setting m) (alone advance sh (mb_setting m) (new_material_temperature tdouble (mb_db m)) (map fst p1) (mb_state m)) (mb_block m)) ms0).
    split.
    - apply mapR_forall2 in S. unfold setup. induction S as [|d x dbs ms0 E S IH]; [reflexivity|]. cbn [map combine mapR]. cbn [map] in IH. rewrite IH. unfold setup_member, initial_block. rewrite andb_false_r. cbn [bind].
      destruct (make_setting tuint tdouble dim3 d) as [sg| |]; cbn [bind] in E; try discriminate. injection E as <-. reflexivity.
    - rewrite !run_alone, map_map, map_app. f_equal. apply map_ext. intros m. cbn [mb_db mb_setting mb_state mb_block]. rewrite alone_app. reflexivity.
  Qed.
  (** Data files. *)
  Lemma data_lines (show : N -> string) keys db : forall values, Forall2 (fun key v => get tdouble db key = Ok v) keys values ->
    data_file tdouble show keys db = Ok (map (fun '(key, v) => String.concat "." key ++ ": " ++ show v) (combine keys values)).
  Proof.
    intros values F. unfold data_file. induction F as [|key v keys values E F IH]; [reflexivity|]. cbn [mapR combine map]. rewrite IH. unfold data_line at 1. rewrite E. reflexivity.
  Qed.
End Alone.

Lemma append_len (a b : string) : String.length (a ++ b)%string = (String.length a + String.length b)%nat.
Proof. induction a as [|c a IH]; simpl; [reflexivity|]. rewrite IH. reflexivity. Qed.
Lemma append_cancel_r (a b s : string) : (a ++ s = b ++ s)%string -> a = b.
Proof.
  revert b. induction a as [|c a IH]; intros [|d b] E; [reflexivity| | |].
  - exfalso. apply (f_equal String.length) in E. cbn [String.append String.length] in E. rewrite append_len in E. lia.
  - exfalso. apply (f_equal String.length) in E. cbn [String.append String.length] in E. rewrite append_len in E. lia.
  - cbn [String.append] in E. injection E as -> E. f_equal. exact (IH b E).
Qed.
Lemma data_names_differ output_dir prefix f1 m1 f2 m2 : (f1 + m1 <> f2 + m2)%nat -> data_file_name output_dir prefix f1 m1 <> data_file_name output_dir prefix f2 m2.
Proof. intros H E. apply H. unfold data_file_name in E. do 3 apply append_inj_l in E. apply append_cancel_r in E. exact (to_string_inj _ _ E). Qed.
