(** InputProofs2.v -- C24: the validation accepts exactly the valid databases. *)
From Coq Require Import ZArith NArith Bool List String Ascii Lia.
From Verif Require Import Base BaseFacts MaterialModel InputModel InputSpec InputProofs.
Import ListNotations.
Local Open Scope string_scope.

Lemma need_any (b : bool) (P : Prop) : (b = true <-> P) -> (need b = Ok tt <-> P).
Proof. rewrite need_ok. tauto. Qed.
Lemma if_ok (b : bool) (r : res unit) (P Q : Prop) : (b = true <-> P) -> (r = Ok tt <-> Q) -> ((if b then r else Ok tt) = Ok tt <-> (P -> Q)).
Proof. intros HB HR. destruct b; [rewrite HR; tauto|]. split; [intros _ p|reflexivity]. apply HB in p. discriminate. Qed.
Lemma named2 s a b : iequals s a || iequals s b = true <-> named s [a; b].
Proof. rewrite <- iequals_named. simpl. rewrite orb_false_r. tauto. Qed.
Lemma named3 s a b c : iequals s a || iequals s b || iequals s c = true <-> named s [a; b; c].
Proof. rewrite <- iequals_named. simpl. rewrite orb_false_r, orb_assoc. tauto. Qed.
Lemma in2 s a b : String.eqb s a || String.eqb s b = true <-> In s [a; b].
Proof. rewrite <- eqb_in. simpl. rewrite orb_false_r. tauto. Qed.
(** An optional value that must satisfy a condition. *)
Lemma opt_str_ok db path (f : string -> res unit) (P : string -> Prop) : (forall s, f s = Ok tt <-> P s) ->
  (match get_str_opt db path with Some s => f s | None => Ok tt end = Ok tt <-> forall s, value db path s -> P s).
Proof.
  intros H. destruct (get_str_opt db path) as [s|] eqn:E.
  - apply str_opt in E. rewrite H. split; [intros p s' V; rewrite (value_fun _ _ _ _ V E); exact p|auto].
  - split; [|reflexivity]. intros _ s V. apply str_opt in V. congruence.
Qed.
Lemma opt_ok {A} (tr : string -> option A) db path (f : A -> res unit) (P : A -> Prop) : (forall s, f s = Ok tt <-> P s) ->
  (match get_opt tr db path with Some s => f s | None => Ok tt end = Ok tt <-> forall s, typed tr db path s -> P s).
Proof.
  intros H. destruct (get_opt tr db path) as [s|] eqn:E.
  - apply opt_some in E. rewrite H. split; [intros p s' V; rewrite (typed_fun _ _ _ _ _ V E); exact p|auto].
  - split; [|reflexivity]. intros _ s V. apply opt_some in V. congruence.
Qed.
Lemma get_then {A} (tr : string -> option A) db path (f : A -> res unit) (P : A -> Prop) : (forall a, f a = Ok tt <-> P a) ->
  (bind (get tr db path) f = Ok tt <-> exists a, typed tr db path a /\ P a).
Proof. intros H. rewrite bind_ok. setoid_rewrite get_ok. setoid_rewrite H. reflexivity. Qed.
Lemma str_then db path (f : string -> res unit) (P : string -> Prop) : (forall a, f a = Ok tt <-> P a) ->
  (bind (get_str db path) f = Ok tt <-> exists a, value db path a /\ P a).
Proof. intros H. rewrite bind_ok. setoid_rewrite str_ok. setoid_rewrite H. reflexivity. Qed.
Lemma child_then db path (f : ptree -> res unit) (P : ptree -> Prop) : (forall a, f a = Ok tt <-> P a) ->
  (bind (child db path) f = Ok tt <-> exists a, at_path db path a /\ P a).
Proof. intros H. rewrite bind_ok. setoid_rewrite child_ok. setoid_rewrite H. reflexivity. Qed.
Lemma bind_unit (a : res unit) (f : unit -> res unit) : bind a f = Ok tt <-> a = Ok tt /\ f tt = Ok tt.
Proof. rewrite bind_ok. split; [intros ([] & H); exact H|eauto]. Qed.

Section Sections.
  Context {N : Num} (tbool : string -> option bool) (tuint : string -> option nat) (tdouble : string -> option N).

  Lemma discretization_ok thermal db : check_discretization tuint thermal db = Ok tt <-> (thermal = true -> valid_discretization tuint db).
  Proof.
    unfold check_discretization, valid_discretization. destruct thermal; [|split; [discriminate|reflexivity]].
    rewrite (get_then _ _ _ _ (fun d => (1 <= d <= 5)%nat /\ forall q, value db ["discretization"; "thermal"; "quadrature"] q -> named q ["gauss"; "lobatto"])).
    - split.
      + intros (d & T & L & Q) _. split; [exists d; auto|exact Q].
      + intros H. destruct (H eq_refl) as [(d & T & L) Q]. exists d. auto.
    - intros d. rewrite andthen_ok, need_ok, andb_true_iff, !Nat.ltb_lt. rewrite (opt_str_ok _ _ _ (fun q => named q ["gauss"; "lobatto"])) by (intros s; rewrite need_ok; apply named2).
      intuition lia.
  Qed.

  Lemma dim3 dim (r : res unit) (P : Prop) : (r = Ok tt <-> P) -> ((if Nat.eqb dim 3 then r else Ok tt) = Ok tt <-> (dim = 3%nat -> P)).
  Proof. apply if_ok. apply Nat.eqb_eq. Qed.

  Lemma geometry_ok db dim : check_geometry tbool tdouble db dim = Ok tt <-> valid_geometry tbool tdouble db dim.
  Proof.
    unfold check_geometry, valid_geometry. rewrite !andthen_ok.
    rewrite (if_ok _ _ _ _ (def_false tbool db _) (get_then _ _ _ _ (at_least_0) (fun a => need_ok _))).
    rewrite (if_ok _ _ _ _ (def_false tbool db _) (str_then _ _ _ _ (fun a => iff_refl _))).
    rewrite (get_then _ _ _ _ (fun import => exists g, at_path db ["geometry"] g /\
      (import = true -> present g "mesh_file" /\ present g "mesh_format") /\
      (import = false -> present g "length" /\ present g "height" /\ (dim = 3%nat -> present g "width")))).
    2:{ intros import. apply child_then. intros g. destruct import; rewrite !andthen_ok, ?(dim3 _ _ _ (need_kid_ok g "width")), !need_kid_ok; intuition discriminate. }
    assert (M : forall m, (need (String.eqb m "file" || String.eqb m "scan_paths") ;;
          (if String.eqb m "file" then need_kid db "geometry.material_deposition_file"
           else do g <- child db ["geometry"]; need_kid g "deposition_length" ;; need_kid g "deposition_height" ;;
             (if Nat.eqb dim 3 then need_kid g "deposition_width" else Ok tt) ;; need_kid g "deposition_lead_time")) = Ok tt <->
        (m = "file" /\ present db "geometry.material_deposition_file") \/
        (m = "scan_paths" /\ exists g, at_path db ["geometry"] g /\ present g "deposition_length" /\ present g "deposition_height" /\
          (dim = 3%nat -> present g "deposition_width") /\ present g "deposition_lead_time")).
    { intros m. rewrite andthen_ok, need_ok, orb_true_iff, !String.eqb_eq. destruct (String.eqb_spec m "file") as [->|NE].
      - rewrite need_kid_ok. intuition discriminate.
      - rewrite (child_then _ _ _ (fun g => present g "deposition_length" /\ present g "deposition_height" /\
          (dim = 3%nat -> present g "deposition_width") /\ present g "deposition_lead_time")); [tauto|].
        intros g. rewrite !andthen_ok, (dim3 _ _ _ (need_kid_ok g "deposition_width")), !need_kid_ok. tauto. }
    setoid_rewrite M. split.
    - intros (H1 & H2 & import & T & g & G & H3). split; [exact H1|]. split; [|exists import, g; auto].
      intros E. destruct (H2 E) as (m & V & [[-> Q]|[-> Q]]); [left|right]; auto.
    - intros (H1 & H2 & import & g & T & G & H3). split; [exact H1|]. split; [|exists import; split; [exact T|exists g; auto]].
      intros E. destruct (H2 E) as [[V Q]|[V Q]]; eexists; (split; [exact V|]); [left|right]; auto.
  Qed.

  Lemma state_ok dim bt (conv rad : Prop) s : (has_flag bt convective = true <-> conv) -> (has_flag bt radiative = true <-> rad) ->
    (check_state dim bt s = Ok tt <-> valid_state dim conv rad s).
  Proof.
    intros HC HR. unfold check_state, valid_state. rewrite !andthen_ok, (dim3 _ _ _ (need_kid_ok s _)),
      (if_ok _ _ _ _ HC (need_kid_ok s _)), (if_ok _ _ _ _ HR (need_kid_ok s _)), !need_kid_ok. tauto.
  Qed.

  Lemma materials_ok db dim bt (conv rad : Prop) : (has_flag bt convective = true <-> conv) -> (has_flag bt radiative = true <-> rad) ->
    (check_materials tuint db dim bt = Ok tt <-> valid_materials tuint db dim conv rad).
  Proof.
    intros HC HR. unfold check_materials, valid_materials.
    assert (ST : forall m, (each (fun s => if negb (Nat.eqb (count m s) 0) then do st <- child m [s]; check_state dim bt st else Ok tt) state_names = Ok tt) <->
      forall s st, In s ["solid"; "liquid"; "powder"] -> at_path m [s] st -> valid_state dim conv rad st).
    { intros m. rewrite each_ok. split.
      - intros H s st I A. specialize (H s I). rewrite (if_ok _ _ _ _ (count_present m s) (child_then _ _ _ _ (fun a => state_ok _ _ _ _ a HC HR))) in H.
        destruct H as (st' & A' & V); [apply present_path; eauto|]. rewrite (at_path_fun _ _ _ _ A A'). exact V.
      - intros H s I. rewrite (if_ok _ _ _ _ (count_present m s) (child_then _ _ _ _ (fun a => state_ok _ _ _ _ a HC HR))).
        intros P. apply present_path in P. destruct P as [st A]. exists st. split; [exact A|]. eapply H; eauto. }
    assert (CM : forall ms id, check_material dim bt ms id = Ok tt <-> exists m, at_path ms ["material_" ++ to_string id] m /\
        (forall s st, In s ["solid"; "liquid"; "powder"] -> at_path m [s] st -> valid_state dim conv rad st) /\
        (exists s, In s ["solid"; "liquid"; "powder"] /\ present m s) /\
        (conv -> present m "convection_temperature_infty") /\ (rad -> present m "radiation_temperature_infty")).
    { intros ms id. unfold check_material. cbv zeta. rewrite andthen_ok, need_kid_ok, present_path.
      rewrite (child_then _ _ _ (fun m => (forall s st, In s ["solid"; "liquid"; "powder"] -> at_path m [s] st -> valid_state dim conv rad st) /\
        (exists s, In s ["solid"; "liquid"; "powder"] /\ present m s) /\
        (conv -> present m "convection_temperature_infty") /\ (rad -> present m "radiation_temperature_infty"))).
      - split; [tauto|]. intros (m & A & H). split; [eauto|]. exists m. auto.
      - intros m. rewrite !andthen_ok, ST, need_ok, existsb_exists, (if_ok _ _ _ _ HC (need_kid_ok m _)), (if_ok _ _ _ _ HR (need_kid_ok m _)).
        setoid_rewrite count_present. reflexivity. }
    rewrite (get_then _ _ _ _ (fun n => exists f, value db ["materials"; "property_format"] f /\ In f ["table"; "polynomial"] /\ exists ms, at_path db ["materials"] ms /\
      forall id, (id < n)%nat -> check_material dim bt ms id = Ok tt)).
    - setoid_rewrite CM. split.
      + intros (n & T & f & V & I & ms & A & H). exists n, f, ms. auto.
      + intros (n & f & ms & T & V & I & A & H). exists n. split; [exact T|]. exists f. split; [exact V|]. split; [exact I|]. exists ms. auto.
    - intros n. apply str_then. intros f. rewrite andthen_ok, need_ok, in2.
      rewrite (child_then _ _ _ (fun ms => forall id, (id < n)%nat -> check_material dim bt ms id = Ok tt)); [tauto|].
      intros ms. rewrite each_ok. setoid_rewrite in_seq. split; intros H id L; apply H; lia.
  Qed.

  Lemma beam_ok db i : check_beam tdouble db i = Ok tt <-> valid_beam tdouble db i.
  Proof.
    unfold check_beam, valid_beam. cbv zeta. set (beam := "beam_" ++ to_string i).
    rewrite (str_then _ _ _ (fun ty => named ty ["goldak"; "electron_beam"; "cube"] /\
      (exists b, at_path db ["sources"; beam] b /\ present b "scan_path_file") /\
      (exists f, value db ["sources"; beam; "scan_path_file_format"] f /\ named f ["segment"; "event_series"]) /\
      (exists d, typed tdouble db ["sources"; beam; "depth"] d /\ at_least_0 d) /\
      (exists a, typed tdouble db ["sources"; beam; "absorption_efficiency"] a /\ at_least_0 a /\ at_most_1 a))).
    - split; [intros (ty & V & H1 & H2); split; [exists ty; auto|exact H2]|intros ((ty & V & H1) & H2); exists ty; auto].
    - intros ty. rewrite andthen_ok, need_ok, named3.
      rewrite (child_then _ _ _ (fun b => present b "scan_path_file" /\
        (exists f, value db ["sources"; beam; "scan_path_file_format"] f /\ named f ["segment"; "event_series"]) /\
        (exists d, typed tdouble db ["sources"; beam; "depth"] d /\ at_least_0 d) /\
        (exists a, typed tdouble db ["sources"; beam; "absorption_efficiency"] a /\ at_least_0 a /\ at_most_1 a))).
      { split; [intros (H0 & b & A & H1 & H2); split; [exact H0|]; split; [exists b; auto|exact H2]|intros (H0 & (b & A & H1) & H2); split; [exact H0|]; exists b; auto]. }
      intros b. rewrite andthen_ok, need_kid_ok.
      rewrite (str_then _ _ _ (fun f => named f ["segment"; "event_series"] /\
        (exists d, typed tdouble db ["sources"; beam; "depth"] d /\ at_least_0 d) /\
        (exists a, typed tdouble db ["sources"; beam; "absorption_efficiency"] a /\ at_least_0 a /\ at_most_1 a))).
      { split; [intros (H0 & f & A & H1 & H2); split; [exact H0|]; split; [exists f; auto|exact H2]|intros (H0 & (f & A & H1) & H2); split; [exact H0|]; exists f; auto]. }
      intros f. rewrite andthen_ok, need_ok, named2.
      rewrite (get_then _ _ _ _ (fun d => at_least_0 d /\ (exists a, typed tdouble db ["sources"; beam; "absorption_efficiency"] a /\ at_least_0 a /\ at_most_1 a))).
      { split; [intros (H0 & d & A & H1 & H2); split; [exact H0|]; split; [exists d; auto|exact H2]|intros (H0 & (d & A & H1) & H2); split; [exact H0|]; exists d; auto]. }
      intros d. rewrite andthen_ok, need_ok. rewrite (get_then _ _ _ _ (fun a => at_least_0 a /\ at_most_1 a)); [reflexivity|].
      intros a. rewrite need_ok, andb_true_iff. reflexivity.
  Qed.

  Lemma time_ok db : check_time tbool tdouble db = Ok tt <-> valid_time tbool tdouble db.
  Proof.
    unfold check_time, valid_time.
    rewrite (str_then _ _ _ (fun m => named m ["forward_euler"; "rk_third_order"; "rk_fourth_order"] /\
      (enabled tbool db ["time"; "scan_path_for_duration"] -> exists d, typed tdouble db ["time_stepping"; "duration"] d /\ at_least_0 d) /\
      (exists s, typed tdouble db ["time_stepping"; "time_step"] s /\ at_least_0 s))).
    - split; [intros (m & V & H1 & H2); split; [exists m; auto|exact H2]|intros ((m & V & H1) & H2); exists m; auto].
    - intros m. rewrite !andthen_ok, need_ok, named3, (if_ok _ _ _ _ (def_false tbool db _) (get_then _ _ _ _ (at_least_0) (fun a => need_ok _))).
      rewrite (get_then _ _ _ _ (at_least_0) (fun a => need_ok _)). reflexivity.
  Qed.

  Lemma experiment_ok db : check_experiment tbool tuint db = Ok tt <-> valid_experiment tbool tuint db.
  Proof.
    unfold check_experiment, valid_experiment. destruct (child_opt db ["experiment"]) as [e|] eqn:E.
    - apply child_at in E. rewrite (if_ok _ _ _ _ (def_false tbool db _) (iff_refl _)).
      assert (X : forall P Q : Prop, (P <-> Q) -> forall R : Prop, (R -> P) <-> (R -> Q)) by tauto. apply X. clear X.
      rewrite !andthen_ok, !need_kid_ok.
      rewrite (str_then _ _ _ (fun f => named f ["point_cloud"; "ray"] /\ exists l, typed tuint db ["experiment"; "last_frame"] l /\
        (forall k, typed tuint db ["experiment"; "first_frame"] k -> (k <= l)%nat) /\ exists fc, typed tuint db ["experiment"; "first_camera_id"] fc /\
        exists lc, typed tuint db ["experiment"; "last_camera_id"] lc /\ (fc <= lc)%nat /\ present e "log_filename")).
      + split.
        * intros (F & L & f & V & Nf & l & TL & K & fc & T1 & lc & T2 & LE & LG). exists e, f, l, fc, lc. auto 20.
        * intros (e' & f & l & fc & lc & A & F & L & LG & V & Nf & TL & K & T1 & T2 & LE). rewrite (at_path_fun _ _ _ _ A E) in *.
          split; [exact F|]. split; [exact L|]. exists f. split; [exact V|]. split; [exact Nf|]. exists l. split; [exact TL|]. split; [exact K|]. exists fc. split; [exact T1|]. exists lc. auto.
      + intros f. rewrite andthen_ok, need_ok, named2. apply and_iff_compat_l. apply get_then. intros l. rewrite andthen_ok, need_ok.
        rewrite (get_then _ _ _ _ (fun fc => exists lc, typed tuint db ["experiment"; "last_camera_id"] lc /\ (fc <= lc)%nat /\ present e "log_filename")).
        * apply and_iff_compat_r. rewrite Nat.leb_le. unfold get_def. destruct (get_opt tuint db ["experiment"; "first_frame"]) as [k|] eqn:EK.
          -- apply opt_some in EK. split; [intros H k' T; rewrite (typed_fun _ _ _ _ _ T EK); exact H|auto].
          -- split; [|lia]. intros _ k T. apply opt_some in T. congruence.
        * intros fc. apply get_then. intros lc. rewrite andthen_ok, need_ok, need_kid_ok, Nat.leb_le. reflexivity.
    - split; [|reflexivity]. intros _ (s & (c & A & _) & _). exfalso. inversion A; subst.
      assert (K : child_opt db ["experiment"] = Some c0) by (apply child_at; eapply at_down; eauto; constructor). congruence.
  Qed.

  Lemma da_ok db : check_da tdouble db = Ok tt <-> valid_da tdouble db.
  Proof.
    unfold check_da, valid_da. cbv zeta. rewrite andthen_ok. rewrite (opt_ok _ _ _ _ (at_least_0) (fun a => need_ok _)). apply and_iff_compat_l.
    destruct (get_str_opt db ["data_assimilation"; "localization_cutoff_function"]) as [f|] eqn:E.
    - apply str_opt in E. rewrite need_ok, named3. split; [intros H s V; rewrite (value_fun _ _ _ _ V E); exact H|auto].
    - split; [|reflexivity]. intros _ s V. apply str_opt in V. congruence.
  Qed.

  Lemma unit_ok db path allowed : check_unit db path allowed = Ok tt <-> forall u, value db path u -> named u allowed.
  Proof. unfold check_unit. apply opt_str_ok. intros s. rewrite need_ok. apply iequals_named. Qed.
  Lemma units_ok db : check_units db = Ok tt <-> valid_units db.
  Proof. unfold check_units, valid_units. rewrite !andthen_ok, !unit_ok. reflexivity. Qed.

  Theorem validate_ok db : validate tbool tuint tdouble db = Ok tt <-> valid_input tbool tuint tdouble db.
  Proof.
    unfold validate, valid_input.
    rewrite (get_then _ _ _ _ (fun thermal => exists mech, typed tbool db ["physics"; "mechanical"] mech /\ (thermal = true \/ mech = true) /\
      exists b, at_path db ["boundary"] b /\ valid_boundary thermal mech b /\
      (thermal = true -> valid_discretization tuint db) /\
      exists dim, typed tuint db ["geometry"; "dim"] dim /\ (dim = 2 \/ dim = 3)%nat /\ valid_geometry tbool tdouble db dim /\
      valid_materials tuint db dim (used b "convective") (used b "radiative") /\
      (forall s, value db ["memory_space"] s -> In s ["device"; "host"]) /\
      (exists pp, at_path db ["post_processor"] pp /\ present pp "filename_prefix") /\ present db "refinement" /\
      (exists n, typed tuint db ["sources"; "n_beams"] n /\ forall i, (i < n)%nat -> valid_beam tdouble db i) /\
      valid_time tbool tdouble db /\ valid_experiment tbool tuint db /\ valid_da tdouble db /\ valid_units db)).
    { split.
      - intros (th & T1 & me & T2 & TM & b & A & VB & VD & dim & T3 & D & R). exists th, me, dim, b. tauto.
      - intros (th & me & dim & b & T1 & T2 & TM & A & VB & VD & T3 & D & R). exists th. split; [exact T1|]. exists me. split; [exact T2|]. split; [exact TM|].
        exists b. split; [exact A|]. split; [exact VB|]. split; [exact VD|]. exists dim. tauto. }
    intros thermal. apply get_then. intros mech. rewrite andthen_ok, need_ok, orb_true_iff. apply and_iff_compat_l. apply child_then. intros b.
    assert (VB : valid_boundary thermal mech b <-> (forall p, In p (pkids b) -> exists ws, says b p ws /\ line_req thermal mech ws) /\ (mech = true -> used b "clamped")) by reflexivity.
    rewrite VB. clear VB. destruct (check_lines_ok thermal mech b (pkids b) (0%N, false)) as [C1 C2].
    assert (Z : forall f, has_flag 0 f = true <-> False) by (intros f; unfold has_flag; simpl; split; [discriminate|contradiction]).
    destruct (check_lines thermal mech b (0%N, false) (pkids b)) as [acc| |] eqn:EC; cbn [bind].
    2:{ split; [discriminate|]. intros ((H & _) & _). destruct (C1 H). discriminate. }
    2:{ split; [discriminate|]. intros ((H & _) & _). destruct (C1 H). discriminate. }
    destruct (C2 _ eq_refl) as (G & FC & FR & FK). cbn [fst snd] in FC, FR, FK. rewrite Z in FC, FR.
    assert (HC : has_flag (fst acc) convective = true <-> used b "convective") by (rewrite FC; unfold used; tauto).
    assert (HR : has_flag (fst acc) radiative = true <-> used b "radiative") by (rewrite FR; unfold used; tauto).
    assert (HK : snd acc = true <-> used b "clamped") by (rewrite FK; unfold used; split; [intros [H|H]; [discriminate|exact H]|auto]).
    rewrite !andthen_ok. rewrite (if_ok mech _ (mech = true) (used b "clamped") (iff_refl _)); [|rewrite need_ok; exact HK].
    rewrite discretization_ok.
    rewrite (get_then _ _ _ _ (fun dim => (dim = 2 \/ dim = 3)%nat /\ valid_geometry tbool tdouble db dim /\
      valid_materials tuint db dim (used b "convective") (used b "radiative") /\
      (forall s, value db ["memory_space"] s -> In s ["device"; "host"]) /\
      (exists pp, at_path db ["post_processor"] pp /\ present pp "filename_prefix") /\ present db "refinement" /\
      (exists n, typed tuint db ["sources"; "n_beams"] n /\ forall i, (i < n)%nat -> valid_beam tdouble db i) /\
      valid_time tbool tdouble db /\ valid_experiment tbool tuint db /\ valid_da tdouble db /\ valid_units db)); [tauto|].
    intros dim. rewrite !andthen_ok, need_ok, orb_true_iff, !Nat.eqb_eq, geometry_ok, (materials_ok _ _ _ _ _ HC HR).
    rewrite (opt_str_ok _ _ _ (fun s => In s ["device"; "host"])) by (intros s; rewrite need_ok; apply in2). apply and_iff_compat_l, and_iff_compat_l, and_iff_compat_l, and_iff_compat_l.
    rewrite (child_then _ _ _ (fun pp => present pp "filename_prefix" /\ present db "refinement" /\
      (exists n, typed tuint db ["sources"; "n_beams"] n /\ forall i, (i < n)%nat -> valid_beam tdouble db i) /\
      valid_time tbool tdouble db /\ valid_experiment tbool tuint db /\ valid_da tdouble db /\ valid_units db)).
    { split; [intros (pp & A & H1 & H2); split; [exists pp; auto|exact H2]|intros ((pp & A & H1) & H2); exists pp; auto]. }
    intros pp. rewrite !andthen_ok, !need_kid_ok. apply and_iff_compat_l, and_iff_compat_l.
    rewrite (get_then _ _ _ _ (fun n => (forall i, (i < n)%nat -> valid_beam tdouble db i) /\
      valid_time tbool tdouble db /\ valid_experiment tbool tuint db /\ valid_da tdouble db /\ valid_units db)).
    { split; [intros (n & A & H1 & H2); split; [exists n; auto|exact H2]|intros ((n & A & H1) & H2); exists n; auto]. }
    intros n. rewrite !andthen_ok, time_ok, experiment_ok, da_ok, units_ok, each_ok. setoid_rewrite in_seq. setoid_rewrite beam_ok.
    split; intros (H & R); (split; [intros i L; apply H; lia|exact R]).
  Qed.
End Sections.
