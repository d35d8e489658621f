(** MainProofs2.v -- C65: the stored properties. *)
From Coq Require Import ZArith Bool List String Ascii Lia.
From Verif Require Import Base ScanPathModel MaterialModel MaterialSpec MaterialProofs InputModel InputSpec InputProofs CellModel MainModel MainSpec MainProofs.
Import ListNotations.
Local Open Scope string_scope.

Lemma mapR_forall2 {A B} (f : A -> res B) l : forall ys, mapR f l = Ok ys <-> Forall2 (fun x y => f x = Ok y) l ys.
Proof.
  induction l as [|x l IH]; intros ys; cbn [mapR].
  - split; [intros H; injection H as <-; constructor|intros H; inversion H; reflexivity].
  - split.
    + destruct (f x) as [y| |] eqn:E; cbn [bind]; try discriminate. destruct (mapR f l) as [zs| |] eqn:F; cbn [bind]; try discriminate. intros H. injection H as <-. constructor; [exact E|]. apply IH. reflexivity.
    + intros H. inversion H as [|? y ? zs E F]; subst. rewrite E. cbn [bind]. apply IH in F. rewrite F. reflexivity.
Qed.
Lemma forall2_nth {A B} (R : A -> B -> Prop) l l' : Forall2 R l l' -> forall i a, nth_error l i = Some a -> exists b, nth_error l' i = Some b /\ R a b.
Proof. intros H. induction H as [|a b l l' X H IH]; intros [|i] c E; cbn in E; try discriminate; [injection E as <-; exists b; auto|]. exact (IH i c E). Qed.
Lemma forall2_length {A B} (R : A -> B -> Prop) l l' : Forall2 R l l' -> List.length l = List.length l'.
Proof. intros H. induction H; simpl; auto. Qed.
Lemma combine_nth_error {A B} (l : list A) (l' : list B) i a b : nth_error l i = Some a -> nth_error l' i = Some b -> nth_error (combine l l') i = Some (a, b).
Proof. revert l' i. induction l as [|x l IH]; intros [|y l'] [|i] E F; cbn in *; try discriminate; [congruence|]. apply IH; assumption. Qed.
Lemma nth_seq n i : (i < n)%nat -> nth_error (seq 0 n) i = Some i.
Proof. intros L. rewrite nth_error_nth' with (d := 0%nat) by (rewrite seq_length; exact L). rewrite seq_nth by exact L. reflexivity. Qed.

Section Fill.
  Context {N : Num}.
  Variables (tuint : string -> option nat) (tdouble : string -> option N) (P : parser N) (infinity : N) (invalid : nat).
  Lemma coefs_ok ws : forall cs, parse_coefs P ws = Ok cs <-> Forall2 (fun w c => stod P w = Some c) ws cs.
  Proof.
    induction ws as [|w ws IH]; intros cs; cbn [parse_coefs].
    - split; [intros H; injection H as <-; constructor|intros H; inversion H; reflexivity].
    - split.
      + destruct (stod P w) as [v|] eqn:E; [|discriminate]. destruct (parse_coefs P ws) as [r| |] eqn:F; cbn [bind]; try discriminate. intros H. injection H as <-. constructor; [exact E|]. apply IH. reflexivity.
      + intros H. inversion H as [|? v ? r E F]; subst. rewrite E. apply IH in F. rewrite F. reflexivity.
  Qed.
  Lemma poly_ok p_order text full : parse_poly P p_order text = Ok full <->
    exists cs, coefs_of P text cs /\ (List.length cs <= p_order + 1)%nat /\ full = (cs ++ repeat (nofZ N 0) (p_order + 1 - List.length cs))%list.
  Proof.
    unfold parse_poly. cbv zeta. split.
    - destruct (Nat.ltb_spec (p_order + 1) (List.length (split_off "," (remove_blanks text)))); [discriminate|]. destruct (parse_coefs P (split_off "," (remove_blanks text))) as [cs| |] eqn:E; cbn [bind]; try discriminate.
      intros H0. injection H0 as <-. exists cs. apply coefs_ok in E. split; [exists (words (remove_blanks text)); split; [apply words_spec|exact E]|]. split; [|reflexivity]. rewrite <- (forall2_length _ _ _ E). exact H.
    - intros (cs & (ws & W & F) & L & ->). apply words_unique in W. subst ws. unfold words in F. destruct (Nat.ltb_spec (p_order + 1) (List.length (split_off "," (remove_blanks text)))) as [H|H].
      + rewrite (forall2_length _ _ _ F) in H. lia.
      + apply coefs_ok in F. rewrite F. reflexivity.
  Qed.
  Lemma coefs_fields text cs : coefs_of P text cs -> n_fields text (List.length cs).
  Proof. intros (ws & W & F). exists ws. split; [exact W|]. exact (forall2_length _ _ _ F). Qed.

  (** One property. *)
  Definition stored (table : bool) (po : nat) (text : string) : res (state_law N) := if table then do rows <- parse_table P text; Ok (Table rows) else do cs <- parse_poly P po text; Ok (Poly cs).
  Lemma stored_law table po text l : stored table po text = Ok l -> law_of P table po text l.
  Proof.
    unfold stored, law_of. destruct table.
    - destruct (parse_table P text) as [full| |] eqn:E; cbn [bind]; try discriminate. intros H. injection H as <-. apply parse_table_ok in E. destruct E as (rows & F & _ & G). exists rows, full. auto.
    - destruct (parse_poly P po text) as [full| |] eqn:E; cbn [bind]; try discriminate. intros H. injection H as <-. apply poly_ok in E. destruct E as (cs & F & _ & ->). exists cs. auto.
  Qed.
  Lemma stored_first table po text l : stored table po text = Ok l -> exists v, first_value l = Ok v /\ first_number P table text v.
  Proof.
    unfold stored, first_number. destruct table.
    - destruct (parse_table P text) as [full| |] eqn:E; cbn [bind]; try discriminate. intros H. injection H as <-. apply parse_table_ok in E. destruct E as (rows & F & L & l & _ & ->). destruct rows as [|[t v] rows]; [simpl in L; lia|].
      exists v. split; [reflexivity|]. exists t, rows. exact F.
    - destruct (parse_poly P po text) as [full| |] eqn:E; cbn [bind]; try discriminate. intros H. injection H as <-. apply poly_ok in E. destruct E as (cs & F & L & ->). destruct cs as [|v cs].
      + exfalso. destruct F as (ws & (NE & _) & F). inversion F. subst. apply NE. reflexivity.
      + exists v. split; [reflexivity|]. exists cs. exact F.
  Qed.
  Lemma fill_given table po st state p name text l : value st [name] text -> (p < 8)%nat \/ state = 0%nat -> fill_property P infinity table po st state p name = Ok l -> stored table po text = Ok l.
  Proof.
    intros V S. unfold fill_property. apply str_opt in V. rewrite V. cbn [List.length thermal_names].
    assert (X : (negb (Nat.ltb p 8) && negb (Nat.eqb state 0))%bool = false) by (destruct S as [S| ->]; [apply Nat.ltb_lt in S; rewrite S; reflexivity|apply andb_false_r]). rewrite X. exact (fun H => H).
  Qed.
  Lemma fill_absent table po st state p name : (forall text, ~ value st [name] text) -> fill_property P infinity table po st state p name =
    Ok (if (String.eqb name "elastic_limit" && Nat.eqb state 0)%bool then infinite_law infinity table po else zero_law table po).
  Proof. intros V. unfold fill_property. apply str_none in V. rewrite V. destruct (String.eqb name "elastic_limit" && Nat.eqb state 0)%bool; reflexivity. Qed.

  (** A state. *)
  Lemma fill_state_nth table po m state s laws p name : fill_state P infinity table po m (state, s) = Ok laws -> nth_error state_property_names p = Some name ->
    exists l, nth_error laws p = Some l /\ ((~ (exists st, at_path m [s] st) /\ l = zero_law table po) \/ exists st, at_path m [s] st /\ fill_property P infinity table po st state p name = Ok l).
  Proof.
    unfold fill_state. cbn [fst snd]. intros E F. assert (L : (p < List.length state_property_names)%nat) by (apply nth_error_Some; rewrite F; discriminate). destruct (child_opt m [s]) as [st|] eqn:C.
    - apply mapR_forall2 in E. destruct (forall2_nth _ _ _ E p (p, name)) as (l & A & B); [apply combine_nth_error; [apply nth_seq, L|exact F]|]. exists l. split; [exact A|]. right. exists st. split; [apply child_at, C|exact B].
    - assert (E' : laws = repeat (zero_law table po) (List.length state_property_names)) by congruence. rewrite E'. exists (zero_law table po). split; [exact (nth_error_repeat _ L)|]. left. split; [|reflexivity]. intros [st A]. apply child_at in A. congruence.
  Qed.

  (** A material. *)
  Lemma fill_material_nth table po ns ms id fl : fill_material tdouble P infinity table po ns ms id = Ok fl -> (ns <= 3)%nat ->
    exists m, at_path ms [material_name id] m /\
    (forall state s, (state < ns)%nat -> nth_error material_states state = Some s -> exists laws, nth_error (f_laws fl) state = Some laws /\ fill_state P infinity table po m (state, s) = Ok laws) /\
    f_props fl = map (fun name => match get_opt tdouble m [name] with Some v => v | None => nmax N end) property_names.
  Proof.
    unfold fill_material. intros E L. destruct (child ms [material_name id]) as [m| |] eqn:C; cbn [bind] in E; try discriminate.
    destruct (mapR (fill_state P infinity table po m) (combine (seq 0 ns) (firstn ns material_states))) as [laws| |] eqn:F; cbn [bind] in E; try discriminate. injection E as <-.
    exists m. split; [apply child_ok, C|]. split; [|reflexivity]. intros state s S NS. apply mapR_forall2 in F. apply (forall2_nth _ _ _ F state (state, s)). apply combine_nth_error; [apply nth_seq, S|].
    destruct ns as [|[|[|[|ns]]]]; try lia; destruct state as [|[|[|state]]]; try lia; exact NS.
  Qed.
  Lemma fill_nth po ns ms n f fs id : fill_properties tuint tdouble P infinity po ns ms = Ok fs -> typed tuint ms ["n_materials"] n -> value ms ["property_format"] f -> (id < n)%nat ->
    exists fl, nth_error fs id = Some fl /\ fill_material tdouble P infinity (String.eqb f "table") po ns ms id = Ok fl.
  Proof.
    unfold fill_properties. intros E T V L. apply str_ok in V. rewrite V in E. cbn [bind] in E. apply get_ok in T. rewrite T in E. cbn [bind] in E. apply mapR_forall2 in E. apply (forall2_nth _ _ _ E id id). apply nth_seq, L.
  Qed.

  (** ** What is stored *)
  Lemma given_in ms id s name text m : at_path ms [material_name id] m -> (given ms id s name text <-> exists st, at_path m [s] st /\ value st [name] text).
  Proof.
    intros A. unfold given. rewrite value_cons. split.
    - intros (m' & B & V). rewrite (at_path_fun _ _ _ _ B A) in V. apply value_cons in V. exact V.
    - intros (st & B & V). exists m. split; [exact A|]. apply value_cons. exists st. auto.
  Qed.
  Lemma thermal_stored po ns ms n f fs : fill_properties tuint tdouble P infinity po ns ms = Ok fs -> typed tuint ms ["n_materials"] n -> value ms ["property_format"] f -> (ns <= 3)%nat ->
    forall id state s p name, (id < n)%nat -> (state < ns)%nat -> nth_error material_states state = Some s -> nth_error thermal_names p = Some name ->
    exists fl l, nth_error fs id = Some fl /\ thermal_law fl state p = Ok l /\
    (forall text, given ms id s name text -> law_of P (String.eqb f "table") po text l) /\ ((forall text, ~ given ms id s name text) -> l = zero_law (String.eqb f "table") po).
  Proof.
    intros E T V L id state s p name I S ES EN. destruct (fill_nth _ _ _ _ _ _ _ E T V I) as (fl & A & B). destruct (fill_material_nth _ _ _ _ _ _ B L) as (m & C & D & _). destruct (D state s S ES) as (laws & F & G).
    assert (PL : (p < 8)%nat) by (change 8%nat with (List.length thermal_names); apply nth_error_Some; rewrite EN; discriminate).
    assert (EN' : nth_error state_property_names p = Some name) by (unfold state_property_names; rewrite nth_error_app1 by exact PL; exact EN).
    destruct (fill_state_nth _ _ _ _ _ _ _ _ G EN') as (l & H & K). exists fl, l. split; [exact A|]. split; [unfold thermal_law, at_; rewrite F; cbn [bind]; rewrite H; reflexivity|].
    assert (NE : String.eqb name "elastic_limit" = false).
    { clear -EN. do 8 (destruct p as [|p]; [injection EN as <-; reflexivity|]). cbn in EN. destruct p; discriminate EN. }
    split.
    - intros text X. apply (given_in _ _ _ _ _ _ C) in X. destruct X as (st & X & Y). destruct K as [[K _]|(st' & K1 & K2)]; [exfalso; apply K; exists st; exact X|]. rewrite (at_path_fun _ _ _ _ K1 X) in K2.
      apply (stored_law _ po). eapply fill_given; [exact Y|left; exact PL|exact K2].
    - intros X. destruct K as [[_ K]|(st' & K1 & K2)]; [exact K|]. rewrite fill_absent in K2 by (intros text Y; apply (X text); apply (given_in _ _ _ _ _ _ C); exists st'; auto). rewrite NE in K2. cbn [andb] in K2. injection K2 as <-. reflexivity.
  Qed.
  Lemma first_zero table po : first_value (zero_law table po) = Ok (nofZ N 0).
  Proof. destruct table; [reflexivity|]. unfold zero_law. rewrite Nat.add_1_r. reflexivity. Qed.
  Lemma first_infinite table po : first_value (infinite_law infinity table po) = Ok infinity.
  Proof. destruct table; reflexivity. Qed.
  Lemma mechanical_stored po ns ms n f fs : fill_properties tuint tdouble P infinity po ns ms = Ok fs -> typed tuint ms ["n_materials"] n -> value ms ["property_format"] f -> (1 <= ns <= 3)%nat ->
    forall id j name, (id < n)%nat -> nth_error mechanical_names j = Some name ->
    exists fl v, nth_error fs id = Some fl /\ mechanical_value fl j = Ok v /\
    (forall text, given ms id "solid" name text -> first_number P (String.eqb f "table") text v) /\
    ((forall text, ~ given ms id "solid" name text) -> (name = "elastic_limit" /\ has_state ms id "solid" -> v = infinity) /\ (~ (name = "elastic_limit" /\ has_state ms id "solid") -> v = nofZ N 0)).
  Proof.
    intros E T V L id j name I EN. destruct (fill_nth _ _ _ _ _ _ _ E T V I) as (fl & A & B). destruct (fill_material_nth _ _ _ _ _ _ B (proj2 L)) as (m & C & D & _). destruct (D 0%nat "solid") as (laws & F & G); [lia|reflexivity|].
    assert (EN' : nth_error state_property_names (List.length thermal_names + j) = Some name).
    { unfold state_property_names. rewrite nth_error_app2 by lia. rewrite (Nat.add_comm (List.length thermal_names) j), Nat.add_sub. exact EN. }
    destruct (fill_state_nth _ _ _ _ _ _ _ _ G EN') as (l & H & K).
    assert (M : mechanical_value fl j = first_value l) by (unfold mechanical_value; unfold at_ at 1; rewrite F; cbn [bind]; unfold at_; rewrite H; reflexivity).
    assert (HS : forall st, at_path m ["solid"] st -> has_state ms id "solid") by (intros st X; exists st; apply path_cons; exists m; auto).
    assert (HS' : has_state ms id "solid" -> exists st, at_path m ["solid"] st).
    { intros [st X]. apply path_cons in X. destruct X as (m' & X & Y). rewrite (at_path_fun _ _ _ _ X C) in Y. exists st. exact Y. }
    destruct K as [[K1 ->]|(st & K1 & K2)].
    - exists fl, (nofZ N 0). split; [exact A|]. split; [rewrite M; apply first_zero|]. split.
      + intros text X. apply (given_in _ _ _ _ _ _ C) in X. destruct X as (st & X & _). exfalso. apply K1. exists st. exact X.
      + intros _. split; [|reflexivity]. intros [_ X]. exfalso. apply K1. apply HS', X.
    - destruct (get_str_opt st [name]) as [text|] eqn:X.
      + apply str_opt in X. pose proof (fill_given _ _ _ _ _ _ _ _ X (or_intror eq_refl) K2) as Q. destruct (stored_first _ _ _ _ Q) as (v & Q1 & Q2). exists fl, v. split; [exact A|]. split; [rewrite M; exact Q1|]. split.
        * intros text' Y. apply (given_in _ _ _ _ _ _ C) in Y. destruct Y as (st' & Y1 & Y2). rewrite (at_path_fun _ _ _ _ Y1 K1) in Y2. rewrite (value_fun _ _ _ _ Y2 X). exact Q2.
        * intros Y. exfalso. apply (Y text). apply (given_in _ _ _ _ _ _ C). exists st. auto.
      + pose proof (proj1 (str_none _ _) X) as X'. rewrite fill_absent in K2 by exact X'. cbn [Nat.eqb] in K2. rewrite andb_true_r in K2. injection K2 as <-.
        exists fl, (if String.eqb name "elastic_limit" then infinity else nofZ N 0). split; [exact A|]. split; [rewrite M; destruct (String.eqb name "elastic_limit"); [apply first_infinite|apply first_zero]|]. split.
        * intros text Y. apply (given_in _ _ _ _ _ _ C) in Y. destruct Y as (st' & Y1 & Y2). rewrite (at_path_fun _ _ _ _ Y1 K1) in Y2. exfalso. exact (X' _ Y2).
        * intros _. pose proof (HS st K1) as W. destruct (String.eqb_spec name "elastic_limit") as [->|NE]; split; intros Z; try reflexivity; exfalso; tauto.
  Qed.
  Lemma props_stored po ns ms n f fs : fill_properties tuint tdouble P infinity po ns ms = Ok fs -> typed tuint ms ["n_materials"] n -> value ms ["property_format"] f -> (ns <= 3)%nat ->
    forall id q name, (id < n)%nat -> nth_error property_names q = Some name ->
    exists fl v, nth_error fs id = Some fl /\ nth_error (f_props fl) q = Some v /\
    (forall x, typed tdouble ms [material_name id; name] x -> v = x) /\ ((forall x, ~ typed tdouble ms [material_name id; name] x) -> v = nmax N).
  Proof.
    intros E T V L id q name I EN. destruct (fill_nth _ _ _ _ _ _ _ E T V I) as (fl & A & B). destruct (fill_material_nth _ _ _ _ _ _ B L) as (m & C & _ & D).
    assert (TY : forall x, typed tdouble ms [material_name id; name] x <-> typed tdouble m [name] x).
    { intros x. unfold typed. split; intros (t & X & Y); exists t; (split; [|exact Y]).
      - apply value_cons in X. destruct X as (m' & X & Z). rewrite (at_path_fun _ _ _ _ X C) in Z. exact Z.
      - apply value_cons. exists m. auto. }
    eexists fl, _. split; [exact A|]. split; [rewrite D; apply (map_nth_error (fun name => match get_opt tdouble m [name] with Some v => v | None => nmax N end) _ _ EN)|]. split.
    - intros x X. apply TY in X. apply opt_some in X. rewrite X. reflexivity.
    - intros X. destruct (get_opt tdouble m [name]) as [x|] eqn:G; [|reflexivity]. apply opt_some in G. apply TY in G. exfalso. exact (X x G).
  Qed.

  (** ** Nothing is refused *)
  Lemma readable_stored table po text : readable P table text -> (table = false -> forall k, n_fields text k -> (k <= po + 1)%nat) -> exists l, stored table po text = Ok l.
  Proof.
    unfold readable, stored. destruct table.
    - intros (rows & F & L) _. assert (R : (1 <= List.length rows)%nat).
      { rewrite <- (forall2_length _ _ _ F). assert (X : split_off "|"%char (remove_blanks text) <> []) by apply split_off_nonempty. destruct (split_off "|"%char (remove_blanks text)); [exfalso; apply X; reflexivity|simpl; lia]. }
      destruct (nth_error rows (List.length rows - 1)) as [l|] eqn:E; [|apply nth_error_None in E; lia].
      assert (X : parse_table P text = Ok (rows ++ repeat l (12 - List.length rows))%list) by (apply parse_table_ok; exists rows; split; [exact F|split; [lia|exists l; auto]]). rewrite X. cbn [bind]. eauto.
    - intros (cs & F) B. assert (X : parse_poly P po text = Ok (cs ++ repeat (nofZ N 0) (po + 1 - List.length cs))%list).
      { apply poly_ok. exists cs. split; [exact F|]. split; [|reflexivity]. apply B; [reflexivity|]. apply coefs_fields, F. }
      rewrite X. cbn [bind]. eauto.
  Qed.
  Lemma fill_one table po st state p name : (forall text, value st [name] text -> readable P table text /\ (table = false -> forall k, n_fields text k -> (k <= po + 1)%nat)) ->
    exists l, fill_property P infinity table po st state p name = Ok l.
  Proof.
    intros H. unfold fill_property. destruct (get_str_opt st [name]) as [text|] eqn:E; [|destruct (String.eqb name "elastic_limit" && Nat.eqb state 0)%bool; eauto]. apply str_opt in E. destruct (H text E) as [R B].
    destruct (negb (Nat.ltb p (List.length thermal_names)) && negb (Nat.eqb state 0))%bool; [|exact (readable_stored table po text R B)]. destruct table.
    - destruct R as (rows & F & L). rewrite <- (forall2_length _ _ _ F) in L. unfold table_size. apply Nat.leb_le in L. rewrite L. cbn [need bind]. eauto.
    - specialize (B eq_refl (fields text) (fields_spec text)). unfold fields in B. apply Nat.leb_le in B. rewrite B. cbn [need bind]. eauto.
  Qed.
  Lemma mapR_total {A B} (f : A -> res B) l : (forall x, In x l -> exists y, f x = Ok y) -> exists ys, mapR f l = Ok ys /\ List.length ys = List.length l.
  Proof.
    induction l as [|x l IH]; intros H; [exists []; auto|]. cbn [mapR]. destruct (H x (or_introl eq_refl)) as [y Y]. destruct IH as (ys & E & L); [intros z Z; apply H; right; exact Z|]. rewrite Y, E. cbn [bind]. exists (y :: ys). split; [reflexivity|]. simpl. rewrite L. reflexivity.
  Qed.
  Lemma fill_total ms n f po ns : typed tuint ms ["n_materials"] n -> value ms ["property_format"] f -> materials_present ms n -> (0 < n <= invalid)%nat ->
    template_parameters tuint invalid ms = Ok (n, po, ns) -> (forall state text, seen ms n state text -> readable P (String.eqb f "table") text) ->
    exists fs, fill_properties tuint tdouble P infinity po ns ms = Ok fs /\ List.length fs = n.
  Proof.
    intros T V M L E H. destruct (parameters_spec tuint invalid ms n f T V M L n po ns E) as (_ & _ & NS & _ & O & _ & _). unfold fill_properties. pose proof (proj2 (str_ok _ _ _) V) as V'. rewrite V'. cbn [bind]. pose proof (proj2 (get_ok _ _ _ _) T) as T'. rewrite T'. cbn [bind].
    destruct (mapR_total (fill_material tdouble P infinity (String.eqb f "table") po ns ms) (seq 0 n)) as (fs & E1 & E2); [|exists fs; split; [exact E1|rewrite E2; apply seq_length]]. intros id I. apply in_seq in I. assert (X := M id ltac:(lia)). apply present_path in X. destruct X as [m X]. unfold fill_material. rewrite (proj2 (child_ok _ _ _) X). cbn [bind].
    destruct (mapR_total (fill_state P infinity (String.eqb f "table") po m) (combine (seq 0 ns) (firstn ns material_states))) as (laws & Y & _); [|rewrite Y; cbn [bind]; eauto].
    intros [state s] J. assert (ES : nth_error material_states state = Some s).
    { destruct ns as [|[|[|[|ns]]]]; try lia; cbn in J; repeat (destruct J as [J|J]; [injection J as <- <-; reflexivity|]); destruct J. }
    unfold fill_state. cbn [fst snd]. destruct (child_opt m [s]) as [st|] eqn:C; [|eauto]. apply child_at in C. destruct (mapR_total (fun pn => fill_property P infinity (String.eqb f "table") po st state (fst pn) (snd pn)) (combine (seq 0 (List.length state_property_names)) state_property_names)) as (ys & Z & _); [|rewrite Z; eauto].
    intros [p name] K. apply fill_one. intros text W. assert (S : seen ms n state text).
    { exists id, s, name. split; [lia|]. split; [exact ES|]. split; [apply in_names; apply in_combine_r in K; exact K|]. apply (given_in _ _ _ _ _ _ X). exists st. auto. }
    split; [apply (H state), S|]. intros F k B. destruct (String.eqb_spec f "table") as [|NE]; [discriminate F|]. destruct (O NE) as [O1 _]. exact (O1 state text k S B).
  Qed.
End Fill.
