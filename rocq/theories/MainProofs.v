(** MainProofs.v -- C65: choice of the template parameters, properties of the materials. *)
From Coq Require Import ZArith Bool List String Ascii Lia.
From Verif Require Import Base ScanPathModel MaterialModel MaterialSpec MaterialProofs InputModel InputSpec InputProofs CellModel MainModel MainSpec.
Import ListNotations.
Local Open Scope string_scope.

(** ** Paths *)
Lemma path_cons t n rest c : at_path t (n :: rest) c <-> exists k, at_path t [n] k /\ at_path k rest c.
Proof.
  split.
  - intros H. inversion H as [|? ? k ? ? pre post E NI R]; subst. exists k. split; [|exact R]. eapply at_down; [exact E|exact NI|constructor].
  - intros (k & H & R). inversion H as [|? ? k' ? ? pre post E NI R']; subst. inversion R'; subst. eapply at_down; [exact E|exact NI|exact R].
Qed.
Lemma value_cons t n rest s : value t (n :: rest) s <-> exists k, at_path t [n] k /\ value k rest s.
Proof.
  unfold value. split.
  - intros (c & A & E). apply path_cons in A. destruct A as (k & A & B). exists k. split; [exact A|]. exists c. auto.
  - intros (k & A & c & B & E). exists c. split; [|exact E]. apply path_cons. exists k. auto.
Qed.

(** ** Materials in use *)
Lemma find_ids_seq ms n invalid : materials_present ms n -> (0 < n <= invalid)%nat -> find_ids ms n invalid 0 [] = seq 0 n.
Proof.
  intros H L. assert (G : forall fuel id, (id < n)%nat -> (n - id <= fuel)%nat -> find_ids ms n fuel id (seq 0 id) = seq 0 n).
  { induction fuel as [|fuel IH]; intros id I F; [lia|]. cbn [find_ids]. rewrite (proj2 (count_present ms (material_name id)) (H id I)).
    assert (E : (seq 0 id ++ [id])%list = seq 0 (S id)) by (rewrite seq_S; reflexivity). rewrite E, seq_length. destruct (Nat.eqb_spec (S id) n) as [<-|NE]; [reflexivity|]. apply IH; lia. }
  apply (G invalid 0%nat); lia.
Qed.

(** ** What is seen *)
Definition seen_state (st : ptree) (state : nat) : list (nat * string) :=
  flat_map (fun name => match get_str_opt st [name] with Some t => [(state, t)] | None => [] end) state_property_names.
Definition seen_material (m : ptree) : list (nat * string) :=
  flat_map (fun s => match child_opt m [snd s] with Some st => seen_state st (fst s) | None => [] end) (combine (seq 0 3) material_states).
Definition one (ut : bool) (acc : nat * nat) (x : nat * string) : nat * nat :=
  let n_states := Nat.max (fst x + 1) (snd acc) in
  if ut then (fst acc, n_states) else (Nat.max (List.length (split_off "," (remove_blanks (snd x))) - 1) (fst acc), n_states).
Lemma fold_flat {A B C} (f : C -> A -> C) (g : C -> B -> C) (h : A -> list B) (l : list A) : (forall c a, f c a = fold_left g (h a) c) -> forall c, fold_left f l c = fold_left g (flat_map h l) c.
Proof. intros H. induction l as [|a l IH]; intros c; [reflexivity|]. cbn [fold_left flat_map]. rewrite fold_left_app, <- H. apply IH. Qed.
Lemma see_state_fold ut m acc s : see_state ut m acc s = fold_left (one ut) (match child_opt m [snd s] with Some st => seen_state st (fst s) | None => [] end) acc.
Proof.
  unfold see_state, seen_state. destruct (child_opt m [snd s]) as [st|]; [|reflexivity]. apply fold_flat. intros c name. unfold see_property. destruct (get_str_opt st [name]); reflexivity.
Qed.
Lemma see_material_fold ut m acc : fold_left (see_state ut m) (combine (seq 0 3) material_states) acc = fold_left (one ut) (seen_material m) acc.
Proof. unfold seen_material. apply fold_flat. intros c s. apply see_state_fold. Qed.
Fixpoint seen_all (ms : ptree) (ids : list nat) : list (nat * string) :=
  match ids with [] => [] | id :: rest => ((match child_opt ms [material_name id] with Some m => seen_material m | None => [] end) ++ seen_all ms rest)%list end.
Lemma see_all ut ms ids : (forall id, In id ids -> present ms (material_name id)) -> forall acc, see_materials ut ms ids acc = Ok (fold_left (one ut) (seen_all ms ids) acc).
Proof.
  induction ids as [|id ids IH]; intros H acc; [reflexivity|]. cbn [see_materials seen_all]. assert (X := H id (or_introl eq_refl)). apply present_path in X. destruct X as [m X].
  rewrite (proj2 (child_ok _ _ _) X). apply child_at in X. rewrite X. cbn [bind]. rewrite see_material_fold, fold_left_app. apply IH. intros i I. apply H. right. exact I.
Qed.
Lemma in_seen_state st state x : In x (seen_state st state) <-> fst x = state /\ exists name, In name state_property_names /\ value st [name] (snd x).
Proof.
  unfold seen_state. rewrite in_flat_map. split.
  - intros (name & I & J). destruct (get_str_opt st [name]) as [t|] eqn:E; [|destruct J]. destruct J as [<-|[]]. split; [reflexivity|]. exists name. split; [exact I|]. apply str_opt, E.
  - intros (E & name & I & V). exists name. split; [exact I|]. apply str_opt in V. rewrite V. left. destruct x; cbn in *; congruence.
Qed.
Lemma in_seen_material m x : In x (seen_material m) <-> exists s st, nth_error material_states (fst x) = Some s /\ at_path m [s] st /\ exists name, In name state_property_names /\ value st [name] (snd x).
Proof.
  unfold seen_material. rewrite in_flat_map. split.
  - intros ([i s] & I & J). cbn [fst snd] in J. destruct (child_opt m [s]) as [st|] eqn:E; [|destruct J]. apply in_seen_state in J. destruct J as [F J]. exists s, st. rewrite F. split; [|split; [apply child_at, E|exact J]].
    cbn in I. repeat (destruct I as [I|I]; [injection I as <- <-; reflexivity|]). destruct I.
  - intros (s & st & E & A & J). exists (fst x, s). split.
    + destruct (fst x) as [|[|[|i]]]; cbn in E; try (injection E as <-; cbn; tauto). destruct i; discriminate E.
    + cbn [fst snd]. apply child_at in A. rewrite A. apply in_seen_state. auto.
Qed.
Lemma in_names name : In name state_property_names <->
  In name ["density"; "specific_heat"; "thermal_conductivity_x"; "thermal_conductivity_y"; "thermal_conductivity_z"; "emissivity";
             "radiation_heat_transfer_coef"; "convection_heat_transfer_coef"; "lame_first_parameter"; "lame_second_parameter";
             "thermal_expansion_coef"; "plastic_modulus"; "isotropic_hardening"; "elastic_limit"].
Proof. unfold state_property_names, thermal_names, mechanical_names. cbn [app In]. tauto. Qed.
Lemma in_seen_all ms n x : In x (seen_all ms (seq 0 n)) <-> seen ms n (fst x) (snd x).
Proof.
  assert (G : forall ids, In x (seen_all ms ids) <-> exists id m, In id ids /\ at_path ms [material_name id] m /\ In x (seen_material m)).
  { induction ids as [|id ids IH]; [split; [intros []|intros (? & ? & [] & _)]|]. cbn [seen_all]. rewrite in_app_iff, IH. split.
    - intros [I|(i & m & I & A & J)]; [|exists i, m; split; [right; exact I|auto]]. destruct (child_opt ms [material_name id]) as [m|] eqn:E; [|destruct I]. exists id, m. split; [left; reflexivity|]. split; [apply child_at, E|exact I].
    - intros (i & m & [<-|I] & A & J); [left; apply child_at in A; rewrite A; exact J|right; exists i, m; auto]. }
  rewrite G. unfold seen, given. split.
  - intros (id & m & I & A & J). apply in_seq in I. apply in_seen_material in J. destruct J as (s & st & E & B & name & K & V). exists id, s, name. split; [lia|]. split; [exact E|]. split; [apply in_names, K|].
    apply value_cons. exists m. split; [exact A|]. apply value_cons. exists st. auto.
  - intros (id & s & name & L & E & K & V). apply value_cons in V. destruct V as (m & A & V). apply value_cons in V. destruct V as (st & B & V). exists id, m. split; [apply in_seq; lia|]. split; [exact A|].
    apply in_seen_material. exists s, st. split; [exact E|]. split; [exact B|]. exists name. split; [apply in_names, K|exact V].
Qed.

(** ** The maxima *)
Definition fields (text : string) : nat := List.length (split_off "," (remove_blanks text)).
Lemma fields_spec text : n_fields text (fields text).
Proof. exists (words (remove_blanks text)). split; [apply words_spec|reflexivity]. Qed.
Lemma fields_unique text k : n_fields text k -> k = fields text.
Proof. intros (ws & W & <-). apply words_unique in W. subst ws. reflexivity. Qed.
Lemma fields_pos text : (0 < fields text)%nat.
Proof. unfold fields. assert (H : split_off "," (remove_blanks text) <> []) by apply split_off_nonempty. destruct (split_off "," (remove_blanks text)); [exfalso; apply H; reflexivity|]. simpl. lia. Qed.
Lemma fold_one ut l : forall acc, let r := fold_left (one ut) l acc in
  snd r = fold_left (fun a x => Nat.max (fst x + 1) a) l (snd acc) /\ fst r = if ut then fst acc else fold_left (fun a x => Nat.max (fields (snd x) - 1) a) l (fst acc).
Proof.
  induction l as [|x l IH]; intros acc; [destruct ut; auto|]. cbn [fold_left]. cbv zeta in *. destruct (IH (one ut acc x)) as [A B]. rewrite A, B. unfold one. destruct ut; cbn [fst snd]; auto.
Qed.
Lemma fold_max {A} (f : A -> nat) l : forall a, let r := fold_left (fun a x => Nat.max (f x) a) l a in
  (a <= r)%nat /\ (forall x, In x l -> (f x <= r)%nat) /\ (r = a \/ exists x, In x l /\ r = f x).
Proof.
  induction l as [|y l IH]; intros a; cbn [fold_left]; cbv zeta in *; [split; [lia|split; [intros x []|left; reflexivity]]|].
  destruct (IH (Nat.max (f y) a)) as (P1 & P2 & P3). split; [lia|]. split.
  - intros x [<-|I]; [lia|auto].
  - destruct P3 as [P3|(x & I & P3)]; [|right; exists x; split; [right; exact I|exact P3]]. destruct (Nat.max_spec (f y) a) as [[_ M]|[_ M]]; [left; rewrite P3; exact M|]. right. exists y. split; [left; reflexivity|rewrite P3; exact M].
Qed.

Section Parameters.
  Variables (tuint : string -> option nat) (invalid : nat).
  Lemma parameters_ok ms n f : typed tuint ms ["n_materials"] n -> value ms ["property_format"] f -> materials_present ms n -> (0 < n <= invalid)%nat ->
    let po := fst (fold_left (one (String.eqb f "table")) (seen_all ms (seq 0 n)) (0, 0)%nat) in
    let ns := snd (fold_left (one (String.eqb f "table")) (seen_all ms (seq 0 n)) (0, 0)%nat) in
    template_parameters tuint invalid ms = if (Nat.ltb po 5 && (Nat.ltb 0 ns && Nat.ltb ns 4))%bool then Ok (n, po, ns) else Throw.
  Proof.
    intros T V M L po ns. unfold template_parameters. apply str_ok in V. rewrite V. cbn [bind]. apply get_ok in T. rewrite T. cbn [bind]. rewrite (find_ids_seq ms n invalid M L).
    rewrite see_all by (intros id I; apply M; apply in_seq in I; lia). cbn [bind]. fold po. fold ns. unfold need. destruct (Nat.ltb po 5); cbn [bind andb]; [|reflexivity]. destruct (Nat.ltb 0 ns && Nat.ltb ns 4)%bool; reflexivity.
  Qed.
  Lemma order_spec ms n f l : l = seen_all ms (seq 0 n) ->
    let po := fst (fold_left (one (String.eqb f "table")) l (0, 0)%nat) in
    (f = "table" -> po = 0%nat) /\
    (f <> "table" -> (forall state text k, seen ms n state text -> n_fields text k -> (k <= po + 1)%nat) /\ (po = 0%nat \/ exists state text, seen ms n state text /\ n_fields text (po + 1))).
  Proof.
    intros -> po. destruct (fold_one (String.eqb f "table") (seen_all ms (seq 0 n)) (0, 0)%nat) as [_ B]. fold po in B. cbn [fst] in B. split; intros F.
    - subst f. rewrite String.eqb_refl in B. exact B.
    - destruct (String.eqb_spec f "table"); [contradiction|]. destruct (fold_max (fun x : nat * string => fields (snd x) - 1)%nat (seen_all ms (seq 0 n)) 0%nat) as (_ & P2 & P3). rewrite <- B in P2, P3. split.
      + intros state text k S K. apply fields_unique in K. subst k. specialize (P2 (state, text) (proj2 (in_seen_all ms n (state, text)) S)). cbn [snd] in P2. lia.
      + destruct P3 as [P3|([state text] & I & P3)]; [left; exact P3|]. right. exists state, text. split; [apply (in_seen_all ms n (state, text)), I|]. cbn [snd] in P3. pose proof (fields_pos text).
        replace (po + 1)%nat with (fields text) by lia. apply fields_spec.
  Qed.
  Lemma states_spec ms n f l : l = seen_all ms (seq 0 n) ->
    let ns := snd (fold_left (one (String.eqb f "table")) l (0, 0)%nat) in
    (ns <= 3)%nat /\ (forall state text, seen ms n state text -> (state < ns)%nat) /\ (ns = 0%nat \/ exists text, seen ms n (ns - 1) text).
  Proof.
    intros -> ns. destruct (fold_one (String.eqb f "table") (seen_all ms (seq 0 n)) (0, 0)%nat) as [A _]. fold ns in A. cbn [snd] in A.
    destruct (fold_max (fun x : nat * string => fst x + 1)%nat (seen_all ms (seq 0 n)) 0%nat) as (_ & P2 & P3). rewrite <- A in P2, P3. split; [|split].
    - destruct P3 as [P3|([state text] & I & P3)]; [lia|]. apply in_seen_all in I. destruct I as (id & s & name & _ & E & _). cbn [fst] in *. destruct state as [|[|[|state]]]; try lia. destruct state; discriminate E.
    - intros state text S. specialize (P2 (state, text) (proj2 (in_seen_all ms n (state, text)) S)). cbn [fst] in P2. lia.
    - destruct P3 as [P3|([state text] & I & P3)]; [left; exact P3|]. right. exists text. cbn [fst] in P3. replace (ns - 1)%nat with state by lia. apply (in_seen_all ms n (state, text)), I.
  Qed.
  Lemma parameters_spec ms n f : typed tuint ms ["n_materials"] n -> value ms ["property_format"] f -> materials_present ms n -> (0 < n <= invalid)%nat ->
    forall n' po ns, template_parameters tuint invalid ms = Ok (n', po, ns) ->
    n' = n /\ (po < 5)%nat /\ (1 <= ns <= 3)%nat /\
    (f = "table" -> po = 0%nat) /\
    (f <> "table" -> (forall state text k, seen ms n state text -> n_fields text k -> (k <= po + 1)%nat) /\ (po = 0%nat \/ exists state text, seen ms n state text /\ n_fields text (po + 1))) /\
    (forall state text, seen ms n state text -> (state < ns)%nat) /\ (exists text, seen ms n (ns - 1) text).
  Proof.
    intros T V M L n' po ns E. rewrite (parameters_ok ms n f T V M L) in E. destruct (order_spec ms n f _ eq_refl) as [O1 O2]. destruct (states_spec ms n f _ eq_refl) as (S1 & S2 & S3).
    cbv zeta in *. destruct (Nat.ltb_spec (fst (fold_left (one (f =? "table")) (seen_all ms (seq 0 n)) (0, 0)%nat)) 5); [|discriminate E]. destruct (Nat.ltb_spec 0 (snd (fold_left (one (f =? "table")) (seen_all ms (seq 0 n)) (0, 0)%nat))); [|discriminate E].
    destruct (Nat.ltb_spec (snd (fold_left (one (f =? "table")) (seen_all ms (seq 0 n)) (0, 0)%nat)) 4); [|discriminate E]. cbn [andb] in E. injection E as <- <- <-.
    split; [reflexivity|]. split; [assumption|]. split; [lia|]. split; [exact O1|]. split; [exact O2|]. split; [exact S2|]. destruct S3 as [S3|S3]; [lia|exact S3].
  Qed.
  Lemma parameters_throw ms n f : typed tuint ms ["n_materials"] n -> value ms ["property_format"] f -> materials_present ms n -> (0 < n <= invalid)%nat ->
    (template_parameters tuint invalid ms = Throw <->
     (f <> "table" /\ exists state text k, seen ms n state text /\ n_fields text k /\ (5 < k)%nat) \/ (forall state text, ~ seen ms n state text)) /\
    template_parameters tuint invalid ms <> UB.
  Proof.
    intros T V M L. pose proof (parameters_ok ms n f T V M L) as E. rewrite E. destruct (order_spec ms n f _ eq_refl) as [O1 O2]. destruct (states_spec ms n f _ eq_refl) as (S1 & S2 & S3). cbv zeta in *.
    set (po := fst (fold_left (one (f =? "table")) (seen_all ms (seq 0 n)) (0, 0)%nat)) in *. set (ns := snd (fold_left (one (f =? "table")) (seen_all ms (seq 0 n)) (0, 0)%nat)) in *.
    split; [|destruct (Nat.ltb po 5 && (Nat.ltb 0 ns && Nat.ltb ns 4))%bool; discriminate]. split.
    - destruct (Nat.ltb_spec po 5) as [A|A]; cbn [andb].
      + destruct (Nat.ltb_spec 0 ns) as [B|B]; cbn [andb]; [destruct (Nat.ltb_spec ns 4); [discriminate|lia]|]. intros _. right. intros state text S. specialize (S2 state text S). lia.
      + intros _. left. destruct (String.eqb_spec f "table") as [->|NE]; [specialize (O1 eq_refl); lia|]. split; [exact NE|]. destruct (O2 NE) as [_ [X|(state & text & X & Y)]]; [lia|]. exists state, text, (po + 1)%nat. repeat split; auto. lia.
    - intros [(NE & state & text & k & A & B & C)|NS].
      + destruct (O2 NE) as [X _]. specialize (X state text k A B). destruct (Nat.ltb_spec po 5); [lia|reflexivity].
      + destruct S3 as [->|(text & S)]; [|exfalso; exact (NS _ _ S)]. destruct (Nat.ltb po 5); reflexivity.
  Qed.
End Parameters.
