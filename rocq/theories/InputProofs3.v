(** InputProofs3.v -- C24 (outcomes), C25. *)
From Coq Require Import ZArith NArith Bool List String Ascii Lia.
From Verif Require Import Base BaseFacts MaterialModel MaterialProofs InputModel InputSpec InputProofs InputProofs2.
Import ListNotations.
Local Open Scope string_scope.

(** ** The validation has no undefined behaviour *)
Lemma bind_ub {A B} (r : res A) (f : A -> res B) : r <> UB -> (forall a, f a <> UB) -> bind r f <> UB.
Proof. intros H1 H2. destruct r; simpl; [apply H2|discriminate|contradiction]. Qed.
Lemma need_ub b : need b <> UB.
Proof. destruct b; discriminate. Qed.
Lemma get_ub {A} (tr : string -> option A) t p : get tr t p <> UB.
Proof. unfold get. destruct (get_opt tr t p); discriminate. Qed.
Lemma str_ub t p : get_str t p <> UB.
Proof. unfold get_str. destruct (get_str_opt t p); discriminate. Qed.
Lemma child_ub t p : child t p <> UB.
Proof. unfold child. destruct (child_opt t p); discriminate. Qed.
Lemma each_ub {A} (f : A -> res unit) l : (forall a, f a <> UB) -> each f l <> UB.
Proof. intros H. induction l; simpl; [discriminate|]. apply bind_ub; auto. Qed.
Lemma parse_word_ub st w : parse_word st w <> UB.
Proof. unfold parse_word. repeat match goal with |- (if ?b then _ else _) <> UB => destruct b end; discriminate. Qed.
Lemma parse_words_ub ws : forall st, parse_words st ws <> UB.
Proof. induction ws as [|w ws IH]; intros st; simpl; [discriminate|]. apply bind_ub; [apply parse_word_ub|apply IH]. Qed.
Ltac noub := repeat first [apply get_ub | apply str_ub | apply child_ub | apply need_ub | discriminate | apply parse_words_ub
  | apply each_ub; intros | apply bind_ub; [|intros] | match goal with
  | |- (if ?b then _ else _) <> UB => destruct b | |- match ?o with Some _ => _ | None => _ end <> UB => destruct o end].
Lemma check_lines_ub th me b ps : forall acc, check_lines th me b acc ps <> UB.
Proof.
  induction ps as [|p ps IH]; intros acc; simpl; [discriminate|]. apply bind_ub; [|apply IH].
  unfold check_line, boundary_line. noub.
Qed.
Section Total.
  Context {N : Num} (tbool : string -> option bool) (tuint : string -> option nat) (tdouble : string -> option N).
  Lemma validate_total db : validate tbool tuint tdouble db <> UB.
  Proof.
    unfold validate. apply bind_ub; [apply get_ub|intros th]. apply bind_ub; [apply get_ub|intros me]. apply bind_ub; [apply need_ub|intros _].
    apply bind_ub; [apply child_ub|intros b]. apply bind_ub; [apply check_lines_ub|intros acc].
    unfold check_discretization, check_geometry, check_materials, check_material, check_state, check_beam, check_time, check_experiment, check_da, check_units, check_unit, need_kid, andthen.
    cbv zeta. noub.
  Qed.
  Lemma validate_throws db : validate tbool tuint tdouble db = Throw <-> ~ valid_input tbool tuint tdouble db.
  Proof.
    rewrite <- validate_ok. assert (NU := validate_total db). destruct (validate tbool tuint tdouble db) as [[]| |]; split; try congruence; tauto.
  Qed.
  (** Deposition from file. *)
  Lemma file_rejected db : enabled tbool db ["geometry"; "material_deposition"] -> value db ["geometry"; "material_deposition_method"] "file" ->
    (forall n c, In (n, c) (pkids db) -> ~ In "."%char (list_ascii_of_string n)) -> validate tbool tuint tdouble db = Throw.
  Proof.
    intros E V D. apply validate_throws. intros (th & me & dim & b & _ & _ & _ & _ & _ & _ & _ & _ & (_ & G & _) & _).
    destruct (G E) as [[_ [c P]]|[V' _]].
    - apply (D _ _ P). vm_compute. tauto.
    - pose proof (value_fun _ _ _ _ V V'). discriminate.
  Qed.
End Total.

(** ** Boundary *)
Lemma line_type_ok ws : forall acc t, line_type acc ws = Ok t <->
  (forall w, In w ws -> flag_of w <> None) /\ (forall i, N.testbit t i = true <-> N.testbit acc i = true \/ exists w f, In w ws /\ flag_of w = Some f /\ N.testbit f i = true).
Proof.
  induction ws as [|w ws IH]; intros acc t; simpl.
  - split.
    + intros H. injection H as <-. split; [contradiction|]. intros i. split; [auto|]. intros [H|(w & f & [] & _)]. exact H.
    + intros [_ H]. f_equal. apply N.bits_inj. intros i. specialize (H i). apply eq_true_iff_eq. rewrite H. split; [auto|]. intros [Q|(w & f & [] & _)]. exact Q.
  - destruct (flag_of w) as [f|] eqn:E.
    + rewrite IH. split.
      * intros [K B]. split; [intros x [<-|Q]; [congruence|auto]|]. intros i. rewrite B, N.lor_spec, orb_true_iff. split.
        -- intros [[Q|Q]|(x & g & Q & G & T)]; [tauto| |]; right; [exists w, f|exists x, g]; auto.
        -- intros [Q|(x & g & [<-|Q] & G & T)]; [tauto| |]; [left; right; congruence|right; eauto].
      * intros [K B]. split; [auto|]. intros i. rewrite B, N.lor_spec, orb_true_iff. split.
        -- intros [Q|(x & g & [<-|Q] & G & T)]; [tauto| |]; [left; right; congruence|right; eauto].
        -- intros [[Q|Q]|(x & g & Q & G & T)]; [tauto| |]; right; [exists w, f|exists x, g]; auto.
    + split; [discriminate|]. intros [K _]. exfalso. apply (K w); auto.
Qed.
Lemma flag_of_names w f : flag_of w = Some f <-> In (w, f) bc_names.
Proof.
  unfold flag_of, bc_names. cbn [In].
  repeat match goal with |- context [String.eqb w ?s] => destruct (String.eqb_spec w s) as [->|?] end; unfold adiabatic, radiative, convective, clamped, traction_free;
    (split; [intros H; injection H as <-; tauto|intuition congruence]) || (split; [discriminate|intuition congruence]).
Qed.
Lemma flag_none w : flag_of w = None <-> forall f, ~ In (w, f) bc_names.
Proof.
  destruct (flag_of w) as [f|] eqn:E; [split; [discriminate|]|split; [|reflexivity]].
  - intros H. exfalso. apply (H f), flag_of_names, E.
  - intros _ f H. apply flag_of_names in H. congruence.
Qed.
Lemma line_type_not_throw ws : forall acc, line_type acc ws <> Throw.
Proof. induction ws as [|w ws IH]; intros acc; simpl; [discriminate|]. destruct (flag_of w); [apply IH|discriminate]. Qed.
Lemma parse_boundary_line_ok line t : parse_boundary_line line = Ok t <-> exists ws, words_of line ws /\ union_of ws t.
Proof.
  unfold parse_boundary_line. rewrite line_type_ok. unfold union_of. setoid_rewrite <- flag_of_names.
  assert (KN : forall ws, (forall w, In w ws -> flag_of w <> None) <-> (forall w, In w ws -> exists f, flag_of w = Some f)).
  { intros ws. split; intros H w I; specialize (H w I); destruct (flag_of w); eauto; [contradiction|discriminate|destruct H; discriminate]. }
  rewrite KN. setoid_rewrite <- KN. split.
  - intros [K B]. exists (words line). split; [apply words_spec|]. split; [exact K|]. intros i. rewrite B. simpl. split; [intros [H|H]; [discriminate|exact H]|auto].
  - intros (ws & W & K & B). rewrite <- (words_unique _ _ W). split; [exact K|]. intros i. rewrite B. simpl. split; [auto|intros [H|H]; [discriminate|exact H]].
Qed.
Lemma parse_boundary_line_ub line : parse_boundary_line line = UB <-> exists ws w, words_of line ws /\ In w ws /\ forall f, ~ In (w, f) bc_names.
Proof.
  unfold parse_boundary_line. setoid_rewrite <- flag_none. assert (G : forall ws acc, line_type acc ws = UB <-> exists w, In w ws /\ flag_of w = None).
  { induction ws as [|w ws IH]; intros acc; simpl; [split; [discriminate|intros (w & [] & _)]|].
    destruct (flag_of w) as [f|] eqn:E.
    - rewrite IH. split; [intros (x & I & Q); eauto|]. intros (x & [<-|I] & Q); [congruence|eauto].
    - split; [eauto|reflexivity]. }
  rewrite G. split; [intros (w & I & E); exists (words line), w; split; [apply words_spec|auto]|].
  intros (ws & w & W & I & E). rewrite (words_unique _ _ W) in I. eauto.
Qed.

Lemma nth_set_nth {A} (l : list A) i j (a d : A) : (i < List.length l)%nat -> nth j (set_nth l i a) d = if Nat.eqb j i then a else nth j l d.
Proof. intros H. destruct (Nat.eqb_spec j i) as [->|NE]; [apply set_nth_same, H|apply set_nth_other; congruence]. Qed.
(** The loop over the ids. *)
Lemma set_ids_ok db ids : forall types types', (forall i, In i ids -> (i < List.length types)%nat) -> set_ids db ids types = Ok types' ->
  List.length types' = List.length types /\
  forall i, (In i ids -> forall line, value db ["boundary_" ++ to_string i; "type"] line -> parse_boundary_line line = Ok (nth i types' 0%N)) /\
    (~ (In i ids /\ exists line, value db ["boundary_" ++ to_string i; "type"] line) -> nth i types' 0%N = nth i types 0%N).
Proof.
  induction ids as [|j ids IH]; intros types types' L H; cbn [set_ids] in H.
  - injection H as <-. split; [reflexivity|]. intros i. split; [contradiction|auto].
  - destruct (get_str_opt db ["boundary_" ++ to_string j; "type"]) as [l|] eqn:E.
    + apply str_opt in E. apply bind_ok in H. destruct H as (t & P & H).
      destruct (IH (set_nth types j t) types') as [L' K]; [intros i I; rewrite set_nth_length; apply L; right; exact I|exact H|].
      rewrite set_nth_length in L'. split; [exact L'|]. intros i. destruct (K i) as [K1 K2]. specialize (L j (or_introl eq_refl)).
      destruct (in_dec Nat.eq_dec i ids) as [I|NI].
      * split; [intros _; apply K1, I|]. intros NV. rewrite K2 by (intros [_ V]; apply NV; split; [right; exact I|exact V]).
        rewrite nth_set_nth by exact L. destruct (Nat.eqb_spec i j) as [->|]; [|reflexivity]. exfalso. apply NV. split; [left; reflexivity|eauto].
      * rewrite K2 by tauto. rewrite nth_set_nth by exact L. destruct (Nat.eqb_spec i j) as [->|NE].
        -- split; [intros _ line V; rewrite (value_fun _ _ _ _ V E); exact P|]. intros NV. exfalso. apply NV. split; [left; reflexivity|eauto].
        -- split; [intros [<-|I]; contradiction|reflexivity].
    + assert (EN := proj1 (str_none _ _) E). destruct (IH types types') as [L' K]; [intros i I; apply L; right; exact I|exact H|]. split; [exact L'|].
      intros i. destruct (K i) as [K1 K2]. split.
      * intros [<-|I] line V; [exfalso; apply (EN line V)|apply K1; assumption].
      * intros NV. apply K2. intros [I V]. apply NV. split; [right; exact I|exact V].
Qed.
Lemma max_id_ok ids m : max_id ids = Ok m -> In m ids /\ forall i, In i ids -> (i <= m)%nat.
Proof.
  destruct ids as [|a l]; simpl; [discriminate|]. intros H. injection H as <-.
  assert (G : forall l a, (In (fold_left Nat.max l a) (a :: l)) /\ (a <= fold_left Nat.max l a)%nat /\ forall i, In i l -> (i <= fold_left Nat.max l a)%nat).
  { clear. induction l as [|b l IH]; intros a; simpl; [repeat split; [auto|lia|contradiction]|].
    destruct (IH (Nat.max a b)) as (I & LE & LL). split; [|split].
    - destruct I as [I|I]; [|tauto]. rewrite <- I. destruct (Nat.max_spec a b) as [[_ ->]|[_ ->]]; auto.
    - lia.
    - intros i [<-|Q]; [lia|auto]. }
  destruct (G l a) as (I & LE & LL). split; [exact I|]. intros i [<-|Q]; auto.
Qed.

Section Declared.
  Variables (stoi : string -> option Z) (db : ptree) (ids : list nat) (types : list BinNums.N).
  Hypothesis H : make_boundary stoi db ids = Ok types.

  (** Anatomy of a successful construction. *)
  Lemma boundary_parts : exists m types1, In m ids /\ (forall i, In i ids -> (i <= m)%nat) /\
    List.length types = (m + 1)%nat /\ List.length types1 = (m + 1)%nat /\
    (forall i, (i <= m)%nat -> (In i ids -> forall line, value db ["boundary_" ++ to_string i; "type"] line -> parse_boundary_line line = Ok (nth i types1 0%N)) /\
      (~ (In i ids /\ exists line, value db ["boundary_" ++ to_string i; "type"] line) ->
        (exists line, value db ["type"] line /\ parse_boundary_line line = Ok (nth i types1 0%N)) \/
        ((forall line, ~ value db ["type"] line) /\ nth i types1 0%N = 0%N))) /\
    (forall i, (i < m)%nat -> nth i types 0%N = nth i types1 0%N) /\
    ((exists line, value db ["printed_surface"; "type"] line /\ parse_boundary_line line = Ok (nth m types 0%N)) \/
     ((forall line, ~ value db ["printed_surface"; "type"] line) /\ nth m types 0%N = nth m types1 0%N)).
  Proof.
    unfold make_boundary in H. apply bind_ok in H. destruct H as ([] & _ & H1). apply bind_ok in H1. destruct H1 as (m & M & H1). apply max_id_ok in M. destruct M as [M1 M2].
    apply bind_ok in H1. destruct H1 as (t0 & T0 & H1). apply bind_ok in H1. destruct H1 as (types1 & S1 & H1).
    assert (L0 : List.length t0 = (m + 1)%nat /\ forall i, (i <= m)%nat -> (exists line, value db ["type"] line /\ parse_boundary_line line = Ok (nth i t0 0%N)) \/ ((forall line, ~ value db ["type"] line) /\ nth i t0 0%N = 0%N)).
    { destruct (get_str_opt db ["type"]) as [l|] eqn:E.
      - apply str_opt in E. apply bind_ok in T0. destruct T0 as (t & P & T0). injection T0 as <-. split; [apply repeat_length|]. intros i Li. left. exists l. split; [exact E|].
        rewrite P. f_equal. symmetry. apply repeat_spec with (n := (m + 1)%nat). apply nth_In. rewrite repeat_length. lia.
      - injection T0 as <-. split; [apply repeat_length|]. intros i Li. right. split; [apply str_none, E|].
        apply repeat_spec with (n := (m + 1)%nat). apply nth_In. rewrite repeat_length. lia. }
    destruct L0 as [L0 D0]. destruct (set_ids_ok db ids t0 types1) as [L1 K]; [intros i I; rewrite L0; specialize (M2 i I); lia|exact S1|].
    exists m, types1. split; [exact M1|]. split; [exact M2|].
    assert (LT : List.length types = (m + 1)%nat).
    { destruct (get_str_opt db ["printed_surface"; "type"]); [apply bind_ok in H1; destruct H1 as (t & _ & H1); injection H1 as <-; rewrite set_nth_length|injection H1 as <-]; lia. }
    split; [exact LT|]. split; [lia|]. split; [|split].
    - intros i Li. destruct (K i) as [K1 K2]. split; [exact K1|]. intros NV. rewrite (K2 NV). apply D0, Li.
    - intros i Li. destruct (get_str_opt db ["printed_surface"; "type"]); [apply bind_ok in H1; destruct H1 as (t & _ & H1); injection H1 as <-|injection H1 as <-]; [|reflexivity].
      rewrite nth_set_nth by lia. destruct (Nat.eqb_spec i (List.length types1 - 1)); [lia|reflexivity].
    - destruct (get_str_opt db ["printed_surface"; "type"]) as [l|] eqn:E.
      + apply str_opt in E. apply bind_ok in H1. destruct H1 as (t & P & H1). injection H1 as <-. left. exists l. split; [exact E|]. rewrite P. f_equal.
        rewrite nth_set_nth by lia. destruct (Nat.eqb_spec m (List.length types1 - 1)); [reflexivity|lia].
      + injection H1 as <-. right. split; [apply str_none, E|reflexivity].
  Qed.

  Lemma union_fun ws t t' : union_of ws t -> union_of ws t' -> t = t'.
  Proof. intros [_ A] [_ B]. apply N.bits_inj. intros i. apply eq_true_iff_eq. rewrite A, B. reflexivity. Qed.
  Lemma line_fun line ws ws' t t' : words_of line ws -> union_of ws t -> words_of line ws' -> union_of ws' t' -> t = t'.
  Proof. intros W U W' U'. rewrite (words_unique _ _ W) in U. rewrite (words_unique _ _ W') in U'. eapply union_fun; eauto. Qed.
  Lemma declared_fun id t t' : declared db id t -> declared db id t' -> t = t'.
  Proof.
    intros [(l & ws & V & W & U)|[NV [(l & ws & V & W & U)|[NV2 ->]]]] [(l' & ws' & V' & W' & U')|[NV' [(l' & ws' & V' & W' & U')|[NV2' ->]]]];
      try reflexivity; try (exfalso; match goal with N : forall line, ~ value db ?p line, V0 : value db ?p ?l0 |- _ => exact (N l0 V0) end);
      rewrite (value_fun _ _ _ _ V' V) in W'; exact (line_fun _ _ _ _ _ W U W' U').
  Qed.
  Lemma declared_of id t types1 m : In id ids -> (id <= m)%nat ->
    (forall i, (i <= m)%nat -> (In i ids -> forall line, value db ["boundary_" ++ to_string i; "type"] line -> parse_boundary_line line = Ok (nth i types1 0%N)) /\
      (~ (In i ids /\ exists line, value db ["boundary_" ++ to_string i; "type"] line) ->
        (exists line, value db ["type"] line /\ parse_boundary_line line = Ok (nth i types1 0%N)) \/
        ((forall line, ~ value db ["type"] line) /\ nth i types1 0%N = 0%N))) ->
    (nth id types1 0%N = t <-> declared db id t).
  Proof.
    intros I L K. assert (D : declared db id (nth id types1 0%N)).
    { destruct (K id L) as [K1 K2]. unfold declared. destruct (get_str_opt db ["boundary_" ++ to_string id; "type"]) as [l|] eqn:E.
      - apply str_opt in E. left. specialize (K1 I l E). apply parse_boundary_line_ok in K1. destruct K1 as (ws & W & U). eauto.
      - assert (EN := proj1 (str_none _ _) E). clear E. rename EN into E. right. split; [exact E|]. destruct K2 as [(l & V & P)|Z]; [intros [_ [l V]]; apply (E l V)| |right; exact Z].
        left. apply parse_boundary_line_ok in P. destruct P as (ws & W & U). eauto. }
    split; [intros <-; exact D|]. intros D'. eapply declared_fun; eauto.
  Qed.

  (** Every id that is not the largest one has its declared type. *)
  Lemma boundary_declared id j t : In id ids -> In j ids -> (id < j)%nat -> (get_boundary_type types id = Ok t <-> declared db id t).
  Proof.
    intros I J L. destruct boundary_parts as (m & types1 & M1 & M2 & LT & L1 & K & EQ & _). specialize (M2 j J).
    unfold get_boundary_type. destruct (Nat.ltb_spec id (List.length types - 1)); [|lia].
    rewrite <- (declared_of id t types1 m I ltac:(lia) K). rewrite <- (EQ id) by lia.
    unfold at_. rewrite (nth_error_nth' types 0%N) by lia. split; [intros Q; injection Q as Q; exact Q|intros ->; reflexivity].
  Qed.
  (** From the largest id on: the type of the printed surface, or else that of the largest id. *)
  Lemma boundary_surface id t : (forall j, In j ids -> (j <= id)%nat) -> (get_boundary_type types id = Ok t <->
    (exists line ws, value db ["printed_surface"; "type"] line /\ words_of line ws /\ union_of ws t) \/
    ((forall line, ~ value db ["printed_surface"; "type"] line) /\ exists m, In m ids /\ (forall j, In j ids -> (j <= m)%nat) /\ declared db m t)).
  Proof.
    intros G. destruct boundary_parts as (m & types1 & M1 & M2 & LT & L1 & K & _ & P). specialize (G m M1).
    unfold get_boundary_type. destruct (Nat.ltb_spec id (List.length types - 1)); [lia|].
    rewrite back_nth by (intros Z; rewrite Z in LT; simpl in LT; lia). unfold at_. rewrite (nth_error_nth' types 0%N) by lia. replace (List.length types - 1)%nat with m by lia.
    destruct P as [(line & V & P)|[NV E]].
    - apply parse_boundary_line_ok in P. destruct P as (ws & W & U). split.
      + intros Q. injection Q as <-. left. eauto.
      + intros [(line' & ws' & V' & W' & U')|[NV _]]; [|exfalso; apply (NV line V)]. f_equal. rewrite (value_fun _ _ _ _ V' V) in W'. exact (line_fun _ _ _ _ _ W U W' U').
    - rewrite E. split.
      + intros Q. injection Q as Q. right. split; [exact NV|]. exists m. split; [exact M1|]. split; [exact M2|]. apply (declared_of m t types1 m M1 (Nat.le_refl m) K). exact Q.
      + intros [(line & ws & V & _)|[_ (m' & M1' & M2' & D)]]; [exfalso; apply (NV line V)|]. f_equal.
        assert (m' = m) by (specialize (M2' m M1); specialize (M2 m' M1'); lia). subst m'. apply (declared_of m t types1 m M1 (Nat.le_refl m) K). exact D.
  Qed.
  (** The ids of the boundaries that have a given flag. *)
  Lemma boundary_ids_spec f id : In id (get_boundary_ids types f) <-> (exists m, In m ids /\ (id <= m)%nat) /\ exists t i, get_boundary_type types id = Ok t /\ N.testbit t i = true /\ N.testbit f i = true.
  Proof.
    destruct boundary_parts as (m & types1 & M1 & M2 & LT & _). unfold get_boundary_ids. rewrite filter_In, in_seq.
    assert (HF : forall a, has_flag a f = true <-> exists i, N.testbit a i = true /\ N.testbit f i = true).
    { intros a. unfold has_flag. rewrite negb_true_iff, N.eqb_neq. split.
      - intros NZ. exists (N.log2 (N.land a f)). apply andb_true_iff. rewrite <- N.land_spec. apply N.bit_log2, NZ.
      - intros (i & A & B) Z. assert (Q : N.testbit (N.land a f) i = true) by (rewrite N.land_spec, A, B; reflexivity). rewrite Z in Q. rewrite N.bits_0 in Q. discriminate. }
    rewrite HF. assert (GT : (id <= m)%nat -> get_boundary_type types id = Ok (nth id types 0%N)).
    { intros L. unfold get_boundary_type. destruct (Nat.ltb_spec id (List.length types - 1)).
      - unfold at_. rewrite (nth_error_nth' types 0%N) by lia. reflexivity.
      - rewrite back_nth by (intros Z; rewrite Z in LT; simpl in LT; lia). unfold at_. rewrite (nth_error_nth' types 0%N) by lia. f_equal. f_equal. lia. }
    split.
    - intros [[_ L] (i & A & B)]. split; [exists m; split; [exact M1|lia]|]. exists (nth id types 0%N), i. split; [apply GT; lia|auto].
    - intros [(m' & I & L) (t & i & G & A & B)]. specialize (M2 m' I). split; [lia|]. exists i. rewrite GT in G by lia. injection G as <-. auto.
  Qed.
End Declared.

(** ** Outcomes *)
Lemma set_ids_ub db ids : forall types, (forall i line, value db ["boundary_" ++ to_string i; "type"] line -> parse_boundary_line line <> UB) -> set_ids db ids types <> UB.
Proof.
  induction ids as [|j ids IH]; intros types H; cbn [set_ids]; [discriminate|].
  destruct (get_str_opt db ["boundary_" ++ to_string j; "type"]) as [l|] eqn:E; [|apply IH, H].
  apply str_opt in E. apply bind_ub; [eapply H, E|]. intros t. apply IH, H.
Qed.
Lemma valid_line_known th me b p line : valid_boundary th me b -> In p (pkids b) -> line_of b p line -> parse_boundary_line line <> UB.
Proof.
  intros [V _] I L U. apply parse_boundary_line_ub in U. destruct U as (ws & w & W & Iw & F).
  destruct (V p I) as (ws' & (line' & L' & W') & LO & _). rewrite (line_of_fun _ _ _ _ L' L) in W'. rewrite (words_unique _ _ W') in LO. rewrite (words_unique _ _ W) in Iw.
  apply in_split in Iw. destruct Iw as (a & c & E). destruct (LO a w c E) as [[-> _]|[[-> _]|[[-> _]|[[-> _]|[-> _]]]]]; (eapply F; cbn [bc_names In]; tauto).
Qed.
Lemma check_id_ub stoi ids p : check_id stoi ids p <> UB.
Proof. unfold check_id. destruct (index 0 "boundary_" (fst p)); [|discriminate]. cbv zeta. destruct (stoi _); [apply need_ub|discriminate]. Qed.
Lemma path_kid t n rest c : at_path t (n :: rest) c -> exists k, In (n, k) (pkids t).
Proof. inversion 1; subst. match goal with E : pkids t = _ |- _ => rewrite E end. eexists. apply in_or_app. right. left. reflexivity. Qed.
Lemma validated_boundary {N : Num} (tbool : string -> option bool) (tuint : string -> option nat) (tdouble : string -> option N) stoi db b ids :
  validate tbool tuint tdouble db = Ok tt -> at_path db ["boundary"] b -> ids <> [] -> make_boundary stoi b ids <> UB.
Proof.
  intros V A NE. apply validate_ok in V. destruct V as (th & me & dim & b' & _ & _ & _ & A' & VB & _). rewrite (at_path_fun _ _ _ _ A' A) in VB. clear A' b'.
  assert (LT : forall line, value b ["type"] line -> parse_boundary_line line <> UB).
  { intros line (c & P & D). inversion P; subst. match goal with H : at_path _ [] c |- _ => inversion H; subst end.
    eapply valid_line_known with (p := ("type", c)); [exact VB| |left; auto]. match goal with E : pkids b = _ |- _ => rewrite E end. apply in_or_app. right. left. reflexivity. }
  assert (LN : forall n line, n <> "type" -> value b [n; "type"] line -> parse_boundary_line line <> UB).
  { intros n line NT V. destruct V as (c & P & D). destruct (path_kid _ _ _ _ P) as [k I]. eapply valid_line_known with (p := (n, k)); [exact VB|exact I|].
    right. split; [exact NT|]. exists c. auto. }
  unfold make_boundary. apply bind_ub; [apply each_ub; intros; apply check_id_ub|intros _].
  apply bind_ub; [destruct ids; [contradiction|discriminate]|intros m].
  apply bind_ub.
  { destruct (get_str_opt b ["type"]) as [l|] eqn:E; [|discriminate]. apply str_opt in E. apply bind_ub; [apply LT, E|discriminate]. }
  intros t0. apply bind_ub; [apply set_ids_ub; intros i line; apply LN; discriminate|]. intros t1.
  destruct (get_str_opt b ["printed_surface"; "type"]) as [l|] eqn:E; [|discriminate]. apply str_opt in E. apply bind_ub; [apply (LN "printed_surface"); [discriminate|exact E]|discriminate].
Qed.
(** An id of the database that the mesh does not have is an error. *)
Lemma unknown_id stoi db ids s t : In (s, t) (pkids db) -> (exists k z, s = "boundary_" ++ k /\ stoi k = Some z /\ forall i, In i ids -> Z.of_nat i <> z) -> make_boundary stoi db ids = Throw.
Proof.
  intros I (k & z & -> & E & NI). unfold make_boundary.
  assert (T : forall l, In ("boundary_" ++ k, t) l -> each (check_id stoi ids) l = Throw).
  { induction l as [|p l IH]; [contradiction|]. intros J. simpl. assert (NU := check_id_ub stoi ids p). destruct J as [->|J].
    - unfold check_id. cbn [fst]. assert (X : index 0 "boundary_" ("boundary_" ++ k) = Some 0%nat) by (simpl; destruct k; reflexivity). rewrite X. cbv zeta.
      assert (Y : substring 0 0 ("boundary_" ++ k) ++ substring (0 + 9) (String.length ("boundary_" ++ k) - (0 + 9)) ("boundary_" ++ k) = k).
      { simpl. rewrite Nat.sub_0_r. clear. induction k as [|c k IH]; simpl; congruence. }
      rewrite Y, E. destruct (existsb _ ids) eqn:EX; [|reflexivity]. apply existsb_exists in EX. destruct EX as (i & Ii & Z). apply Z.eqb_eq in Z. exfalso. apply (NI i Ii Z).
    - destruct (check_id stoi ids p) as [[]| |]; [exact (IH J)|reflexivity|contradiction]. }
  rewrite (T _ I). reflexivity.
Qed.

Lemma beam_builds ty fmt : make_beam ty fmt = Ok tt <-> In ty ["goldak"; "electron_beam"; "cube"]%string /\ In fmt ["segment"; "event_series"]%string.
Proof.
  unfold make_beam, need. split.
  - destruct (String.eqb_spec ty "goldak"), (String.eqb_spec ty "electron_beam"), (String.eqb_spec ty "cube"), (String.eqb_spec fmt "segment"), (String.eqb_spec fmt "event_series"); cbn; intros H; try discriminate H; subst; split; cbn [In]; auto.
  - intros [H K]. cbn [In] in H, K. decompose [or] H; try contradiction; decompose [or] K; try contradiction; subst; reflexivity.
Qed.

Lemma substring_split m k : forall s, substring m (String.length k) s = k -> k <> "" -> exists a b, s = a ++ k ++ b.
Proof.
  induction m as [|m IH]; intros s E K.
  - exists "". cbn [String.append]. clear K. revert s E. induction k as [|c k IHk]; intros s E; [exists s; reflexivity|]. destruct s as [|d s]; [discriminate|].
    cbn [substring String.length] in E. injection E as -> E. destruct (IHk s E) as [b ->]. exists b. reflexivity.
  - destruct s as [|c s].
    + cbn [substring] in E. congruence.
    + cbn [substring] in E. destruct (IH s E K) as (a & b & ->). exists (String c a), b. reflexivity.
Qed.
Lemma no_ids stoi db : (forall s t, In (s, t) (pkids db) -> forall a b, s <> a ++ "boundary_" ++ b) -> make_boundary stoi db [] = UB.
Proof.
  intros H. unfold make_boundary. assert (E : each (check_id stoi []) (pkids db) = Ok tt); [|rewrite E; reflexivity].
  induction (pkids db) as [|[s t] l IH]; [reflexivity|]. cbn [each]. assert (C : check_id stoi [] (s, t) = Ok tt).
  { unfold check_id. cbn [fst]. destruct (index 0 "boundary_" s) as [m|] eqn:E; [|reflexivity]. exfalso. apply index_correct1 in E.
    apply substring_split in E; [|discriminate]. destruct E as (a & b & E). exact (H s t (or_introl eq_refl) a b E). }
  rewrite C. cbn [andthen]. apply IH. intros s' t' I. apply (H s' t'). right. exact I.
Qed.
