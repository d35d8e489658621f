(** InputProofs.v -- C24. *)
From Coq Require Import ZArith NArith Bool List String Ascii Lia.
From Verif Require Import Base BaseFacts MaterialModel MaterialProofs InputModel InputSpec.
Import ListNotations.
Local Open Scope string_scope.

(** ** Monad *)
Lemma andthen_ok a b : andthen a b = Ok tt <-> a = Ok tt /\ b = Ok tt.
Proof. unfold andthen. destruct a as [[]| |]; simpl; split; try tauto; try (intros [? ?]; discriminate); discriminate. Qed.
Lemma bind_ok {A B} (r : res A) (f : A -> res B) b : bind r f = Ok b <-> exists a, r = Ok a /\ f a = Ok b.
Proof. destruct r; simpl; split; try discriminate; [intros H; eauto|intros (x & E & H); congruence|intros (x & E & H); discriminate|intros (x & E & H); discriminate]. Qed.
Lemma need_ok b : need b = Ok tt <-> b = true.
Proof. destruct b; simpl; split; congruence. Qed.
Lemma each_ok {A} (f : A -> res unit) l : each f l = Ok tt <-> forall a, In a l -> f a = Ok tt.
Proof.
  induction l as [|a l IH]; simpl; [split; [contradiction|reflexivity]|]. rewrite andthen_ok, IH. split.
  - intros [H1 H2] x [<-|H]; auto.
  - intros H; split; auto.
Qed.

(** ** Trees *)
Lemma find_first {A} (l : list (string * A)) n p : find (fun q => String.eqb (fst q) n) l = Some p <->
  exists pre post, l = (pre ++ p :: post)%list /\ (forall q, In q pre -> fst q <> n) /\ fst p = n.
Proof.
  induction l as [|x l IH]; simpl.
  - split; [discriminate|]. intros (pre & post & E & _). destruct pre; discriminate.
  - destruct (String.eqb_spec (fst x) n) as [E|E].
    + split.
      * intros H. injection H as <-. exists [], l. repeat split; auto; contradiction.
      * intros (pre & post & Q & NP & EP). destruct pre as [|y pre]; [simpl in Q; congruence|]. simpl in Q. injection Q as -> Q.
        exfalso. apply (NP y); [left; reflexivity|exact E].
    + rewrite IH. split.
      * intros (pre & post & -> & NP & EP). exists (x :: pre), post. repeat split; auto. intros q [<-|H]; auto.
      * intros (pre & post & Q & NP & EP). destruct pre as [|y pre]; [simpl in Q; injection Q as <- <-; contradiction|]. simpl in Q. injection Q as -> ->.
        exists pre, post. repeat split; auto. intros q H. apply NP. right. exact H.
Qed.
Lemma kid_some t n c : kid t n = Some c <-> exists pre post, pkids t = (pre ++ (n, c) :: post)%list /\ (forall q, In q pre -> fst q <> n).
Proof.
  unfold kid. destruct (find _ (pkids t)) as [p|] eqn:E.
  - apply find_first in E. destruct E as (pre & post & E & NP & EP). destruct p as [n' c']. simpl in *. subst n'. split.
    + intros H. injection H as <-. eauto.
    + intros (pre' & post' & E' & NP'). f_equal.
      assert (Q : find (fun q => String.eqb (fst q) n) (pkids t) = Some (n, c)) by (apply find_first; exists pre', post'; auto).
      assert (Q' : find (fun q => String.eqb (fst q) n) (pkids t) = Some (n, c')) by (apply find_first; exists pre, post; auto). congruence.
  - split; [discriminate|]. intros (pre & post & E' & NP).
    assert (Q : find (fun q => String.eqb (fst q) n) (pkids t) = Some (n, c)) by (apply find_first; exists pre, post; auto). congruence.
Qed.
Lemma child_at t path c : child_opt t path = Some c <-> at_path t path c.
Proof.
  revert t. induction path as [|n rest IH]; intros t; simpl.
  - split; [intros H; injection H as <-; constructor|inversion 1; reflexivity].
  - destruct (kid t n) as [k|] eqn:E.
    + rewrite IH. apply kid_some in E. destruct E as (pre & post & E & NP). split.
      * intros H. eapply at_down; eauto.
      * inversion 1; subst. match goal with H : at_path ?c0 rest c |- _ => rename c0 into k' end.
        assert (K : kid t n = Some k') by (apply kid_some; eauto). assert (K2 : kid t n = Some k) by (apply kid_some; eauto). congruence.
    + split; [discriminate|]. inversion 1; subst. match goal with H : pkids t = _ |- _ => rename H into EE end.
      assert (K : exists k, kid t n = Some k) by (eexists; apply kid_some; eauto). destruct K; congruence.
Qed.
Lemma at_path_fun t path c c' : at_path t path c -> at_path t path c' -> c = c'.
Proof. rewrite <- !child_at. congruence. Qed.
Lemma child_ok t path c : child t path = Ok c <-> at_path t path c.
Proof. unfold child. rewrite <- child_at. destruct (child_opt t path); split; congruence. Qed.
Lemma str_opt t path s : get_str_opt t path = Some s <-> value t path s.
Proof.
  unfold get_str_opt, value. destruct (child_opt t path) as [c|] eqn:E; simpl.
  - apply child_at in E. split; [intros H; injection H as <-; eauto|]. intros (c' & H & <-). f_equal. f_equal. eapply at_path_fun; eauto.
  - split; [discriminate|]. intros (c' & H & _). apply child_at in H. congruence.
Qed.
Lemma str_none t path : get_str_opt t path = None <-> forall s, ~ value t path s.
Proof.
  destruct (get_str_opt t path) as [s|] eqn:E.
  - apply str_opt in E. split; [discriminate|]. intros H. exfalso. apply (H s E).
  - split; [|auto]. intros _ s H. apply str_opt in H. congruence.
Qed.
Lemma str_ok t path s : get_str t path = Ok s <-> value t path s.
Proof. unfold get_str. rewrite <- str_opt. destruct (get_str_opt t path); split; congruence. Qed.
Lemma value_fun t path s s' : value t path s -> value t path s' -> s = s'.
Proof. rewrite <- !str_opt. congruence. Qed.
Lemma opt_some {A} (tr : string -> option A) t path a : get_opt tr t path = Some a <-> typed tr t path a.
Proof.
  unfold get_opt, typed. destruct (get_str_opt t path) as [s|] eqn:E.
  - apply str_opt in E. split; [eauto|]. intros (s' & H & T). rewrite (value_fun _ _ _ _ E H). exact T.
  - split; [discriminate|]. intros (s' & H & _). apply str_opt in H. congruence.
Qed.
Lemma get_ok {A} (tr : string -> option A) t path a : get tr t path = Ok a <-> typed tr t path a.
Proof. unfold get. rewrite <- opt_some. destruct (get_opt tr t path); split; congruence. Qed.
Lemma typed_fun {A} (tr : string -> option A) t path a a' : typed tr t path a -> typed tr t path a' -> a = a'.
Proof. rewrite <- !opt_some. congruence. Qed.
Lemma def_false tr t path : get_def tr false t path = true <-> enabled tr t path.
Proof. unfold get_def, enabled. rewrite <- opt_some. destruct (get_opt tr t path) as [[]|]; split; congruence. Qed.
Lemma count_present t n : negb (Nat.eqb (count t n) 0) = true <-> present t n.
Proof.
  unfold count, present. rewrite negb_true_iff, Nat.eqb_neq. split.
  - intros H. destruct (filter _ (pkids t)) as [|[n' c] l] eqn:E; [simpl in H; lia|]. exists c.
    assert (I : In (n', c) (filter (fun p => String.eqb (fst p) n) (pkids t))) by (rewrite E; left; reflexivity).
    apply filter_In in I. destruct I as [I Q]. simpl in Q. apply String.eqb_eq in Q. subst n'. exact I.
  - intros (c & H) Z. assert (I : In (n, c) (filter (fun p => String.eqb (fst p) n) (pkids t))) by (apply filter_In; split; [exact H|apply String.eqb_refl]).
    destruct (filter _ (pkids t)); [contradiction|discriminate].
Qed.
Lemma need_kid_ok t n : need_kid t n = Ok tt <-> present t n.
Proof. unfold need_kid. rewrite need_ok. apply count_present. Qed.
Lemma present_path t n : present t n <-> exists c, at_path t [n] c.
Proof.
  split.
  - intros (c & H). assert (K : exists k, kid t n = Some k).
    { unfold kid. destruct (find _ (pkids t)) as [p|] eqn:E; [eauto|]. exfalso. apply (find_none _ _ E) in H. simpl in H. rewrite String.eqb_refl in H. discriminate. }
    destruct K as [k K]. exists k. apply child_at. simpl. rewrite K. reflexivity.
  - intros (c & H). inversion H; subst. match goal with E : pkids t = _ |- _ => unfold present; rewrite E end.
    eexists. apply in_or_app. right. left. reflexivity.
Qed.
(** Letters, over all pairs of characters. *)
Definition same_letterb (a b : ascii) : bool :=
  Ascii.eqb a b || existsb (fun p => Ascii.eqb a (fst p) && Ascii.eqb b (snd p)) alphabet || existsb (fun p => Ascii.eqb b (fst p) && Ascii.eqb a (snd p)) alphabet.
Lemma same_letterb_ok a b : same_letterb a b = true <-> same_letter a b.
Proof.
  unfold same_letterb, same_letter. rewrite !orb_true_iff, !existsb_exists, Ascii.eqb_eq. split.
  - intros [[E|([u l] & H & E)]|([u l] & H & E)]; [now left| |]; apply andb_true_iff in E; rewrite !Ascii.eqb_eq in E; cbn [fst snd] in E; destruct E; subst; auto.
  - intros [E|[H|H]]; [now left; left| |]; [left; right; exists (a, b)|right; exists (b, a)]; (split; [exact H|cbn [fst snd]; rewrite !Ascii.eqb_refl; reflexivity]).
Qed.
Definition all_ascii : list ascii := map ascii_of_nat (seq 0 256).
Lemma all_ascii_all a : In a all_ascii.
Proof. apply in_map_iff. exists (nat_of_ascii a). split; [apply ascii_nat_embedding|]. apply in_seq. split; [apply Nat.le_0_l|]. exact (nat_ascii_bounded a). Qed.
Lemma lower_char_same a b : lower_char a = lower_char b <-> same_letter a b.
Proof.
  assert (C : forallb (fun a => forallb (fun b => Bool.eqb (Ascii.eqb (lower_char a) (lower_char b)) (same_letterb a b)) all_ascii) all_ascii = true) by (vm_compute; reflexivity).
  rewrite forallb_forall in C. specialize (C a (all_ascii_all a)). rewrite forallb_forall in C. specialize (C b (all_ascii_all b)).
  apply Bool.eqb_prop in C. rewrite <- same_letterb_ok, <- C. symmetry. apply Ascii.eqb_eq.
Qed.
Lemma same_lower s : forall t, same_ignoring_case s t <-> lower s = lower t.
Proof.
  induction s as [|a s IH]; intros [|b t]; cbn [lower]; split; intros H; try solve [inversion H | constructor | reflexivity | discriminate].
  - inversion H; subst. f_equal; [now apply lower_char_same|now apply IH].
  - injection H as A B. constructor; [now apply lower_char_same|now apply IH].
Qed.
Lemma named_lower s l : named s l <-> exists n, In n l /\ lower s = lower n.
Proof. unfold named. split; intros (n & H & E); exists n; (split; [exact H|now apply same_lower]). Qed.
Lemma iequals_named s l : existsb (iequals s) l = true <-> named s l.
Proof.
  rewrite named_lower, existsb_exists. split; intros (n & H & E); exists n; split; auto; unfold iequals in *; apply String.eqb_eq; assumption.
Qed.
Lemma eqb_in s l : existsb (String.eqb s) l = true <-> In s l.
Proof. rewrite existsb_exists. split; [intros (n & H & E); apply String.eqb_eq in E; subst; exact H|intros H; exists s; split; [exact H|apply String.eqb_refl]]. Qed.

(** ** Words *)
Lemma app_empty_r (s : string) : s ++ "" = s.
Proof. induction s as [|c s IH]; simpl; congruence. Qed.
Lemma app_assoc_s (a b c : string) : (a ++ b) ++ c = a ++ b ++ c.
Proof. induction a as [|x a IH]; simpl; congruence. Qed.
Lemma chars_app a b : list_ascii_of_string (a ++ b) = (list_ascii_of_string a ++ list_ascii_of_string b)%list.
Proof. induction a as [|x a IH]; simpl; congruence. Qed.
Lemma concat_cons w ws : ws <> [] -> String.concat "," (w :: ws) = w ++ String "," (String.concat "," ws).
Proof. destruct ws; [contradiction|reflexivity]. Qed.
Lemma words_concat s : forall cur, String.concat "," (split_off_go ","%char cur s) = cur ++ s.
Proof.
  induction s as [|c s IH]; intros cur; simpl.
  - symmetry; apply app_empty_r.
  - destruct (Ascii.eqb_spec c ","%char) as [->|NE].
    + rewrite concat_cons by apply split_off_nonempty. rewrite IH. reflexivity.
    + rewrite IH, app_assoc_s. reflexivity.
Qed.
Lemma words_nocomma s : forall cur, ~ In ","%char (list_ascii_of_string cur) ->
  forall w, In w (split_off_go ","%char cur s) -> ~ In ","%char (list_ascii_of_string w).
Proof.
  induction s as [|c s IH]; intros cur NC w; simpl.
  - intros [<-|[]]. exact NC.
  - destruct (Ascii.eqb_spec c ","%char) as [->|NE].
    + intros [<-|H]; [exact NC|]. apply (IH "" (fun x => x) w H).
    + apply IH. rewrite chars_app, in_app_iff. simpl. intros [H|[H|[]]]; [apply NC, H|apply NE, H].
Qed.
Lemma words_spec line : words_of line (words line).
Proof.
  unfold words, split_off. split; [apply split_off_nonempty|]. split; [apply (words_concat line "")|].
  intros w. apply words_nocomma. simpl. tauto.
Qed.
Lemma split_skip w : forall cur s, ~ In ","%char (list_ascii_of_string w) -> split_off_go ","%char cur (w ++ s) = split_off_go ","%char (cur ++ w) s.
Proof.
  induction w as [|c w IH]; intros cur s NC; simpl.
  - rewrite app_empty_r. reflexivity.
  - simpl in NC. destruct (Ascii.eqb_spec c ","%char) as [->|NE]; [exfalso; apply NC; left; reflexivity|].
    rewrite IH by tauto. rewrite app_assoc_s. reflexivity.
Qed.
Lemma words_unique line ws : words_of line ws -> ws = words line.
Proof.
  intros (NE & <- & NC). unfold words, split_off. induction ws as [|w ws IH]; [contradiction|].
  destruct ws as [|w' ws].
  - simpl. rewrite <- (app_empty_r w) at 2. rewrite split_skip by (apply NC; left; reflexivity). reflexivity.
  - rewrite concat_cons by discriminate. rewrite split_skip by (apply NC; left; reflexivity). cbn [split_off_go]. rewrite Ascii.eqb_refl. simpl (("" ++ w)%string).
    f_equal. apply IH; [discriminate|]. intros x H. apply NC. right. exact H.
Qed.

(** ** Flags *)
Lemma has_lor a f g : has_flag (N.lor a f) g = has_flag a g || has_flag f g.
Proof.
  unfold has_flag. rewrite N.land_lor_distr_l.
  destruct (N.eqb_spec (N.land a g) 0) as [->|H]; simpl; [reflexivity|].
  destruct (N.eqb_spec (N.lor (N.land a g) (N.land f g)) 0) as [E|E]; [|reflexivity]. exfalso. apply H. apply N.lor_eq_0_iff in E. tauto.
Qed.
Definition agrees (all0 : N) (before : list string) (st : line_state) : Prop :=
  (has_flag (ls_line st) adiabatic = true <-> In "adiabatic" before) /\
  (has_flag (ls_line st) radiative = true <-> In "radiative" before) /\
  (has_flag (ls_line st) convective = true <-> In "convective" before) /\
  (has_flag (ls_line st) clamped = true <-> In "clamped" before) /\
  (has_flag (ls_line st) traction_free = true <-> In "traction_free" before) /\
  (ls_thermal st = true <-> In "adiabatic" before \/ In "radiative" before \/ In "convective" before) /\
  (ls_mech st = true <-> In "clamped" before \/ In "traction_free" before) /\
  (has_flag (ls_all st) convective = true <-> has_flag all0 convective = true \/ In "convective" before) /\
  (has_flag (ls_all st) radiative = true <-> has_flag all0 radiative = true \/ In "radiative" before).
Lemma parse_word_ok all0 before st w : agrees all0 before st ->
  (word_ok before w -> exists st', parse_word st w = Ok st') /\
  (forall st', parse_word st w = Ok st' -> word_ok before w /\ agrees all0 (before ++ [w]) st').
Proof.
  intros (A & R & C & L & T & TH & ME & AC & AR). unfold parse_word, word_ok.
  assert (B : forall (b : bool) (P : Prop), (b = true <-> P) -> (negb b = true <-> ~ P)) by (intros [] P []; simpl; split; intros; try congruence; try tauto; intuition congruence).
  destruct (String.eqb_spec w "adiabatic") as [->|N1]; [|destruct (String.eqb_spec w "radiative") as [->|N2]; [|destruct (String.eqb_spec w "convective") as [->|N3];
    [|destruct (String.eqb_spec w "clamped") as [->|N4]; [|destruct (String.eqb_spec w "traction_free") as [->|N5]]]]].
  - destruct (negb (has_flag (ls_line st) radiative) || negb (has_flag (ls_line st) convective)) eqn:E.
    + apply orb_true_iff in E. rewrite (B _ _ R), (B _ _ C) in E. split; [eauto|].
      intros st' H. injection H as <-. split; [left; tauto|]. unfold agrees. cbn [ls_line ls_all ls_thermal ls_mech]. rewrite !has_lor, !in_app_iff, !orb_true_iff, A, R, C, L, T, ME, AC, AR.
      simpl. cbn. clear. repeat match goal with |- _ /\ _ => split end; intuition discriminate.
    + apply orb_false_iff in E. rewrite !negb_false_iff, R, C in E. split; [|discriminate]. intros [H|[H|[H|[H|H]]]]; destruct H as [Q H]; try discriminate; tauto.
  - destruct (negb (has_flag (ls_line st) adiabatic)) eqn:E.
    + rewrite (B _ _ A) in E. split; [eauto|]. intros st' H. injection H as <-. split; [tauto|]. unfold agrees. cbn [ls_line ls_all ls_thermal ls_mech]. rewrite !has_lor, !in_app_iff, !orb_true_iff, A, R, C, L, T, ME, AC, AR.
      simpl. cbn. clear. repeat match goal with |- _ /\ _ => split end; intuition discriminate.
    + rewrite negb_false_iff, A in E. split; [|discriminate]. intros [H|[H|[H|[H|H]]]]; destruct H as [Q H]; try discriminate; tauto.
  - destruct (negb (has_flag (ls_line st) adiabatic)) eqn:E.
    + rewrite (B _ _ A) in E. split; [eauto|]. intros st' H. injection H as <-. split; [tauto|]. unfold agrees. cbn [ls_line ls_all ls_thermal ls_mech]. rewrite !has_lor, !in_app_iff, !orb_true_iff, A, R, C, L, T, ME, AC, AR.
      simpl. cbn. clear. repeat match goal with |- _ /\ _ => split end; intuition discriminate.
    + rewrite negb_false_iff, A in E. split; [|discriminate]. intros [H|[H|[H|[H|H]]]]; destruct H as [Q H]; try discriminate; tauto.
  - destruct (negb (has_flag (ls_line st) traction_free)) eqn:E.
    + rewrite (B _ _ T) in E. split; [eauto|]. intros st' H. injection H as <-. split; [tauto|]. unfold agrees. cbn [ls_line ls_all ls_thermal ls_mech]. rewrite !has_lor, !in_app_iff, !orb_true_iff, A, R, C, L, T, TH, AC, AR.
      simpl. cbn. clear. repeat match goal with |- _ /\ _ => split end; intuition discriminate.
    + rewrite negb_false_iff, T in E. split; [|discriminate]. intros [H|[H|[H|[H|H]]]]; destruct H as [Q H]; try discriminate; tauto.
  - destruct (negb (has_flag (ls_line st) clamped)) eqn:E.
    + rewrite (B _ _ L) in E. split; [eauto|]. intros st' H. injection H as <-. split; [tauto|]. unfold agrees. cbn [ls_line ls_all ls_thermal ls_mech]. rewrite !has_lor, !in_app_iff, !orb_true_iff, A, R, C, L, T, TH, AC, AR.
      simpl. cbn. clear. repeat match goal with |- _ /\ _ => split end; intuition discriminate.
    + rewrite negb_false_iff, L in E. split; [|discriminate]. intros [H|[H|[H|[H|H]]]]; destruct H as [Q H]; try discriminate; tauto.
  - split; [|discriminate]. intros [H|[H|[H|[H|H]]]]; destruct H as [Q H]; contradiction.
Qed.
Definition line_ok_from (before ws : list string) : Prop := forall a w c, ws = (a ++ w :: c)%list -> word_ok (before ++ a) w.
Lemma line_ok_cons before w ws : line_ok_from before (w :: ws) <-> word_ok before w /\ line_ok_from (before ++ [w]) ws.
Proof.
  unfold line_ok_from. split.
  - intros H. split.
    + specialize (H [] w ws eq_refl). rewrite app_nil_r in H. exact H.
    + intros a x c E. rewrite <- app_assoc. simpl. apply (H (w :: a) x c). simpl. congruence.
  - intros [H1 H2] a x c E. destruct a as [|y a]; simpl in E.
    + injection E as <- _. rewrite app_nil_r. exact H1.
    + injection E as -> E. specialize (H2 a x c E). rewrite <- app_assoc in H2. exact H2.
Qed.
Lemma parse_words_ok all0 ws : forall before st, agrees all0 before st ->
  (line_ok_from before ws -> exists st', parse_words st ws = Ok st') /\
  (forall st', parse_words st ws = Ok st' -> line_ok_from before ws /\ agrees all0 (before ++ ws) st').
Proof.
  induction ws as [|w ws IH]; intros before st A; simpl.
  - split; [eauto|]. intros st' H. injection H as <-. split; [|rewrite app_nil_r; exact A]. intros a w c E. destruct a; discriminate.
  - destruct (parse_word_ok all0 before st w A) as [W1 W2]. rewrite line_ok_cons. split.
    + intros [H1 H2]. destruct (W1 H1) as [st1 E]. rewrite E. cbn [bind]. destruct (W2 _ E) as [_ A']. apply (proj1 (IH _ _ A')), H2.
    + intros st' H. apply bind_ok in H. destruct H as (st1 & E & H). destruct (W2 _ E) as [Wk A'].
      destruct (proj2 (IH _ _ A') _ H) as [H1 H2]. split; [apply line_ok_cons; split; assumption|]. replace (before ++ w :: ws)%list with ((before ++ [w]) ++ ws)%list by (rewrite <- app_assoc; reflexivity). exact H2.
Qed.
Lemma agrees_nil all0 : agrees all0 [] (mkls 0 all0 false false).
Proof. unfold agrees. simpl. cbn. intuition discriminate. Qed.

Lemma boundary_line_ok b p line : boundary_line b p = Ok line <-> line_of b p line.
Proof.
  unfold boundary_line, line_of. destruct (String.eqb_spec (fst p) "type") as [E|E].
  - split; [intros H; injection H as H; left; auto|]. intros [[_ H]|[H _]]; [congruence|contradiction].
  - rewrite str_ok. tauto.
Qed.
Lemma line_of_fun b p l l' : line_of b p l -> line_of b p l' -> l = l'.
Proof. rewrite <- !boundary_line_ok. congruence. Qed.
Definition line_req (thermal mech : bool) (ws : list string) : Prop := line_ok ws /\
  (thermal = true -> In "adiabatic" ws \/ In "radiative" ws \/ In "convective" ws) /\
  (mech = true -> In "clamped" ws \/ In "traction_free" ws).
(** One line: accepted iff its words are; what the accumulator becomes. *)
Lemma check_line_ok thermal mech b acc p :
  ((exists ws, says b p ws /\ line_req thermal mech ws) -> exists acc', check_line thermal mech b acc p = Ok acc') /\
  (forall acc', check_line thermal mech b acc p = Ok acc' -> exists ws, says b p ws /\ line_req thermal mech ws /\
     (has_flag (fst acc') convective = true <-> has_flag (fst acc) convective = true \/ In "convective" ws) /\
     (has_flag (fst acc') radiative = true <-> has_flag (fst acc) radiative = true \/ In "radiative" ws) /\
     (snd acc' = true <-> snd acc = true \/ In "clamped" ws)).
Proof.
  unfold check_line, says, line_req, line_ok. split.
  - intros (ws & (line & L & W) & LO & TH & ME). apply boundary_line_ok in L. rewrite L. cbn [bind]. apply words_unique in W. subst ws.
    destruct (proj1 (parse_words_ok (fst acc) (words line) [] _ (agrees_nil (fst acc))) LO) as [st E].
    destruct (proj2 (parse_words_ok (fst acc) (words line) [] _ (agrees_nil (fst acc))) st E) as [_ (A & R & C & LL & T & THs & MEs & AC & AR)].
    rewrite E. cbn [bind]. simpl app in *.
    assert (X1 : (if thermal then need (ls_thermal st) else Ok tt) = Ok tt) by (destruct thermal; [apply need_ok, THs, TH|]; reflexivity).
    assert (X2 : (if mech then need (ls_mech st) else Ok tt) = Ok tt) by (destruct mech; [apply need_ok, MEs, ME|]; reflexivity).
    rewrite X1, X2. cbn [bind]. eauto.
  - intros acc' H. apply bind_ok in H. destruct H as (line & L & H). apply boundary_line_ok in L. apply bind_ok in H. destruct H as (st & E & H).
    destruct (proj2 (parse_words_ok (fst acc) (words line) [] _ (agrees_nil (fst acc))) st E) as [LO (A & R & C & LL & T & THs & MEs & AC & AR)]. simpl app in *.
    apply bind_ok in H. destruct H as ([] & X1 & H). apply bind_ok in H. destruct H as ([] & X2 & H). injection H as <-. cbn [fst snd].
    exists (words line). split; [exists line; split; [exact L|apply words_spec]|]. split.
    { split; [exact LO|]. split; intros ->; [apply THs, need_ok, X1|apply MEs, need_ok, X2]. }
    split; [exact AC|]. split; [exact AR|]. rewrite orb_true_iff, LL. tauto.
Qed.
Lemma check_lines_ok thermal mech b ps : forall acc,
  ((forall p, In p ps -> exists ws, says b p ws /\ line_req thermal mech ws) -> exists acc', check_lines thermal mech b acc ps = Ok acc') /\
  (forall acc', check_lines thermal mech b acc ps = Ok acc' -> (forall p, In p ps -> exists ws, says b p ws /\ line_req thermal mech ws) /\
     (has_flag (fst acc') convective = true <-> has_flag (fst acc) convective = true \/ exists p ws, In p ps /\ says b p ws /\ In "convective" ws) /\
     (has_flag (fst acc') radiative = true <-> has_flag (fst acc) radiative = true \/ exists p ws, In p ps /\ says b p ws /\ In "radiative" ws) /\
     (snd acc' = true <-> snd acc = true \/ exists p ws, In p ps /\ says b p ws /\ In "clamped" ws)).
Proof.
  assert (SF : forall p ws ws', says b p ws -> says b p ws' -> ws = ws').
  { intros p ws ws' (l & L & W) (l' & L' & W'). rewrite (line_of_fun _ _ _ _ L' L) in W'. rewrite (words_unique _ _ W), (words_unique _ _ W'). reflexivity. }
  induction ps as [|p ps IH]; intros acc; simpl.
  - split; [eauto|]. intros acc' H. injection H as <-. split; [contradiction|].
    repeat split; try tauto; intros [H|(p & ws & [] & _)]; exact H.
  - destruct (check_line_ok thermal mech b acc p) as [C1 C2]. split.
    + intros H. destruct (C1 (H p (or_introl eq_refl))) as [acc1 E]. rewrite E. cbn [bind]. apply (proj1 (IH acc1)). auto.
    + intros acc' H. apply bind_ok in H. destruct H as (acc1 & E & H). destruct (C2 _ E) as (ws & S1 & R1 & K1 & K2 & K3).
      destruct (proj2 (IH acc1) _ H) as (G & H1 & H2 & H3). split; [intros q [<-|Q]; eauto|].
      assert (X : forall w, (exists q ws0, (p = q \/ In q ps) /\ says b q ws0 /\ In w ws0) <-> In w ws \/ exists q ws0, In q ps /\ says b q ws0 /\ In w ws0).
      { intros w. split.
        - intros (q & ws0 & [<-|Q] & S0 & I); [left; rewrite (SF _ _ _ S1 S0); exact I|right; eauto 6].
        - intros [I|(q & ws0 & Q & S0 & I)]; [exists p, ws; auto|exists q, ws0; auto]. }
      rewrite !X, H1, H2, H3, K1, K2, K3. tauto.
Qed.
