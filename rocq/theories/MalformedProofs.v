(** MalformedProofs.v -- lemmas behind C88. *)
From Coq Require Import Reals ZArith Bool List String Ascii Lia.
From Verif Require Import Base BaseFacts QuaternionModel ScanPathModel ScanPathSpec ScanPathProofs MaterialModel MaterialSpec MaterialProofs DepositionModel DepositionSpec DepositionProofs MalformedSpec.
Import ListNotations.

Lemma bind_ub {A B} (r : res A) (k : A -> res B) : bind r k = UB <-> r = UB \/ exists a, r = Ok a /\ k a = UB.
Proof.
  destruct r as [a| |]; cbn [bind]; split.
  - intros H. right. eauto.
  - intros [H|(b & H & K)]; [discriminate|]. injection H as ->. exact K.
  - discriminate.
  - intros [H|(b & H & _)]; discriminate.
  - left. reflexivity.
  - reflexivity.
Qed.
Lemma split_go_nonempty sep s : forall cur b, split_go sep cur b s <> [].
Proof. induction s as [|c s IH]; intros cur b; cbn [split_go]; [discriminate|]. destruct (sep c); [|apply IH]. destruct b; [apply IH|discriminate]. Qed.
Lemma split_head sep s : exists m rest, split sep s = m :: rest.
Proof. unfold split. pose proof (split_go_nonempty sep s EmptyString false). destruct (split_go _ _ _ _) as [|m rest]; [contradiction|eauto]. Qed.
Lemma back_ub {A} (l : list A) : back l = UB -> l = [].
Proof. destruct l as [|x l]; [reflexivity|]. destruct (exists_last (l := x :: l)) as [l' [b E]]; [discriminate|]. rewrite E, back_app. discriminate. Qed.

Section Generic.
  Context {N : Num} (P : parser N).
  Lemma num_tok_ub toks i : num_tok P toks i = UB <-> (List.length toks <= i)%nat.
  Proof.
    unfold num_tok, at_. rewrite <- nth_error_None. destruct (nth_error toks i) as [s|]; cbn [bind]; [|tauto].
    destruct (stod P s); split; discriminate.
  Qed.
  Lemma runs_out_cons toks c cols : runs_out P toks (c :: cols) <-> num_tok P toks c = UB \/ exists v, num_tok P toks c = Ok v /\ runs_out P toks cols.
  Proof.
    rewrite num_tok_ub. split.
    - intros H. inversion H; subst; [left; assumption|right]. eexists. split; [apply ScanPathProofs.num_tok_ok; eauto|assumption].
    - intros [H|(v & H & K)]; [now constructor 1|]. apply ScanPathProofs.num_tok_ok in H. destruct H as (s & H & V). econstructor 2; eauto.
  Qed.
  Lemma runs_out_nil toks : ~ runs_out P toks [].
  Proof. intros H. inversion H. Qed.
  Lemma num_step toks c cols {B} (k : N -> res B) : (forall v, num_tok P toks c = Ok v -> (k v = UB <-> runs_out P toks cols)) ->
    (bind (num_tok P toks c) k = UB <-> runs_out P toks (c :: cols)).
  Proof.
    intros H. rewrite bind_ub, runs_out_cons. split.
    - intros [A|(v & A & K)]; [now left|right]. exists v. split; [exact A|]. apply (H v A), K.
    - intros [A|(v & A & K)]; [now left|right]. exists v. split; [exact A|]. apply (H v A), K.
  Qed.
  Lemma last_step toks c {B} (k : N -> B) : (do v <- num_tok P toks c; Ok (k v)) = UB <-> runs_out P toks [c].
  Proof. apply num_step. intros v _. split; [discriminate|]. intros H. destruct (runs_out_nil _ H). Qed.

  (** Segment files *)
  Lemma seg_line_ub ds vs segs line : load_segment_line P ds vs segs line = UB <->
    mode_accepted (List.length segs) line /\ runs_out P (split is_space line) [1; 2; 3; 4; 5]%nat.
  Proof.
    unfold load_segment_line, mode_accepted. cbv zeta. destruct (split_head is_space line) as (m & rest & ES). set (toks := split is_space line) in *.
    assert (B : Nat.ltb 0 (List.length segs) = true -> exists p, back segs = Ok p).
    { intros L. apply Nat.ltb_lt in L. destruct (exists_last (l := segs)) as [l' [b E]]; [intros ->; simpl in L; lia|]. exists b. rewrite E. apply back_app. }
    replace (at_ toks 0) with (Ok m) by (rewrite ES; reflexivity). cbn [bind].
    replace (nth_error toks 0) with (Some m) by (rewrite ES; reflexivity).
    assert (M : (exists m0, Some m = Some m0 /\ (m0 = "1"%string \/ m0 = "0"%string /\ (0 < List.length segs)%nat)) <-> (m = "1"%string \/ m = "0"%string /\ (0 < List.length segs)%nat)).
    { split; [intros (m0 & E & H); injection E as <-; exact H|eauto]. }
    rewrite M. clear M. destruct (String.eqb_spec m "0") as [->|M0].
    - destruct (Nat.ltb 0 (List.length segs)) eqn:L.
      + cbn [bind]. destruct (B eq_refl) as [p Bp]. apply Nat.ltb_lt in L.
        transitivity (runs_out P toks [1; 2; 3; 4; 5]%nat); [|tauto].
        apply num_step. intros x _. apply num_step. intros y _. apply num_step. intros z _. apply num_step. intros pm _.
        apply num_step. intros v _. rewrite Bp. cbn [bind]. split; [discriminate|]. intros H. destruct (runs_out_nil _ H).
      + cbn [bind]. apply Nat.ltb_ge in L. split; [discriminate|]. intros [[H|[_ H]] _]; [discriminate|lia].
    - destruct (String.eqb_spec m "1") as [->|M1].
      + cbn [bind]. transitivity (runs_out P toks [1; 2; 3; 4; 5]%nat); [|tauto].
        apply num_step. intros x _. apply num_step. intros y _. apply num_step. intros z _. apply num_step. intros pm _.
        destruct (Nat.ltb 0 (List.length segs)) eqn:L.
        * destruct (B eq_refl) as [p Bp]. rewrite Bp. cbn [bind]. apply last_step.
        * apply last_step.
      + cbn [bind]. split; [discriminate|]. intros [[H|[H _]] _]; contradiction.
  Qed.
  Lemma seg_loop_ub ds vs : forall lines n segs, load_segment_loop P ds vs n segs lines = UB <->
    exists i line new, nth_error (seg_body n lines) i = Some line /\ List.length new = i /\
      (forall j l s, nth_error (seg_body n lines) j = Some l -> nth_error new j = Some s -> segment_of_line P ds vs (predecessor (segs ++ new) (List.length segs + j)) l s) /\
      load_segment_line P ds vs (segs ++ new) line = UB.
  Proof.
    unfold seg_body. induction lines as [|line lines IH]; intros n segs.
    - cbn [load_segment_loop]. rewrite firstn_nil. cbn [before_marker]. split; [destruct (n <=? 0)%Z; discriminate|].
      intros (i & l & new & H & _). destruct i; discriminate.
    - cbn [load_segment_loop]. destruct (Z.leb_spec n 0) as [Hn|Hn].
      + replace (Z.to_nat n) with 0%nat by lia. split; [discriminate|]. intros (i & l & new & H & _). destruct i; discriminate.
      + replace (Z.to_nat n) with (S (Z.to_nat (n - 1))) by lia. cbn [firstn before_marker]. destruct (has_end_marker line) eqn:EM.
        * split; [discriminate|]. intros (i & l & new & H & _). destruct i; discriminate.
        * rewrite bind_ub. split.
          -- intros [H|(a & E & H)].
             ++ exists 0%nat, line, []. rewrite app_nil_r. split; [reflexivity|]. split; [reflexivity|]. split; [intros [|j]; discriminate|exact H].
             ++ apply IH in H. destruct H as (i & l & new & H1 & H2 & H3 & H4). exists (S i), l, (a :: new).
                split; [exact H1|]. split; [simpl; congruence|]. split; [|rewrite <- app_assoc in H4; exact H4].
                intros [|j] ln s Hl Hs; cbn [nth_error] in Hl, Hs.
                ** injection Hl as <-. injection Hs as <-. rewrite Nat.add_0_r. apply seg_line_iff in E.
                   pose proof (nth_error_app_pred segs ([a] ++ new) 0) as Q. rewrite Nat.add_0_r in Q. change (a :: new) with ([a] ++ new). rewrite Q. exact E.
                ** specialize (H3 j ln s Hl Hs). rewrite <- app_assoc, app_length in H3. cbn [List.length app] in H3.
                   replace (List.length segs + 1 + j)%nat with (List.length segs + S j)%nat in H3 by lia. exact H3.
          -- intros (i & l & new & H1 & H2 & H3 & H4). destruct i as [|i]; cbn [nth_error] in H1.
             ++ injection H1 as <-. destruct new; [|discriminate]. rewrite app_nil_r in H4. left. exact H4.
             ++ right. destruct new as [|a new]; [discriminate|]. exists a.
                assert (E : load_segment_line P ds vs segs line = Ok a).
                { apply seg_line_iff. specialize (H3 0%nat line a eq_refl eq_refl). rewrite nth_error_app_pred in H3. exact H3. }
                split; [exact E|]. apply IH. exists i, l, new. split; [exact H1|]. split; [simpl in H2; congruence|]. rewrite <- app_assoc. cbn [app]. split; [|exact H4].
                intros j ln s Hl Hs. specialize (H3 (S j) ln s Hl Hs). rewrite app_length. cbn [List.length].
                replace (List.length segs + 1 + j)%nat with (List.length segs + S j)%nat by lia. exact H3.
  Qed.
  Lemma segment_ub ds vs file : load_segment P ds vs file = UB <->
    exists h count rest n, file = h :: count :: rest /\ stoi P count = Some n /\
      let body := before_marker (firstn (Z.to_nat (n mod 2 ^ 32)) (tl rest)) in
      exists i line segs, nth_error body i = Some line /\ describe P ds vs body i segs /\ mode_accepted i line /\ runs_out P (split is_space line) [1; 2; 3; 4; 5]%nat.
  Proof.
    unfold load_segment, describe. split.
    - destruct file as [|h [|c rest]]; try discriminate. destruct (stoi P c) as [n|] eqn:En; [|discriminate].
      intros H. apply seg_loop_ub in H. destruct H as (i & line & new & H1 & H2 & H3 & H4). cbn [app List.length Nat.add] in H3, H4. apply seg_line_ub in H4. rewrite H2 in H4.
      exists h, c, rest, n. split; [reflexivity|]. split; [exact En|]. exists i, line, new. tauto.
    - intros (h & c & rest & n & -> & En & i & line & new & H1 & (H2 & H3) & H4). rewrite En. apply seg_loop_ub. exists i, line, new. cbn [app List.length Nat.add].
      split; [exact H1|]. split; [exact H2|]. split; [exact H3|]. apply seg_line_ub. rewrite H2. exact H4.
  Qed.

  (** Event files *)
  Lemma event_line_ub ds lp line : load_event_line P ds lp line = UB <-> runs_out P (split is_space_comma line) [0; 1; 2; 3]%nat.
  Proof.
    unfold load_event_line. cbv zeta. destruct (split_head is_space_comma line) as (m & rest & ES). set (toks := split is_space_comma line) in *.
    apply num_step. intros t _. apply num_step. intros x _. apply num_step. intros y _. apply num_step. intros z _.
    split; [|intros H; destruct (runs_out_nil _ H)]. intros H. exfalso. revert H.
    rewrite bind_ub. intros [H|(r & _ & H)].
    - destruct (Nat.eqb_spec (List.length toks) 9) as [L|L]; [|discriminate].
      repeat (apply bind_ub in H; destruct H as [H|(? & _ & H)]; [apply num_tok_ub in H; lia|]). discriminate.
    - apply bind_ub in H. destruct H as [H|(l & _ & H)]; [apply back_ub in H; rewrite ES in H; discriminate|].
      destruct (stod P l); discriminate.
  Qed.
  Lemma event_line_any_power ds lp lp' line s q f : load_event_line P ds lp line = Ok (s, q, f) -> exists s', load_event_line P ds lp' line = Ok (s', q, f).
  Proof.
    unfold load_event_line. cbv zeta. set (toks := split is_space_comma line). intros H.
    destruct (num_tok P toks 0); cbn [bind] in *; try discriminate. destruct (num_tok P toks 1); cbn [bind] in *; try discriminate.
    destruct (num_tok P toks 2); cbn [bind] in *; try discriminate. destruct (num_tok P toks 3); cbn [bind] in *; try discriminate.
    match type of H with bind ?r _ = _ => destruct r; cbn [bind] in *; try discriminate end.
    destruct (back toks) as [l| |]; cbn [bind] in *; try discriminate. destruct (stod P l); [|discriminate]. injection H as <- <- <-. eauto.
  Qed.
  Lemma event_loop_ub ds : forall lines lp segs five, load_event_loop P ds lp segs five lines = UB <->
    exists i line, nth_error (event_body lines) i = Some line /\ events P ds (event_body lines) i /\ runs_out P (split is_space_comma line) [0; 1; 2; 3]%nat.
  Proof.
    unfold event_body, events. induction lines as [|line lines IH]; intros lp segs five.
    - cbn. split; [discriminate|]. intros (i & l & H & _). destruct i; discriminate.
    - cbn [load_event_loop]. destruct (String.eqb_spec line "") as [->|NB].
      + change (filter nonblank (""%string :: lines)) with (filter nonblank lines). apply IH.
      + assert (FE : filter nonblank (line :: lines) = line :: filter nonblank lines).
        { cbn [filter]. unfold nonblank at 1. destruct (String.eqb_spec line ""); [contradiction|reflexivity]. }
        rewrite FE. clear FE. cbn [before_marker]. destruct (has_end_marker line) eqn:EM.
        * split; [discriminate|]. intros (i & l & H & _). destruct i; discriminate.
        * rewrite bind_ub, event_line_ub. split.
          -- intros [H|([[s lp'] f] & E & H)].
             ++ exists 0%nat, line. split; [reflexivity|]. split; [intros j l L; lia|exact H].
             ++ apply IH in H. destruct H as (i & l & H1 & H2 & H3). exists (S i), l. split; [exact H1|]. split; [|exact H3].
                intros [|j] ln L Hl; cbn [nth_error] in Hl; [|apply (H2 j ln); [lia|exact Hl]]. injection Hl as <-.
                destruct (event_line_any_power ds lp (nofZ N 0) line s lp' f E) as [s' E']. apply event_line_iff in E'. exists lp', s'. tauto.
          -- intros (i & l & H1 & H2 & H3). destruct i as [|i]; cbn [nth_error] in H1.
             ++ injection H1 as <-. left. exact H3.
             ++ right. destruct (H2 0%nat line ltac:(lia) eq_refl) as (pw & s & H4 & H5).
                assert (E : load_event_line P ds (nofZ N 0) line = Ok (s, pw, has_rotation s)) by (apply event_line_iff; auto).
                destruct (event_line_any_power ds (nofZ N 0) lp line _ _ _ E) as [s' E']. exists (s', pw, has_rotation s). split; [exact E'|].
                apply IH. exists i, l. split; [exact H1|]. split; [|exact H3]. intros j ln L Hl. apply (H2 (S j) ln); [lia|exact Hl].
  Qed.
  Lemma event_ub ds file : load_event_series P ds file = UB <->
    let body := before_marker (filter (fun line => negb (String.eqb line "")) file) in
    exists i line, nth_error body i = Some line /\ events P ds body i /\ runs_out P (split is_space_comma line) [0; 1; 2; 3]%nat.
  Proof. apply event_loop_ub. Qed.

  (** A line with enough columns never runs out. *)
  Lemma enough_columns toks cols k : (forall c, In c cols -> (c < k)%nat) -> (k <= List.length toks)%nat -> ~ runs_out P toks cols.
  Proof.
    induction cols as [|c cols IH]; intros H L R; inversion R; subst.
    - specialize (H c (or_introl eq_refl)). lia.
    - apply IH; auto. intros x I. apply H. right. exact I.
  Qed.
  Lemma short_line toks cols : (forall c s, In c cols -> nth_error toks c = Some s -> exists v, stod P s = Some v) -> (exists c, In c cols /\ (List.length toks <= c)%nat) -> runs_out P toks cols.
  Proof.
    induction cols as [|c cols IH]; intros H (x & I & L); [contradiction|].
    destruct (nth_error toks c) as [s|] eqn:E; [|apply nth_error_None in E; now constructor 1].
    destruct (H c s (or_introl eq_refl) E) as [v V]. econstructor 2; eauto. apply IH; [intros y t Y; apply H; right; exact Y|].
    destruct I as [<-|I]; [|eauto]. assert (c < List.length toks)%nat by (apply nth_error_Some; congruence). lia.
  Qed.

  (** Properties *)
  Lemma coefs_not_ub entries : parse_coefs P entries <> UB.
  Proof. induction entries as [|e l IH]; cbn [parse_coefs]; [discriminate|]. destruct (stod P e); [|discriminate]. rewrite bind_ub. intros [H|(? & _ & H)]; [contradiction|discriminate]. Qed.
  Lemma poly_not_ub po text : parse_poly P po text <> UB.
  Proof. unfold parse_poly. cbv zeta. destruct (Nat.ltb _ _); [discriminate|]. rewrite bind_ub. intros [H|(? & _ & H)]; [exact (coefs_not_ub _ H)|discriminate]. Qed.
  Lemma rows_ub entries : parse_rows P entries = UB <->
    exists i e, nth_error entries i = Some e /\ (forall j d, (j < i)%nat -> nth_error entries j = Some d -> exists r, row_of_field P d r) /\ runs_out P (split_off ","%char e) [0; 1]%nat.
  Proof.
    induction entries as [|e l IH]; cbn [parse_rows].
    - split; [discriminate|]. intros (i & e & H & _). destruct i; discriminate.
    - split.
      + intros H. destruct (num_tok P (split_off ","%char e) 0) as [a| |] eqn:Ea; cbn [bind] in H; try discriminate.
        * destruct (num_tok P (split_off ","%char e) 1) as [b| |] eqn:Eb; cbn [bind] in H; try discriminate.
          -- apply bind_ub in H. destruct H as [H|(? & _ & H)]; [|discriminate]. apply IH in H. destruct H as (i & d & H1 & H2 & H3).
             exists (S i), d. split; [exact H1|]. split; [|exact H3]. intros [|j] d' L Hd; cbn [nth_error] in Hd; [|apply (H2 j d'); [lia|exact Hd]].
             injection Hd as <-. apply ScanPathProofs.num_tok_ok in Ea, Eb. destruct Ea as (sa & Na & Va), Eb as (sb & Nb & Vb). exists (a, b).
             destruct (split_off ","%char e) as [|x [|y rest]] eqn:ES; cbn [nth_error] in Na, Nb; try discriminate. injection Na as <-. injection Nb as <-. exists x, y, rest. auto.
          -- exists 0%nat, e. split; [reflexivity|]. split; [intros j d L; lia|]. apply runs_out_cons. right. exists a. split; [exact Ea|]. apply runs_out_cons. left. exact Eb.
        * exists 0%nat, e. split; [reflexivity|]. split; [intros j d L; lia|]. apply runs_out_cons. left. exact Ea.
      + intros (i & d & H1 & H2 & H3). destruct i as [|i]; cbn [nth_error] in H1.
        * injection H1 as <-. apply runs_out_cons in H3. destruct H3 as [->|(a & -> & H3)]; [reflexivity|]. cbn [bind].
          apply runs_out_cons in H3. destruct H3 as [->|(b & _ & H3)]; [reflexivity|destruct (runs_out_nil _ H3)].
        * destruct (H2 0%nat e ltac:(lia) eq_refl) as (r & x & y & rest & ES & X & Y).
          replace (num_tok P (split_off ","%char e) 0) with (Ok (fst r)) by (symmetry; apply ScanPathProofs.num_tok_ok; rewrite ES; exists x; auto).
          replace (num_tok P (split_off ","%char e) 1) with (Ok (snd r)) by (symmetry; apply ScanPathProofs.num_tok_ok; rewrite ES; exists y; auto).
          cbn [bind]. apply (proj2 (bind_ub _ _)). left. apply IH. exists i, d. split; [exact H1|]. split; [|exact H3]. intros j d' L Hd. apply (H2 (S j) d'); [lia|exact Hd].
  Qed.
  Lemma table_ub text : parse_table P text = UB <->
    let entries := split_off "|"%char (remove_blanks text) in
    (List.length entries <= 12)%nat /\
    exists i e, nth_error entries i = Some e /\ (forall j d, (j < i)%nat -> nth_error entries j = Some d -> exists r, row_of_field P d r) /\ runs_out P (split_off ","%char e) [0; 1]%nat.
  Proof.
    unfold parse_table. cbv zeta. set (entries := split_off "|"%char (remove_blanks text)).
    assert (NE : entries <> []) by apply split_off_nonempty.
    destruct (Nat.ltb_spec table_size (List.length entries)) as [LT|LT]; unfold table_size in LT.
    - split; [discriminate|]. intros (L & _). lia.
    - rewrite bind_ub, rows_ub. split.
      + intros [H|(rows & E & H)]; [split; [lia|exact H]|]. exfalso. apply bind_ub in H. destruct H as [H|(? & _ & H)]; [|discriminate].
        apply back_ub in H. subst rows. apply parse_rows_ok in E. inversion E as [E0|]. symmetry in E0. contradiction.
      + intros (_ & H). left. exact H.
  Qed.
  (** A field of the table is short exactly if it has no comma. *)
  Lemma field_runs_out e : runs_out P (split_off ","%char e) [0; 1]%nat <-> exists w v, split_off ","%char e = [w] /\ stod P w = Some v.
  Proof.
    pose proof (split_off_nonempty ","%char e EmptyString) as NE. change (split_off_go ","%char EmptyString e) with (split_off ","%char e) in NE. split.
    - intros H. inversion H as [c l L|c l s v E V R]; subst; [destruct (split_off ","%char e); [contradiction|simpl in L; lia]|].
      inversion R as [c l L|c l s' v' E' V' R']; subst; [|inversion R'].
      destruct (split_off ","%char e) as [|x [|y rest]]; [contradiction| |simpl in L; lia]. injection E as ->. eauto.
    - intros (w & v & E & V). rewrite E. econstructor 2; [reflexivity|exact V|]. constructor 1. simpl. lia.
  Qed.

  (** Deposition files *)
  Lemma runs_step toks c cols {B} (k : N -> res B) (Q : Prop) : (forall v, num_tok P toks c = Ok v -> (k v = UB <-> runs_out P toks cols \/ (all_numbers P toks cols /\ Q))) ->
    (bind (num_tok P toks c) k = UB <-> runs_out P toks (c :: cols) \/ (all_numbers P toks (c :: cols) /\ Q)).
  Proof.
    intros H. rewrite bind_ub, runs_out_cons. split.
    - intros [A|(v & A & K)]; [now do 2 left|]. apply (H v A) in K. destruct K as [K|[K K']]; [left; right; eauto|]. right. split; [|exact K'].
      intros x [<-|I]; [|apply K, I]. apply ScanPathProofs.num_tok_ok in A. destruct A as (s & A); eauto.
    - intros [[A|(v & A & K)]|[A K]]; [now left|right; exists v; split; [exact A|]; apply (H v A); now left|].
      destruct (A c (or_introl eq_refl)) as (s & v & E & V). right. exists v. assert (Av : num_tok P toks c = Ok v) by (apply ScanPathProofs.num_tok_ok; eauto).
      split; [exact Av|]. apply (H v Av). right. split; [|exact K]. intros x I. apply A. right. exact I.
  Qed.
  Lemma check_ub (r : dep N) t : check_time r t <> UB.
  Proof.
    unfold check_time. destruct (d_times r) as [|y l] eqn:E; [discriminate|]. cbn [List.length Nat.ltb Nat.leb]. rewrite bind_ub.
    intros [H|(p & _ & H)]; [apply back_ub in H; discriminate|]. destruct (nleb N p t); discriminate.
  Qed.
  Lemma check_ok rows (t : N) : check_time (dep_app dep_nil rows) t = Ok tt <-> not_before rows t.
  Proof.
    unfold check_time, not_before, dep_app, dep_nil. cbn [d_times app]. destruct rows as [|r0 rows0] eqn:E using rev_ind.
    - cbn. split; [intros _ r H; discriminate|reflexivity].
    - clear IHrows0. rewrite map_app, app_length, map_length. cbn [map]. rewrite back_app.
      replace (Nat.ltb 0 (List.length rows0 + List.length [r_time r0])) with true by (symmetry; apply Nat.ltb_lt; simpl; lia). cbn [bind].
      rewrite app_length. cbn [List.length]. rewrite nth_error_app2 by lia. replace (List.length rows0 + 1 - 1 - List.length rows0)%nat with 0%nat by lia. cbn [nth_error].
      destruct (nleb N (r_time r0) t) eqn:L; split.
      + intros _ r H. injection H as <-. exact L.
      + reflexivity.
      + discriminate.
      + intros H. specialize (H r0 eq_refl). congruence.
  Qed.
  Lemma tail_ub toks rows c d (k : N -> dep N) v : num_tok P toks c = Ok v -> d = S c ->
    ((do _ <- check_time (dep_app dep_nil rows) v; do a <- num_tok P toks d; Ok (k a)) = UB <->
     runs_out P toks [] \/ (all_numbers P toks [] /\ (List.length toks <= S c)%nat /\ exists s t, nth_error toks c = Some s /\ stod P s = Some t /\ not_before rows t)).
  Proof.
    intros E ->. apply ScanPathProofs.num_tok_ok in E. destruct E as (s & E & V). split.
    - intros H. right. split; [intros x []|]. destruct (check_time (dep_app dep_nil rows) v) as [[]| |] eqn:C; cbn [bind] in H; [|discriminate|destruct (check_ub _ _ C)].
      apply check_ok in C. apply bind_ub in H. destruct H as [H|(? & _ & H)]; [|discriminate]. apply num_tok_ub in H. split; [exact H|]. exists s, v. auto.
    - intros [H|(_ & L & s' & t & E' & V' & B)]; [destruct (runs_out_nil _ H)|]. rewrite E in E'. injection E' as <-. rewrite V in V'. injection V' as <-.
      apply check_ok in B. rewrite B. cbn [bind]. apply num_tok_ub in L. rewrite L. reflexivity.
  Qed.
  Lemma dep_line_ub ncos nsin dim3 rows line : read_line P ncos nsin dim3 (dep_app dep_nil rows) line = UB <-> deposition_runs_out P dim3 rows line.
  Proof.
    unfold read_line, deposition_runs_out. cbv zeta. set (toks := split is_space line). destruct dim3; cbn [until_time time_column].
    - apply runs_step. intros cx _. apply runs_step. intros cy _. apply runs_step. intros cz _.
      apply runs_step. intros sx _. apply runs_step. intros sy _. apply runs_step. intros sz _. apply runs_step. intros t T.
      exact (tail_ub toks rows 6 7 _ t T eq_refl).
    - cbn [bind]. apply runs_step. intros cx _. apply runs_step. intros cy _. apply runs_step. intros sx _. apply runs_step. intros sy _. cbn [bind]. apply runs_step. intros t T.
      exact (tail_ub toks rows 4 5 _ t T eq_refl).
  Qed.
  Lemma dep_lines_ub ncos nsin dim3 lines : forall before, read_lines P ncos nsin dim3 (dep_app dep_nil before) lines = UB <->
    exists i line rows, nth_error lines i = Some line /\ Forall2 (row_of_line P ncos nsin dim3) (firstn i lines) rows /\
      (forall j a b, (List.length before <= S j)%nat -> nth_error (map r_time (before ++ rows)) j = Some a -> nth_error (map r_time (before ++ rows)) (S j) = Some b -> nleb N a b = true) /\
      deposition_runs_out P dim3 (before ++ rows) line.
  Proof.
    induction lines as [|l lines IH]; intros before; cbn [read_lines].
    - split; [discriminate|]. intros (i & line & rows & H & _). destruct i; discriminate.
    - rewrite bind_ub, dep_line_ub. split.
      + intros [H|(r & E & H)].
        * exists 0%nat, l, []. rewrite app_nil_r. split; [reflexivity|]. split; [constructor|]. split; [|exact H].
          intros j a b L _ Hb. assert (nth_error (map r_time before) (S j) <> None) by congruence. apply nth_error_Some in H0. rewrite map_length in H0. lia.
        * apply read_line_ok in E. destruct E as (e & HE & HT & ->). rewrite dep_app_app in H. apply IH in H. destruct H as (i & line & rows & H1 & H2 & H3 & H4).
          exists (S i), line, (e :: rows). split; [exact H1|]. split; [constructor; assumption|]. rewrite <- app_assoc in H3, H4. cbn [app] in H3, H4. split; [|exact H4].
          intros j a b L Ha Hb. destruct (Nat.eq_dec (S j) (List.length before)) as [Ej|Ej].
          -- rewrite map_app in Ha, Hb. rewrite nth_error_app2 in Hb by (rewrite map_length; lia). rewrite map_length, <- Ej, Nat.sub_diag in Hb. cbn in Hb. injection Hb as <-.
             rewrite nth_error_app1 in Ha by (rewrite map_length; lia).
             destruct before as [|x before0] eqn:EB using rev_ind; [simpl in Ej; lia|]. clear IHbefore0. rewrite app_length in Ej. cbn [List.length] in Ej.
             rewrite map_app in Ha. rewrite nth_error_app2 in Ha by (rewrite map_length; lia). rewrite map_length in Ha. replace (j - List.length before0)%nat with 0%nat in Ha by lia.
             cbn in Ha. injection Ha as <-. apply (HT (r_time x) (map r_time before0)). unfold dep_app, dep_nil. cbn [d_times app]. rewrite map_app. reflexivity.
          -- apply (H3 j a b); [rewrite app_length; cbn [List.length]; lia|exact Ha|exact Hb].
      + intros (i & line & rows & H1 & H2 & H3 & H4). destruct i as [|i]; cbn [nth_error firstn] in H1, H2.
        * injection H1 as <-. inversion H2; subst. rewrite app_nil_r in H4. left. exact H4.
        * right. inversion H2 as [|? e ? rows' HE F]; subst. exists (dep_app dep_nil (before ++ [e])). split.
          -- apply read_line_ok. exists e. split; [exact HE|]. split; [|symmetry; apply dep_app_app].
             intros prev l' EB. unfold dep_app, dep_nil in EB. cbn [d_times app] in EB.
             assert (LB : List.length before = S (List.length l')) by (rewrite <- (map_length r_time before), EB, app_length; simpl; lia).
             apply (H3 (List.length l')); rewrite ?map_app.
             ++ lia.
             ++ rewrite EB, <- app_assoc. rewrite nth_error_app2 by lia. rewrite Nat.sub_diag. reflexivity.
             ++ rewrite nth_error_app2 by (rewrite map_length; lia). rewrite map_length, LB, Nat.sub_diag. reflexivity.
          -- apply IH. exists i, line, rows'. split; [exact H1|]. split; [exact F|]. rewrite <- app_assoc. cbn [app]. split; [|exact H4].
             intros j a b L. apply H3. rewrite app_length in L. cbn [List.length] in L. lia.
  Qed.
  Lemma deposition_ub ncos nsin dim3 lines : read_material_deposition P ncos nsin dim3 lines = UB <->
    exists h body i line rows, lines = h :: body /\ stoi P h = Some (if dim3 then 3%Z else 2%Z) /\ nth_error body i = Some line /\
      Forall2 (row_of_line P ncos nsin dim3) (firstn i body) rows /\ times_increase rows /\ deposition_runs_out P dim3 rows line.
  Proof.
    unfold read_material_deposition, times_increase, never_decreases. split.
    - destruct lines as [|h body]; [discriminate|]. destruct (stoi P h) as [z|] eqn:EZ; [|discriminate].
      destruct (Z.eqb_spec z (if dim3 then 3 else 2)); [|discriminate]. subst z. intros H. change dep_nil with (dep_app (N := N) dep_nil []) in H. apply dep_lines_ub in H.
      destruct H as (i & line & rows & H1 & H2 & H3 & H4). cbn [app List.length] in H3, H4. exists h, body, i, line, rows. repeat (split; [assumption || reflexivity|]).
      split; [|exact H4]. intros j a b. apply H3. lia.
    - intros (h & body & i & line & rows & -> & EZ & H1 & H2 & H3 & H4). rewrite EZ, Z.eqb_refl. change dep_nil with (dep_app (N := N) dep_nil []). apply dep_lines_ub.
      exists i, line, rows. repeat (split; [assumption|]). split; [|exact H4]. intros j a b _. apply H3.
  Qed.
End Generic.

Section More.
  Context {N : Num} (P : parser N).
  Lemma scan_path_ub fmt ds vs lines : new_scan_path P fmt ds vs lines = UB <->
    (fmt = "segment"%string /\ load_segment P ds vs lines = UB) \/ (fmt = "event_series"%string /\ load_event_series P ds lines = UB).
  Proof.
    unfold new_scan_path, parse_format. destruct (String.eqb_spec fmt "segment") as [->|F].
    - cbn [bind]. unfold read_file. cbn [sp_format sp_dscale sp_vscale]. rewrite bind_ub. split.
      + intros [H|([a b] & _ & H)]; [left; auto|discriminate].
      + intros [[_ H]|[H _]]; [left; exact H|discriminate].
    - destruct (String.eqb_spec fmt "event_series") as [->|G]; cbn [bind].
      + unfold read_file. cbn [sp_format sp_dscale]. rewrite bind_ub. split.
        * intros [H|([[a b] c] & _ & H)]; [right; auto|discriminate].
        * intros [[H _]|[_ H]]; [discriminate|left; exact H].
      + split; [discriminate|]. intros [[H _]|[H _]]; contradiction.
  Qed.
  Lemma unknown_format fmt ds vs lines : fmt <> "segment"%string -> fmt <> "event_series"%string -> new_scan_path P fmt ds vs lines = Throw.
  Proof. intros A B. unfold new_scan_path, parse_format. apply String.eqb_neq in A, B. rewrite A, B. reflexivity. Qed.
  Lemma wide_segment ds vs lines : (forall l, In l lines -> (6 <= List.length (split is_space l))%nat) -> load_segment P ds vs lines <> UB.
  Proof.
    intros H U. apply segment_ub in U. destruct U as (h & c & rest & n & -> & _ & i & line & segs & L & _ & _ & R). apply nth_error_In in L.
    assert (I : In line (h :: c :: rest)).
    { right. right. assert (B : forall ls x, In x (before_marker ls) -> In x ls).
      { induction ls as [|y ls IH]; intros x; [tauto|]. cbn [before_marker]. destruct (has_end_marker y); [contradiction|]. intros [->|J]; [left; reflexivity|right; apply IH, J]. }
      apply B in L. assert (J : forall k (ls : list string) x, In x (firstn k ls) -> In x ls).
      { induction k as [|k IH]; intros ls x; [contradiction|]. destruct ls; [contradiction|]. intros [->|K]; [left; reflexivity|right; eapply IH; eauto]. }
      apply J in L. destruct rest; [contradiction|right; exact L]. }
    apply H in I. revert R. apply (enough_columns _ _ _ 6); [|exact I]. intros x. cbn [In]. lia.
  Qed.
  Lemma wide_event ds lines : (forall l, In l lines -> l <> ""%string -> (4 <= List.length (split is_space_comma l))%nat) -> load_event_series P ds lines <> UB.
  Proof.
    intros H U. apply event_ub in U. destruct U as (i & line & L & _ & R). apply nth_error_In in L.
    assert (B : forall ls x, In x (before_marker ls) -> In x ls).
    { induction ls as [|y ls IH]; intros x; [tauto|]. cbn [before_marker]. destruct (has_end_marker y); [contradiction|]. intros [->|J]; [left; reflexivity|right; apply IH, J]. }
    apply B in L. apply filter_In in L. destruct L as [L NB]. apply negb_true_iff, String.eqb_neq in NB. specialize (H line L NB). revert R. apply (enough_columns _ _ _ 4); [|exact H]. intros x. cbn [In]. lia.
  Qed.
  Lemma wide_deposition ncos nsin (dim3 : bool) lines : (forall l, In l (tl lines) -> ((if dim3 then 8 else 6) <= List.length (split is_space l))%nat) -> read_material_deposition P ncos nsin dim3 lines <> UB.
  Proof.
    intros H U. apply deposition_ub in U. destruct U as (h & body & i & line & rows & -> & _ & L & _ & _ & R). apply nth_error_In, H in L. destruct R as [R|(_ & R & _)].
    - revert R. apply (enough_columns _ _ _ (if dim3 then 8 else 6)%nat); [|exact L]. intros x. destruct dim3; cbn [In until_time]; lia.
    - destruct dim3; cbn [time_column] in R; lia.
  Qed.
  Lemma wide_table text : (forall e, In e (split_off "|"%char (remove_blanks text)) -> (2 <= List.length (split_off ","%char e))%nat) -> parse_table P text <> UB.
  Proof.
    intros H U. apply table_ub in U. destruct U as (_ & i & e & L & _ & R). apply nth_error_In, H in L. revert R. apply (enough_columns _ _ _ 2); [|exact L]. intros x. cbn [In]. lia.
  Qed.
End More.

(** Blanks *)
Lemma is_blank_white c : is_blank c = true <-> In c white.
Proof.
  assert (C : forallb (fun a => Bool.eqb (is_blank a) (existsb (Ascii.eqb a) white)) (map ascii_of_nat (seq 0 256)) = true) by (vm_compute; reflexivity).
  rewrite forallb_forall in C. assert (I : In c (map ascii_of_nat (seq 0 256))).
  { apply in_map_iff. exists (nat_of_ascii c). split; [apply ascii_nat_embedding|]. apply in_seq. split; [apply Nat.le_0_l|]. exact (nat_ascii_bounded c). }
  apply C, Bool.eqb_prop in I. rewrite I, existsb_exists. split.
  - intros (x & J & E). apply Ascii.eqb_eq in E. subst. exact J.
  - intros J. exists c. split; [exact J|]. apply Ascii.eqb_refl.
Qed.
Lemma remove_blanks_filter s : list_ascii_of_string (remove_blanks s) = filter (fun c => negb (existsb (Ascii.eqb c) white)) (list_ascii_of_string s).
Proof.
  assert (B : forall c, is_blank c = existsb (Ascii.eqb c) white).
  { intros c. apply Bool.eq_true_iff_eq. rewrite is_blank_white, existsb_exists. split; [intros H; exists c; split; [exact H|apply Ascii.eqb_refl]|]. intros (x & J & E). apply Ascii.eqb_eq in E. subst. exact J. }
  induction s as [|c s IH]; cbn [remove_blanks list_ascii_of_string filter]; [reflexivity|]. rewrite <- (B c). destruct (is_blank c); cbn [negb list_ascii_of_string]; rewrite IH; reflexivity.
Qed.
