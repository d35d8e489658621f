(** ExperimentProofs.v -- proofs for C31 (log). *)
From Coq Require Import Reals ZArith Bool List String Ascii Lia Lra.
From Verif Require Import Base BaseFacts ScanPathModel MaterialModel MaterialProofs InputModel InputSpec InputProofs ExperimentModel ExperimentSpec.
Import ListNotations.
Local Open Scope string_scope.

(** ** trim *)
Lemma blank_nil : blank "". Proof. intros c []. Qed.
Lemma blank_cons c s : is_blank c = true -> blank s -> blank (String c s).
Proof. intros H B x [<-|I]; [exact H|apply B, I]. Qed.
Lemma trim_left_ok s : exists a, s = a ++ trim_left s /\ blank a /\ (forall c u, trim_left s = String c u -> is_blank c = false).
Proof.
  induction s as [|c s (a & E & B & F)].
  - exists "". repeat split; [exact blank_nil|discriminate].
  - cbn [trim_left]. destruct (is_blank c) eqn:Bc.
    + exists (String c a). split; [simpl; congruence|]. split; [apply blank_cons; assumption|exact F].
    + exists "". split; [reflexivity|]. split; [exact blank_nil|]. intros d u D. injection D as <- <-. exact Bc.
Qed.
Lemma app_snoc_inj (u s : string) c d : String c s = u ++ String d "" -> s <> "" -> exists u', s = u' ++ String d "".
Proof. destruct u as [|x u]; simpl; intros E NE; injection E; intros; subst; [contradiction|]. exists u. reflexivity. Qed.
Lemma trim_right_ok s : exists b, s = trim_right s ++ b /\ blank b /\ (forall c u, trim_right s = u ++ String c "" -> is_blank c = false) /\
  (forall c u, trim_right s = String c u -> exists u', s = String c u').
Proof.
  induction s as [|c s (b & E & B & F & H)].
  - exists "". split; [reflexivity|]. split; [exact blank_nil|]. split; [intros c u D; destruct u; discriminate|discriminate].
  - cbn [trim_right]. destruct (trim_right s) as [|d r] eqn:Er.
    + destruct (is_blank c) eqn:Bc.
      * exists (String c b). simpl in E. subst b. split; [reflexivity|]. split; [apply blank_cons; assumption|].
        split; [intros d u D; destruct u; discriminate|discriminate].
      * exists b. simpl in E. split; [simpl; congruence|]. split; [exact B|]. split.
        -- intros d u D. destruct u as [|x u]; simpl in D; [injection D as <-; exact Bc|destruct u; discriminate].
        -- intros d u D. injection D as <- <-. exists s. reflexivity.
    + exists b. split; [simpl in *; congruence|]. split; [exact B|]. split.
      * intros x u D. apply app_snoc_inj in D; [|discriminate]. destruct D as [u' D]. apply (F x u' D).
      * intros x u D. injection D as <- _. exists s. reflexivity.
Qed.
Lemma trim_ok s : trimmed s (trim s).
Proof.
  unfold trim. destruct (trim_left_ok s) as (a & E & B & F). destruct (trim_right_ok (trim_left s)) as (b & E' & B' & F' & H).
  exists a, b. split; [rewrite <- E'; exact E|]. repeat split; try assumption.
  intros c u D. destruct (H c u D) as [u' D']. exact (F c u' D').
Qed.
Lemma trim_left_skip a s : blank a -> trim_left (a ++ s) = trim_left s.
Proof. induction a as [|c a IH]; intros B; simpl; [reflexivity|]. rewrite (B c) by (left; reflexivity). apply IH. intros x I. apply B. right. exact I. Qed.
Lemma trim_right_blank b : blank b -> trim_right b = "".
Proof.
  induction b as [|c b IH]; intros B; [reflexivity|]. cbn [trim_right]. rewrite IH by (intros x I; apply B; right; exact I).
  rewrite (B c) by (left; reflexivity). reflexivity.
Qed.
Lemma trim_right_keep t b : blank b -> (forall c u, t = u ++ String c "" -> is_blank c = false) -> trim_right (t ++ b) = t.
Proof.
  induction t as [|c t IH]; intros B F.
  - apply trim_right_blank, B.
  - simpl append. cbn [trim_right]. rewrite IH; [|exact B|intros d u E; apply (F d (String c u)); simpl; congruence].
    destruct t as [|d t]; [|reflexivity]. rewrite (F c ""); reflexivity.
Qed.
Lemma trim_unique s t : trimmed s t -> t = trim s.
Proof.
  intros (a & b & -> & Ba & Bb & F & G). unfold trim. rewrite trim_left_skip by exact Ba.
  destruct t as [|c t].
  - simpl. assert (L : trim_left b = "").
    { clear -Bb. induction b as [|c b IH]; [reflexivity|]. simpl. rewrite (Bb c) by (left; reflexivity). apply IH. intros x I. apply Bb. right. exact I. }
    rewrite L. reflexivity.
  - assert (L : trim_left (String c t ++ b) = String c t ++ b) by (simpl; rewrite (F c t eq_refl); reflexivity).
    rewrite L. symmetry. apply trim_right_keep; assumption.
Qed.

(** ** columns *)
Lemma column_iff line k s : column line k s <-> exists w, nth_error (words line) k = Some w /\ s = trim w.
Proof.
  split.
  - intros (ws & w & W & E & T). apply words_unique in W. subst ws. exists w. split; [exact E|apply trim_unique, T].
  - intros (w & E & ->). exists (words line), w. split; [apply words_spec|]. split; [exact E|apply trim_ok].
Qed.

Section Log.
  Context {N : Num} (P : parser N) (cfg : log_config N).
  Lemma push_ok (ts : list (list N)) : forall camera x ts', push ts camera x = Ok ts' <->
    (camera < List.length ts)%nat /\ List.length ts' = List.length ts /\ forall c, (c < List.length ts)%nat -> nth c ts' [] = (nth c ts [] ++ (if Nat.eqb c camera then [x] else []))%list.
  Proof.
    induction ts as [|t ts IH]; intros camera x ts'.
    - simpl. split; [discriminate|lia].
    - destruct camera as [|camera].
      + simpl push. split.
        * intros E. injection E as <-. simpl. split; [lia|]. split; [reflexivity|]. intros [|c] Hc; simpl; [reflexivity|symmetry; apply app_nil_r].
        * intros (_ & L & H). destruct ts' as [|t' ts']; [discriminate|]. f_equal. f_equal.
          -- symmetry. apply (H 0%nat). simpl; lia.
          -- apply nth_ext with (d := []) (d' := []); [simpl in L; lia|]. intros n Hn. simpl in L.
             assert (E := H (S n)). simpl in E. rewrite app_nil_r in E. symmetry. apply E. simpl. lia.
      + cbn [push]. split.
        * intros E. destruct (push ts camera x) as [r| |] eqn:Ep; try discriminate. injection E as <-.
          apply IH in Ep. destruct Ep as (C & L & H). split; [simpl; lia|]. split; [simpl; lia|].
          intros [|c] Hc; simpl; [symmetry; apply app_nil_r|apply H; simpl in Hc; lia].
        * intros (C & L & H). destruct ts' as [|t' ts']; [discriminate|].
          assert (Ep : push ts camera x = Ok ts').
          { apply IH. split; [simpl in C; lia|]. split; [simpl in L; lia|]. intros c Hc. apply (H (S c)). simpl; lia. }
          rewrite Ep. cbn [bind]. f_equal. f_equal. symmetry. assert (E := H 0%nat). simpl in E. rewrite app_nil_r in E. apply E. lia.
  Qed.
  Lemma nth_map_seq (f : nat -> list N) n c : (c < n)%nat -> nth c (map f (seq 0 n)) [] = f c.
  Proof. intros H. rewrite (nth_indep _ [] (f n)) by (rewrite map_length, seq_length; exact H). rewrite map_nth, seq_nth by exact H. reflexivity. Qed.
  Lemma push_total (ts : list (list N)) : forall camera x, (camera < List.length ts)%nat -> exists ts', push ts camera x = Ok ts'.
  Proof.
    induction ts as [|t ts IH]; intros [|camera] x H; simpl in *; try lia; [eexists; reflexivity|].
    destruct (IH camera x ltac:(lia)) as [r ->]. eexists; reflexivity.
  Qed.
  (** What the entries add to camera [c]. *)
  Definition added (b : bool) (camera : nat) (entries : list string) (c : nat) : list N :=
    if Nat.ltb c camera then [] else
    match nth_error entries (c - camera) with
    | Some e => if b && Nat.ltb 0 (String.length (trim e)) then match stod P (trim e) with Some x => [nadd N x (lg_offset cfg)] | None => [] end else []
    | None => []
    end.
  Lemma added_cons b camera e rest c : added b camera (e :: rest) c =
    ((if Nat.eqb c camera then if b && Nat.ltb 0 (String.length (trim e)) then match stod P (trim e) with Some x => [nadd N x (lg_offset cfg)] | None => [] end else [] else []) ++ added b (S camera) rest c)%list.
  Proof.
    unfold added. destruct (Nat.eqb_spec c camera) as [->|NE].
    - rewrite Nat.ltb_irrefl, Nat.sub_diag. destruct (Nat.ltb_spec camera (S camera)); [|lia]. rewrite app_nil_r. reflexivity.
    - destruct (Nat.ltb_spec c camera), (Nat.ltb_spec c (S camera)); try lia; [reflexivity|].
      replace (c - camera)%nat with (S (c - S camera)) by lia. reflexivity.
  Qed.
  Lemma log_entries_ok (b : bool) : forall entries camera (ts ts' : list (list N)), log_entries P cfg b camera entries ts = Ok ts' <->
    (forall k e, nth_error entries k = Some e -> b = true -> trim e <> "" -> (camera + k < List.length ts)%nat /\ exists x, stod P (trim e) = Some x) /\
    List.length ts' = List.length ts /\ forall c, (c < List.length ts)%nat -> nth c ts' [] = (nth c ts [] ++ added b camera entries c)%list.
  Proof.
    assert (NEs : forall s : string, Nat.ltb 0 (String.length s) = true <-> s <> "").
    { intros [|c s]; simpl; [split; [discriminate|congruence]|split; [discriminate|reflexivity]]. }
    induction entries as [|e rest IH]; intros camera ts ts'.
    - cbn [log_entries]. split.
      + intros E. injection E as <-. split; [intros k e0 E; destruct k; discriminate|]. split; [reflexivity|]. intros c _. unfold added.
        destruct (Nat.ltb c camera); [|destruct (c - camera)%nat]; symmetry; apply app_nil_r.
      + intros (_ & L & H). f_equal. apply nth_ext with (d := []) (d' := []); [lia|]. intros n Hn. rewrite (H n) by lia. unfold added.
        destruct (Nat.ltb n camera); [|destruct (n - camera)%nat]; rewrite app_nil_r; reflexivity.
    - cbn [log_entries]. destruct (b && Nat.ltb 0 (String.length (trim e))) eqn:Eb.
      + apply andb_prop in Eb. destruct Eb as [Hb He]. assert (He' := proj1 (NEs _) He).
        destruct (Nat.ltb_spec camera (List.length ts)) as [Hc|Hc].
        * destruct (stod P (trim e)) as [x|] eqn:Ex.
          -- destruct (push ts camera (nadd N x (lg_offset cfg))) as [ts1| |] eqn:Ep; cbn [bind].
             ++ apply push_ok in Ep. destruct Ep as (_ & L1 & H1). rewrite IH. split.
                ** intros (A & L & H). split; [|split; [lia|]].
                   --- intros [|k] e0 E B T; simpl in E; [injection E as <-; split; [lia|exists x; exact Ex]|].
                       destruct (A k e0 E B T) as [A1 A2]. split; [lia|exact A2].
                   --- intros c HC. rewrite H, H1 by lia. rewrite added_cons, Hb, He, Ex. cbn [andb]. rewrite <- app_assoc. reflexivity.
                ** intros (A & L & H). split; [|split; [lia|]].
                   --- intros k e0 E B T. destruct (A (S k) e0 E B T) as [A1 A2]. split; [lia|exact A2].
                   --- intros c HC. rewrite H, H1 by lia. rewrite added_cons, Hb, He, Ex. cbn [andb]. rewrite <- app_assoc. reflexivity.
             ++ exfalso. destruct (push_total ts camera (nadd N x (lg_offset cfg)) Hc). congruence.
             ++ exfalso. destruct (push_total ts camera (nadd N x (lg_offset cfg)) Hc). congruence.
          -- split; [discriminate|]. intros (A & _). destruct (A 0%nat e eq_refl Hb He') as [_ [x A2]]. congruence.
        * split; [discriminate|]. intros (A & _). destruct (A 0%nat e eq_refl Hb He') as [A1 _]. lia.
      + rewrite IH. split.
        * intros (A & L & H). split; [|split; [lia|]].
          -- intros [|k] e0 E B T; simpl in E.
             ++ injection E as <-. rewrite B in Eb. simpl in Eb. apply NEs in T. congruence.
             ++ destruct (A k e0 E B T) as [A1 A2]. split; [lia|exact A2].
          -- intros c HC. rewrite H by lia. rewrite added_cons, Eb. destruct (Nat.eqb c camera); reflexivity.
        * intros (A & L & H). split; [|split; [lia|]].
          -- intros k e0 E B T. destruct (A (S k) e0 E B T) as [A1 A2]. split; [lia|exact A2].
          -- intros c HC. rewrite H by lia. rewrite added_cons, Eb. destruct (Nat.eqb c camera); reflexivity.
  Qed.

  (** ** Lines *)
  Definition numbered (line : string) : Prop := exists s z, column line 0 s /\ stoi P s = Some z.
  (** Entries of a wanted line: within the cameras and readable. *)
  Definition readable (line : string) : Prop := wanted P cfg line -> forall k s, column line (S k) s -> s <> "" -> (k < lg_cameras cfg)%nat /\ exists x, stod P s = Some x.

  Lemma log_line_ok (ts ts' : list (list N)) line : List.length ts = lg_cameras cfg ->
    (log_line P cfg ts line = Ok ts' <->
     numbered line /\ readable line /\ List.length ts' = List.length ts /\
     exists add : nat -> list N, (forall c, (c < lg_cameras cfg)%nat -> nth c ts' [] = (nth c ts [] ++ add c)%list) /\
       forall c, (c < lg_cameras cfg)%nat ->
         (wanted P cfg line /\ exists s x, column line (S c) s /\ s <> "" /\ stod P s = Some x /\ add c = [nadd N x (lg_offset cfg)]) \/
         (~ (wanted P cfg line /\ has_entry line c) /\ add c = [])).
  Proof.
    intros Ln. unfold log_line. cbv zeta. fold (words line). assert (NE := proj1 (words_spec line)).
    destruct (words line) as [|e rest] eqn:W; [contradiction|].
    assert (C0 : forall s, column line 0 s <-> s = trim e).
    { intros s. rewrite column_iff, W. simpl. split; [intros (w & E & ->); injection E as <-; reflexivity|intros ->; exists e; auto]. }
    assert (CS : forall k s, column line (S k) s <-> exists w, nth_error rest k = Some w /\ s = trim w).
    { intros k s. rewrite column_iff, W. reflexivity. }
    destruct (stoi P (trim e)) as [z|] eqn:Ez.
    2:{ split; [discriminate|]. intros ((s & z & C & S') & _). apply C0 in C. subst s. congruence. }
    assert (Nu : numbered line) by (exists (trim e), z; split; [apply C0; reflexivity|exact Ez]).
    rewrite Z.eqb_refl, orb_true_r.
    set (b := Z.leb (lg_first cfg) (to_unsigned z) && Z.leb (to_unsigned z) (lg_last cfg)).
    assert (Wb : wanted P cfg line <-> b = true).
    { unfold wanted, b, to_unsigned. rewrite andb_true_iff, !Z.leb_le. split.
      - intros (s & z' & C & S' & R). apply C0 in C. subst s. rewrite Ez in S'. injection S' as <-. exact R.
      - intros R. exists (trim e), z. split; [apply C0; reflexivity|]. split; [exact Ez|exact R]. }
    assert (Ad : forall c, (wanted P cfg line /\ exists s x, column line (S c) s /\ s <> "" /\ stod P s = Some x /\ added b 0 rest c = [nadd N x (lg_offset cfg)]) \/
         (~ (wanted P cfg line /\ has_entry line c) /\ added b 0 rest c = []) \/ (exists w, nth_error rest c = Some w /\ b = true /\ trim w <> "" /\ stod P (trim w) = None)).
    { intros c. unfold added. simpl. rewrite Nat.sub_0_r. destruct (nth_error rest c) as [w|] eqn:Ew.
      - destruct b; cbn [andb].
        + destruct (trim w) as [|a u] eqn:Et.
          * right. left. split; [|reflexivity]. intros (_ & s & C & T). apply CS in C. destruct C as (w' & E' & ->). congruence.
          * cbn [String.length Nat.ltb Nat.leb]. destruct (stod P (String a u)) as [x|] eqn:Ex.
            -- left. split; [apply Wb; reflexivity|]. exists (String a u), x. split; [apply CS; exists w; split; congruence|]. repeat split; [discriminate|exact Ex].
            -- right. right. exists w. split; [reflexivity|]. split; [reflexivity|]. rewrite Et. split; [discriminate|exact Ex].
        + right. left. split; [|reflexivity]. intros (Wn & _). apply Wb in Wn. discriminate.
      - right. left. split; [|reflexivity]. intros (_ & s & C & _). apply CS in C. destruct C as (w' & E' & _). congruence. }
    rewrite log_entries_ok. split.
    - intros (A & L & H). split; [exact Nu|]. split.
      + intros Wn k s C T. apply CS in C. destruct C as (w & E & ->). destruct (A k w E (proj1 Wb Wn) T) as [A1 A2]. split; [simpl in A1; lia|exact A2].
      + split; [exact L|]. exists (added b 0 rest). split; [intros c Hc; apply H; lia|]. intros c Hc.
        destruct (Ad c) as [X|[X|(w & E & B & T & Sn)]]; [left; exact X|right; exact X|].
        destruct (A c w E B T) as [_ [x A2]]. congruence.
    - intros (_ & Re & L & add & H & K). split; [|split; [exact L|]].
      + intros k w E B T. destruct (Re (proj2 Wb B) k (trim w)) as [R1 R2]; [apply CS; exists w; auto|exact T|]. split; [simpl; lia|exact R2].
      + intros c Hc. rewrite H by lia. f_equal. rewrite Ln in Hc.
        destruct (Ad c) as [(Wn & s & x & C & T & Sx & ->)|[(NW & ->)|(w & E & B & T & Sn)]].
        * destruct (K c Hc) as [(_ & s' & x' & C' & T' & Sx' & ->)|(NW & _)].
          -- apply CS in C, C'. destruct C as (w & E & ->), C' as (w' & E' & ->). rewrite E in E'. injection E' as <-. congruence.
          -- exfalso. apply NW. split; [exact Wn|]. exists s. auto.
        * destruct (K c Hc) as [(Wn & s' & x' & C' & T' & _)|(_ & ->)]; [|reflexivity].
          exfalso. apply NW. split; [exact Wn|]. exists s'. auto.
        * exfalso. destruct (Re (proj2 Wb B) c (trim w)) as [_ [x R2]]; [apply CS; exists w; auto|exact T|congruence].
  Qed.

  Lemma stamps_snoc_like camera line rest xs : stamps P cfg camera (line :: rest) xs -> 
    (exists s x xs', wanted P cfg line /\ column line (S camera) s /\ s <> "" /\ stod P s = Some x /\ stamps P cfg camera rest xs' /\ xs = nadd N x (lg_offset cfg) :: xs') \/
    (~ (wanted P cfg line /\ has_entry line camera) /\ stamps P cfg camera rest xs).
  Proof. intros H. inversion H; subst; [left|right]; [do 3 eexists; repeat split; eauto|auto]. Qed.

  Lemma log_lines_ok lines : forall (ts ts' : list (list N)), List.length ts = lg_cameras cfg ->
    (log_lines P cfg ts lines = Ok ts' <->
     (forall l, In l lines -> numbered l /\ readable l) /\ List.length ts' = List.length ts /\
     exists xs : nat -> list N, forall c, (c < lg_cameras cfg)%nat -> nth c ts' [] = (nth c ts [] ++ xs c)%list /\ stamps P cfg c lines (xs c)).
  Proof.
    induction lines as [|l rest IH]; intros ts ts' Ln.
    - cbn [log_lines]. split.
      + intros E. injection E as <-. split; [intros l []|]. split; [reflexivity|]. exists (fun _ => []). intros c _. split; [symmetry; apply app_nil_r|constructor].
      + intros (_ & L & xs & H). f_equal. apply nth_ext with (d := []) (d' := []); [lia|]. intros n Hn. destruct (H n) as [E S']; [lia|].
        inversion S'; subst. rewrite E. rewrite <- H0. symmetry. apply app_nil_r.
    - cbn [log_lines]. split.
      + intros E. destruct (log_line P cfg ts l) as [t1| |] eqn:E1; try discriminate. cbn [bind] in E.
        apply log_line_ok in E1; [|exact Ln]. destruct E1 as (Nu & Re & L1 & add & H1 & K).
        apply IH in E; [|lia]. destruct E as (A & L & xs & H). split; [intros x [<-|I]; [split; assumption|apply A, I]|]. split; [lia|].
        exists (fun c => add c ++ xs c)%list. intros c Hc. destruct (H c Hc) as [E S']. split; [rewrite E, H1 by lia; symmetry; apply app_assoc|].
        destruct (K c Hc) as [(Wn & s & x & C & T & Sx & ->)|(NW & ->)].
        * apply stamps_take with s; assumption.
        * apply stamps_skip; assumption.
      + intros (A & L & xs & H). destruct (A l (or_introl eq_refl)) as [Nu Re].
        (* the vector after the first line *)
        assert (X : exists add : nat -> list N, exists tl : nat -> list N, forall c, (c < lg_cameras cfg)%nat ->
                  xs c = (add c ++ tl c)%list /\ stamps P cfg c rest (tl c) /\
                  ((wanted P cfg l /\ exists s x, column l (S c) s /\ s <> "" /\ stod P s = Some x /\ add c = [nadd N x (lg_offset cfg)]) \/ (~ (wanted P cfg l /\ has_entry l c) /\ add c = []))).
        { assert (X : forall n, (n <= lg_cameras cfg)%nat -> exists add tl : nat -> list N, forall c, (c < n)%nat ->
                  xs c = (add c ++ tl c)%list /\ stamps P cfg c rest (tl c) /\
                  ((wanted P cfg l /\ exists s x, column l (S c) s /\ s <> "" /\ stod P s = Some x /\ add c = [nadd N x (lg_offset cfg)]) \/ (~ (wanted P cfg l /\ has_entry l c) /\ add c = []))).
          { induction n as [|n IHn]; intros Hn; [exists (fun _ => []), (fun _ => []); intros; lia|].
            destruct (IHn ltac:(lia)) as (add & tl & HH). destruct (H n) as [_ S']; [lia|]. apply stamps_snoc_like in S'.
            destruct S' as [(s & x & xs' & Wn & C & T & Sx & St & Ex)|(NW & St)].
            - exists (fun c => if Nat.eqb c n then [nadd N x (lg_offset cfg)] else add c), (fun c => if Nat.eqb c n then xs' else tl c).
              intros c Hc. destruct (Nat.eqb_spec c n) as [->|Ne]; [|apply HH; lia]. split; [exact Ex|]. split; [exact St|]. left. split; [exact Wn|]. exists s, x. auto.
            - exists (fun c => if Nat.eqb c n then [] else add c), (fun c => if Nat.eqb c n then xs n else tl c).
              intros c Hc. destruct (Nat.eqb_spec c n) as [->|Ne]; [|apply HH; lia]. split; [reflexivity|]. split; [exact St|]. right. split; [exact NW|reflexivity]. }
          apply X. lia. }
        destruct X as (add & tl & X).
        assert (E1 : log_line P cfg ts l = Ok (map (fun c => nth c ts [] ++ add c)%list (seq 0 (lg_cameras cfg)))).
        { apply log_line_ok; [exact Ln|]. split; [exact Nu|]. split; [exact Re|]. split; [rewrite map_length, seq_length; lia|].
          exists add. split; [|intros c Hc; exact (proj2 (proj2 (X c Hc)))]. intros c Hc.
          apply (nth_map_seq (fun c => nth c ts [] ++ add c)%list). exact Hc. }
        rewrite E1. cbn [bind]. apply IH; [rewrite map_length, seq_length; reflexivity|]. split; [intros x I; apply A; right; exact I|].
        split; [rewrite map_length, seq_length; lia|]. exists tl. intros c Hc. destruct (X c Hc) as (Ex & St & _). split; [|exact St].
        rewrite (nth_map_seq (fun c => nth c ts [] ++ add c)%list) by exact Hc.
        rewrite (proj1 (H c Hc)), Ex. apply app_assoc.
  Qed.
  Theorem log_ok lines (ts : list (list N)) : read_frame_timestamps P cfg lines = Ok ts <->
    List.length ts = lg_cameras cfg /\
    (forall camera, (camera < lg_cameras cfg)%nat -> exists xs, nth_error ts camera = Some xs /\ stamps P cfg camera lines xs) /\
    (forall line, In line lines -> exists s z, column line 0 s /\ stoi P s = Some z) /\
    (forall line k s, In line lines -> wanted P cfg line -> column line (S k) s -> s <> "" -> (k < lg_cameras cfg)%nat /\ exists x, stod P s = Some x).
  Proof.
    unfold read_frame_timestamps. rewrite log_lines_ok by apply repeat_length. rewrite repeat_length.
    assert (R0 : forall c, nth c (repeat (@nil N) (lg_cameras cfg)) [] = []).
    { intros c. destruct (Nat.lt_ge_cases c (lg_cameras cfg)); [apply nth_repeat|apply nth_overflow; rewrite repeat_length; assumption]. }
    split.
    - intros (A & L & xs & H). split; [exact L|]. split; [|split].
      + intros c Hc. destruct (H c Hc) as [E S']. exists (xs c). split; [|exact S']. rewrite R0 in E. simpl in E. rewrite <- E.
        rewrite (nth_error_nth' ts []) by lia. reflexivity.
      + intros l I. apply (A l I).
      + intros l k s I Wn. apply (proj2 (A l I) Wn).
    - intros (L & H & A & B). split; [intros l I; split; [apply A, I|intros Wn k s; apply B; assumption]|]. split; [exact L|].
      exists (fun c => nth c ts []). intros c Hc. rewrite R0. split; [reflexivity|]. destruct (H c Hc) as (xs & E & S').
      rewrite (nth_error_nth _ _ _ E). exact S'.
  Qed.
End Log.
