(** OutputProofs.v -- C63: names and contents of the output files. *)
From Coq Require Import ZArith Bool List String Ascii Lia Decimal DecimalString.
From Verif Require Import Base InputModel CellModel EnsembleModel EnsembleProofs MicrostructureModel MicrostructureProofs OutputModel OutputSpec RunModel RunSpec RunProofs.
Import ListNotations.
Local Open Scope string_scope.

(** ** Strings *)
Lemma app_assoc_s (a b c : string) : (a ++ b) ++ c = a ++ (b ++ c).
Proof. induction a as [|x a IH]; simpl; [reflexivity|]. rewrite IH. reflexivity. Qed.
Lemma app_nil_s (a : string) : a ++ "" = a.
Proof. induction a as [|x a IH]; simpl; [reflexivity|]. rewrite IH. reflexivity. Qed.
Fixpoint inS (c : ascii) (s : string) : Prop := match s with EmptyString => False | String d s' => c = d \/ inS c s' end.
Lemma inS_app c a b : inS c (a ++ b) <-> inS c a \/ inS c b.
Proof. induction a as [|x a IH]; simpl; tauto. Qed.
Lemma inS_list c s : inS c s <-> In c (list_ascii_of_string s).
Proof. induction s as [|d s IH]; simpl; [tauto|]. rewrite IH. intuition. Qed.
Definition digit (c : ascii) : Prop := inS c "0123456789".
Lemma uint_digits u c : inS c (NilEmpty.string_of_uint u) -> digit c.
Proof. unfold digit. induction u; simpl; intros H; try tauto; (destruct H as [->|H]; [simpl; tauto|exact (IHu H)]). Qed.
Lemma digits n c : inS c (to_string n) -> digit c.
Proof. unfold to_string, NilZero.string_of_uint. destruct (Nat.to_uint n) eqn:E; try (intros H; eapply uint_digits; exact H). intros H; simpl in H. unfold digit; simpl. tauto. Qed.
Lemma no_dot n : ~ inS "." (to_string n).
Proof. intros H. apply digits in H. unfold digit in H. simpl in H. repeat (destruct H as [H|H]; [discriminate H|]). exact H. Qed.
Lemma slash_digit n : ~ inS "/" (to_string n).
Proof. intros H. apply digits in H. unfold digit in H. simpl in H. repeat (destruct H as [H|H]; [discriminate H|]). exact H. Qed.
Lemma to_string_nonempty n : exists c s, to_string n = String c s.
Proof. unfold to_string, NilZero.string_of_uint. destruct (Nat.to_uint n) eqn:E; simpl; eauto. Qed.

(** The last dot of a name is unique. *)
Lemma dot_in_tail a x b y : ~ inS "." y -> a ++ ("." ++ x) = b ++ y -> False \/ (exists z, b = a ++ "." ++ z).
Proof.
  revert b. induction a as [|c a IH]; intros b NY E.
  - simpl in E. destruct b as [|d b]; simpl in E; [exfalso; apply NY; rewrite <- E; simpl; auto|]. injection E as <- E. right. exists b. reflexivity.
  - destruct b as [|d b]; simpl in E.
    + exfalso. apply NY. rewrite <- E. simpl. right. apply inS_app. right. simpl. auto.
    + injection E as <- E. destruct (IH b NY E) as [[]|[z ->]]. right. exists z. reflexivity.
Qed.
Lemma dot_split a x b y : ~ inS "." x -> ~ inS "." y -> a ++ "." ++ x = b ++ "." ++ y -> a = b /\ x = y.
Proof.
  revert b. induction a as [|c a IH]; intros b NX NY E; destruct b as [|d b]; simpl in E.
  - injection E as E. auto.
  - injection E as _ E. exfalso. apply NX. rewrite E. apply inS_app. right. simpl. auto.
  - injection E as _ E. exfalso. apply NY. rewrite <- E. apply inS_app. right. simpl. auto.
  - injection E as -> E. destruct (IH b NX NY E) as [-> ->]. auto.
Qed.
(** The last character. *)
Lemma last_char a c b d : a ++ String c "" = b ++ String d "" -> a = b /\ c = d.
Proof.
  revert b. induction a as [|x a IH]; intros b E; destruct b as [|y b]; simpl in E.
  - injection E as E. auto.
  - injection E as _ E. destruct b; discriminate E.
  - injection E as _ E. destruct a; discriminate E.
  - injection E as -> E. destruct (IH b E) as [-> ->]. auto.
Qed.
Lemma snoc_s c s : exists a d, String c s = a ++ String d "" /\ inS d (String c s).
Proof.
  revert c. induction s as [|e s IH]; intros c; [exists "", c; simpl; auto|].
  destruct (IH e) as (a & d & E & I). exists (String c a), d. rewrite E. split; [reflexivity|]. simpl in I |- *. rewrite <- E. simpl. tauto.
Qed.
Lemma digit_end a n b : a ++ to_string n = b ++ "t" -> False.
Proof.
  destruct (to_string_nonempty n) as (c & s & E). destruct (snoc_s c s) as (a' & d & E' & I). intros H. rewrite E, E' in H. rewrite <- app_assoc_s in H. apply last_char in H. destruct H as [_ ->].
  rewrite <- E in I. apply digits in I. unfold digit in I. simpl in I. repeat (destruct I as [I|I]; [discriminate I|]). exact I.
Qed.

(** ** Names *)
Inductive nm := NV (d : string) (step rank : nat) | NT (d : string) (step : nat) | ND (d : string).
Definition show (x : nm) : string :=
  match x with
  | NV d s r => d ++ "." ++ to_string s ++ "." ++ to_string r ++ ".vtu"
  | NT d s => d ++ "." ++ to_string s ++ ".pvtu"
  | ND d => d ++ ".pvd"
  end.
Definition body (x : nm) : string := match x with NV d s r => d ++ "." ++ to_string s ++ "." ++ to_string r | NT d s => d ++ "." ++ to_string s | ND d => d end.
Definition ext (x : nm) : string := match x with NV _ _ _ => "vtu" | NT _ _ => "pvtu" | ND _ => "pvd" end.
Lemma show_split x : show x = body x ++ "." ++ ext x.
Proof. destruct x; unfold show, body, ext; rewrite ?app_assoc_s; reflexivity. Qed.
Lemma ext_no_dot x : ~ inS "." (ext x).
Proof. destruct x; simpl; intros H; repeat (destruct H as [H|H]; [discriminate H|]); exact H. Qed.
Lemma show_inj x y : show x = show y -> x = y.
Proof.
  rewrite !show_split. intros H. apply dot_split in H; try apply ext_no_dot. destruct H as [B E].
  destruct x as [d s r|d s|d], y as [d' s' r'|d' s'|d']; try discriminate E; cbn [body] in B.
  - rewrite <- !app_assoc_s in B. rewrite (app_assoc_s (((d ++ ".") ++ to_string s))) in B. rewrite (app_assoc_s (((d' ++ ".") ++ to_string s'))) in B.
    apply dot_split in B; try apply no_dot. destruct B as [B R]. rewrite (app_assoc_s d), (app_assoc_s d') in B. apply dot_split in B; try apply no_dot. destruct B as [-> B].
    apply to_string_inj in B, R. subst. reflexivity.
  - apply dot_split in B; try apply no_dot. destruct B as [-> B]. apply to_string_inj in B. subst. reflexivity.
  - subst. reflexivity.
Qed.

Definition base_of (x : nm) : string := match x with NV d _ _ => d | NT d _ => d | ND d => d end.

Section Names.
  Context {N : Num}.
  Definition out_names (d : string) (n rank : nat) (o : nat * N) : list nm := NV d (fst o) rank :: (if Nat.eqb rank 0 then [NT d (fst o)] else []).
  Lemma pvtu_names n rank (p : post N) s t files p' : write_pvtu n rank p s t = (files, p') ->
    map fst files = map show (out_names (o_dir p ++ o_prefix p) n rank (s, t)) /\ o_prefix p' = o_prefix p /\ o_dir p' = o_dir p /\
    o_times p' = (o_times p ++ (if Nat.eqb rank 0 then [(t, pvtu_file (o_dir p) (o_prefix p) s)] else []))%list.
  Proof.
    unfold write_pvtu, out_names, pvtu_file. destruct (Nat.eqb rank 0); intros E; injection E as <- <-; cbn [map fst show o_prefix o_dir o_times]; repeat (cbn [append] in *; rewrite ?app_assoc_s, ?app_nil_r); (split; [reflexivity|]; split; [reflexivity|]; split; reflexivity).
  Qed.
  Lemma outputs_names n rank : forall outs (p : post N) files p', write_outputs n rank p outs = (files, p') ->
    map fst files = map show (flat_map (out_names (o_dir p ++ o_prefix p) n rank) outs) /\ o_prefix p' = o_prefix p /\ o_dir p' = o_dir p /\
    o_times p' = (o_times p ++ (if Nat.eqb rank 0 then map (fun o => (snd o, pvtu_file (o_dir p) (o_prefix p) (fst o))) outs else []))%list.
  Proof.
    induction outs as [|[s t] outs IH]; intros p files p' E; cbn [write_outputs] in E.
    - injection E as <- <-. cbn [map flat_map]. destruct (Nat.eqb rank 0); rewrite app_nil_r; auto.
    - destruct (write_pvtu n rank p s t) as [here p1] eqn:E1. destruct (write_outputs n rank p1 outs) as [later p2] eqn:E2. injection E as <- <-.
      destruct (pvtu_names _ _ _ _ _ _ _ E1) as (A & B & C & D). destruct (IH _ _ _ E2) as (A' & B' & C' & D'). rewrite B, C in *.
      split; [cbn [flat_map]; rewrite !map_app; f_equal; assumption|]. split; [exact B'|]. split; [exact C'|].
      rewrite D', D, <- app_assoc. f_equal. destruct (Nat.eqb rank 0); reflexivity.
  Qed.
  Definition process_names (d : string) (n : nat) (outs : list (nat * N)) (fin : bool) (rank : nat) : list nm :=
    (flat_map (out_names d n rank) outs ++ (if fin then (if Nat.eqb rank 0 then [ND d] else []) else []))%list.
  Lemma process_files_names n (p : post N) outs fin rank : map fst (process_files n p outs fin rank) = map show (process_names (o_dir p ++ o_prefix p) n outs fin rank).
  Proof.
    unfold process_files, process_names. destruct (write_outputs n rank p outs) as [files p'] eqn:E. destruct (outputs_names _ _ _ _ _ _ E) as (A & B & C & _).
    rewrite !map_app. f_equal; [exact A|]. destruct fin; [|reflexivity]. unfold write_pvd. destruct (Nat.eqb rank 0); [|reflexivity]. cbn [map fst show]. rewrite B, C, app_assoc_s. reflexivity.
  Qed.
  Definition run_names (d : string) (n : nat) (outs : list (nat * N)) (fin : bool) : list nm := flat_map (process_names d n outs fin) (seq 0 n).
  Lemma run_files_names n (p : post N) outs fin : map fst (run_files n p outs fin) = map show (run_names (o_dir p ++ o_prefix p) n outs fin).
  Proof.
    unfold run_files, run_names. generalize (seq 0 n) as l. induction l as [|r l IH]; [reflexivity|]. cbn [flat_map]. rewrite !map_app. f_equal; [apply process_files_names|exact IH].
  Qed.

  (** *** Distinct *)
  Lemma nodup_app {A} (l l' : list A) : NoDup l -> NoDup l' -> (forall x, In x l -> ~ In x l') -> NoDup (l ++ l')%list.
  Proof.
    induction l as [|a l IH]; simpl; intros H H' D; [exact H'|]. inversion H as [|? ? NI ND]; subst. constructor.
    - rewrite in_app_iff. intros [I|I]; [exact (NI I)|exact (D a (or_introl eq_refl) I)].
    - apply IH; auto.
  Qed.
  Lemma nodup_flat {A B} (f : A -> list B) (l : list A) : NoDup l -> (forall a, In a l -> NoDup (f a)) -> (forall a a' b, In a l -> In a' l -> In b (f a) -> In b (f a') -> a = a') -> NoDup (flat_map f l).
  Proof.
    induction l as [|a l IH]; intros H F D; [constructor|]. inversion H as [|? ? NI ND]; subst. cbn [flat_map]. apply nodup_app.
    - apply F. left. reflexivity.
    - apply IH; auto; [intros; apply F; right; assumption|]. intros x x' b I I'. apply D; right; assumption.
    - intros b I I'. apply in_flat_map in I'. destruct I' as (a' & J & K). apply NI. rewrite (D a a' b); auto; [left; reflexivity|right; exact J].
  Qed.
  Lemma nodup_map {A B} (f : A -> B) (l : list A) : (forall x y, f x = f y -> x = y) -> NoDup l -> NoDup (map f l).
  Proof.
    intros F. induction l as [|a l IH]; intros H; [constructor|]. inversion H as [|? ? NI ND]; subst. simpl. constructor; [|auto].
    intros I. apply in_map_iff in I. destruct I as (b & E & J). apply F in E. subst. contradiction.
  Qed.
  Lemma nodup_fst {A B} (l : list (A * B)) : NoDup (map fst l) -> NoDup l /\ forall x y, In x l -> In y l -> fst x = fst y -> x = y.
  Proof.
    induction l as [|a l IH]; intros H; [split; [constructor|intros ? ? []]|]. simpl in H. inversion H as [|? ? NI ND]; subst. destruct (IH ND) as [A1 A2]. split.
    - constructor; [|exact A1]. intros I. apply NI. apply in_map. exact I.
    - intros x y [<-|I] [<-|J] E; auto; exfalso; apply NI; [rewrite E|rewrite <- E]; apply in_map; assumption.
  Qed.
  Lemma in_out_names d n rank o x : In x (out_names d n rank o) <-> x = NV d (fst o) rank \/ (rank = 0%nat /\ x = NT d (fst o)).
  Proof. unfold out_names. destruct (Nat.eqb_spec rank 0) as [->|NE]; simpl; intuition. Qed.
  Lemma in_process d n outs fin rank x : In x (process_names d n outs fin rank) <->
    (exists o, In o outs /\ (x = NV d (fst o) rank \/ (rank = 0%nat /\ x = NT d (fst o)))) \/ (fin = true /\ rank = 0%nat /\ x = ND d).
  Proof.
    unfold process_names. rewrite in_app_iff, in_flat_map. split.
    - intros [(o & I & J)|J]; [left; exists o; split; [exact I|apply in_out_names in J; exact J]|]. right. destruct fin; [|destruct J]. destruct (Nat.eqb_spec rank 0); [|destruct J]. destruct J as [<-|[]]. auto.
    - intros [(o & I & J)|(-> & -> & ->)]; [left; exists o; split; [exact I|apply in_out_names; exact J]|]. right. simpl. auto.
  Qed.
  Lemma in_run d n outs fin x : In x (run_names d n outs fin) <->
    (exists o r, In o outs /\ (r < n)%nat /\ x = NV d (fst o) r) \/ (exists o, In o outs /\ (0 < n)%nat /\ x = NT d (fst o)) \/ (fin = true /\ (0 < n)%nat /\ x = ND d).
  Proof.
    unfold run_names. rewrite in_flat_map. split.
    - intros (r & I & J). apply in_seq in I. apply in_process in J. destruct J as [(o & K & [->|[-> ->]])|(-> & -> & ->)].
      + left. exists o, r. repeat split; auto; lia.
      + right. left. exists o. repeat split; auto; lia.
      + right. right. repeat split; auto; lia.
    - intros [(o & r & K & L & ->)|[(o & K & L & ->)|(-> & L & ->)]].
      + exists r. split; [apply in_seq; lia|]. apply in_process. left. exists o. auto.
      + exists 0%nat. split; [apply in_seq; lia|]. apply in_process. left. exists o. auto.
      + exists 0%nat. split; [apply in_seq; lia|]. apply in_process. right. auto.
  Qed.
  Lemma run_names_base d n outs fin x : In x (run_names d n outs fin) -> base_of x = d.
  Proof. intros H. apply in_run in H. destruct H as [(o & r & _ & _ & ->)|[(o & _ & _ & ->)|(_ & _ & ->)]]; reflexivity. Qed.
  Lemma run_names_nodup d n outs fin : NoDup (map fst outs) -> NoDup (run_names d n outs fin).
  Proof.
    intros H. destruct (nodup_fst _ H) as [H1 H2]. unfold run_names. apply nodup_flat.
    - apply seq_NoDup.
    - intros rank _. unfold process_names. apply nodup_app.
      + apply nodup_flat; [exact H1| |].
        * intros o _. unfold out_names. destruct (Nat.eqb rank 0); repeat constructor; simpl; intuition discriminate.
        * intros o o' x I I' J J'. apply in_out_names in J, J'. apply H2; auto. destruct J as [->|[_ ->]], J' as [E|[_ E]]; try discriminate E; injection E; auto.
      + destruct fin; [|constructor]. destruct (Nat.eqb rank 0); [|constructor]. constructor; [intros []|constructor].
      + intros x I J. apply in_flat_map in I. destruct I as (o & _ & I). apply in_out_names in I. destruct fin; [|destruct J]. destruct (Nat.eqb rank 0); [|destruct J]. destruct J as [<-|[]].
        destruct I as [E|[_ E]]; discriminate E.
    - intros r r' x _ _ J J'. apply in_process in J, J'.
      destruct J as [(o & _ & [->|[-> ->]])|(_ & -> & ->)], J' as [(o' & _ & [E|[? E]])|(_ & ? & E)]; try discriminate E; try congruence.
  Qed.
  Lemma run_distinct n (p : post N) outs fin : NoDup (map fst outs) -> NoDup (map fst (run_files n p outs fin)).
  Proof. intros H. rewrite run_files_names. apply nodup_map; [exact show_inj|]. apply run_names_nodup, H. Qed.

  (** Ensembles. *)
  Lemma ensemble_distinct prefix dir members (outs : list (nat * N)) n_expt frames : NoDup (map fst members) -> NoDup (map fst outs) -> NoDup (map fst frames) ->
    NoDup (map fst (ensemble_files prefix dir members outs n_expt frames)).
  Proof.
    intros HM HO HF. destruct (nodup_fst _ HM) as [M1 M2]. 
    assert (G : map fst (flat_map (fun m => run_files (snd m) (mkpost (member_prefix prefix (Some (fst m))) dir []) outs true) members) =
                map show (flat_map (fun m => run_names (dir ++ member_prefix prefix (Some (fst m))) (snd m) outs true) members)).
    { clear. induction members as [|m l IH]; [reflexivity|]. cbn [flat_map]. rewrite !map_app. f_equal; [apply run_files_names|exact IH]. }
    assert (K : map fst (ensemble_files prefix dir members outs n_expt frames) =
                map show (flat_map (fun m => run_names (dir ++ member_prefix prefix (Some (fst m))) (snd m) outs true) members ++ run_names ("" ++ prefix ++ ".expt") n_expt frames false)%list).
    { unfold ensemble_files. etransitivity; [apply map_app|]. rewrite (map_app show). f_equal; [exact G|apply run_files_names]. }
    rewrite K. apply nodup_map; [exact show_inj|]. cbn [append]. apply nodup_app.
    - apply nodup_flat; [exact M1|intros; apply run_names_nodup, HO|]. intros m m' x I I' J J'. apply M2; auto. apply run_names_base in J, J'. rewrite J in J'. clear -J'.
      unfold member_prefix in J'. do 3 apply append_inj_l in J'. apply to_string_inj, J'.
    - apply run_names_nodup, HF.
    - intros x I J. apply in_flat_map in I. destruct I as (m & _ & I). apply run_names_base in I, J. rewrite I in J. unfold member_prefix in J.
      rewrite <- !app_assoc_s in J. rewrite (app_assoc_s "" prefix) in J. cbn [append] in J. change (prefix ++ ".expt") with (prefix ++ (".exp" ++ "t")) in J. rewrite <- (app_assoc_s prefix) in J. exact (digit_end _ _ _ J).
  Qed.
End Names.
