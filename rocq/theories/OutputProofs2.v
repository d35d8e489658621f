(** OutputProofs2.v -- C63: contents and references of the output files. *)
From Coq Require Import ZArith Bool List String Ascii Lia.
From Verif Require Import Base InputModel CellModel EnsembleModel EnsembleProofs MicrostructureModel MicrostructureProofs OutputModel OutputSpec OutputProofs RunModel RunSpec RunProofs.
Import ListNotations.
Local Open Scope string_scope.

(** ** Directories *)
Lemma dir_of_noslash s : dir_of s = "" <-> ~ inS "/" s.
Proof.
  induction s as [|c s IH]; simpl; [tauto|]. destruct (dir_of s) as [|d ds] eqn:E.
  - destruct (Ascii.eqb_spec c "/") as [->|NE]; split; intros H; try discriminate H; auto; [exfalso; tauto|]. intros [X|X]; [congruence|]. apply IH in X; auto.
  - split; intros H; [discriminate H|]. exfalso. assert (X : ~ inS "/" s) by tauto. apply IH in X. discriminate X.
Qed.
Lemma dir_of_app d s : ~ inS "/" s -> dir_of (d ++ s) = dir_of d.
Proof. intros H. induction d as [|c d IH]; simpl; [apply dir_of_noslash, H|]. rewrite IH. reflexivity. Qed.
Lemma dir_of_slash d : dir_of (d ++ "/") = d ++ "/".
Proof. induction d as [|c d IH]; [reflexivity|]. simpl. rewrite IH. destruct (d ++ "/") eqn:E; [destruct d; discriminate E|reflexivity]. Qed.
Lemma dir_of_form s : ends_with_slash (dir_of s).
Proof.
  induction s as [|c s IH]; simpl; [left; reflexivity|]. destruct IH as [->|[d' ->]].
  - destruct (Ascii.eqb_spec c "/") as [->|NE]; [right; exists ""; reflexivity|left; reflexivity].
  - destruct (d' ++ "/") eqn:E; [destruct d'; discriminate E|]. right. exists (String c d'). rewrite <- E. reflexivity.
Qed.
Lemma dir_of_tail d s : inS "/" s -> exists u v, s = u ++ v /\ u <> "" /\ dir_of (d ++ s) = d ++ u.
Proof.
  intros H. induction d as [|c d IH].
  - simpl. assert (X : exists v, s = dir_of s ++ v).
    { clear. induction s as [|c s [v IH]]; [exists ""; reflexivity|]. simpl. destruct (dir_of s) as [|e es] eqn:E.
      - destruct (Ascii.eqb c "/"); [exists s|exists (String c s)]; reflexivity.
      - exists v. rewrite IH at 1. reflexivity. }
    destruct X as [v E]. exists (dir_of s), v. split; [exact E|]. split; [|reflexivity]. intros X. apply dir_of_noslash in X. contradiction.
  - destruct IH as (u & v & E & NU & D). exists u, v. split; [exact E|]. split; [exact NU|]. simpl. rewrite D. destruct (d ++ u) eqn:F; [|reflexivity]. destruct d; [|discriminate F]. contradiction.
Qed.
Lemma app_self d s : d ++ s = s -> d = "".
Proof. intros H. destruct d as [|c d]; [reflexivity|]. apply (f_equal String.length) in H. rewrite append_length in H. simpl in H. lia. Qed.
Lemma app_self_r d s : d ++ s = d -> s = "".
Proof. intros H. apply (append_inj_l d). rewrite app_nil_s. exact H. Qed.
Lemma dir_of_self d s : dir_of (d ++ s) = d <-> ends_with_slash d /\ ~ inS "/" s.
Proof.
  split.
  - intros H. assert (E : ~ inS "/" s).
    { intros I. destruct (dir_of_tail d s I) as (u & v & _ & NU & D). rewrite D in H. apply app_self_r in H. contradiction. }
    split; [|exact E]. rewrite <- H. apply dir_of_form.
  - intros [[->|[d' ->]] H]; rewrite dir_of_app by exact H; [reflexivity|apply dir_of_slash].
Qed.
Lemma absolute_app a b : a <> "" -> (absolute (a ++ b) <-> absolute a).
Proof.
  intros H. destruct a as [|c a]; [contradiction|]. unfold absolute. split; intros [r E]; simpl in E; injection E as -> E; [exists a|exists (a ++ b)]; reflexivity.
Qed.

(** ** Names *)
Definition tail2 (step rank : nat) : string := "." ++ to_string step ++ "." ++ to_string rank ++ ".vtu".
Definition tail1 (step : nat) : string := "." ++ to_string step ++ ".pvtu".
Lemma tail2_slash s r : ~ inS "/" (tail2 s r).
Proof.
  unfold tail2. intros H. simpl in H. destruct H as [H|H]; [discriminate H|]. apply inS_app in H. destruct H as [H|H]; [exact (slash_digit _ H)|]. simpl in H.
  destruct H as [H|H]; [discriminate H|]. apply inS_app in H. destruct H as [H|H]; [exact (slash_digit _ H)|]. simpl in H. repeat (destruct H as [H|H]; [discriminate H|]). exact H.
Qed.
Lemma tail1_slash s : ~ inS "/" (tail1 s).
Proof.
  unfold tail1. intros H. simpl in H. destruct H as [H|H]; [discriminate H|]. apply inS_app in H. destruct H as [H|H]; [exact (slash_digit _ H)|]. simpl in H. repeat (destruct H as [H|H]; [discriminate H|]). exact H.
Qed.
Lemma absolute_pre p t c r : t = String c r -> c <> "/"%char -> (absolute (p ++ t) <-> absolute p).
Proof.
  intros -> NC. destruct p as [|d p]; [|apply absolute_app; discriminate]. unfold absolute. simpl. split; intros [x E]; [injection E as E _; contradiction|discriminate E].
Qed.

(** The reference of a .pvtu file to its piece. *)
Lemma piece_resolves dir prefix s r : resolves (pvtu_file dir prefix s) (prefix ++ tail2 s r) (vtu_file dir prefix s r) <-> (ends_with_slash dir /\ no_slash prefix) \/ (dir = "" /\ absolute prefix).
Proof.
  assert (V : vtu_file dir prefix s r = dir ++ (prefix ++ tail2 s r)) by reflexivity.
  assert (P : pvtu_file dir prefix s = dir ++ (prefix ++ tail1 s)) by reflexivity.
  assert (A : absolute (prefix ++ tail2 s r) <-> absolute prefix) by (eapply absolute_pre; [reflexivity|discriminate]).
  assert (T : (~ inS "/" (prefix ++ tail1 s)) <-> no_slash prefix).
  { unfold no_slash. rewrite inS_app, inS_list. pose proof (tail1_slash s). tauto. }
  unfold resolves. rewrite V, P, A. split.
  - intros [[B E]|[B E]]; [right; split; [exact (app_self _ _ E)|exact B]|]. left. apply append_inj_r in E. symmetry in E. apply dir_of_self in E. rewrite T in E. exact E.
  - intros [[E S]|[-> B]]; [|left; auto]. right. split.
    + intros [x ->]. apply S. simpl. auto.
    + f_equal. symmetry. apply dir_of_self. rewrite T. auto.
Qed.
(** The reference of the .pvd file to a .pvtu file. *)
Lemma record_resolves dir prefix s : resolves (pvd_file dir prefix) (pvtu_file dir prefix s) (pvtu_file dir prefix s) <-> absolute (dir ++ prefix) \/ no_slash (dir ++ prefix).
Proof.
  assert (P : pvtu_file dir prefix s = (dir ++ prefix) ++ tail1 s) by (rewrite app_assoc_s; reflexivity).
  assert (A : absolute ((dir ++ prefix) ++ tail1 s) <-> absolute (dir ++ prefix)) by (eapply absolute_pre; [reflexivity|discriminate]).
  assert (D : pvd_file dir prefix = (dir ++ prefix) ++ ".pvd") by (rewrite app_assoc_s; reflexivity).
  unfold resolves. rewrite P, D, A, dir_of_app by (simpl; intros H; repeat (destruct H as [H|H]; [discriminate H|]); exact H). unfold no_slash. rewrite <- inS_list. split.
  - intros [[B _]|[B E]]; [left; exact B|right]. symmetry in E. apply app_self in E. apply dir_of_noslash, E.
  - intros [B|B]; [left; auto|]. right. split; [|apply dir_of_noslash in B; rewrite B; reflexivity]. intros [x E]. rewrite E in B. apply B. simpl. auto.
Qed.

Lemma is_absolute_spec s : is_absolute s = true <-> absolute s.
Proof.
  destruct s as [|c s]; simpl; unfold absolute; [split; [discriminate|intros [x E]; discriminate E]|]. destruct (Ascii.eqb_spec c "/") as [->|NE]; split; intros H; auto; try discriminate; [exists s; reflexivity|].
  destruct H as [x E]. injection E as E _. contradiction.
Qed.
Lemma option_dir_ok cwd arg dir : absolute cwd -> option_dir cwd arg = Some dir -> absolute dir /\ ends_with_slash dir.
Proof.
  intros [c ->] E. unfold option_dir in E. destruct (String.eqb arg ""); [discriminate|]. injection E as <-. split; [|right; eexists; reflexivity].
  destruct (is_absolute arg) eqn:A; [apply is_absolute_spec in A; destruct A as [x ->]; exists (x ++ "/"); reflexivity|]. eexists. cbn [append]. reflexivity.
Qed.
Lemma absolute_prefix a b : absolute a -> absolute (a ++ b).
Proof. intros [x ->]. exists (x ++ b). reflexivity. Qed.

(** ** The file system *)
Section Contents.
  Context {N : Num}.
  Lemma lookup_in (fs : list (file N)) name c : lookup name fs = Some c -> In (name, c) fs.
  Proof.
    induction fs as [|[n d] fs IH]; simpl; [discriminate|]. destruct (lookup name fs) as [x|] eqn:E; [intros H; injection H as ->; right; auto|].
    destruct (String.eqb_spec n name) as [->|]; [|discriminate]. intros H. injection H as ->. left. reflexivity.
  Qed.
  Lemma lookup_none (fs : list (file N)) name : lookup name fs = None <-> ~ In name (map fst fs).
  Proof.
    induction fs as [|[n d] fs IH]; simpl; [tauto|]. destruct (lookup name fs) as [x|] eqn:E.
    - split; [discriminate|]. intros H. exfalso. apply H. right. apply lookup_in in E. apply (in_map fst) in E. exact E.
    - assert (X : ~ In name (map fst fs)) by (apply IH; reflexivity). destruct (String.eqb_spec n name) as [->|NE]; split; intros H; try discriminate; auto; [exfalso; apply H; left; reflexivity|].
      intros [Y|Y]; [exact (NE Y)|exact (X Y)].
  Qed.
  Lemma lookup_nodup (fs : list (file N)) name c : NoDup (map fst fs) -> In (name, c) fs -> lookup name fs = Some c.
  Proof.
    induction fs as [|[n d] fs IH]; simpl; intros H I; [contradiction|]. inversion H as [|? ? NI ND]; subst. destruct I as [I|I].
    - injection I as -> ->. assert (X : lookup name fs = None) by (apply lookup_none; exact NI). rewrite X, String.eqb_refl. reflexivity.
    - rewrite (IH ND I). reflexivity.
  Qed.
  Lemma lookup_app (f g : list (file N)) name : lookup name (f ++ g)%list = match lookup name g with Some c => Some c | None => lookup name f end.
  Proof. induction f as [|[n d] f IH]; simpl; [destruct (lookup name g); reflexivity|]. rewrite IH. destruct (lookup name g); reflexivity. Qed.

  (** *** What is written *)
  Definition here_files (n rank : nat) (dir prefix : string) (o : nat * N) : list (file N) :=
    (vtu_file dir prefix (fst o) rank, Vtu (snd o)) ::
    (if Nat.eqb rank 0 then [(pvtu_file dir prefix (fst o), Pvtu (map (fun i => prefix ++ tail2 (fst o) i) (seq 0 n)))] else []).
  Lemma pvtu_files n rank (p : post N) s t : fst (write_pvtu n rank p s t) = here_files n rank (o_dir p) (o_prefix p) (s, t).
  Proof.
    unfold write_pvtu, here_files, vtu_file. destruct (Nat.eqb rank 0); cbn [fst snd]; rewrite !app_assoc_s; reflexivity.
  Qed.
  Lemma outputs_files n rank : forall outs (p : post N), fst (write_outputs n rank p outs) = flat_map (here_files n rank (o_dir p) (o_prefix p)) outs.
  Proof.
    induction outs as [|[s t] outs IH]; intros p; [reflexivity|]. cbn [write_outputs flat_map]. pose proof (pvtu_files n rank p s t) as E. destruct (write_pvtu n rank p s t) as [here p1] eqn:E1.
    destruct (pvtu_names _ _ _ _ _ _ _ E1) as (_ & B & C & _). specialize (IH p1). destruct (write_outputs n rank p1 outs) as [later p2]. cbn [fst] in *. rewrite B, C in IH. rewrite E, IH. reflexivity.
  Qed.
  Lemma process_written n dir prefix (outs : list (nat * N)) fin rank : process_files n (mkpost prefix dir []) outs fin rank =
    (flat_map (here_files n rank dir prefix) outs ++ (if fin then (if Nat.eqb rank 0 then [(pvd_file dir prefix, Pvd (map (fun o => (snd o, pvtu_file dir prefix (fst o))) outs))] else []) else []))%list.
  Proof.
    unfold process_files. pose proof (outputs_files n rank outs (mkpost prefix dir [])) as E. destruct (write_outputs n rank (mkpost prefix dir []) outs) as [files p'] eqn:W.
    destruct (outputs_names _ _ _ _ _ _ W) as (_ & B & C & D). cbn [fst o_dir o_prefix o_times] in *. rewrite E. f_equal. destruct fin; [|reflexivity]. unfold write_pvd. rewrite B, C, D. destruct (Nat.eqb rank 0); reflexivity.
  Qed.
  Lemma in_run_files n dir prefix (outs : list (nat * N)) fin name c : In (name, c) (run_files n (mkpost prefix dir []) outs fin) <->
    (exists s t r, In (s, t) outs /\ (r < n)%nat /\ name = vtu_file dir prefix s r /\ c = Vtu t) \/
    (exists s t, In (s, t) outs /\ (0 < n)%nat /\ name = pvtu_file dir prefix s /\ c = Pvtu (map (fun i => prefix ++ tail2 s i) (seq 0 n))) \/
    (fin = true /\ (0 < n)%nat /\ name = pvd_file dir prefix /\ c = Pvd (map (fun o => (snd o, pvtu_file dir prefix (fst o))) outs)).
  Proof.
    unfold run_files. rewrite in_flat_map. split.
    - intros (r & I & J). apply in_seq in I. rewrite process_written, in_app_iff, in_flat_map in J. destruct J as [([s t] & K & J)|J].
      + unfold here_files in J. cbn [fst snd] in J. destruct J as [J|J].
        * injection J as <- <-. left. exists s, t, r. repeat split; auto; lia.
        * destruct (Nat.eqb_spec r 0); [|destruct J]. destruct J as [J|[]]. injection J as <- <-. right. left. exists s, t. repeat split; auto; lia.
      + destruct fin; [|destruct J]. destruct (Nat.eqb_spec r 0); [|destruct J]. destruct J as [J|[]]. injection J as <- <-. right. right. repeat split; auto; lia.
    - intros [(s & t & r & I & L & -> & ->)|[(s & t & I & L & -> & ->)|(-> & L & -> & ->)]].
      + exists r. split; [apply in_seq; lia|]. rewrite process_written, in_app_iff, in_flat_map. left. exists (s, t). split; [exact I|]. left. reflexivity.
      + exists 0%nat. split; [apply in_seq; lia|]. rewrite process_written, in_app_iff, in_flat_map. left. exists (s, t). split; [exact I|]. right. left. reflexivity.
      + exists 0%nat. split; [apply in_seq; lia|]. rewrite process_written, in_app_iff. right. left. reflexivity.
  Qed.
  Lemma vtu_written n dir prefix (outs : list (nat * N)) fin s t r : NoDup (map fst outs) -> In (s, t) outs -> (r < n)%nat ->
    lookup (vtu_file dir prefix s r) (run_files n (mkpost prefix dir []) outs fin) = Some (Vtu t).
  Proof. intros H I L. apply lookup_nodup; [apply run_distinct, H|]. apply in_run_files. left. exists s, t, r. auto. Qed.
  Lemma pvtu_written n dir prefix (outs : list (nat * N)) fin s t : NoDup (map fst outs) -> In (s, t) outs -> (0 < n)%nat ->
    exists pieces, lookup (pvtu_file dir prefix s) (run_files n (mkpost prefix dir []) outs fin) = Some (Pvtu pieces) /\ List.length pieces = n /\
    forall r, (r < n)%nat -> exists name, nth_error pieces r = Some name /\
      (resolves (pvtu_file dir prefix s) name (vtu_file dir prefix s r) <-> (ends_with_slash dir /\ no_slash prefix) \/ (dir = "" /\ absolute prefix)).
  Proof.
    intros H I L. exists (map (fun i => prefix ++ tail2 s i) (seq 0 n)). split; [|split].
    - apply lookup_nodup; [apply run_distinct, H|]. apply in_run_files. right. left. exists s, t. auto.
    - rewrite map_length. apply seq_length.
    - intros r R. exists (prefix ++ tail2 s r). split; [|apply piece_resolves]. apply (map_nth_error (fun i => prefix ++ tail2 s i)). rewrite nth_error_nth' with (d := 0%nat) by (rewrite seq_length; exact R). rewrite seq_nth by exact R. reflexivity.
  Qed.
  Lemma pvd_written n dir prefix (outs : list (nat * N)) : NoDup (map fst outs) -> (0 < n)%nat ->
    exists records, lookup (pvd_file dir prefix) (run_files n (mkpost prefix dir []) outs true) = Some (Pvd records) /\ map fst records = map snd outs /\
    forall i s t, nth_error outs i = Some (s, t) -> exists name, nth_error records i = Some (t, name) /\
      (resolves (pvd_file dir prefix) name (pvtu_file dir prefix s) <-> absolute (dir ++ prefix) \/ no_slash (dir ++ prefix)).
  Proof.
    intros H L. eexists. split; [|split].
    - apply lookup_nodup; [apply run_distinct, H|]. apply in_run_files. right. right. auto.
    - rewrite map_map. reflexivity.
    - intros i s t E. exists (pvtu_file dir prefix s). split; [|apply record_resolves]. apply (map_nth_error (fun o : nat * N => (snd o, pvtu_file dir prefix (fst o)))) in E. exact E.
  Qed.
  Lemma no_pvd n dir prefix (outs : list (nat * N)) : lookup (pvd_file dir prefix) (run_files n (mkpost prefix dir []) outs false) = None.
  Proof.
    apply lookup_none. intros H. apply in_map_iff in H. destruct H as ([name c] & E & I). simpl in E. subst name. apply in_run_files in I.
    assert (X : forall x, show x = pvd_file dir prefix -> x = ND (dir ++ prefix)) by (intros x E; apply show_inj; rewrite E; cbn [show]; rewrite app_assoc_s; reflexivity).
    destruct I as [(s & t & r & _ & _ & E & _)|[(s & t & _ & _ & E & _)|(E & _)]]; [| |discriminate E].
    - specialize (X (NV (dir ++ prefix) s r)). cbn [show] in X. rewrite app_assoc_s in X. specialize (X (eq_sym E)). discriminate X.
    - specialize (X (NT (dir ++ prefix) s)). cbn [show] in X. rewrite app_assoc_s in X. specialize (X (eq_sym E)). discriminate X.
  Qed.
  Lemma only_these n dir prefix (outs : list (nat * N)) fin name : In name (map fst (run_files n (mkpost prefix dir []) outs fin)) ->
    (exists s t r, In (s, t) outs /\ (r < n)%nat /\ name = vtu_file dir prefix s r) \/ (exists s t, In (s, t) outs /\ name = pvtu_file dir prefix s) \/ (fin = true /\ name = pvd_file dir prefix).
  Proof.
    intros H. apply in_map_iff in H. destruct H as ([m c] & E & I). simpl in E. subst m. apply in_run_files in I.
    destruct I as [(s & t & r & A & B & C & _)|[(s & t & A & B & C & _)|(A & B & C & _)]]; [left; exists s, t, r; auto|right; left; exists s, t; auto|right; right; auto].
  Qed.
End Contents.
