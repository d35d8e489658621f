(** OutputProofs3.v -- C63: outputs of a run, restarts; C64: strain and material fields. *)
From Coq Require Import ZArith Bool List String Ascii Lia Reals Lra Floats SpecFloat.
From Verif Require Import Base InputModel CellModel EnsembleModel EnsembleProofs MicrostructureModel MicrostructureProofs OutputModel OutputSpec OutputProofs OutputProofs2 RunModel RunSpec RunProofs RefineProofs MechProofs.
Import ListNotations.
Local Open Scope string_scope.

(** ** The outputs of a run *)
Section Runs.
  Context {N : Num}.
  Lemma passes_increase (cfg : config N) reread redep fuel st es st' fin : run cfg reread redep fuel st = Ok (es, st', fin) -> map (fun e => e_n e) es = seq (s_n st) (List.length es).
  Proof.
    intros H. apply run_schedule in H. destruct H as [_ H]. apply list_ext_nth; [rewrite map_length, seq_length; reflexivity|]. intros i L. rewrite seq_length in L.
    destruct (nth_error es i) as [e|] eqn:E; [|apply nth_error_None in E; lia]. rewrite (map_nth_error _ _ _ E). destruct (H i e E) as [-> _].
    rewrite nth_error_nth' with (d := 0%nat) by (rewrite seq_length; exact L). rewrite seq_nth by exact L. reflexivity.
  Qed.
  Lemma outputs_distinct (cfg : config N) reread redep fuel st es st' fin : run cfg reread redep fuel st = Ok (es, st', fin) -> (1 <= s_n st)%nat -> NoDup (map fst (outputs st es)).
  Proof.
    intros H L. pose proof (passes_increase _ _ _ _ _ _ _ _ H) as E. unfold outputs. cbn [map fst]. rewrite map_map. cbn [fst].
    assert (I : forall l : list (event N), incl (map (fun e => e_n e) (filter e_output l)) (map (fun e => e_n e) l)).
    { intros l x I. apply in_map_iff in I. destruct I as (e & <- & I). apply filter_In in I. apply in_map_iff. exists e. tauto. }
    assert (D : forall l : list (event N), NoDup (map (fun e => e_n e) l) -> NoDup (map (fun e => e_n e) (filter e_output l))).
    { induction l as [|e l IH]; intros ND; [constructor|]. simpl in *. inversion ND as [|? ? NI ND']; subst. destruct (e_output e); [simpl; constructor; [|auto]|auto]. intros X. apply NI. apply I, X. }
    constructor.
    - intros X. apply I in X. rewrite E in X. apply in_seq in X. lia.
    - apply D. rewrite E. apply seq_NoDup.
  Qed.
  Lemma start_n (cfg : config N) restart ps dep st : start cfg restart ps dep = Ok st -> s_n st = (match restart with Some (_, n) => n | None => 0 end + 1)%nat.
  Proof.
    unfold start. destruct (startup_duration cfg ps) as [[e d]| |]; cbn [bind]; try discriminate. destruct restart as [[t n]|]; intros H; injection H as <-; reflexivity.
  Qed.
  Lemma run_outputs_distinct (cfg : config N) reread redep restart ps dep fuel st es st' fin : start cfg restart ps dep = Ok st -> run cfg reread redep fuel st = Ok (es, st', fin) -> NoDup (map fst (outputs st es)).
  Proof. intros S H. apply start_n in S. eapply outputs_distinct; [exact H|lia]. Qed.

  (** A run, interrupted or not, followed by another one in the same directory. *)
  Lemma second_pvd n dir prefix (outs1 outs2 : list (nat * N)) fin1 : NoDup (map fst outs2) -> (0 < n)%nat ->
    exists records, lookup (pvd_file dir prefix) (run_files n (mkpost prefix dir []) outs1 fin1 ++ run_files n (mkpost prefix dir []) outs2 true)%list = Some (Pvd records) /\ map fst records = map snd outs2.
  Proof.
    intros H L. destruct (pvd_written n dir prefix outs2 H L) as (records & A & B & _). exists records. rewrite lookup_app, A. auto.
  Qed.
  Lemma first_kept n dir prefix (outs1 outs2 : list (nat * N)) fin1 fin2 s t r : NoDup (map fst outs1) -> In (s, t) outs1 -> ~ In s (map fst outs2) -> (r < n)%nat ->
    lookup (vtu_file dir prefix s r) (run_files n (mkpost prefix dir []) outs1 fin1 ++ run_files n (mkpost prefix dir []) outs2 fin2)%list = Some (Vtu t).
  Proof.
    intros H I NI L. rewrite lookup_app. assert (X : lookup (vtu_file dir prefix s r) (run_files n (mkpost prefix dir []) outs2 fin2) = None).
    { apply lookup_none. rewrite run_files_names. intros J. apply in_map_iff in J. destruct J as (x & E & J). apply in_run in J.
      assert (K : x = NV (dir ++ prefix) s r) by (apply show_inj; rewrite E; cbn [show]; rewrite app_assoc_s; reflexivity). subst x.
      destruct J as [(o & q & J & _ & F)|[(o & _ & _ & F)|(_ & _ & F)]]; try discriminate F. injection F as E1 _. apply NI. rewrite E1. apply in_map, J. }
    rewrite X. apply vtu_written; auto.
  Qed.
End Runs.

(** ** C64: strain *)
Section Strain.
  Context {N : Num}.
  Local Open Scope num_scope.
  Variables (dim : nat) (g : nat -> nat -> N).
  Local Notation sym j k := ((g j k + g k j) / nZ 2).
  Lemma row_ok j : (j < dim)%nat -> forall n s (v : list N), (s + n <= dim)%nat -> List.length v = (dim * dim)%nat ->
    exists w, fold_left (fun acc k => do x <- acc; update x (j * dim + k) (sym j k)) (seq s n) (Ok v) = Ok w /\ List.length w = (dim * dim)%nat /\
    forall i, nth_error w i = if (Nat.leb (j * dim + s) i && Nat.ltb i (j * dim + s + n))%bool then Some (sym j (i - j * dim)) else nth_error v i.
  Proof.
    intros J. induction n as [|n IH]; intros s v HS L.
    - exists v. cbn [seq fold_left]. split; [reflexivity|]. split; [exact L|]. intros i. destruct (Nat.leb_spec (j * dim + s) i), (Nat.ltb_spec i (j * dim + s + 0)); cbn [andb]; try reflexivity. lia.
    - cbn [seq fold_left bind]. assert (B : (j * dim + s < List.length v)%nat) by (rewrite L; nia). destruct (update_total v (j * dim + s) (sym j s) B) as (v1 & E & L1 & _).
      rewrite E. destruct (IH (S s) v1) as (w & W & LW & F); [lia|rewrite L1; exact L|]. exists w. split; [exact W|]. split; [exact LW|]. intros i. rewrite F, (update_nth _ _ _ _ E).
      destruct (Nat.leb_spec (j * dim + S s) i), (Nat.ltb_spec i (j * dim + S s + n)), (Nat.leb_spec (j * dim + s) i), (Nat.ltb_spec i (j * dim + s + S n)), (Nat.eqb_spec i (j * dim + s)); cbn [andb]; try lia; try reflexivity.
      subst i. replace (j * dim + s - j * dim)%nat with s by lia. reflexivity.
  Qed.
  Lemma rows_ok : forall n s (v : list N), (s + n <= dim)%nat -> List.length v = (dim * dim)%nat ->
    exists w, fold_left (fun acc j => strain_row dim g j acc) (seq s n) (Ok v) = Ok w /\ List.length w = (dim * dim)%nat /\
    forall j k, (j < dim)%nat -> (k < dim)%nat -> nth_error w (j * dim + k) = if (Nat.leb s j && Nat.ltb j (s + n))%bool then Some (sym j k) else nth_error v (j * dim + k).
  Proof.
    induction n as [|n IH]; intros s v HS L.
    - exists v. cbn [seq fold_left]. split; [reflexivity|]. split; [exact L|]. intros j k _ _. destruct (Nat.leb_spec s j), (Nat.ltb_spec j (s + 0)); cbn [andb]; try reflexivity. lia.
    - cbn [seq fold_left]. destruct (row_ok s ltac:(lia) dim 0 v ltac:(lia) L) as (v1 & E & L1 & F1). unfold strain_row at 2. rewrite E.
      destruct (IH (S s) v1 ltac:(lia) L1) as (w & W & LW & F). exists w. split; [exact W|]. split; [exact LW|]. intros j k J K. rewrite F, F1 by assumption.
      destruct (Nat.leb_spec (S s) j), (Nat.ltb_spec j (S s + n)), (Nat.leb_spec s j), (Nat.ltb_spec j (s + S n)); cbn [andb]; try lia; try reflexivity.
      + destruct (Nat.leb_spec (s * dim + 0) (j * dim + k)), (Nat.ltb_spec (j * dim + k) (s * dim + 0 + dim)); cbn [andb]; try reflexivity. exfalso; nia.
      + assert (j = s) by lia. subst j. destruct (Nat.leb_spec (s * dim + 0) (s * dim + k)), (Nat.ltb_spec (s * dim + k) (s * dim + 0 + dim)); cbn [andb]; try lia. replace (s * dim + k - s * dim)%nat with k by lia. reflexivity.
      + destruct (Nat.leb_spec (s * dim + 0) (j * dim + k)), (Nat.ltb_spec (j * dim + k) (s * dim + 0 + dim)); cbn [andb]; try reflexivity. exfalso; nia.
  Qed.
  Lemma strain_ok (out : list N) : List.length out = (dim * dim)%nat ->
    exists v, strain_point dim g out = Ok v /\ List.length v = (dim * dim)%nat /\ forall j k, (j < dim)%nat -> (k < dim)%nat -> entry dim v j k = Some (sym j k).
  Proof.
    intros L. destruct (rows_ok dim 0 out ltac:(lia) L) as (v & E & LV & F). exists v. split; [exact E|]. split; [exact LV|]. intros j k J K. unfold entry. rewrite F by assumption.
    destruct (Nat.leb_spec 0 j), (Nat.ltb_spec j (0 + dim)); cbn [andb]; try lia. reflexivity.
  Qed.
End Strain.

Lemma SFadd_comm x y : SFadd prec emax x y = SFadd prec emax y x.
Proof.
  destruct x as [sx|sx| |sx mx ex], y as [sy|sy| |sy my ey]; cbn [SFadd]; try reflexivity; try (destruct sx, sy; reflexivity).
  rewrite (Z.min_comm ey ex). rewrite Z.add_comm. reflexivity.
Qed.
Lemma float_add_comm (x y : float) : (x + y)%float = (y + x)%float.
Proof. apply FloatAxioms.Prim2SF_inj. rewrite !FloatAxioms.add_spec. apply SFadd_comm. Qed.
Lemma strain_symmetric_F dim (g : nat -> nat -> float) out v : strain_point (N := FNum) dim g out = Ok v -> List.length out = (dim * dim)%nat -> forall j k, (j < dim)%nat -> (k < dim)%nat -> entry dim v j k = entry dim v k j.
Proof.
  intros E L j k J K. destruct (strain_ok (N := FNum) dim g out L) as (w & E' & _ & F). pose proof (eq_trans (eq_sym E) E') as X. injection X as ->. rewrite (F j k), (F k j) by assumption. f_equal.
  change ((g j k + g k j) / 2 = (g k j + g j k) / 2)%float. rewrite (float_add_comm (g j k)). reflexivity.
Qed.

(** ** C64: material *)
Section Material.
  Context {N : Num}.
  Lemma assoc_none m k : assoc m k = None <-> ~ In k (map fst m).
  Proof.
    induction m as [|[a b] m IH]; simpl; [tauto|]. destruct (Nat.eqb_spec a k) as [->|NE]; [split; [discriminate|tauto]|]. rewrite IH. tauto.
  Qed.
  Lemma dofs_map_dofs cells : forall i, map fst (dofs_map_from i cells) = map snd (filter fst cells).
  Proof. induction cells as [|[[] d] cells IH]; intros i; simpl; [reflexivity| |]; rewrite ?IH; reflexivity. Qed.
  Lemma dofs_map_at cells : forall i k d, NoDup (map snd (filter fst cells)) -> nth_error cells k = Some (true, d) -> assoc (dofs_map_from i cells) d = Some (i + owned_before cells k)%nat.
  Proof.
    unfold owned_before. induction cells as [|[b e] cells IH]; intros i k d ND E; [destruct k; discriminate E|]. destruct k as [|k].
    - cbn [nth_error] in E. injection E as -> ->. cbn [dofs_map_from assoc firstn filter List.length]. rewrite Nat.eqb_refl. f_equal. lia.
    - cbn [nth_error] in E. destruct b; cbn [dofs_map_from assoc firstn filter fst List.length] in *.
      + cbn [map snd] in ND. inversion ND as [|? ? NI ND']; subst. destruct (Nat.eqb_spec e d) as [->|NE].
        * exfalso. apply NI. apply in_map_iff. exists (true, d). split; [reflexivity|]. apply filter_In. split; [apply nth_error_In in E; exact E|reflexivity].
        * rewrite (IH (S i) k d ND' E). f_equal. lia.
      + apply IH; assumption.
  Qed.
  Variables (n_states : nat) (state : nat -> nat -> N).
  Lemma material_ok m : forall cells, (forall k d, nth_error cells k = Some (true, d) -> exists i, assoc m d = Some i) ->
    exists v, material_dataout n_states state m cells = Ok v /\ List.length v = List.length cells /\
    forall k, (forall d, nth_error cells k = Some (false, d) -> nth_error v k = Some (nZ 0, nZ 0, nZ 0)) /\
              (forall d i, nth_error cells k = Some (true, d) -> assoc m d = Some i -> nth_error v k = Some (if Nat.ltb 2 n_states then state 2 i else nZ 0, if Nat.ltb 1 n_states then state 1 i else nZ 0, state 0 i)).
  Proof.
    induction cells as [|[b e] cells IH]; intros H.
    - exists []. split; [reflexivity|]. split; [reflexivity|]. intros [|k]; split; intros; discriminate.
    - destruct IH as (v & E & L & F); [intros k d X; exact (H (S k) d X)|]. destruct b.
      + destruct (H 0%nat e eq_refl) as [i0 A]. cbn [material_dataout]. rewrite A, E. cbn [bind]. eexists. split; [reflexivity|]. split; [cbn [List.length]; rewrite L; reflexivity|].
        intros [|k]; [|exact (F k)]. cbn [nth_error]. split; [discriminate|]. intros d i X Y. injection X as ->. rewrite A in Y. injection Y as ->. reflexivity.
      + cbn [material_dataout]. rewrite E. cbn [bind]. eexists. split; [reflexivity|]. split; [cbn [List.length]; rewrite L; reflexivity|].
        intros [|k]; [|exact (F k)]. cbn [nth_error]. split; [reflexivity|discriminate].
  Qed.
  Lemma material_numbered cells : NoDup (map snd (filter fst cells)) ->
    exists v, material_dataout n_states state (dofs_map_from 0 cells) cells = Ok v /\ List.length v = List.length cells /\
    forall k, (forall d, nth_error cells k = Some (false, d) -> nth_error v k = Some (nZ 0, nZ 0, nZ 0)) /\
              (forall d, nth_error cells k = Some (true, d) -> nth_error v k = Some (if Nat.ltb 2 n_states then state 2 (owned_before cells k) else nZ 0, if Nat.ltb 1 n_states then state 1 (owned_before cells k) else nZ 0, state 0 (owned_before cells k))).
  Proof.
    intros ND. destruct (material_ok (dofs_map_from 0 cells) cells) as (v & E & L & F).
    - intros k d X. exists (0 + owned_before cells k)%nat. apply dofs_map_at; assumption.
    - exists v. split; [exact E|]. split; [exact L|]. intros k. destruct (F k) as [F1 F2]. split; [exact F1|]. intros d X. apply (F2 d _ X). apply (dofs_map_at cells 0 k d ND X).
  Qed.
  Lemma material_throw m cells : material_dataout n_states state m cells = Throw <-> exists d, In (true, d) cells /\ ~ In d (map fst m).
  Proof.
    induction cells as [|[b e] cells IH]; [split; [discriminate|intros (d & [] & _)]|]. cbn [material_dataout].
    assert (NU : forall cs, material_dataout n_states state m cs <> UB).
    { clear. induction cs as [|[b e] cs IH]; [discriminate|]. cbn [material_dataout]. destruct b; [destruct (assoc m e)|]; cbn [bind]; try discriminate; destruct (material_dataout n_states state m cs); cbn [bind]; try discriminate; exact IH. }
    destruct b.
    - destruct (assoc m e) as [i|] eqn:A; cbn [bind].
      + destruct (material_dataout n_states state m cells) as [v| |] eqn:E; cbn [bind].
        * split; [discriminate|]. intros (d & [X|X] & Y); [injection X as ->; apply assoc_none in Y; congruence|]. assert (C : @Ok (list (N * N * N)) v = Throw) by (apply IH; exists d; auto). discriminate C.
        * split; [intros _|reflexivity]. destruct (proj1 IH eq_refl) as (d & X & Y). exists d. split; [right; exact X|exact Y].
        * exfalso. exact (NU cells E).
      + split; [intros _|reflexivity]. exists e. split; [left; reflexivity|]. apply assoc_none, A.
    - cbn [bind]. destruct (material_dataout n_states state m cells) as [v| |] eqn:E; cbn [bind].
      * split; [discriminate|]. intros (d & [X|X] & Y); [discriminate X|]. assert (C : @Ok (list (N * N * N)) v = Throw) by (apply IH; exists d; auto). discriminate C.
      * split; [intros _|reflexivity]. destruct (proj1 IH eq_refl) as (d & X & Y). exists d. split; [right; exact X|exact Y].
      * exfalso. exact (NU cells E).
  Qed.
End Material.

(** ** Output directories *)
Section Directories.
  Context {N : Num}.
  Lemma option_references cwd arg dir prefix n (outs : list (nat * N)) : absolute cwd -> option_dir cwd arg = Some dir -> no_slash prefix -> NoDup (map fst outs) -> (0 < n)%nat ->
    let fs := run_files n (mkpost prefix dir []) outs true in
    exists records, lookup (pvd_file dir prefix) fs = Some (Pvd records) /\ List.length records = List.length outs /\
    forall i s t, nth_error outs i = Some (s, t) ->
      exists name pieces, nth_error records i = Some (t, name) /\ resolves (pvd_file dir prefix) name (pvtu_file dir prefix s) /\
      lookup (pvtu_file dir prefix s) fs = Some (Pvtu pieces) /\ List.length pieces = n /\
      forall r, (r < n)%nat -> exists piece, nth_error pieces r = Some piece /\ resolves (pvtu_file dir prefix s) piece (vtu_file dir prefix s r) /\ lookup (vtu_file dir prefix s r) fs = Some (Vtu t).
  Proof.
    intros C O P H L fs. destruct (option_dir_ok _ _ _ C O) as [A E]. destruct (pvd_written n dir prefix outs H L) as (records & R1 & R2 & R3). exists records. split; [exact R1|].
    split; [apply (f_equal (@List.length _)) in R2; rewrite !map_length in R2; exact R2|]. intros i s t X. destruct (R3 i s t X) as (name & Y & Z). assert (I : In (s, t) outs) by (apply nth_error_In in X; exact X).
    destruct (pvtu_written n dir prefix outs true s t H I L) as (pieces & P1 & P2 & P3). exists name, pieces. split; [exact Y|]. split; [apply Z; left; apply absolute_prefix, A|]. split; [exact P1|]. split; [exact P2|].
    intros r Q. destruct (P3 r Q) as (piece & S1 & S2). exists piece. split; [exact S1|]. split; [apply S2; left; auto|]. apply vtu_written; auto.
  Qed.
  Lemma make_post_files db member p prefix n (outs : list (nat * N)) fin name : make_post db member = Ok p -> get_str db ["filename_prefix"] = Ok prefix ->
    In name (map fst (run_files n p outs fin)) -> exists rest, name = get_def Some "" db ["output_dir"] ++ member_prefix prefix member ++ rest.
  Proof.
    unfold make_post. intros M E. rewrite E in M. cbn [bind] in M. injection M as <-. intros I. apply only_these in I.
    destruct I as [(s & t & r & _ & _ & ->)|[(s & t & _ & ->)|(_ & ->)]]; eexists; reflexivity.
  Qed.
  Lemma make_coupled_files db member p prefix n (outs : list (nat * N)) fin name : make_post_coupled db member = Ok p -> get_str db ["filename_prefix"] = Ok prefix ->
    In name (map fst (run_files n p outs fin)) -> exists rest, name = member_prefix prefix member ++ rest.
  Proof.
    unfold make_post_coupled. intros M E. rewrite E in M. cbn [bind] in M. injection M as <-. intros I. apply only_these in I.
    destruct I as [(s & t & r & _ & _ & ->)|[(s & t & _ & ->)|(_ & ->)]]; eexists; reflexivity.
  Qed.
End Directories.
