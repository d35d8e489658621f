(** CellProofs5.v -- activation of material: the theorems. *)
From Coq Require Import Bool List Floats Lia Arith.
From Verif Require Import Base CellModel CellSpec CellProofs CellProofs2 CellProofs3 CellProofs4.
Import ListNotations.

Section Theorems.
  Variables (n_dofs n_states : nat) (w : world) (elements : list (list (list nat))) (cs sn : list float) (first last : nat)
            (new_owner node_owner : nat -> nat) (temperature : float).
  Hypothesis AI : activation_input n_dofs n_states w elements cs sn last new_owner node_owner.
  Let run := add_material n_dofs n_states w elements cs sn first last new_owner node_owner temperature.

  (** Everything in terms of a view. *)
  Lemma unfolded : exists v sol', w = world_of v (n_ranks w) (w_cells w) (w_sol w) /\
    (forall pos c, nth_error (w_cells w) pos = Some c -> List.length (i_state v pos) = n_states) /\
    (forall m, sol' m = new_sol n_dofs (n_ranks w) (w_cells w) (w_sol w) elements first last new_owner node_owner temperature m) /\
    run = Ok (world_of (new_info v (w_cells w) elements cs sn first last) (n_ranks w) (new_cells (w_cells w) elements first last new_owner) sol',
              map act_melted (map (act_of n_dofs n_states v (w_cells w) (w_sol w) elements cs sn first last) (seq 0 (n_ranks w)))) /\
    well_formed n_dofs n_states (world_of (new_info v (w_cells w) elements cs sn first last) (n_ranks w) (new_cells (w_cells w) elements first last new_owner) sol').
  Proof.
    destruct AI as [WF ND [C1 C2 C3] A4 A5 A6 A7]. destruct (view_exists _ _ _ WF) as (v & Ew & HS).
    destruct (add_material_result n_dofs n_states (n_ranks w) v (w_cells w) (w_sol w) elements cs sn first last new_owner node_owner temperature ND
                (wf_nodes _ _ _ WF) (wf_owner _ _ _ WF) HS C1 C2 C3 A4 A5) as (sol' & S1 & S2).
    exists v, sol'. split; [exact Ew|]. split; [exact HS|]. split; [exact S1|]. split; [unfold run; rewrite Ew at 1; exact S2|].
    eapply new_world_wf; first [exact ND | exact (wf_nodes _ _ _ WF) | exact (wf_owner _ _ _ WF) | exact HS | exact A6 | eassumption].
  Qed.

  Lemma run_ok : exists w' flags, run = Ok (w', flags) /\ well_formed n_dofs n_states w' /\ n_ranks w' = n_ranks w.
  Proof.
    destruct unfolded as (v & sol' & _ & _ & _ & R & WF). eexists _, _. split; [exact R|]. split; [exact WF|].
    unfold n_ranks at 1. cbn. now rewrite map_length, seq_length.
  Qed.

  Lemma el_nth pos c i : nth_error (w_cells w) pos = Some c -> i < List.length cs ->
    (box_has w elements i pos <-> In pos (nth i (nth (c_owner c) elements []) [])).
  Proof.
    intros E Li. pose proof (wf_owner _ _ _ (ai_wf _ _ _ _ _ _ _ _ _ AI) c (nth_error_In _ _ E)) as O.
    destruct (ai_candidates _ _ _ _ _ _ _ _ _ AI) as [C1 C2 C3].
    destruct (nth_error elements (c_owner c)) as [el|] eqn:Ee; [|apply nth_error_None in Ee; unfold n_ranks in C1; lia].
    rewrite (nth_error_nth _ _ [] Ee). pose proof (C2 el (nth_error_In _ _ Ee)) as L. split.
    - intros (c0 & el0 & l & E0 & Ee0 & El & HI). rewrite E in E0. injection E0 as <-. rewrite Ee in Ee0. injection Ee0 as <-.
      now rewrite (nth_error_nth _ _ [] El).
    - intros HI. exists c, el, (nth i el []). split; [exact E|]. split; [exact Ee|]. split; [|exact HI]. apply nth_error_nth'. lia.
  Qed.

  Variables (w' : world) (flags : list (list bool)).
  Hypothesis RUN : run = Ok (w', flags).

  Lemma facts : exists v, w = world_of v (n_ranks w) (w_cells w) (w_sol w) /\
    w_cells w' = new_cells (w_cells w) elements first last new_owner /\
    (exists sol', w' = world_of (new_info v (w_cells w) elements cs sn first last) (n_ranks w) (new_cells (w_cells w) elements first last new_owner) sol') /\
    (forall m, w_sol w' m = new_sol n_dofs (n_ranks w) (w_cells w) (w_sol w) elements first last new_owner node_owner temperature m) /\
    flags = map act_melted (map (act_of n_dofs n_states v (w_cells w) (w_sol w) elements cs sn first last) (seq 0 (n_ranks w))).
  Proof.
    destruct unfolded as (v & sol' & Ew & _ & HS & R & _). rewrite RUN in R. injection R as R1 R2.
    exists v. split; [exact Ew|]. split; [now rewrite R1|]. split; [eauto|]. split; [|exact R2]. intros m. rewrite R1. apply HS.
  Qed.

  Lemma cells_after pos c : nth_error (w_cells w) pos = Some c ->
    exists c', nth_error (w_cells w') pos = Some c' /\ c_nodes c' = c_nodes c /\ c_owner c' = new_owner pos /\
      (c_active c' = true <-> c_active c = true \/ exists i, first <= i < last /\ box_has w elements i pos).
  Proof.
    intros E. destruct facts as (v & _ & EC & _). rewrite EC.
    eexists. split; [apply (new_cell_at _ _ _ _ _ _ _ E)|]. cbn [c_nodes c_owner c_active]. split; [reflexivity|]. split; [reflexivity|].
    unfold afuture. destruct (c_active c) eqn:Ac.
    - rewrite (chosen_active _ _ _ _ pos c E Ac). intuition.
    - pose proof (chosen_spec (w_cells w) elements first last pos c E Ac) as CS. pose proof (ai_last _ _ _ _ _ _ _ _ _ AI) as LL.
      destruct (chosen (w_cells w) elements first last pos) as [i|].
      + split; [|reflexivity]. intros _. right. exists i. destruct CS as (H1 & H2 & _). split; [exact H1|]. apply (el_nth pos c i E); [lia| exact H2].
      + split; [discriminate|]. intros [H|(i & Hi & HB)]; [discriminate|]. exfalso. apply (CS i Hi). apply (el_nth pos c i E); [lia| exact HB].
  Qed.
  Lemma new_owner_ok pos c : nth_error (w_cells w) pos = Some c -> new_owner pos < n_ranks w.
  Proof. intros E. apply (ai_owner _ _ _ _ _ _ _ _ _ AI). apply nth_error_Some. rewrite E. discriminate. Qed.

  Lemma state_kept pos : cell_state w' pos = cell_state w pos.
  Proof.
    destruct facts as (v & Ew & EC & (sol' & Ew') & _). destruct (nth_error (w_cells w) pos) as [c|] eqn:E.
    - assert (cell_state w pos = Some (i_state v pos)) as ->.
      { rewrite Ew. apply (read_state v _ _ _ _ c E). apply (wf_owner _ _ _ (ai_wf _ _ _ _ _ _ _ _ _ AI) c (nth_error_In _ _ E)). }
      rewrite Ew'. exact (read_state (new_info v (w_cells w) elements cs sn first last) (n_ranks w) _ sol' pos _ (new_cell_at (w_cells w) elements first last new_owner pos c E) (new_owner_ok pos c E)).
    - unfold cell_state. rewrite E. assert (nth_error (w_cells w') pos = None) as ->; [|reflexivity].
      apply nth_error_None in E. apply nth_error_None. rewrite EC. unfold new_cells. now rewrite tab_length.
  Qed.
  Lemma history_kept pos : has_material w pos -> cell_cos w' pos = cell_cos w pos /\ cell_sin w' pos = cell_sin w pos /\ cell_melted w' pos = cell_melted w pos /\ cell_cos w pos <> None.
  Proof.
    intros (c & E & Ac). destruct facts as (v & Ew & EC & (sol' & Ew') & _).
    pose proof (chosen_active (w_cells w) elements first last pos c E Ac) as CH.
    pose proof (new_cell_at (w_cells w) elements first last new_owner pos c E) as E'.
    assert (c_active (mkcell (c_nodes c) (new_owner pos) (afuture (chosen (w_cells w) elements first last) pos c)) = true) as Ac'.
    { cbn. unfold afuture. rewrite CH. exact Ac. }
    pose proof (new_owner_ok pos c E) as O'. pose proof (wf_owner _ _ _ (ai_wf _ _ _ _ _ _ _ _ _ AI) c (nth_error_In _ _ E)) as O.
    unfold cell_cos, cell_sin, cell_melted.
    assert (stored a_cos w pos = Some (i_cos v pos)) as -> by (rewrite Ew; apply (read_stored a_cos i_cos v _ _ _ _ c (fun _ _ => eq_refl) E O Ac)).
    assert (stored a_sin w pos = Some (i_sin v pos)) as -> by (rewrite Ew; apply (read_stored a_sin i_sin v _ _ _ _ c (fun _ _ => eq_refl) E O Ac)).
    assert (stored a_melted w pos = Some (i_melted v pos)) as -> by (rewrite Ew; apply (read_stored a_melted i_melted v _ _ _ _ c (fun _ _ => eq_refl) E O Ac)).
    rewrite Ew'.
    rewrite (read_stored a_cos i_cos _ _ _ _ _ _ (fun _ _ => eq_refl) E' O' Ac'), (read_stored a_sin i_sin _ _ _ _ _ _ (fun _ _ => eq_refl) E' O' Ac'),
      (read_stored a_melted i_melted _ _ _ _ _ _ (fun _ _ => eq_refl) E' O' Ac').
    cbn [new_info i_cos i_sin i_melted]. unfold new_z, is_active. rewrite CH, E, Ac.
    repeat split; try discriminate. f_equal. destruct (i_melted v pos); vm_compute; reflexivity.
  Qed.
  Lemma new_history pos c i : nth_error (w_cells w) pos = Some c -> c_active c = false -> last_box w elements first last i pos ->
    cell_cos w' pos = nth_error cs i /\ cell_sin w' pos = nth_error sn i /\ cell_melted w' pos = Some true /\ nth_error cs i <> None.
  Proof.
    intros E Ac (Hi & HB & HL). destruct facts as (v & Ew & EC & (sol' & Ew') & _).
    pose proof (ai_last _ _ _ _ _ _ _ _ _ AI) as LL. pose proof (ai_sin _ _ _ _ _ _ _ _ _ AI) as LS.
    pose proof (chosen_spec (w_cells w) elements first last pos c E Ac) as CS.
    assert (chosen (w_cells w) elements first last pos = Some i) as CH.
    { destruct (chosen (w_cells w) elements first last pos) as [j|].
      - destruct CS as (H1 & H2 & H3). f_equal. destruct (lt_eq_lt_dec i j) as [[L|L]|L]; [|now symmetry|].
        + exfalso. apply (HL j); [lia|]. apply (el_nth pos c j E); [lia| exact H2].
        + exfalso. apply (H3 i); [lia|]. apply (el_nth pos c i E); [lia| exact HB].
      - exfalso. apply (CS i Hi). apply (el_nth pos c i E); [lia| exact HB]. }
    pose proof (new_cell_at (w_cells w) elements first last new_owner pos c E) as E'.
    assert (c_active (mkcell (c_nodes c) (new_owner pos) (afuture (chosen (w_cells w) elements first last) pos c)) = true) as Ac'.
    { cbn. unfold afuture. now rewrite CH. }
    pose proof (new_owner_ok pos c E) as O'.
    unfold cell_cos, cell_sin, cell_melted. rewrite Ew'.
    rewrite (read_stored a_cos i_cos _ _ _ _ _ _ (fun _ _ => eq_refl) E' O' Ac'), (read_stored a_sin i_sin _ _ _ _ _ _ (fun _ _ => eq_refl) E' O' Ac'),
      (read_stored a_melted i_melted _ _ _ _ _ _ (fun _ _ => eq_refl) E' O' Ac').
    cbn [new_info i_cos i_sin i_melted]. unfold new_z. rewrite CH.
    rewrite (nth_error_nth' cs 0%float) by lia. rewrite (nth_error_nth' sn 0%float) by lia. repeat split; try discriminate; try (vm_compute; reflexivity).
  Qed.
  Lemma first_finite c : PrimFloat.eqb (nth 0 (map (w_sol w) (c_nodes c)) 0%float) inf = true ->
    exists m0, nth_error (c_nodes c) 0 = Some m0 /\ PrimFloat.eqb (w_sol w m0) inf = true.
  Proof. destruct (c_nodes c) as [|m0 l]; cbn; intros H; [discriminate| eauto]. Qed.
  (** The value of a node that already had material. *)
  Lemma temperature_kept m pos c m0 : nth_error (w_cells w) pos = Some c -> c_active c = true -> In m (c_nodes c) -> new_owner pos = node_owner m ->
    nth_error (c_nodes c) 0 = Some m0 -> PrimFloat.eqb (w_sol w m0) infinity = false -> w_sol w' m = w_sol w m.
  Proof.
    intros E Ac HI O E0 FT. destruct facts as (v & Ew & EC & _ & HS & _). rewrite HS.
    destruct (node_value n_dofs (n_ranks w) (w_cells w) (w_sol w) elements first last new_owner node_owner temperature (ai_dofs _ _ _ _ _ _ _ _ _ AI) m (ai_node_owner _ _ _ _ _ _ _ _ _ AI m)) as [[_ V]|[N V]]; [exact V|].
    specialize (N pos c E Ac HI O). destruct (c_nodes c) as [|k l]; [discriminate|]. cbn in E0. injection E0 as ->. cbn in N.
    exfalso. exact (eq_true_false_abs _ N FT).
  Qed.
  Lemma temperature_new m : (forall pos c, nth_error (w_cells w) pos = Some c -> c_active c = true -> In m (c_nodes c) -> new_owner pos <> node_owner m) -> w_sol w' m = temperature.
  Proof.
    intros H. destruct facts as (v & Ew & EC & _ & HS & _). rewrite HS.
    destruct (node_value n_dofs (n_ranks w) (w_cells w) (w_sol w) elements first last new_owner node_owner temperature (ai_dofs _ _ _ _ _ _ _ _ _ AI) m (ai_node_owner _ _ _ _ _ _ _ _ _ AI m)) as [[(pos & c & E & Ac & HI & O & _) V]|[N V]]; [|exact V].
    exfalso. exact (H pos c E Ac HI O).
  Qed.
  Lemma serial_temperature m pos : n_ranks w = 1 -> finite_temperature w -> has_material w pos -> node_of w pos m -> w_sol w' m = w_sol w m.
  Proof.
    intros S1 FT (c & E & Ac) (c0 & E0 & HI). rewrite E in E0. injection E0 as <-.
    pose proof (wf_nodes _ _ _ (ai_wf _ _ _ _ _ _ _ _ _ AI) c (nth_error_In _ _ E)) as LN. pose proof (ai_dofs _ _ _ _ _ _ _ _ _ AI) as ND.
    destruct (nth_error (c_nodes c) 0) as [m0|] eqn:E0; [|apply nth_error_None in E0; lia].
    apply (temperature_kept m pos c m0 E Ac HI); [|exact E0|].
    - pose proof (new_owner_ok pos c E). pose proof (ai_node_owner _ _ _ _ _ _ _ _ _ AI m). lia.
    - apply (FT pos m0); [exists c; auto|]. exists c. split; [exact E|]. apply nth_error_In with (1 := E0).
  Qed.
End Theorems.

(** The flags handed back for every box. *)
Lemma flag_upd_nth cells ml pos i k : i < List.length ml ->
  nth_error (flag_upd cells ml pos i) k = if Nat.eqb k i then (match nth_error cells pos with Some c => if c_active c then nth_error ml k else Some true | None => nth_error ml k end) else nth_error ml k.
Proof.
  intros L. unfold flag_upd. destruct (nth_error cells pos) as [c|]; [|now destruct (Nat.eqb k i)].
  destruct (c_active c); [now destruct (Nat.eqb k i)|].
  destruct (Nat.eqb k i) eqn:E.
  - apply Nat.eqb_eq in E. subst k. rewrite nth_error_app2; rewrite firstn_length, Nat.min_l by lia; [|lia]. now rewrite Nat.sub_diag.
  - apply Nat.eqb_neq in E. destruct (lt_dec k i) as [Lk|Lk].
    + rewrite nth_error_app1 by (rewrite firstn_length; lia). clear - Lk. revert i k Lk. induction ml as [|x ml IH]; intros [|i] [|k] Lk; try lia; try reflexivity; cbn; destruct k; try reflexivity; apply IH; lia.
    + rewrite nth_error_app2 by (rewrite firstn_length; lia). rewrite firstn_length, Nat.min_l by lia.
      destruct (k - i) as [|d] eqn:D; [lia|]. cbn [nth_error].
      assert (forall (l : list bool) n j, nth_error (skipn n l) j = nth_error l (n + j)) as SK.
      { induction l as [|x l IH]; intros [|n] j; cbn; try reflexivity; [now destruct j| apply IH]. }
      rewrite SK. f_equal. lia.
Qed.
Lemma flag_pairs_nth cells k pairs : forall ml, (forall i pos, In (i, pos) pairs -> i < List.length ml) -> k < List.length ml ->
  nth_error (flag_pairs cells ml pairs) k = Some true <->
  nth_error ml k = Some true \/ exists pos c, In (k, pos) pairs /\ nth_error cells pos = Some c /\ c_active c = false.
Proof.
  induction pairs as [|[i pos] pairs IH]; intros ml P Lk.
  - cbn. split; [auto|]. intros [H|(pos & c & [] & _)]. exact H.
  - cbn [flag_pairs fold_left fst snd]. fold (flag_pairs cells (flag_upd cells ml pos i) pairs).
    assert (i < List.length ml) as Li by (apply (P i pos); now left).
    pose proof (flag_upd_length cells ml pos i Li) as FL.
    rewrite IH; rewrite ?FL; [|intros j q H; apply (P j q); now right| exact Lk].
    rewrite (flag_upd_nth cells ml pos i k Li). split.
    + intros [H|(q & c & HI & E & Ac)]; [|right; exists q, c; repeat split; auto; now right].
      destruct (Nat.eqb k i) eqn:Ek; [|auto]. apply Nat.eqb_eq in Ek. subst i.
      destruct (nth_error cells pos) as [c|] eqn:E; [|auto]. destruct (c_active c) eqn:Ac; [auto|].
      right. exists pos, c. repeat split; auto. now left.
    + intros [H|(q & c & [HI|HI] & E & Ac)].
      * left. destruct (Nat.eqb k i); [|exact H]. destruct (nth_error cells pos) as [c|]; [|exact H]. destruct (c_active c); auto.
      * injection HI as -> ->. left. rewrite Nat.eqb_refl, E, Ac. reflexivity.
      * right. exists q, c. auto.
Qed.
Lemma flags_spec n_dofs n_states w elements cs sn first last new_owner node_owner temperature w' flags r i :
  activation_input n_dofs n_states w elements cs sn last new_owner node_owner ->
  add_material n_dofs n_states w elements cs sn first last new_owner node_owner temperature = Ok (w', flags) ->
  r < n_ranks w -> i < List.length cs ->
  exists fl b, nth_error flags r = Some fl /\ nth_error fl i = Some b /\
    (b = true <-> first <= i < last /\ exists pos c, nth_error (w_cells w) pos = Some c /\ c_owner c = r /\ c_active c = false /\ box_has w elements i pos).
Proof.
  intros AI RUN Lr Li. destruct (facts n_dofs n_states w elements cs sn first last new_owner node_owner temperature AI w' flags RUN) as (v & _ & _ & _ & _ & ->).
  destruct (ai_candidates _ _ _ _ _ _ _ _ _ AI) as [C1 C2 C3]. pose proof (ai_last _ _ _ _ _ _ _ _ _ AI) as LL.
  destruct (nth_error elements r) as [el|] eqn:Ee; [|apply nth_error_None in Ee; lia]. pose proof (C2 el (nth_error_In _ _ Ee)) as L.
  rewrite map_map, nth_error_map, nth_seq by exact Lr. cbn [option_map act_of act_melted].
  assert (forall j pos, In (j, pos) (box_pairs (nth r elements []) (seq first (last - first))) -> j < List.length (repeat false (List.length cs))) as P.
  { intros j pos H. apply box_pairs_in in H. destruct H as [H _]. apply in_seq in H. rewrite repeat_length. lia. }
  assert (i < List.length (repeat false (List.length cs))) as Li' by (now rewrite repeat_length).
  eexists. pose proof (flag_pairs_nth (w_cells w) i (box_pairs (nth r elements []) (seq first (last - first))) (repeat false (List.length cs)) P Li') as F.
  destruct (nth_error (flag_pairs (w_cells w) (repeat false (List.length cs)) (box_pairs (nth r elements []) (seq first (last - first)))) i) as [b|] eqn:Eb.
  2: { exfalso. apply nth_error_None in Eb. 
       assert (forall pairs ml, (forall j pos, In (j, pos) pairs -> j < List.length ml) -> List.length (flag_pairs (w_cells w) ml pairs) = List.length ml) as FLL.
       { induction pairs as [|[j q] pairs IH]; intros ml P'; [reflexivity|]. cbn [flag_pairs fold_left fst snd].
         pose proof (flag_upd_length (w_cells w) ml q j (P' j q (or_introl eq_refl))) as FU. fold (flag_pairs (w_cells w) (flag_upd (w_cells w) ml q j) pairs).
         rewrite IH; [exact FU|]. rewrite FU. intros j' q' H. apply (P' j' q'). now right. }
       rewrite FLL in Eb by exact P. lia. }
  exists b. split; [reflexivity|]. split; [exact Eb|]. rewrite (nth_error_nth _ _ [] Ee) in F.
  assert (b = true <-> Some b = Some true) as -> by (split; [now intros ->| intros H; now injection H]). rewrite F. split.
  - intros [H|(pos & c & HI & E & Ac)].
    + exfalso. apply nth_error_In in H. apply repeat_spec in H. discriminate.
    + apply box_pairs_in in HI. destruct HI as [H1 H2]. apply in_seq in H1. split; [lia|].
      destruct (C3 r el (nth i el []) pos Ee) as (c0 & E0 & O); [apply nth_In; lia| exact H2|]. rewrite E in E0. injection E0 as <-.
      exists pos, c. repeat split; auto. exists c, el, (nth i el []). rewrite O. repeat split; auto. apply nth_error_nth'. lia.
  - intros (Hi & pos & c & E & O & Ac & (c0 & el0 & l & E0 & Ee0 & El & HI)). rewrite E in E0. injection E0 as <-. rewrite O, Ee in Ee0. injection Ee0 as <-.
    right. exists pos, c. split; [|auto]. apply box_pairs_in. split; [apply in_seq; lia|]. now rewrite (nth_error_nth _ _ [] El).
Qed.
