(** CellProofs6.v -- checkpoints and mesh adaptation. *)
From Coq Require Import Bool List Floats Lia Arith.
From Verif Require Import Base CellModel CellSpec CellProofs CellProofs2 CellProofs3 CellProofs4.
Import ListNotations.

(** ** Saving *)
Section Save.
  Variables (n_states : nat) (v : info) (r : nat).
  Definition tail_of (pos : nat) (c : cell) : list float :=
    if c_active c then [i_cos v pos; i_sin v pos; b2f (i_melted v pos); 0%float] else [10%float; 10%float; 10%float; 1%float].
  Definition srow (pos : nat) (c : cell) : list float :=
    if Nat.eqb (c_owner c) r then i_state v pos ++ tail_of pos c else repeat 0%float (n_states + direction_data_size + 1 + 1).
  Lemma save_ok (a : arrays) : forall cells s ia io,
    skipn ia (a_cos a) = map (i_cos v) (poss (material_of r) s cells) -> skipn ia (a_sin a) = map (i_sin v) (poss (material_of r) s cells) ->
    skipn ia (a_melted a) = map (i_melted v) (poss (material_of r) s cells) -> skipn io (a_state a) = map (i_state v) (poss (owned_by r) s cells) ->
    save n_states r a ia io cells = Ok (tab srow s cells).
  Proof.
    induction cells as [|c cells IH]; intros s ia io H1 H2 H3 H4; [reflexivity|].
    cbn [save tab]. unfold material_of, owned_by in H1, H2, H3, H4. cbn [poss] in H1, H2, H3, H4.
    fold (material_of r) in H1, H2, H3. fold (owned_by r) in H4.
    unfold srow at 1, tail_of. destruct (Nat.eqb (c_owner c) r) eqn:Eo.
    - cbn [map] in H4. apply skip_at in H4. destruct H4 as [A4 S4]. rewrite A4. cbn [bind].
      destruct (c_active c) eqn:Ea; cbn [andb map] in H1, H2, H3.
      + apply skip_at in H1, H2, H3. destruct H1 as [A1 S1], H2 as [A2 S2], H3 as [A3 S3].
        rewrite A1, A2, A3. cbn [bind]. rewrite (IH (S s) _ _ S1 S2 S3 S4). reflexivity.
      + rewrite (IH (S s) _ _ H1 H2 H3 S4). reflexivity.
    - cbn [andb] in H1, H2, H3. rewrite (IH (S s) _ _ H1 H2 H3 H4). reflexivity.
  Qed.
  Definition rrow (pos : nat) (c : cell) : list float :=
    if Nat.eqb (c_owner c) r then i_state v pos ++ (if c_active c then [i_cos v pos; i_sin v pos; b2f (i_melted v pos)] else [inf; inf; inf])
    else repeat inf (n_states + direction_data_size + phase_history_data_size).
  Lemma pack_refine_ok (a : arrays) : forall cells s ia io,
    skipn ia (a_cos a) = map (i_cos v) (poss (material_of r) s cells) -> skipn ia (a_sin a) = map (i_sin v) (poss (material_of r) s cells) ->
    skipn ia (a_melted a) = map (i_melted v) (poss (material_of r) s cells) -> skipn io (a_state a) = map (i_state v) (poss (owned_by r) s cells) ->
    pack_refine n_states r a ia io cells = Ok (tab rrow s cells).
  Proof.
    induction cells as [|c cells IH]; intros s ia io H1 H2 H3 H4; [reflexivity|].
    cbn [pack_refine tab]. unfold material_of, owned_by in H1, H2, H3, H4. cbn [poss] in H1, H2, H3, H4.
    fold (material_of r) in H1, H2, H3. fold (owned_by r) in H4.
    unfold rrow at 1. destruct (Nat.eqb (c_owner c) r) eqn:Eo.
    - cbn [map] in H4. apply skip_at in H4. destruct H4 as [A4 S4]. rewrite A4. cbn [bind].
      destruct (c_active c) eqn:Ea; cbn [andb map] in H1, H2, H3.
      + apply skip_at in H1, H2, H3. destruct H1 as [A1 S1], H2 as [A2 S2], H3 as [A3 S3].
        rewrite A1, A2, A3. cbn [bind]. rewrite (IH (S s) _ _ S1 S2 S3 S4). reflexivity.
      + rewrite (IH (S s) _ _ H1 H2 H3 S4). reflexivity.
    - cbn [andb] in H1, H2, H3. rewrite (IH (S s) _ _ H1 H2 H3 H4). reflexivity.
  Qed.
End Save.

Lemma at_mid {A} (a : list A) x b k : List.length a = k -> at_ (a ++ x :: b) k = Ok x.
Proof. intros <-. apply at_app. Qed.

(** ** Loading *)
Section Load.
  Variables (n_states r : nat) (owner : nat -> nat) (data : nat -> res (list float)) (v : info).
  Definition again (pos : nat) (c : cell) : cell := mkcell (c_nodes c) (owner pos) (c_active c).
  Lemma load_ok : forall cells s acc fl,
    (forall pos c, nth_error cells pos = Some c -> owner (s + pos) = r ->
       data (s + pos) = Ok (i_state v (s + pos) ++ tail_of v (s + pos) c) /\ List.length (i_state v (s + pos)) = n_states) ->
    load n_states r owner (map c_nodes cells) data s (acc, fl) =
    Ok (app_arrays acc (arrays_from v r s (tab again s cells)), fl ++ tab (fun pos c => Nat.eqb (owner pos) r && c_active c) s cells).
  Proof.
    induction cells as [|c cells IH]; intros s acc fl H.
    - cbn. unfold app_arrays. cbn. rewrite !app_nil_r. destruct acc; reflexivity.
    - cbn [map load tab].
      assert (forall acc' fl', load n_states r owner (map c_nodes cells) data (S s) (acc', fl') =
        Ok (app_arrays acc' (arrays_from v r (S s) (tab again (S s) cells)), fl' ++ tab (fun pos c => Nat.eqb (owner pos) r && c_active c) (S s) cells)) as IH'.
      { intros. apply IH. intros pos c' E O. specialize (H (S pos) c' E). rewrite Nat.add_succ_r in H. exact (H O). }
      destruct (Nat.eqb (owner s) r) eqn:Eo.
      + destruct (H 0 c eq_refl) as (D & L); [rewrite Nat.add_0_r; now apply Nat.eqb_eq|]. rewrite Nat.add_0_r in D, L. rewrite D. cbn [bind fst snd].
        set (st := i_state v s) in *.
        assert (mapR (fun i => at_ (st ++ tail_of v s c) i) (seq 0 n_states) = Ok st) as -> by (apply (mapR_take0 _ _ (tail_of v s c)); [reflexivity| exact L]).
        cbn [bind].
        assert (at_ (st ++ tail_of v s c) (n_states + direction_data_size + 1) = Ok (if c_active c then 0%float else 1%float)) as ->.
        { unfold tail_of. destruct (c_active c).
          - change (st ++ [i_cos v s; i_sin v s; b2f (i_melted v s); 0%float]) with (st ++ [i_cos v s; i_sin v s; b2f (i_melted v s)] ++ [0%float]).
            rewrite app_assoc. apply at_mid. rewrite app_length, L. cbn [List.length]. unfold direction_data_size. lia.
          - change (st ++ [10%float; 10%float; 10%float; 1%float]) with (st ++ [10%float; 10%float; 10%float] ++ [1%float]).
            rewrite app_assoc. apply at_mid. rewrite app_length, L. cbn [List.length]. unfold direction_data_size. lia. }
        cbn [bind].
        assert (fe_of (if c_active c then 0%float else 1%float) = Ok (c_active c)) as -> by (destruct (c_active c); vm_compute; reflexivity).
        cbn [bind].
        assert (material_of r (again s c) = c_active c) as MA by (unfold material_of, again; cbn; now rewrite Eo).
        assert (owned_by r (again s c) = true) as OA by exact Eo.
        destruct (c_active c) eqn:Ea.
        * assert (at_ (st ++ tail_of v s c) n_states = Ok (i_cos v s)) as -> by (unfold tail_of; rewrite Ea; apply at_mid; exact L).
          assert (at_ (st ++ tail_of v s c) (n_states + 1) = Ok (i_sin v s)) as ->.
          { unfold tail_of. rewrite Ea.
            change (st ++ [i_cos v s; i_sin v s; b2f (i_melted v s); 0%float]) with (st ++ [i_cos v s] ++ [i_sin v s; b2f (i_melted v s); 0%float]).
            rewrite app_assoc. apply at_mid. rewrite app_length, L. cbn [List.length]. lia. }
          assert (at_ (st ++ tail_of v s c) (n_states + direction_data_size) = Ok (b2f (i_melted v s))) as ->.
          { unfold tail_of. rewrite Ea.
            change (st ++ [i_cos v s; i_sin v s; b2f (i_melted v s); 0%float]) with (st ++ [i_cos v s; i_sin v s] ++ [b2f (i_melted v s); 0%float]).
            rewrite app_assoc. apply at_mid. rewrite app_length, L. cbn [List.length]. unfold direction_data_size. lia. }
          cbn [bind]. rewrite IH'.
          assert (bool_of (b2f (i_melted v s)) = i_melted v s) as -> by (destruct (i_melted v s); vm_compute; reflexivity).
          f_equal. f_equal.
          { unfold app_arrays, arrays_from. cbn [a_cos a_sin a_melted a_state poss tab]. rewrite MA, OA. cbn [map]. rewrite <- !app_assoc. reflexivity. }
          { rewrite <- app_assoc. reflexivity. }
        * cbn [bind]. rewrite IH'. f_equal. f_equal.
          { unfold app_arrays, arrays_from. cbn [a_cos a_sin a_melted a_state poss tab]. rewrite MA, OA. cbn [map]. rewrite <- !app_assoc. reflexivity. }
          { rewrite <- app_assoc. reflexivity. }
      + cbn [fst snd]. rewrite IH'. f_equal. f_equal.
        { assert (material_of r (again s c) = false) as MA by (unfold material_of, again; cbn; now rewrite Eo).
          assert (owned_by r (again s c) = false) as OA by exact Eo.
          unfold app_arrays, arrays_from. cbn [a_cos a_sin a_melted a_state poss tab]. rewrite MA, OA. reflexivity. }
        { rewrite <- app_assoc. reflexivity. }
  Qed.
End Load.

Lemma combine_nodes cells : forall s, combine (seq s (List.length cells)) (map c_nodes cells) = map (fun pc => (fst pc, c_nodes (snd pc))) (combine (seq s (List.length cells)) cells).
Proof. induction cells as [|c l IH]; intros s; [reflexivity|]. cbn. f_equal. apply IH. Qed.

Section RoundTrip.
  Variables (n_dofs n_states n n' : nat) (v : info) (cells : list cell) (sol : nat -> float) (owner : nat -> nat).
  Hypothesis HO : forall c, In c cells -> c_owner c < n.
  Hypothesis HS : forall pos c, nth_error cells pos = Some c -> List.length (i_state v pos) = n_states.
  Hypothesis HNO : forall pos, pos < List.length cells -> owner pos < n'.
  Definition saved_data : list (list float) := tab (fun pos c => i_state v pos ++ tail_of v pos c) 0 cells.
  Lemma save_world : save_checkpoint n_states (world_of v n cells sol) = Ok (mkcheckpoint (map c_nodes cells) saved_data sol).
  Proof.
    unfold save_checkpoint. cbn [w_cells w_arrays w_sol world_of]. rewrite map_length, seq_length, combine_map_seq, mapR_map.
    rewrite (bind_ok _ _ (map (fun r => tab (srow n_states v r) 0 cells) (seq 0 n))).
    2: { apply mapR_ok. intros r _. apply save_ok; reflexivity. }
    rewrite (bind_ok _ _ saved_data); [reflexivity|].
    eapply eq_trans.
    { apply (mapR_ext _ (fun pc => (fun pos c => do d <- at_ (map (fun r => tab (srow n_states v r) 0 cells) (seq 0 n)) (c_owner c); at_ d pos) (fst pc) (snd pc))).
      intros [pos c]; reflexivity. }
    apply (mapR_tab (fun pos c => do d <- at_ (map (fun r => tab (srow n_states v r) 0 cells) (seq 0 n)) (c_owner c); at_ d pos)).
    intros pos c E. cbn [Nat.add].
    rewrite (at_some _ (c_owner c) (tab (srow n_states v (c_owner c)) 0 cells)) by (rewrite nth_error_map, nth_seq by (apply HO; apply nth_error_In with (1 := E)); reflexivity).
    cbn [bind]. rewrite (at_some _ _ _ (tab_nth _ cells 0 pos c E)). cbn [Nat.add]. unfold srow. now rewrite Nat.eqb_refl.
  Qed.
  Definition again_cells : list cell := tab (again owner) 0 cells.
  Lemma load_world : load_checkpoint n_states n' owner (mkcheckpoint (map c_nodes cells) saved_data sol) = Ok (world_of v n' again_cells sol).
  Proof.
    unfold load_checkpoint. cbn [cp_nodes cp_data cp_sol]. rewrite map_length.
    rewrite (bind_ok _ _ (map (fun r => (arrays_of v r again_cells, tab (fun pos c => Nat.eqb (owner pos) r && c_active c) 0 cells)) (seq 0 n'))).
    2: { apply mapR_ok. intros r _. rewrite (load_ok n_states r owner _ v cells 0 (mkarrays [] [] [] []) []); [reflexivity|].
         intros pos c E O. cbn [Nat.add]. split; [|apply (HS pos c E)]. apply at_some. unfold saved_data. rewrite (tab_nth _ cells 0 pos c E). reflexivity. }
    rewrite combine_nodes, mapR_map.
    set (results := map (fun r => (arrays_of v r again_cells, tab (fun pos c => Nat.eqb (owner pos) r && c_active c) 0 cells)) (seq 0 n')).
    rewrite (bind_ok _ _ again_cells).
    - unfold world_of. do 2 f_equal. unfold results. rewrite map_map. reflexivity.
    - eapply eq_trans.
      { apply (mapR_ext _ (fun pc => (fun pos c => do res <- at_ results (owner pos); do act <- at_ (snd res) pos; Ok (mkcell (c_nodes c) (owner pos) act)) (fst pc) (snd pc))).
        intros [pos c]; reflexivity. }
      apply (mapR_tab (fun pos c => do res <- at_ results (owner pos); do act <- at_ (snd res) pos; Ok (mkcell (c_nodes c) (owner pos) act))).
      intros pos c E. cbn [Nat.add]. unfold results.
      rewrite (at_some _ (owner pos) (arrays_of v (owner pos) again_cells, tab (fun p c => Nat.eqb (owner p) (owner pos) && c_active c) 0 cells)).
      2: { rewrite nth_error_map, nth_seq; [reflexivity|]. apply HNO. apply nth_error_Some. rewrite E. discriminate. }
      cbn [bind snd]. rewrite (at_some _ _ _ (tab_nth _ cells 0 pos c E)). cbn [bind Nat.add]. rewrite Nat.eqb_refl. reflexivity.
  Qed.
End RoundTrip.

Lemma again_at owner cells pos c : nth_error cells pos = Some c -> nth_error (again_cells cells owner) pos = Some (mkcell (c_nodes c) (owner pos) (c_active c)).
Proof. intros E. unfold again_cells. rewrite (tab_nth _ cells 0 pos c E). reflexivity. Qed.
Lemma again_inv owner cells pos c' : nth_error (again_cells cells owner) pos = Some c' -> exists c, nth_error cells pos = Some c /\ c' = mkcell (c_nodes c) (owner pos) (c_active c).
Proof.
  intros E. destruct (nth_error cells pos) as [c|] eqn:Ec.
  - rewrite (again_at owner cells pos c Ec) in E. injection E as <-. eauto.
  - apply nth_error_None in Ec. assert (pos < List.length (again_cells cells owner)) as L by (apply nth_error_Some; rewrite E; discriminate).
    unfold again_cells in L. rewrite tab_length in L. lia.
Qed.

(** Two worlds with the same cells (possibly on other processes) and the same view. *)
Lemma same_view v n n' n_dofs n_states cells sol sol' owner :
  (forall c, In c cells -> List.length (c_nodes c) = n_dofs) -> (forall c, In c cells -> c_owner c < n) ->
  (forall pos c, nth_error cells pos = Some c -> List.length (i_state v pos) = n_states) -> (forall pos, pos < List.length cells -> owner pos < n') ->
  let w := world_of v n cells sol in let w' := world_of v n' (again_cells cells owner) sol' in
  well_formed n_dofs n_states w' /\ (forall pos, cell_state w' pos = cell_state w pos) /\
  (forall pos, has_material w pos -> cell_cos w' pos = cell_cos w pos /\ cell_sin w' pos = cell_sin w pos /\ cell_melted w' pos = cell_melted w pos).
Proof.
  intros HN HO HS HP w w'. split; [|split].
  - apply world_of_wf.
    + intros c' H. apply In_nth_error in H. destruct H as (pos & E). destruct (again_inv owner cells pos c' E) as (c & Ec & ->). cbn. apply HN. apply nth_error_In with (1 := Ec).
    + intros c' H. apply In_nth_error in H. destruct H as (pos & E). destruct (again_inv owner cells pos c' E) as (c & Ec & ->). cbn. apply HP. apply nth_error_Some. rewrite Ec. discriminate.
    + intros pos c' E. destruct (again_inv owner cells pos c' E) as (c & Ec & _). apply (HS pos c Ec).
  - intros pos. destruct (nth_error cells pos) as [c|] eqn:E.
    + unfold w, w'. rewrite (read_state v n cells sol pos c E) by (apply HO; apply nth_error_In with (1 := E)).
      apply (read_state v n' _ sol' pos _ (again_at owner cells pos c E)). cbn. apply HP. apply nth_error_Some. rewrite E. discriminate.
    + unfold cell_state, w, w'. cbn [w_cells world_of]. rewrite E. assert (nth_error (again_cells cells owner) pos = None) as ->; [|reflexivity].
      apply nth_error_None. unfold again_cells. rewrite tab_length. now apply nth_error_None.
  - intros pos (c & E & Ac). cbn [w w_cells world_of] in E.
    assert (c_owner c < n) as O by (apply HO; apply nth_error_In with (1 := E)).
    assert (owner pos < n') as O' by (apply HP; apply nth_error_Some; rewrite E; discriminate).
    pose proof (again_at owner cells pos c E) as E'.
    unfold cell_cos, cell_sin, cell_melted, w, w'.
    rewrite (read_stored a_cos i_cos v n' _ _ _ _ (fun _ _ => eq_refl) E' O' Ac), (read_stored a_cos i_cos v n _ _ _ _ (fun _ _ => eq_refl) E O Ac).
    rewrite (read_stored a_sin i_sin v n' _ _ _ _ (fun _ _ => eq_refl) E' O' Ac), (read_stored a_sin i_sin v n _ _ _ _ (fun _ _ => eq_refl) E O Ac).
    rewrite (read_stored a_melted i_melted v n' _ _ _ _ (fun _ _ => eq_refl) E' O' Ac), (read_stored a_melted i_melted v n _ _ _ _ (fun _ _ => eq_refl) E O Ac).
    repeat split.
Qed.

Theorem checkpoint_round_trip n_dofs n_states w n' owner : well_formed n_dofs n_states w -> (forall pos, pos < List.length (w_cells w) -> owner pos < n') ->
  exists cp w', save_checkpoint n_states w = Ok cp /\ load_checkpoint n_states n' owner cp = Ok w' /\ well_formed n_dofs n_states w' /\ n_ranks w' = n' /\
    List.length (w_cells w') = List.length (w_cells w) /\
    (forall pos c, nth_error (w_cells w) pos = Some c -> exists c', nth_error (w_cells w') pos = Some c' /\ c_nodes c' = c_nodes c /\ c_active c' = c_active c /\ c_owner c' = owner pos) /\
    (forall pos, cell_state w' pos = cell_state w pos) /\
    (forall pos, has_material w pos -> cell_cos w' pos = cell_cos w pos /\ cell_sin w' pos = cell_sin w pos /\ cell_melted w' pos = cell_melted w pos) /\
    w_sol w' = w_sol w.
Proof.
  intros WF HP. destruct (view_exists _ _ _ WF) as (v & Ew & HS).
  destruct (same_view v (n_ranks w) n' n_dofs n_states (w_cells w) (w_sol w) (w_sol w) owner (wf_nodes _ _ _ WF) (wf_owner _ _ _ WF) HS HP) as (S1 & S2 & S3).
  exists (mkcheckpoint (map c_nodes (w_cells w)) (saved_data v (w_cells w)) (w_sol w)), (world_of v n' (again_cells (w_cells w) owner) (w_sol w)).
  split; [rewrite Ew at 1; apply (save_world n_states (n_ranks w) v (w_cells w) (w_sol w) (wf_owner _ _ _ WF))|].
  split; [apply load_world; assumption|]. split; [exact S1|].
  split; [unfold n_ranks at 1; cbn; now rewrite map_length, seq_length|].
  split; [cbn; unfold again_cells; apply tab_length|].
  split; [intros pos c E; eexists; split; [cbn; apply (again_at owner _ pos c E)|]; cbn; auto|].
  rewrite <- Ew in S2, S3. split; [exact S2|]. split; [exact S3|]. reflexivity.
Qed.

(** ** Mesh adaptation *)
Section Refine.
  Variables (n_states r : nat) (data : nat -> res (list float)) (v : info) (z : nat -> float).
  Hypothesis z_melted : forall pos, i_melted v pos = PrimFloat.ltb half (z pos).
  Lemma unpack_refine_ok : forall cells s acc,
    (forall pos c, nth_error cells pos = Some c -> c_owner c = r ->
       data (s + pos) = Ok (i_state v (s + pos) ++ [i_cos v (s + pos); i_sin v (s + pos); z (s + pos)]) /\ List.length (i_state v (s + pos)) = n_states) ->
    unpack_refine n_states r cells data s acc = Ok (app_arrays acc (arrays_from v r s cells)).
  Proof.
    induction cells as [|c cells IH]; intros s acc H.
    - cbn. unfold app_arrays. cbn. rewrite !app_nil_r. destruct acc; reflexivity.
    - cbn [unpack_refine].
      assert (forall acc', unpack_refine n_states r cells data (S s) acc' = Ok (app_arrays acc' (arrays_from v r (S s) cells))) as IH'.
      { intros. apply IH. intros pos c' E O. specialize (H (S pos) c' E O). rewrite Nat.add_succ_r in H. exact H. }
      destruct (Nat.eqb (c_owner c) r) eqn:Eo.
      + destruct (H 0 c eq_refl) as (D & L); [now apply Nat.eqb_eq|]. rewrite Nat.add_0_r in D, L. rewrite D. cbn [bind].
        set (st := i_state v s) in *. set (t := [i_cos v s; i_sin v s; z s]).
        assert (mapR (fun i => at_ (st ++ t) i) (seq 0 n_states) = Ok st) as -> by (apply (mapR_take0 _ _ t); [reflexivity| exact L]). cbn [bind].
        assert (at_ (st ++ t) n_states = Ok (i_cos v s)) as -> by (apply at_mid; exact L).
        assert (at_ (st ++ t) (n_states + 1) = Ok (i_sin v s)) as ->.
        { change (st ++ t) with (st ++ [i_cos v s] ++ [i_sin v s; z s]). rewrite app_assoc. apply at_mid. rewrite app_length, L. cbn [List.length]. lia. }
        assert (at_ (st ++ t) (n_states + direction_data_size) = Ok (z s)) as ->.
        { change (st ++ t) with (st ++ [i_cos v s; i_sin v s] ++ [z s]). rewrite app_assoc. apply at_mid. rewrite app_length, L. cbn [List.length]. unfold direction_data_size. lia. }
        assert (material_of r c = c_active c) as MA by (unfold material_of; now rewrite Eo). assert (owned_by r c = true) as OA by exact Eo.
        destruct (c_active c) eqn:Ea; cbn [bind]; rewrite IH'; f_equal;
          unfold app_arrays, arrays_from; cbn [a_cos a_sin a_melted a_state poss]; rewrite MA, OA; cbn [map]; rewrite ?z_melted, <- !app_assoc; reflexivity.
      + rewrite IH'. f_equal. assert (material_of r c = false) as MA by (unfold material_of; now rewrite Eo). assert (owned_by r c = false) as OA by exact Eo.
        unfold app_arrays, arrays_from. cbn [a_cos a_sin a_melted a_state poss]. rewrite MA, OA. reflexivity.
  Qed.
End Refine.

Theorem refine_result n_dofs n_dofs' n_states w mesh sol : well_formed n_dofs n_states w ->
  (forall o c, In (o, c) mesh -> source o < List.length (w_cells w) /\ c_owner c < n_ranks w /\ List.length (c_nodes c) = n_dofs') ->
  exists w', refine_and_transfer n_states w mesh sol = Ok w' /\ well_formed n_dofs' n_states w' /\ w_cells w' = map snd mesh /\ w_sol w' = sol /\
    (forall pos o c, nth_error mesh pos = Some (o, c) ->
       cell_state w' pos = cell_state w (source o) /\
       (c_active c = true -> has_material w (source o) ->
          cell_cos w' pos = cell_cos w (source o) /\ cell_sin w' pos = cell_sin w (source o) /\ cell_melted w' pos = cell_melted w (source o)) /\
       (c_active c = true -> ~ has_material w (source o) -> cell_cos w' pos = Some infinity /\ cell_sin w' pos = Some infinity /\ cell_melted w' pos = Some true)).
Proof.
  intros WF HM. destruct (view_exists _ _ _ WF) as (v & Ew & HS).
  set (cells := w_cells w) in *. set (n := n_ranks w) in *.
  pose (src := fun pos => match nth_error mesh pos with Some oc => source (fst oc) | None => 0 end).
  pose (act := fun pos => match nth_error cells pos with Some c => c_active c | None => false end).
  pose (z := fun pos => if act (src pos) then b2f (i_melted v (src pos)) else inf).
  pose (v' := mkinfo (fun pos => if act (src pos) then i_cos v (src pos) else inf) (fun pos => if act (src pos) then i_sin v (src pos) else inf)
                     (fun pos => PrimFloat.ltb half (z pos)) (fun pos => i_state v (src pos))).
  pose (sent := map (fun r => tab (rrow n_states v r) 0 cells) (seq 0 n)).
  exists (world_of v' n (map snd mesh) sol).
  assert (forall pos o c, nth_error mesh pos = Some (o, c) -> exists c0, nth_error cells (source o) = Some c0 /\ c_owner c0 < n) as OC.
  { intros pos o c E. destruct (HM o c (nth_error_In _ _ E)) as (H1 & _). destruct (nth_error cells (source o)) as [c0|] eqn:E0; [|apply nth_error_None in E0; lia].
    exists c0. split; [reflexivity|]. apply (wf_owner _ _ _ WF). apply nth_error_In with (1 := E0). }
  assert (forall pos c, nth_error (map snd mesh) pos = Some c -> exists o, nth_error mesh pos = Some (o, c)) as SM.
  { intros pos c E. rewrite nth_error_map in E. destruct (nth_error mesh pos) as [[o c0]|]; [|discriminate]. injection E as <-. eauto. }
  assert (refine_and_transfer n_states w mesh sol = Ok (world_of v' n (map snd mesh) sol)) as RR.
  { unfold refine_and_transfer. fold cells. rewrite Ew. cbn [w_cells w_arrays world_of]. rewrite map_length, seq_length, combine_map_seq, mapR_map.
    rewrite (bind_ok _ _ sent) by (apply mapR_ok; intros r _; apply pack_refine_ok; reflexivity).
    rewrite (bind_ok _ _ (map (fun r => arrays_of v' r (map snd mesh)) (seq 0 n))); [reflexivity|].
    apply mapR_ok. intros r _. rewrite (unpack_refine_ok n_states r _ v' z); [reflexivity| reflexivity|].
    intros pos c E O. cbn [Nat.add]. destruct (SM pos c E) as (o & Eo). destruct (OC pos o c Eo) as (c0 & E0 & L0).
    assert (src pos = source o) as Es by (unfold src; now rewrite Eo).
    split; [|cbn [v' i_state]; rewrite Es; apply (HS _ c0 E0)].
    rewrite (at_some _ _ _ Eo). cbn [bind fst]. rewrite (at_some _ _ _ E0). cbn [bind]. unfold sent.
    rewrite (at_some _ (c_owner c0) (tab (rrow n_states v (c_owner c0)) 0 cells)) by (rewrite nth_error_map, nth_seq by exact L0; reflexivity).
    cbn [bind]. rewrite (at_some _ _ _ (tab_nth _ cells 0 (source o) c0 E0)). cbn [Nat.add]. unfold rrow. rewrite Nat.eqb_refl.
    cbn [v' i_state i_cos i_sin]. unfold z, act. rewrite Es, E0. destruct (c_active c0); reflexivity. }
  split; [exact RR|]. split; [|split; [reflexivity|split; [reflexivity|]]].
  - apply world_of_wf.
    + intros c H. apply in_map_iff in H. destruct H as ([o c0] & <- & H). apply (HM o c0 H).
    + intros c H. apply in_map_iff in H. destruct H as ([o c0] & <- & H). apply (HM o c0 H).
    + intros pos c E. destruct (SM pos c E) as (o & Eo). destruct (OC pos o c Eo) as (c0 & E0 & L0). cbn [v' i_state]. unfold src. rewrite Eo. apply (HS _ c0 E0).
  - intros pos o c Eo. destruct (OC pos o c Eo) as (c0 & E0 & L0). destruct (HM o c (nth_error_In _ _ Eo)) as (_ & Lc & _).
    assert (nth_error (map snd mesh) pos = Some c) as E by (rewrite nth_error_map, Eo; reflexivity).
    assert (src pos = source o) as Es by (unfold src; now rewrite Eo).
    split; [|split].
    + rewrite (read_state v' n _ sol pos c E Lc). rewrite Ew. rewrite (read_state v n cells (w_sol w) (source o) c0 E0 L0). cbn [v' i_state]. now rewrite Es.
    + intros Ac (c1 & E1 & A1). fold cells in E1. rewrite E0 in E1. injection E1 as <-. unfold cell_cos, cell_sin, cell_melted.
      assert (stored a_cos w (source o) = Some (i_cos v (source o))) as -> by (rewrite Ew; apply (read_stored a_cos i_cos v _ _ _ _ c0 (fun _ _ => eq_refl) E0 L0 A1)).
      assert (stored a_sin w (source o) = Some (i_sin v (source o))) as -> by (rewrite Ew; apply (read_stored a_sin i_sin v _ _ _ _ c0 (fun _ _ => eq_refl) E0 L0 A1)).
      assert (stored a_melted w (source o) = Some (i_melted v (source o))) as -> by (rewrite Ew; apply (read_stored a_melted i_melted v _ _ _ _ c0 (fun _ _ => eq_refl) E0 L0 A1)).
      rewrite (read_stored a_cos i_cos v' n _ sol _ _ (fun _ _ => eq_refl) E Lc Ac), (read_stored a_sin i_sin v' n _ sol _ _ (fun _ _ => eq_refl) E Lc Ac),
        (read_stored a_melted i_melted v' n _ sol _ _ (fun _ _ => eq_refl) E Lc Ac).
      cbn [v' i_cos i_sin i_melted]. unfold z, act. rewrite Es, E0, A1. repeat split. destruct (i_melted v (source o)); vm_compute; reflexivity.
    + intros Ac NM. assert (c_active c0 = false) as A1 by (destruct (c_active c0) eqn:X; [exfalso; apply NM; exists c0; auto| reflexivity]).
      unfold cell_cos, cell_sin, cell_melted.
      rewrite (read_stored a_cos i_cos v' n _ sol _ _ (fun _ _ => eq_refl) E Lc Ac), (read_stored a_sin i_sin v' n _ sol _ _ (fun _ _ => eq_refl) E Lc Ac),
        (read_stored a_melted i_melted v' n _ sol _ _ (fun _ _ => eq_refl) E Lc Ac).
      cbn [v' i_cos i_sin i_melted]. unfold z, act. rewrite Es, E0, A1. repeat split.
Qed.
