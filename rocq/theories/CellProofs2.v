(** CellProofs2.v -- activation of material. *)
From Coq Require Import Bool List Floats Lia Arith.
From Verif Require Import Base CellModel CellSpec CellProofs.
Import ListNotations.

Lemma at_some {A} (l : list A) i x : nth_error l i = Some x -> at_ l i = Ok x.
Proof. intros H. unfold at_. now rewrite H. Qed.
Lemma skip_at {A} (l : list A) i x rest : skipn i l = x :: rest -> at_ l i = Ok x /\ skipn (S i) l = rest.
Proof.
  revert l; induction i as [|i IH]; intros [|y l] H; simpl in *; try discriminate.
  - injection H as -> ->. split; reflexivity.
  - destruct (IH l H) as [A1 A2]. split; [exact A1|]. destruct l; [destruct i; discriminate|]. exact A2.
Qed.
Lemma bind_ok {A B} (r : res A) (f : A -> res B) a : r = Ok a -> bind r f = f a.
Proof. intros ->. reflexivity. Qed.

Section Pack.
  Variables (n_dofs n_states : nat) (v : info) (sol : nat -> float) (r : nat).
  Definition row (pos : nat) (c : cell) : list float :=
    if Nat.eqb (c_owner c) r then
      if c_active c then map sol (c_nodes c) ++ [i_cos v pos; i_sin v pos; b2f (i_melted v pos)] ++ i_state v pos
      else repeat inf (n_dofs + direction_data_size + phase_history_data_size) ++ i_state v pos
    else dummy n_dofs n_states.
  Lemma pack_ok (a : arrays) : forall cells s ia io,
    skipn ia (a_cos a) = map (i_cos v) (poss (material_of r) s cells) -> skipn ia (a_sin a) = map (i_sin v) (poss (material_of r) s cells) ->
    skipn ia (a_melted a) = map (i_melted v) (poss (material_of r) s cells) -> skipn io (a_state a) = map (i_state v) (poss (owned_by r) s cells) ->
    pack n_dofs n_states r a sol ia io cells = Ok (tab row s cells).
  Proof.
    induction cells as [|c cells IH]; intros s ia io H1 H2 H3 H4; [reflexivity|].
    cbn [pack tab]. unfold material_of, owned_by in H1, H2, H3, H4. cbn [poss] in H1, H2, H3, H4.
    fold (material_of r) in H1, H2, H3. fold (owned_by r) in H4.
    unfold row at 1. destruct (Nat.eqb (c_owner c) r) eqn:Eo.
    - cbn [map] in H4. apply skip_at in H4. destruct H4 as [A4 S4].
      destruct (c_active c) eqn:Ea; cbn [andb map] in H1, H2, H3.
      + apply skip_at in H1, H2, H3. destruct H1 as [A1 S1], H2 as [A2 S2], H3 as [A3 S3].
        rewrite A1, A2, A3, A4. cbn [bind]. rewrite (IH (S s) _ _ S1 S2 S3 S4). reflexivity.
      + rewrite A4. cbn [bind]. rewrite (IH (S s) _ _ H1 H2 H3 S4). reflexivity.
    - cbn [andb] in H1, H2, H3. rewrite (IH (S s) _ _ H1 H2 H3 H4). reflexivity.
  Qed.
  Lemma pack_view cells : pack n_dofs n_states r (arrays_of v r cells) sol 0 0 cells = Ok (tab row 0 cells).
  Proof. apply pack_ok; reflexivity. Qed.
End Pack.

Lemma update_ok {A} (l : list A) i x v : nth_error l i = Some x -> update l i v = Ok (firstn i l ++ v :: skipn (S i) l).
Proof.
  revert i; induction l as [|y l IH]; intros [|i] H; simpl in *; try discriminate; [reflexivity|].
  rewrite (IH i H). reflexivity.
Qed.
Lemma update_tab {A} (f : nat -> cell -> A) cells : forall s pos c v, nth_error cells pos = Some c ->
  update (tab f s cells) pos v = Ok (tab (fun q c' => if Nat.eqb q (s + pos) then v else f q c') s cells).
Proof.
  induction cells as [|c' cells IH]; intros s [|pos] c v H; simpl in *; try discriminate.
  - rewrite Nat.add_0_r, Nat.eqb_refl. do 2 f_equal. apply tab_ext. intros pos c2 _. rewrite Nat.add_succ_comm.
    replace (Nat.eqb (s + S pos) s) with false by (symmetry; apply Nat.eqb_neq; lia). reflexivity.
  - rewrite (IH (S s) pos c v H). cbn [bind]. replace (Nat.eqb s (s + S pos)) with false by (symmetry; apply Nat.eqb_neq; lia).
    rewrite Nat.add_succ_r. reflexivity.
Qed.
Lemma update_app {A} (a : list A) x b v : update (a ++ x :: b) (List.length a) v = Ok (a ++ v :: b).
Proof. induction a as [|y a IH]; simpl; [reflexivity| now rewrite IH]. Qed.
Lemma at_app {A} (a : list A) x b : at_ (a ++ x :: b) (List.length a) = Ok x.
Proof. unfold at_. induction a as [|y a IH]; simpl; [reflexivity| exact IH]. Qed.

Lemma map_tab {A} (f : cell -> A) cells : forall s, map f cells = tab (fun _ c => f c) s cells.
Proof. induction cells as [|c l IH]; intros s; simpl; [reflexivity| now rewrite (IH (S s))]. Qed.

(** Activation: [ch pos] is the box that the cell was given last. *)
Section Activation.
  Variables (n_dofs n_states : nat) (v : info) (sol : nat -> float) (r : nat) (cells : list cell) (cs sn : list float).
  Definition arow (ch : nat -> option nat) (pos : nat) (c : cell) : list float :=
    match ch pos with
    | Some i => repeat inf n_dofs ++ [nth i cs 0%float; nth i sn 0%float; inf] ++ i_state v pos
    | None => row n_dofs n_states v sol r pos c
    end.
  Definition afuture (ch : nat -> option nat) (pos : nat) (c : cell) : bool := match ch pos with Some _ => true | None => c_active c end.
  Definition aupd (ch : nat -> option nat) (pos i : nat) : nat -> option nat :=
    fun q => if Nat.eqb q pos then match nth_error cells pos with Some c => if c_active c then ch q else Some i | None => ch q end else ch q.
  Definition flag_upd (ml : list bool) (pos i : nat) : list bool :=
    match nth_error cells pos with Some c => if c_active c then ml else firstn i ml ++ true :: skipn (S i) ml | None => ml end.
  Lemma flag_upd_length ml pos i : i < List.length ml -> List.length (flag_upd ml pos i) = List.length ml.
  Proof.
    intros H. unfold flag_upd. destruct (nth_error cells pos) as [c|]; [|reflexivity]. destruct (c_active c); [reflexivity|].
    rewrite app_length, firstn_length. cbn [List.length]. rewrite skipn_length. lia.
  Qed.
  Lemma inf_big : PrimFloat.ltb half inf = true.
  Proof. vm_compute. reflexivity. Qed.
  Lemma activate_cell_ok ch ml i pos c : nth_error cells pos = Some c -> c_owner c = r ->
    i < List.length cs -> i < List.length sn -> i < List.length ml ->
    (forall q j, ch q = Some j -> exists cq, nth_error cells q = Some cq /\ c_active cq = false) ->
    activate_cell n_dofs cells cs sn i (mkact (tab (arow ch) 0 cells) (tab (afuture ch) 0 cells) ml) pos =
      Ok (mkact (tab (arow (aupd ch pos i)) 0 cells) (tab (afuture (aupd ch pos i)) 0 cells) (flag_upd ml pos i)).
  Proof.
    intros E O L1 L2 L3 CH. unfold activate_cell. rewrite (at_some _ _ _ E). cbn [bind act_future act_data act_melted].
    unfold flag_upd. rewrite E. destruct (c_active c) eqn:Ea.
    - do 2 f_equal; apply tab_ext; intros q cq Eq; cbn [Nat.add]; unfold arow, afuture, aupd;
        destruct (Nat.eqb q pos); try reflexivity; now rewrite E, Ea.
    - rewrite (update_tab _ cells 0 pos c true E). cbn [bind].
      rewrite (at_some cs i (nth i cs 0%float)) by (now apply nth_error_nth').
      rewrite (at_some sn i (nth i sn 0%float)) by (now apply nth_error_nth'). cbn [bind].
      rewrite (at_some _ _ _ (tab_nth (arow ch) cells 0 pos c E)). cbn [bind Nat.add].
      assert (exists x y, arow ch pos c = repeat inf n_dofs ++ [x; y; inf] ++ i_state v pos) as (x & y & ->).
      { unfold arow. destruct (ch pos) as [j|]; [eauto|]. unfold row. rewrite O, Nat.eqb_refl, Ea. exists inf, inf.
        unfold direction_data_size, phase_history_data_size. rewrite <- Nat.add_assoc, (repeat_app inf n_dofs (2 + 1)), <- app_assoc. reflexivity. }
      assert (forall a b (l : list float), repeat inf n_dofs ++ a :: b :: l = (repeat inf n_dofs ++ [a]) ++ b :: l) as AS by (intros; now rewrite <- app_assoc).
      pose proof (repeat_length inf n_dofs) as RL.
      cbn [app]. rewrite <- RL at 2. rewrite update_app. cbn [bind].
      rewrite AS. replace (n_dofs + 1) with (List.length (repeat inf n_dofs ++ [nth i cs 0%float])) by (rewrite app_length, RL; reflexivity).
      rewrite update_app. cbn [bind].
      assert (forall a b d (l : list float), (repeat inf n_dofs ++ [a]) ++ b :: d :: l = (repeat inf n_dofs ++ [a; b]) ++ d :: l) as AS2 by (intros; now rewrite <- !app_assoc).
      rewrite AS2. replace (n_dofs + direction_data_size) with (List.length (repeat inf n_dofs ++ [nth i cs 0%float; nth i sn 0%float])) by (rewrite app_length, RL; reflexivity).
      rewrite at_app. cbn [bind]. rewrite inf_big.
      rewrite (update_tab _ cells 0 pos c _ E). cbn [bind].
      destruct (nth_error ml i) as [b|] eqn:Eb; [|apply nth_error_None in Eb; lia]. rewrite (update_ok ml i b true Eb). cbn [bind].
      do 2 f_equal; apply tab_ext; intros q cq Eq; cbn [Nat.add]; unfold arow, afuture, aupd;
        (destruct (Nat.eqb q pos) eqn:EQ; [|reflexivity]); rewrite E, Ea; try reflexivity.
      apply Nat.eqb_eq in EQ. subst q. rewrite <- app_assoc. reflexivity.
  Qed.
  Lemma aupd_inv ch pos i : (forall q j, ch q = Some j -> exists cq, nth_error cells q = Some cq /\ c_active cq = false) ->
    forall q j, aupd ch pos i q = Some j -> exists cq, nth_error cells q = Some cq /\ c_active cq = false.
  Proof.
    intros CH q j. unfold aupd. destruct (Nat.eqb q pos) eqn:E; [|apply CH]. apply Nat.eqb_eq in E. subst q.
    intros H. destruct (nth_error cells pos) as [c|] eqn:Ec.
    - destruct (c_active c) eqn:Ea; [|eauto]. destruct (CH pos j H) as (cq & X & Y). rewrite Ec in X. eauto.
    - destruct (CH pos j H) as (cq & X & Y). rewrite Ec in X. discriminate.
  Qed.

  (** All (box, cell) pairs in order. *)
  Definition apply_pairs (ch : nat -> option nat) (pairs : list (nat * nat)) : nat -> option nat := fold_left (fun h p => aupd h (snd p) (fst p)) pairs ch.
  Definition flag_pairs (ml : list bool) (pairs : list (nat * nat)) : list bool := fold_left (fun m p => flag_upd m (snd p) (fst p)) pairs ml.
  Definition pairs_ok (n : nat) (pairs : list (nat * nat)) : Prop := forall i pos, In (i, pos) pairs -> i < n /\ exists c, nth_error cells pos = Some c /\ c_owner c = r.
  Lemma box_ok i l : forall ch ml, pairs_ok (List.length ml) (map (pair i) l) -> List.length cs = List.length ml -> List.length sn = List.length ml ->
    (forall q j, ch q = Some j -> exists cq, nth_error cells q = Some cq /\ c_active cq = false) ->
    foldR (activate_cell n_dofs cells cs sn i) l (mkact (tab (arow ch) 0 cells) (tab (afuture ch) 0 cells) ml) =
    Ok (mkact (tab (arow (apply_pairs ch (map (pair i) l))) 0 cells) (tab (afuture (apply_pairs ch (map (pair i) l))) 0 cells) (flag_pairs ml (map (pair i) l))).
  Proof.
    unfold foldR. induction l as [|pos l IH]; intros ch ml P Hc Hs CH; [reflexivity|].
    cbn [fold_left bind map apply_pairs flag_pairs]. destruct (P i pos) as (Li & c & E & O); [now left|].
    rewrite (activate_cell_ok ch ml i pos c E O) by (try lia; exact CH).
    pose proof (flag_upd_length ml pos i Li) as FL.
    unfold apply_pairs, flag_pairs in IH. cbn [snd fst]. apply IH; rewrite ?FL; auto.
    - intros j q Hq. apply P. now right.
    - apply aupd_inv. exact CH.
  Qed.
  Lemma flag_pairs_length pairs : forall ml, pairs_ok (List.length ml) pairs -> List.length (flag_pairs ml pairs) = List.length ml.
  Proof.
    induction pairs as [|[i pos] pairs IH]; intros ml P; [reflexivity|]. cbn [flag_pairs fold_left]. cbn [fst snd].
    destruct (P i pos) as (Li & _); [now left|].
    pose proof (flag_upd_length ml pos i Li) as FL. fold (flag_pairs (flag_upd ml pos i) pairs).
    rewrite IH; [exact FL|]. rewrite FL. intros j q H. apply P. now right.
  Qed.
  Lemma apply_inv pairs : forall ch, (forall q j, ch q = Some j -> exists cq, nth_error cells q = Some cq /\ c_active cq = false) ->
    forall q j, apply_pairs ch pairs q = Some j -> exists cq, nth_error cells q = Some cq /\ c_active cq = false.
  Proof. induction pairs as [|p pairs IH]; intros ch CH; [exact CH|]. cbn [apply_pairs fold_left]. apply IH. now apply aupd_inv. Qed.

  Variable elements : list (list nat).
  Definition box_pairs (is_ : list nat) : list (nat * nat) := flat_map (fun i => map (pair i) (nth i elements [])) is_.
  Lemma boxes_ok is_ : forall ch ml, (forall i, In i is_ -> i < List.length elements) -> pairs_ok (List.length ml) (box_pairs is_) ->
    List.length cs = List.length ml -> List.length sn = List.length ml ->
    (forall q j, ch q = Some j -> exists cq, nth_error cells q = Some cq /\ c_active cq = false) ->
    foldR (activate_box n_dofs cells elements cs sn) is_ (mkact (tab (arow ch) 0 cells) (tab (afuture ch) 0 cells) ml) =
    Ok (mkact (tab (arow (apply_pairs ch (box_pairs is_))) 0 cells) (tab (afuture (apply_pairs ch (box_pairs is_))) 0 cells) (flag_pairs ml (box_pairs is_))).
  Proof.
    unfold foldR. induction is_ as [|i is_ IH]; intros ch ml HI P Hc Hs CH; [reflexivity|].
    cbn [fold_left bind box_pairs flat_map]. unfold activate_box at 2.
    rewrite (at_some elements i (nth i elements [])) by (apply nth_error_nth'; apply HI; now left). cbn [bind].
    assert (pairs_ok (List.length ml) (map (pair i) (nth i elements []))) as P1.
    { intros j q H. apply P. cbn [box_pairs flat_map]. apply in_or_app. now left. }
    rewrite (box_ok i _ ch ml P1 Hc Hs CH). pose proof (flag_pairs_length _ ml P1) as FL.
    rewrite IH; rewrite ?FL; auto.
    - unfold apply_pairs, flag_pairs, box_pairs. now rewrite !fold_left_app.
    - intros j H. apply HI. now right.
    - intros j q H. apply P. cbn [box_pairs flat_map]. apply in_or_app. now right.
    - apply apply_inv. exact CH.
  Qed.
  Lemma start_ok first last melted : last <= List.length elements -> List.length melted = List.length cs -> List.length sn = List.length cs -> last <= List.length cs ->
    (forall i pos, first <= i < last -> In pos (nth i elements []) -> exists c, nth_error cells pos = Some c /\ c_owner c = r) ->
    let ch := apply_pairs (fun _ => None) (box_pairs (seq first (last - first))) in
    add_material_start n_dofs n_states r cells (arrays_of v r cells) sol elements cs sn melted first last =
    Ok (mkact (tab (arow ch) 0 cells) (tab (afuture ch) 0 cells) (flag_pairs melted (box_pairs (seq first (last - first))))).
  Proof.
    intros L1 L2 L3 L4 P ch. unfold add_material_start. rewrite pack_view. cbn [bind].
    replace (tab (row n_dofs n_states v sol r) 0 cells) with (tab (arow (fun _ => None)) 0 cells) by reflexivity.
    assert (map c_active cells = tab (afuture (fun _ => None)) 0 cells) as -> by (apply (map_tab c_active cells 0)).
    apply boxes_ok; [| | congruence | congruence | discriminate].
    - intros i H. apply in_seq in H. lia.
    - intros i pos H. unfold box_pairs in H. apply in_flat_map in H. destruct H as (j & Hj & H). apply in_map_iff in H.
      destruct H as (q & E & Hq). injection E as -> ->. apply in_seq in Hj. split; [lia|]. apply (P i pos); [lia| exact Hq].
  Qed.
  (** The box a cell was given is the last one. *)
  Lemma apply_pairs_snoc pairs p ch : apply_pairs ch (pairs ++ [p]) = aupd (apply_pairs ch pairs) (snd p) (fst p).
  Proof. unfold apply_pairs. now rewrite fold_left_app. Qed.
  Lemma apply_last pairs pos c : nth_error cells pos = Some c -> c_active c = false ->
    match apply_pairs (fun _ => None) pairs pos with
    | Some i => exists a b, pairs = a ++ (i, pos) :: b /\ forall j, ~ In (j, pos) b
    | None => forall j, ~ In (j, pos) pairs
    end.
  Proof.
    intros E Ea. induction pairs as [|[i q] pairs IH] using rev_ind; [intros j []|].
    rewrite apply_pairs_snoc. cbn [fst snd]. unfold aupd at 1. destruct (Nat.eqb pos q) eqn:Q.
    - apply Nat.eqb_eq in Q. subst q. rewrite E, Ea. exists pairs, []. split; [reflexivity| intros j []].
    - apply Nat.eqb_neq in Q. destruct (apply_pairs (fun _ => None) pairs pos) as [j|].
      + destruct IH as (a & b & -> & H). exists a, (b ++ [(i, q)]). split; [now rewrite <- app_assoc|].
        intros k HK. apply in_app_or in HK. destruct HK as [HK|[HK|[]]]; [now apply (H k)|]. injection HK as -> ->. congruence.
      + intros k HK. apply in_app_or in HK. destruct HK as [HK|[HK|[]]]; [now apply (IH k)|]. injection HK as -> ->. congruence.
  Qed.
  Lemma box_pairs_in is_ i pos : In (i, pos) (box_pairs is_) <-> In i is_ /\ In pos (nth i elements []).
  Proof.
    unfold box_pairs. rewrite in_flat_map. split.
    - intros (j & Hj & H). apply in_map_iff in H. destruct H as (q & E & Hq). injection E as -> ->. auto.
    - intros [H1 H2]. exists i. split; [exact H1|]. apply in_map_iff. eauto.
  Qed.
  Lemma seq_split_later n : forall s (a b : list (nat * nat)) i pos, box_pairs (seq s n) = a ++ (i, pos) :: b -> (forall j, ~ In (j, pos) b) ->
    forall j, i < j < s + n -> ~ In pos (nth j elements []).
  Proof.
    induction n as [|n IH]; intros s a b i pos H NB j Hj HI; [destruct a; discriminate|].
    cbn [seq box_pairs flat_map] in H. change (flat_map _ (seq (S s) n)) with (box_pairs (seq (S s) n)) in H.
    (* i is at least s *)
    assert (In (i, pos) (map (pair s) (nth s elements []) ++ box_pairs (seq (S s) n))) as HIn by (rewrite H; apply in_or_app; right; now left).
    (* where is the split *)
    apply app_eq_app in H. destruct H as (l & [[H1 H2]|[H1 H2]]).
    - destruct l as [|p l].
      + rewrite app_nil_r in H1. simpl in H2.
        assert (box_pairs (seq (S s) n) = [] ++ (i, pos) :: b) as H3 by (symmetry; exact H2).
        apply (IH (S s) [] b i pos H3 NB j); [lia| exact HI].
      + simpl in H2. injection H2 as <- ->.
        assert (i = s) as ->.
        { assert (In (i, pos) (map (pair s) (nth s elements []))) as HQ by (rewrite H1; apply in_or_app; right; now left).
          apply in_map_iff in HQ. destruct HQ as (q & E & _). now injection E. }
        apply (NB j). apply in_or_app. right. apply box_pairs_in. split; [apply in_seq; lia| exact HI].
    - apply (IH (S s) l b i pos H2 NB j); [|exact HI]. lia.
  Qed.
End Activation.
