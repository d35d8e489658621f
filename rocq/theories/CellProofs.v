(** CellProofs.v -- views of the distributed arrays. *)
From Coq Require Import Bool List Floats Lia Arith.
From Verif Require Import Base CellModel CellSpec.
Import ListNotations.

Fixpoint tab {A} (f : nat -> cell -> A) (s : nat) (cells : list cell) : list A :=
  match cells with [] => [] | c :: r => f s c :: tab f (S s) r end.
Fixpoint poss (p : cell -> bool) (s : nat) (cells : list cell) : list nat :=
  match cells with [] => [] | c :: r => if p c then s :: poss p (S s) r else poss p (S s) r end.

Lemma tab_length {A} (f : nat -> cell -> A) cells : forall s, List.length (tab f s cells) = List.length cells.
Proof. induction cells as [|c cells IH]; intros s; simpl; [reflexivity| now rewrite IH]. Qed.
Lemma tab_nth {A} (f : nat -> cell -> A) cells : forall s pos c, nth_error cells pos = Some c -> nth_error (tab f s cells) pos = Some (f (s + pos)%nat c).
Proof.
  induction cells as [|c' cells IH]; intros s [|pos] c H; simpl in *; try discriminate.
  - injection H as ->. now rewrite Nat.add_0_r.
  - rewrite (IH (S s) pos c H). do 2 f_equal. lia.
Qed.
Lemma tab_ext {A} (f g : nat -> cell -> A) cells : forall s, (forall pos c, nth_error cells pos = Some c -> f (s + pos)%nat c = g (s + pos)%nat c) -> tab f s cells = tab g s cells.
Proof.
  induction cells as [|c cells IH]; intros s H; simpl; [reflexivity|]. f_equal.
  - specialize (H 0 c eq_refl). now rewrite Nat.add_0_r in H.
  - apply IH. intros pos c' E. specialize (H (S pos) c' E). now rewrite Nat.add_succ_r in H.
Qed.
Lemma tab_map {A B} (g : A -> B) (f : nat -> cell -> A) cells : forall s, map g (tab f s cells) = tab (fun pos c => g (f pos c)) s cells.
Proof. induction cells as [|c cells IH]; intros s; simpl; [reflexivity| now rewrite IH]. Qed.
Lemma tab_combine {A} (f : nat -> cell -> A) cells : forall s, map (fun pc => f (fst pc) (snd pc)) (combine (seq s (List.length cells)) cells) = tab f s cells.
Proof. induction cells as [|c cells IH]; intros s; simpl; [reflexivity| now rewrite IH]. Qed.

Lemma poss_length p cells : forall s, List.length (poss p s cells) = count p cells.
Proof. unfold count. induction cells as [|c cells IH]; intros s; simpl; [reflexivity|]. destruct (p c); simpl; now rewrite IH. Qed.
Lemma poss_in p cells : forall s q, In q (poss p s cells) <-> exists pos c, q = s + pos /\ nth_error cells pos = Some c /\ p c = true.
Proof.
  induction cells as [|c cells IH]; intros s q; simpl.
  - split; [intros []| intros (pos & c & _ & E & _); destruct pos; discriminate].
  - split.
    + intros H. destruct (p c) eqn:Ep.
      * destruct H as [<-|H]; [exists 0, c; rewrite Nat.add_0_r; auto|].
        apply IH in H. destruct H as (pos & c' & -> & E & P). exists (S pos), c'. repeat split; auto; lia.
      * apply IH in H. destruct H as (pos & c' & -> & E & P). exists (S pos), c'. repeat split; auto; lia.
    + intros (pos & c' & -> & E & P). destruct pos as [|pos]; simpl in E.
      * injection E as <-. rewrite P. left. lia.
      * assert (In (s + S pos) (poss p (S s) cells)) as HI by (apply IH; exists pos, c'; repeat split; auto; lia).
        destruct (p c); [right|]; exact HI.
Qed.
Lemma poss_nth p cells : forall s pos c, nth_error cells pos = Some c -> p c = true -> nth_error (poss p s cells) (count p (firstn pos cells)) = Some (s + pos)%nat.
Proof.
  unfold count. induction cells as [|c' cells IH]; intros s [|pos] c H P; simpl in *; try discriminate.
  - injection H as ->. rewrite P. simpl. now rewrite Nat.add_0_r.
  - destruct (p c') eqn:E; simpl; rewrite (IH (S s) pos c H P); f_equal; lia.
Qed.
(** A list with one entry per selected position is the image of the positions. *)
Lemma as_map {A} (d : A) p cells : forall s (l : list A), List.length l = count p cells ->
  l = map (fun q => nth (count p (firstn (q - s) cells)) l d) (poss p s cells).
Proof.
  unfold count. induction cells as [|c cells IH]; intros s l H; simpl in H |- *.
  - destruct l; [reflexivity| discriminate].
  - assert (forall q (l' : list A), In q (poss p (S s) cells) -> q - s = S (q - S s)) as Q.
    { intros q l' Hq. apply poss_in in Hq. destruct Hq as (pos & c' & -> & _). lia. }
    destruct (p c) eqn:E.
    + simpl in H. destruct l as [|x l]; [discriminate|]. simpl. rewrite Nat.sub_diag. simpl. f_equal.
      injection H as H. rewrite (IH (S s) l H) at 1. apply map_ext_in. intros q Hq. rewrite (Q q l Hq). simpl. rewrite E. reflexivity.
    + rewrite (IH (S s) l H) at 1. apply map_ext_in. intros q Hq. rewrite (Q q l Hq). simpl. rewrite E. reflexivity.
Qed.
Lemma poss_snoc p cells c : forall s, poss p s (cells ++ [c]) = poss p s cells ++ (if p c then [s + List.length cells] else []).
Proof.
  induction cells as [|c' cells IH]; intros s; simpl.
  - rewrite Nat.add_0_r. destruct (p c); reflexivity.
  - rewrite (IH (S s)). destruct (p c'); simpl; rewrite Nat.add_succ_r; reflexivity.
Qed.

(** The data of the cells by position. *)
Record info := mkinfo { i_cos : nat -> float; i_sin : nat -> float; i_melted : nat -> bool; i_state : nat -> list float }.
Definition arrays_of (v : info) (r : nat) (cells : list cell) : arrays :=
  mkarrays (map (i_cos v) (poss (material_of r) 0 cells)) (map (i_sin v) (poss (material_of r) 0 cells))
    (map (i_melted v) (poss (material_of r) 0 cells)) (map (i_state v) (poss (owned_by r) 0 cells)).
Definition world_of (v : info) (n : nat) (cells : list cell) (sol : nat -> float) : world :=
  mkworld cells (map (fun r => arrays_of v r cells) (seq 0 n)) sol.

Lemma list_as_map {A} (l : list A) (f : nat -> A) n : List.length l = n -> (forall i x, nth_error l i = Some x -> x = f i) -> l = map f (seq 0 n).
Proof.
  intros <-. assert (forall s, (forall i x, nth_error l i = Some x -> x = f (s + i)%nat) -> l = map f (seq s (List.length l))) as G.
  { induction l as [|y l IH]; intros s H; simpl; [reflexivity|]. f_equal.
    - rewrite (H 0 y eq_refl). now rewrite Nat.add_0_r.
    - apply IH. intros i x E. rewrite (H (S i) x E). f_equal. lia. }
  apply (G 0).
Qed.

Lemma view_exists n_dofs n_states w : well_formed n_dofs n_states w ->
  exists v, w = world_of v (n_ranks w) (w_cells w) (w_sol w) /\
            (forall pos c, nth_error (w_cells w) pos = Some c -> List.length (i_state v pos) = n_states).
Proof.
  intros WF. destruct w as [cells arrs sol]. simpl in *.
  pose (own := fun pos => match nth_error cells pos with Some c => c_owner c | None => 0 end).
  pose (arr := fun pos => nth (own pos) arrs (mkarrays [] [] [] [])).
  pose (ia := fun pos => count (material_of (own pos)) (firstn pos cells)).
  pose (io := fun pos => count (owned_by (own pos)) (firstn pos cells)).
  exists (mkinfo (fun pos => nth (ia pos) (a_cos (arr pos)) 0%float) (fun pos => nth (ia pos) (a_sin (arr pos)) 0%float)
        (fun pos => nth (ia pos) (a_melted (arr pos)) false) (fun pos => nth (io pos) (a_state (arr pos)) [])).
  assert (forall r pos, In pos (poss (material_of r) 0 cells) -> own pos = r) as O1.
  { intros r pos H. apply poss_in in H. destruct H as (p & c & -> & E & P). unfold own. simpl. rewrite E.
    unfold material_of in P. apply andb_true_iff in P. now apply Nat.eqb_eq. }
  assert (forall r pos, In pos (poss (owned_by r) 0 cells) -> own pos = r) as O2.
  { intros r pos H. apply poss_in in H. destruct H as (p & c & -> & E & P). unfold own. simpl. rewrite E.
    unfold owned_by in P. now apply Nat.eqb_eq. }
  split.
  - unfold world_of, n_ranks. cbn [w_cells w_arrays w_sol]. f_equal.
    apply list_as_map; [reflexivity|]. intros r a E.
    assert (arrs <> []) as NE by (intros ->; destruct r; discriminate).
    assert (nth r arrs (mkarrays [] [] [] []) = a) as Ea by (apply nth_error_nth with (1 := E)).
    pose proof (wf_cos _ _ _ WF r a E) as L1. pose proof (wf_sin _ _ _ WF r a E) as L2.
    pose proof (wf_melted _ _ _ WF r a E) as L3. pose proof (wf_state _ _ _ WF r a E) as L4. cbn [w_cells] in *.
    unfold arrays_of. cbn [i_cos i_sin i_melted i_state]. destruct a as [c s m st]. cbn [a_cos a_sin a_melted a_state] in *.
    f_equal.
    + rewrite (as_map 0%float _ cells 0 c L1) at 1. apply map_ext_in. intros q Hq. unfold ia, arr. rewrite (O1 r q Hq), Ea, Nat.sub_0_r. reflexivity.
    + rewrite (as_map 0%float _ cells 0 s L2) at 1. apply map_ext_in. intros q Hq. unfold ia, arr. rewrite (O1 r q Hq), Ea, Nat.sub_0_r. reflexivity.
    + rewrite (as_map false _ cells 0 m L3) at 1. apply map_ext_in. intros q Hq. unfold ia, arr. rewrite (O1 r q Hq), Ea, Nat.sub_0_r. reflexivity.
    + rewrite (as_map [] _ cells 0 st L4) at 1. apply map_ext_in. intros q Hq. unfold io, arr. rewrite (O2 r q Hq), Ea, Nat.sub_0_r. reflexivity.
  - intros pos c E. cbn [i_state]. unfold arr, io, own. rewrite E.
    pose proof (wf_owner _ _ _ WF c (nth_error_In _ _ E)) as LT. cbn [w_arrays] in LT.
    destruct (nth_error arrs (c_owner c)) as [a|] eqn:Ea; [|apply nth_error_None in Ea; lia].
    rewrite (nth_error_nth _ _ (mkarrays [] [] [] []) Ea).
    apply (wf_states _ _ _ WF (c_owner c) a); [exact Ea|]. apply nth_In.
    rewrite (wf_state _ _ _ WF (c_owner c) a Ea). cbn [w_cells].
    rewrite <- (poss_length (owned_by (c_owner c)) cells 0).
    apply nth_error_Some. rewrite (poss_nth _ cells 0 pos c E); [discriminate|]. unfold owned_by. apply Nat.eqb_refl.
Qed.

Lemma world_of_wf v n n_dofs n_states cells sol :
  (forall c, In c cells -> List.length (c_nodes c) = n_dofs) -> (forall c, In c cells -> c_owner c < n) ->
  (forall pos c, nth_error cells pos = Some c -> List.length (i_state v pos) = n_states) -> well_formed n_dofs n_states (world_of v n cells sol).
Proof.
  intros HN HO HS. assert (forall r a, nth_error (w_arrays (world_of v n cells sol)) r = Some a -> a = arrays_of v r cells) as A.
  { intros r a E. unfold world_of in E. cbn [w_arrays] in E. rewrite nth_error_map in E.
    destruct (nth_error (seq 0 n) r) as [x|] eqn:Ex; [|discriminate]. simpl in E. injection E as <-.
    assert (r < n) by (rewrite <- (seq_length n 0); apply nth_error_Some; rewrite Ex; discriminate).
    rewrite (nth_error_nth' _ 0) in Ex by (rewrite seq_length; lia). rewrite seq_nth in Ex by lia. injection Ex as <-. reflexivity. }
  constructor; unfold world_of; cbn [w_cells w_arrays]; auto.
  - intros c H. rewrite map_length, seq_length. auto.
  - intros r a E. rewrite (A r a E). cbn. now rewrite map_length, poss_length.
  - intros r a E. rewrite (A r a E). cbn. now rewrite map_length, poss_length.
  - intros r a E. rewrite (A r a E). cbn. now rewrite map_length, poss_length.
  - intros r a E. rewrite (A r a E). cbn. now rewrite map_length, poss_length.
  - intros r a st E H. rewrite (A r a E) in H. cbn in H. apply in_map_iff in H. destruct H as (q & <- & Hq).
    apply poss_in in Hq. destruct Hq as (pos & c & -> & E2 & _). simpl. apply (HS pos c E2).
Qed.

Lemma nth_seq n r : r < n -> nth_error (seq 0 n) r = Some r.
Proof. intros H. rewrite (nth_error_nth' _ 0) by (rewrite seq_length; lia). rewrite seq_nth by lia. reflexivity. Qed.
Lemma world_arrays v n cells sol r : r < n -> nth_error (w_arrays (world_of v n cells sol)) r = Some (arrays_of v r cells).
Proof. intros H. unfold world_of. cbn [w_arrays]. rewrite nth_error_map, nth_seq by exact H. reflexivity. Qed.

(** Reading a view. *)
Lemma read_state v n cells sol pos c : nth_error cells pos = Some c -> c_owner c < n -> cell_state (world_of v n cells sol) pos = Some (i_state v pos).
Proof.
  intros E L. unfold cell_state. cbn [w_cells world_of]. rewrite E, world_arrays by exact L. cbn [a_state arrays_of].
  rewrite nth_error_map. rewrite (poss_nth _ cells 0 pos c E); [reflexivity|]. apply Nat.eqb_refl.
Qed.
Lemma read_stored {A} (get : arrays -> list A) (f : info -> nat -> A) v n cells sol pos c :
  (forall r cs, get (arrays_of v r cs) = map (f v) (poss (material_of r) 0 cs)) ->
  nth_error cells pos = Some c -> c_owner c < n -> c_active c = true -> stored get (world_of v n cells sol) pos = Some (f v pos).
Proof.
  intros G E L Ac. unfold stored. cbn [w_cells world_of]. rewrite E, world_arrays by exact L. rewrite G.
  rewrite nth_error_map. rewrite (poss_nth _ cells 0 pos c E); [reflexivity|]. unfold material_of. now rewrite Nat.eqb_refl, Ac.
Qed.
