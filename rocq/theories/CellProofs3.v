(** CellProofs3.v -- activation of material: the receiving side and the whole operation. *)
From Coq Require Import Bool List Floats Lia Arith.
From Verif Require Import Base CellModel CellSpec CellProofs CellProofs2.
Import ListNotations.

Lemma mapR_ok {A B} (f : A -> res B) (g : A -> B) l : (forall x, In x l -> f x = Ok (g x)) -> mapR f l = Ok (map g l).
Proof.
  induction l as [|x l IH]; intros H; simpl; [reflexivity|]. rewrite (H x) by now left. cbn [bind].
  rewrite IH by (intros y Hy; apply H; now right). reflexivity.
Qed.
Lemma mapR_take {A} (l : list A) k n pre post d : l = pre ++ d ++ post -> List.length pre = k -> List.length d = n -> mapR (fun i => at_ l (k + i)) (seq 0 n) = Ok d.
Proof.
  intros -> <- <-. assert (forall s d' b, List.length b = s -> mapR (fun i => at_ (pre ++ (b ++ d') ++ post) (List.length pre + i)) (seq s (List.length d')) = Ok d') as G.
  { intros s d'. revert s. induction d' as [|x d' IH]; intros s b Hb; [reflexivity|]. cbn [List.length seq mapR].
    assert (at_ (pre ++ (b ++ x :: d') ++ post) (List.length pre + s) = Ok x) as ->.
    { rewrite <- Hb, <- (app_length pre b). rewrite <- app_assoc, (app_assoc pre b). cbn [app]. apply at_app. }
    cbn [bind]. replace (b ++ x :: d') with ((b ++ [x]) ++ d') by (rewrite <- app_assoc; reflexivity).
    rewrite (IH (S s) (b ++ [x])); [reflexivity|]. rewrite app_length. cbn. lia. }
  exact (G 0 d [] eq_refl).
Qed.
Lemma mapR_take0 {A} (l : list A) n post d : l = d ++ post -> List.length d = n -> mapR (fun i => at_ l i) (seq 0 n) = Ok d.
Proof. intros E L. exact (mapR_take l 0 n [] post d E eq_refl L). Qed.

Definition app_arrays (a b : arrays) : arrays :=
  mkarrays (a_cos a ++ a_cos b) (a_sin a ++ a_sin b) (a_melted a ++ a_melted b) (a_state a ++ a_state b).
Lemma app_arrays_assoc a b c : app_arrays (app_arrays a b) c = app_arrays a (app_arrays b c).
Proof. unfold app_arrays. cbn. now rewrite <- !app_assoc. Qed.
Definition arrays_from (v : info) (r s : nat) (cells : list cell) : arrays :=
  mkarrays (map (i_cos v) (poss (material_of r) s cells)) (map (i_sin v) (poss (material_of r) s cells))
    (map (i_melted v) (poss (material_of r) s cells)) (map (i_state v) (poss (owned_by r) s cells)).

Section Unpack.
  Variables (n_dofs n_states r : nat) (owns : nat -> bool) (data : nat -> res (list float)).
  (** What arrives for the cells of the process. *)
  Variables (hd : nat -> list float) (v : info) (z : nat -> float).
  Hypothesis z_melted : forall pos, i_melted v pos = PrimFloat.ltb half (z pos).
  Fixpoint written (s : nat) (cells : list cell) (rw : nat -> float) : nat -> float :=
    match cells with
    | [] => rw
    | c :: rest => written (S s) rest (if Nat.eqb (c_owner c) r && negb (PrimFloat.eqb (nth 0 (hd s) 0%float) inf) then write_values owns (c_nodes c) (hd s) rw else rw)
    end.
  Lemma unpack_ok : 0 < n_dofs -> forall cells s acc rw,
    (forall pos c, nth_error cells pos = Some c -> c_owner c = r ->
       data (s + pos) = Ok (hd (s + pos) ++ [i_cos v (s + pos); i_sin v (s + pos); z (s + pos)] ++ i_state v (s + pos)) /\
       List.length (hd (s + pos)) = n_dofs /\ List.length (i_state v (s + pos)) = n_states) ->
    unpack n_dofs n_states r owns cells data s (acc, rw) = Ok (app_arrays acc (arrays_from v r s cells), written s cells rw).
  Proof.
    intros ND. induction cells as [|c cells IH]; intros s acc rw H.
    - cbn. unfold app_arrays. cbn. rewrite !app_nil_r. destruct acc; reflexivity.
    - cbn [unpack written]. destruct (Nat.eqb (c_owner c) r) eqn:Eo.
      + destruct (H 0 c eq_refl) as (D & L1 & L2); [now apply Nat.eqb_eq|]. rewrite Nat.add_0_r in D, L1, L2. rewrite D. cbn [bind].
        set (h := hd s) in *. set (t := [i_cos v s; i_sin v s; z s] ++ i_state v s).
        assert (at_ (h ++ t) 0 = Ok (nth 0 h 0%float)) as ->.
        { destruct h as [|x h']; [cbn in L1; lia| reflexivity]. }
        cbn [bind fst snd].
        assert (firstn n_dofs (h ++ t) = h) as -> by (rewrite <- L1, firstn_app, firstn_all, Nat.sub_diag; cbn; apply app_nil_r).
        assert (at_ (h ++ t) n_dofs = Ok (i_cos v s)) as -> by (rewrite <- L1; unfold t; cbn [app]; apply at_app).
        assert (at_ (h ++ t) (n_dofs + 1) = Ok (i_sin v s)) as ->.
        { unfold t. cbn [app]. replace (n_dofs + 1) with (List.length (h ++ [i_cos v s])) by (rewrite app_length; unfold direction_data_size; cbn [List.length]; lia).
          replace (h ++ i_cos v s :: i_sin v s :: z s :: i_state v s) with ((h ++ [i_cos v s]) ++ i_sin v s :: z s :: i_state v s) by (rewrite <- app_assoc; reflexivity).
          apply at_app. }
        assert (at_ (h ++ t) (n_dofs + direction_data_size) = Ok (z s)) as ->.
        { unfold t. cbn [app]. replace (n_dofs + direction_data_size) with (List.length (h ++ [i_cos v s; i_sin v s])) by (rewrite app_length; unfold direction_data_size; cbn [List.length]; lia).
          replace (h ++ i_cos v s :: i_sin v s :: z s :: i_state v s) with ((h ++ [i_cos v s; i_sin v s]) ++ z s :: i_state v s) by (rewrite <- app_assoc; reflexivity).
          apply at_app. }
        assert (mapR (fun i => at_ (h ++ t) (n_dofs + direction_data_size + phase_history_data_size + i)) (seq 0 n_states) = Ok (i_state v s)) as MS.
        { apply (mapR_take (h ++ t) (n_dofs + direction_data_size + phase_history_data_size) n_states (h ++ [i_cos v s; i_sin v s; z s]) [] (i_state v s)).
          - unfold t. rewrite app_nil_r, <- app_assoc. reflexivity.
          - rewrite app_length. cbn. unfold direction_data_size, phase_history_data_size. lia.
          - exact L2. }
        assert (forall acc' rw', unpack n_dofs n_states r owns cells data (S s) (acc', rw') = Ok (app_arrays acc' (arrays_from v r (S s) cells), written (S s) cells rw')) as IH'.
        { intros acc' rw'. apply IH. intros pos c' E O. specialize (H (S pos) c' E O). rewrite Nat.add_succ_r in H. exact H. }
        destruct (c_active c) eqn:Ea; cbn [bind].
        * rewrite MS. cbn [bind]. rewrite IH'. cbn [andb]. do 2 f_equal.
          { unfold app_arrays, arrays_from. cbn [a_cos a_sin a_melted a_state poss]. assert (material_of r c = c_active c) as -> by (unfold material_of; now rewrite Eo). assert (owned_by r c = true) as -> by exact Eo. rewrite Ea.
            cbn [map]. rewrite z_melted, <- !app_assoc. reflexivity. }
          destruct (PrimFloat.eqb (nth 0 h 0%float) inf); reflexivity.
        * rewrite MS. cbn [bind]. rewrite IH'. cbn [andb]. do 2 f_equal.
          { unfold app_arrays, arrays_from. cbn [a_cos a_sin a_melted a_state poss]. assert (material_of r c = c_active c) as -> by (unfold material_of; now rewrite Eo). assert (owned_by r c = true) as -> by exact Eo. rewrite Ea.
            cbn [map]. rewrite <- !app_assoc. reflexivity. }
          destruct (PrimFloat.eqb (nth 0 h 0%float) inf); reflexivity.
      + rewrite IH.
        * cbn [andb]. do 2 f_equal. unfold app_arrays, arrays_from. cbn [a_cos a_sin a_melted a_state poss].
          assert (material_of r c = false) as -> by (unfold material_of; now rewrite Eo). assert (owned_by r c = false) as -> by exact Eo. reflexivity.
        * intros pos c' E O. specialize (H (S pos) c' E O). rewrite Nat.add_succ_r in H. exact H.
  Qed.

  (** If every value written for a node is [sol] of it, the node holds [sol] iff something was written. *)
  Lemma write_values_at sol n : forall nodes values rw, List.length nodes = List.length values -> (forall i m, nth_error nodes i = Some m -> nth_error values i = Some (sol m)) ->
    write_values owns nodes values rw n = if owns n && existsb (Nat.eqb n) nodes then sol n else rw n.
  Proof.
    induction nodes as [|m nodes IH]; intros [|x values] rw L H; try discriminate; cbn [write_values existsb].
    - now rewrite andb_false_r.
    - rewrite IH; [|now injection L| intros i k E; exact (H (S i) k E)].
      specialize (H 0 m eq_refl). cbn in H. injection H as ->.
      destruct (Nat.eqb n m) eqn:E.
      + apply Nat.eqb_eq in E. subst m. rewrite andb_true_r. destruct (owns n) eqn:O; cbn; [|reflexivity]. destruct (existsb (Nat.eqb n) nodes); [reflexivity|]. now rewrite Nat.eqb_refl.
      + cbn [orb]. destruct (owns n && existsb (Nat.eqb n) nodes); [reflexivity|]. destruct (owns m); [now rewrite E|reflexivity].
  Qed.
  Definition writes (s : nat) (n pos : nat) (c : cell) : bool :=
    Nat.eqb (c_owner c) r && negb (PrimFloat.eqb (nth 0 (hd (s + pos)) 0%float) inf) && existsb (Nat.eqb n) (c_nodes c).
  Lemma written_at sol n : forall cells s rw,
    (forall pos c, nth_error cells pos = Some c -> c_owner c = r -> PrimFloat.eqb (nth 0 (hd (s + pos)) 0%float) inf = false -> hd (s + pos) = map sol (c_nodes c)) ->
    ((exists pos c, nth_error cells pos = Some c /\ writes s n pos c = true /\ owns n = true) /\ written s cells rw n = sol n) \/
    ((forall pos c, nth_error cells pos = Some c -> writes s n pos c && owns n = false) /\ written s cells rw n = rw n).
  Proof.
    induction cells as [|c cells IH]; intros s rw H.
    - right. split; [intros [|pos] c E; discriminate| reflexivity].
    - cbn [written].
      destruct (IH (S s) (if Nat.eqb (c_owner c) r && negb (PrimFloat.eqb (nth 0 (hd s) 0%float) inf) then write_values owns (c_nodes c) (hd s) rw else rw)) as [[(pos & c' & E & W & O) V]|[N V]].
      + intros pos c' E O X. specialize (H (S pos) c' E O). rewrite Nat.add_succ_r in H. apply H. exact X.
      + left. split; [|exact V]. exists (S pos), c'. split; [exact E|]. split; [|exact O]. unfold writes in *. now rewrite Nat.add_succ_r.
      + rewrite V.
        assert ((if Nat.eqb (c_owner c) r && negb (PrimFloat.eqb (nth 0 (hd s) 0%float) inf) then write_values owns (c_nodes c) (hd s) rw else rw) n =
                if writes s n 0 c && owns n then sol n else rw n) as W.
        { unfold writes. rewrite Nat.add_0_r. destruct (Nat.eqb (c_owner c) r) eqn:Eo; cbn [andb]; [|reflexivity].
          destruct (PrimFloat.eqb (nth 0 (hd s) 0%float) inf) eqn:Ei; cbn [negb andb]; [reflexivity|].
          specialize (H 0 c eq_refl (proj1 (Nat.eqb_eq _ _) Eo)). rewrite Nat.add_0_r in H. specialize (H Ei). rewrite H.
          rewrite (write_values_at sol n); [now rewrite andb_comm| now rewrite map_length |].
          intros i m E. rewrite nth_error_map, E. reflexivity. }
        rewrite W. destruct (writes s n 0 c && owns n) eqn:X.
        * left. split; [|reflexivity]. exists 0, c. apply andb_true_iff in X. destruct X. auto.
        * right. split; [|reflexivity]. intros [|pos] c' E; cbn in E.
          { injection E as <-. exact X. }
          { specialize (N pos c' E). unfold writes in *. now rewrite Nat.add_succ_r. }
  Qed.
End Unpack.
