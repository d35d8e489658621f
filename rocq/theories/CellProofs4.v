(** CellProofs4.v -- activation of material: the whole operation. *)
From Coq Require Import Bool List Floats Lia Arith.
From Verif Require Import Base CellModel CellSpec CellProofs CellProofs2 CellProofs3.
Import ListNotations.

Lemma combine_map_seq {A} (f : nat -> A) n : forall s, combine (seq s n) (map f (seq s n)) = map (fun r => (r, f r)) (seq s n).
Proof. induction n as [|n IH]; intros s; simpl; [reflexivity| now rewrite IH]. Qed.
Lemma mapR_map {A B C} (f : B -> res C) (g : A -> B) l : mapR f (map g l) = mapR (fun x => f (g x)) l.
Proof. induction l as [|x l IH]; simpl; [reflexivity| now rewrite IH]. Qed.
Lemma mapR_tab {A} (f : nat -> cell -> res A) (g : nat -> cell -> A) cells : forall s, (forall pos c, nth_error cells pos = Some c -> f (s + pos)%nat c = Ok (g (s + pos)%nat c)) ->
  mapR (fun pc => f (fst pc) (snd pc)) (combine (seq s (List.length cells)) cells) = Ok (tab g s cells).
Proof.
  induction cells as [|c cells IH]; intros s H; simpl; [reflexivity|].
  pose proof (H 0 c eq_refl) as H0. rewrite Nat.add_0_r in H0. rewrite H0. cbn [bind].
  rewrite IH; [reflexivity|]. intros pos c' E. specialize (H (S pos) c' E). now rewrite Nat.add_succ_r in H.
Qed.
Lemma mapR_ext {A B} (f g : A -> res B) l : (forall x, f x = g x) -> mapR f l = mapR g l.
Proof. intros H. induction l as [|x l IH]; simpl; [reflexivity| now rewrite H, IH]. Qed.

Section Whole.
  Variables (n_dofs n_states n : nat) (v : info) (cells : list cell) (sol : nat -> float).
  Variables (elements : list (list (list nat))) (cs sn : list float) (first last : nat) (new_owner node_owner : nat -> nat) (temperature : float).
  Hypothesis ND : 0 < n_dofs.
  Hypothesis HN : forall c, In c cells -> List.length (c_nodes c) = n_dofs.
  Hypothesis HO : forall c, In c cells -> c_owner c < n.
  Hypothesis HS : forall pos c, nth_error cells pos = Some c -> List.length (i_state v pos) = n_states.
  Hypothesis HE : List.length elements = n.
  Hypothesis HB : forall el, In el elements -> List.length el = List.length cs.
  Hypothesis HP : forall r el l pos, nth_error elements r = Some el -> In l el -> In pos l -> exists c, nth_error cells pos = Some c /\ c_owner c = r.
  Hypothesis HSN : List.length sn = List.length cs.
  Hypothesis HL : last <= List.length cs.
  Hypothesis HNO : forall pos, pos < List.length cells -> new_owner pos < n.

  Definition chosen_by (r pos : nat) : option nat := apply_pairs cells (fun _ => None) (box_pairs (nth r elements []) (seq first (last - first))) pos.
  Definition chosen (pos : nat) : option nat := match nth_error cells pos with Some c => chosen_by (c_owner c) pos | None => None end.
  Definition act_of (r : nat) : activation :=
    mkact (tab (arow n_dofs n_states v sol r cs sn (chosen_by r)) 0 cells) (tab (afuture (chosen_by r)) 0 cells)
          (flag_pairs cells (repeat false (List.length cs)) (box_pairs (nth r elements []) (seq first (last - first)))).
  Definition new_cells : list cell := tab (fun pos c => mkcell (c_nodes c) (new_owner pos) (afuture chosen pos c)) 0 cells.
  Definition new_z (pos : nat) : float :=
    match chosen pos with Some _ => inf | None => match nth_error cells pos with Some c => if c_active c then b2f (i_melted v pos) else inf | None => inf end end.
  Definition is_active (pos : nat) : bool := match nth_error cells pos with Some c => c_active c | None => false end.
  Definition new_info : info :=
    mkinfo (fun pos => match chosen pos with Some i => nth i cs 0%float | None => if is_active pos then i_cos v pos else inf end)
           (fun pos => match chosen pos with Some i => nth i sn 0%float | None => if is_active pos then i_sin v pos else inf end)
           (fun pos => PrimFloat.ltb half (new_z pos)) (i_state v).
  Definition new_hd (pos : nat) : list float := match nth_error cells pos with Some c => if c_active c then map sol (c_nodes c) else repeat inf n_dofs | None => [] end.

  Lemma chosen_inactive r pos i : chosen_by r pos = Some i -> exists c, nth_error cells pos = Some c /\ c_active c = false.
  Proof. apply apply_inv. discriminate. Qed.

  Lemma starts : mapR (fun '(r, a) => do el <- at_ elements r; add_material_start n_dofs n_states r cells a sol el cs sn (repeat false (List.length cs)) first last)
                  (combine (seq 0 n) (map (fun r => arrays_of v r cells) (seq 0 n))) = Ok (map act_of (seq 0 n)).
  Proof.
    rewrite combine_map_seq, mapR_map. apply mapR_ok. intros r Hr. apply in_seq in Hr.
    destruct (nth_error elements r) as [el|] eqn:E; [|apply nth_error_None in E; lia].
    rewrite (at_some _ _ _ E). cbn [bind]. pose proof (HB el (nth_error_In _ _ E)) as LB.
    unfold act_of, chosen_by. rewrite (nth_error_nth _ _ [] E).
    apply start_ok; rewrite ?repeat_length; try lia.
    intros i pos Hi HI. apply (HP r el (nth i el []) pos E); [apply nth_In; lia| exact HI].
  Qed.

  Lemma acts_nth r : r < n -> nth_error (map act_of (seq 0 n)) r = Some (act_of r).
  Proof. intros H. rewrite nth_error_map, nth_seq by exact H. reflexivity. Qed.

  Lemma redistributed : redistribute cells new_owner (map act_future (map act_of (seq 0 n))) = Ok new_cells.
  Proof.
    unfold redistribute, new_cells.
    rewrite (mapR_ext _ (fun pc => (fun pos c => do f <- at_ (map act_future (map act_of (seq 0 n))) (c_owner c); do act <- at_ f pos; Ok (mkcell (c_nodes c) (new_owner pos) act)) (fst pc) (snd pc)))
      by (intros [pos c]; reflexivity).
    apply (mapR_tab (fun pos c => do f <- at_ (map act_future (map act_of (seq 0 n))) (c_owner c); do act <- at_ f pos; Ok (mkcell (c_nodes c) (new_owner pos) act))).
    intros pos c E. cbn [Nat.add].
    assert (c_owner c < n) as O by (apply HO; apply nth_error_In with (1 := E)).
    rewrite (at_some _ (c_owner c) (act_future (act_of (c_owner c)))) by (rewrite nth_error_map, acts_nth by exact O; reflexivity).
    cbn [bind act_of act_future]. rewrite (at_some _ _ _ (tab_nth _ cells 0 pos c E)). cbn [bind Nat.add]. unfold afuture, chosen. rewrite E. reflexivity.
  Qed.

  Lemma new_cell_at pos c : nth_error cells pos = Some c -> nth_error new_cells pos = Some (mkcell (c_nodes c) (new_owner pos) (afuture chosen pos c)).
  Proof. intros E. unfold new_cells. rewrite (tab_nth _ cells 0 pos c E). reflexivity. Qed.
  Lemma new_cell_inv pos c' : nth_error new_cells pos = Some c' -> exists c, nth_error cells pos = Some c /\ c' = mkcell (c_nodes c) (new_owner pos) (afuture chosen pos c).
  Proof using. clear ND HSN HL HE.
    intros E. destruct (nth_error cells pos) as [c|] eqn:Ec.
    - rewrite (new_cell_at pos c Ec) in E. injection E as <-. eauto.
    - apply nth_error_None in Ec. assert (pos < List.length new_cells) as L by (apply nth_error_Some; rewrite E; discriminate).
      unfold new_cells in L. rewrite tab_length in L. lia.
  Qed.

  Definition size := n_dofs + direction_data_size + phase_history_data_size + n_states.
  Definition data_for (r : nat) := received size cells new_cells (map act_data (map act_of (seq 0 n))) r.
  Lemma data_ok r pos c' : nth_error new_cells pos = Some c' -> c_owner c' = r ->
    data_for r pos = Ok (new_hd pos ++ [i_cos new_info pos; i_sin new_info pos; new_z pos] ++ i_state new_info pos) /\
    List.length (new_hd pos) = n_dofs /\ List.length (i_state new_info pos) = n_states.
  Proof.
    intros E O. destruct (new_cell_inv pos c' E) as (c & Ec & ->). cbn [c_owner] in O.
    assert (In c cells) as IC by (apply nth_error_In with (1 := Ec)).
    split; [|split].
    - unfold data_for, received. rewrite (at_some _ _ _ Ec), (at_some _ _ _ E). cbn [bind c_owner]. rewrite O, Nat.eqb_refl.
      rewrite (at_some _ (c_owner c) (act_data (act_of (c_owner c)))) by (rewrite nth_error_map, acts_nth by (apply HO; exact IC); reflexivity).
      cbn [bind act_of act_data]. rewrite (at_some _ _ _ (tab_nth _ cells 0 pos c Ec)). cbn [Nat.add]. f_equal.
      unfold arow, new_hd, new_info, new_z, chosen, is_active. cbn [i_cos i_sin i_state]. rewrite Ec.
      destruct (chosen_by (c_owner c) pos) as [i|] eqn:Ch.
      + destruct (chosen_inactive _ _ _ Ch) as (cq & Eq & Aq). rewrite Ec in Eq. injection Eq as <-. rewrite Aq. reflexivity.
      + unfold row. rewrite Nat.eqb_refl. destruct (c_active c); [reflexivity|].
        unfold direction_data_size, phase_history_data_size. rewrite <- Nat.add_assoc, (repeat_app inf n_dofs (2 + 1)), <- app_assoc. reflexivity.
    - unfold new_hd. rewrite Ec. destruct (c_active c); [rewrite map_length; now apply HN| apply repeat_length].
    - cbn. apply (HS pos c Ec).
  Qed.

  Definition owns_of (r : nat) : nat -> bool := fun m => Nat.eqb (node_owner m) r.
  Definition end_of (r : nat) : arrays * (nat -> float) :=
    (arrays_of new_info r new_cells, written r (owns_of r) new_hd 0 new_cells (fun _ => temperature)).
  Lemma ends : mapR (fun r => add_material_end n_dofs n_states r (owns_of r) new_cells (data_for r) temperature) (seq 0 n) = Ok (map end_of (seq 0 n)).
  Proof.
    apply mapR_ok. intros r Hr. unfold add_material_end, end_of.
    rewrite (unpack_ok n_dofs n_states r (owns_of r) (data_for r) new_hd new_info new_z); [reflexivity| reflexivity | exact ND |].
    intros pos c' E O. cbn [Nat.add]. now apply (data_ok r pos c').
  Qed.

  Definition new_sol (m : nat) : float :=
    if Nat.ltb (node_owner m) n then written (node_owner m) (owns_of (node_owner m)) new_hd 0 new_cells (fun _ => temperature) m else temperature.
  Theorem add_material_result : exists sol', (forall m, sol' m = new_sol m) /\
    add_material n_dofs n_states (world_of v n cells sol) elements cs sn first last new_owner node_owner temperature =
    Ok (world_of new_info n new_cells sol', map act_melted (map act_of (seq 0 n))).
  Proof.
    exists (fun m => match nth_error (map end_of (seq 0 n)) (node_owner m) with Some res => snd res m | None => temperature end). split.
    - intros m. unfold new_sol. rewrite nth_error_map. destruct (Nat.ltb (node_owner m) n) eqn:L.
      + apply Nat.ltb_lt in L. rewrite nth_seq by exact L. reflexivity.
      + apply Nat.ltb_ge in L. assert (nth_error (seq 0 n) (node_owner m) = None) as -> by (apply nth_error_None; rewrite seq_length; exact L). reflexivity.
    - unfold add_material. cbn [w_cells w_arrays w_sol world_of]. rewrite map_length, seq_length.
      rewrite starts. cbn [bind]. rewrite redistributed. cbn [bind]. cbv zeta. rewrite (bind_ok _ _ _ ends).
      unfold world_of. do 3 f_equal. rewrite map_map. reflexivity.
  Qed.
  Lemma new_world_wf sol' : well_formed n_dofs n_states (world_of new_info n new_cells sol').
  Proof using HN HNO HS.
    apply world_of_wf.
    - intros c' H. apply In_nth_error in H. destruct H as (pos & E). destruct (new_cell_inv pos c' E) as (c & Ec & ->). cbn. apply HN. apply nth_error_In with (1 := Ec).
    - intros c' H. apply In_nth_error in H. destruct H as (pos & E). destruct (new_cell_inv pos c' E) as (c & Ec & ->). cbn. apply HNO. apply nth_error_Some. rewrite Ec. discriminate.
    - intros pos c' E. destruct (new_cell_inv pos c' E) as (c & Ec & _). cbn. apply (HS pos c Ec).
  Qed.
  Lemma node_value m : node_owner m < n -> 
    ((exists pos c, nth_error cells pos = Some c /\ c_active c = true /\ In m (c_nodes c) /\ new_owner pos = node_owner m /\
       PrimFloat.eqb (nth 0 (map sol (c_nodes c)) 0%float) inf = false) /\ new_sol m = sol m) \/
    ((forall pos c, nth_error cells pos = Some c -> c_active c = true -> In m (c_nodes c) -> new_owner pos = node_owner m ->
       PrimFloat.eqb (nth 0 (map sol (c_nodes c)) 0%float) inf = true) /\ new_sol m = temperature).
  Proof using ND. clear HN HSN HL HE.
    intros L. unfold new_sol. apply Nat.ltb_lt in L. rewrite L.
    assert (forall pos c, nth_error cells pos = Some c -> c_active c = false -> PrimFloat.eqb (nth 0 (new_hd pos) 0%float) inf = true) as INA.
    { intros pos c E Ac. unfold new_hd. rewrite E, Ac. destruct n_dofs; [lia|]. cbn [repeat nth]. vm_compute. reflexivity. }
    destruct (written_at (node_owner m) (owns_of (node_owner m)) new_hd sol m new_cells 0 (fun _ => temperature)) as [[(pos & c' & E & W & _) V]|[NW V]].
    - intros pos c' E O X. cbn [Nat.add] in *. destruct (new_cell_inv pos c' E) as (c & Ec & ->). cbn [c_nodes].
      destruct (c_active c) eqn:Ac; [unfold new_hd; now rewrite Ec, Ac|]. rewrite (INA pos c Ec Ac) in X. discriminate.
    - left. split; [|exact V]. destruct (new_cell_inv pos c' E) as (c & Ec & ->). unfold writes in W. cbn [c_owner c_nodes Nat.add] in W.
      apply andb_true_iff in W. destruct W as [W W3]. apply andb_true_iff in W. destruct W as [W1 W2].
      apply negb_true_iff in W2. exists pos, c. split; [exact Ec|].
      assert (c_active c = true) as Ac by (destruct (c_active c) eqn:Ac; [reflexivity| rewrite (INA pos c Ec Ac) in W2; discriminate]).
      split; [exact Ac|]. split; [|split; [now apply Nat.eqb_eq|]].
      + apply existsb_exists in W3. destruct W3 as (k & Hk & Ek). apply Nat.eqb_eq in Ek. now subst k.
      + unfold new_hd in W2. now rewrite Ec, Ac in W2.
    - right. split; [|exact V]. intros pos c Ec Ac HI O. specialize (NW pos _ (new_cell_at pos c Ec)).
      unfold writes, owns_of in NW. cbn [c_owner c_nodes Nat.add] in NW. rewrite O, !Nat.eqb_refl in NW.
      assert (existsb (Nat.eqb m) (c_nodes c) = true) as HX by (apply existsb_exists; exists m; split; [exact HI| apply Nat.eqb_refl]).
      rewrite HX in NW. cbn [andb] in NW. rewrite !andb_true_r in NW. apply negb_false_iff in NW. unfold new_hd in NW. now rewrite Ec, Ac in NW.
  Qed.
  Lemma chosen_spec pos c : nth_error cells pos = Some c -> c_active c = false ->
    match chosen pos with
    | Some i => first <= i < last /\ In pos (nth i (nth (c_owner c) elements []) []) /\ forall j, i < j < last -> ~ In pos (nth j (nth (c_owner c) elements []) [])
    | None => forall j, first <= j < last -> ~ In pos (nth j (nth (c_owner c) elements []) [])
    end.
  Proof using. clear ND HSN HL HE.
    intros E Ac. unfold chosen. rewrite E. unfold chosen_by.
    pose proof (apply_last cells (box_pairs (nth (c_owner c) elements []) (seq first (last - first))) pos c E Ac) as H.
    destruct (apply_pairs cells _ _ pos) as [i|].
    - destruct H as (a & b & H & NB).
      assert (In (i, pos) (box_pairs (nth (c_owner c) elements []) (seq first (last - first)))) as HI by (rewrite H; apply in_or_app; right; now left).
      apply box_pairs_in in HI. destruct HI as [HI1 HI2]. apply in_seq in HI1. split; [lia|]. split; [exact HI2|].
      intros j Hj. apply (seq_split_later _ _ _ _ _ _ _ H NB). lia.
    - intros j Hj HI. apply (H j). apply box_pairs_in. split; [apply in_seq; lia| exact HI].
  Qed.
  Lemma chosen_active pos c : nth_error cells pos = Some c -> c_active c = true -> chosen pos = None.
  Proof.
    intros E Ac. unfold chosen. rewrite E. destruct (chosen_by (c_owner c) pos) as [i|] eqn:Ch; [|reflexivity].
    destruct (chosen_inactive _ _ _ Ch) as (cq & Eq & Aq). congruence.
  Qed.
End Whole.
