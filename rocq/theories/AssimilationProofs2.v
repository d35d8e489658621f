(** AssimilationProofs2.v -- C34: sparsity pattern and localised covariance. *)
From Coq Require Import Reals ZArith Bool List Lra Lia.
From Verif Require Import Base BaseFacts AssimilationModel AssimilationSpec AssimilationProofs.
Import ListNotations.

Lemma loop_from_fold {A} (f : A -> nat -> res A) (g : A -> nat -> A) n : forall start a, (forall b j, (start <= j < start + n)%nat -> f b j = Ok (g b j)) ->
  loop_from f start n a = Ok (fold_left g (seq start n) a).
Proof.
  induction n as [|n IH]; intros start a H; simpl; [reflexivity|].
  rewrite (H a start) by lia. simpl. apply IH. intros. apply H. lia.
Qed.
Lemma loop_from_ext {A} (f g : A -> nat -> res A) n : forall start a, (forall b j, (start <= j < start + n)%nat -> f b j = g b j) ->
  loop_from f start n a = loop_from g start n a.
Proof.
  induction n as [|n IH]; intros start a H; simpl; [reflexivity|].
  rewrite (H a start) by lia. destruct (g a start); simpl; auto. apply IH. intros. apply H. lia.
Qed.
(** A loop over the positions of a list. *)
Lemma loop_list {A B} (f : A -> nat -> res A) (G : A -> B -> A) (l : list B) : forall start a, (forall b j y, nth_error l j = Some y -> f b (start + j)%nat = Ok (G b y)) ->
  loop_from f start (List.length l) a = Ok (fold_left G l a).
Proof.
  induction l as [|y l IH]; intros start a H; simpl; [reflexivity|].
  pose proof (H a 0%nat y eq_refl) as E. rewrite Nat.add_0_r in E. rewrite E. simpl. apply IH.
  intros b j z Hz. replace (S start + j)%nat with (start + S j)%nat by lia. now apply H.
Qed.
Lemma nth_error_at {A} (l : list A) i x : nth_error l i = Some x -> at_ l i = Ok x.
Proof. intros H. unfold at_. now rewrite H. Qed.
Lemma nth_error_concat {A} (ls : list (list A)) : forall i t l x, nth_error ls i = Some l -> nth_error l t = Some x ->
  nth_error (List.concat ls) (List.length (List.concat (firstn i ls)) + t) = Some x.
Proof.
  induction ls as [|l0 ls IH]; intros i t l x Hi Ht; [destruct i; discriminate|]. destruct i as [|i]; simpl in *.
  - injection Hi as ->. rewrite nth_error_app1; [assumption|]. apply nth_error_Some. congruence.
  - rewrite app_length, nth_error_app2 by lia. replace (_ + _ + t - _)%nat with (List.length (List.concat (firstn i ls)) + t)%nat by lia. eauto.
Qed.
Lemma csr_nth hits i : (i <= List.length hits)%nat -> nth_error (csr_offsets hits) i = Some (List.length (List.concat (firstn i hits))).
Proof.
  intros H. unfold csr_offsets. rewrite nth_error_map.
  assert (E : nth_error (seq 0 (S (List.length hits))) i = Some i).
  { rewrite (nth_error_nth' _ 0%nat) by (rewrite seq_length; lia). rewrite seq_nth by lia. reflexivity. }
  rewrite E. reflexivity.
Qed.
Lemma firstn_S_concat {A} (ls : list (list A)) : forall i l, nth_error ls i = Some l -> List.length (List.concat (firstn (S i) ls)) = (List.length (List.concat (firstn i ls)) + List.length l)%nat.
Proof.
  induction ls as [|l0 ls IH]; intros i l H; [destruct i; discriminate|]. destruct i as [|i]; simpl in *.
  - injection H as ->. rewrite app_nil_r. reflexivity.
  - rewrite !app_length. rewrite <- Nat.add_assoc. f_equal. apply (IH i l H).
Qed.
Lemma Forall2_nth {A B} (P : A -> B -> Prop) l l' : Forall2 P l l' -> forall i x, nth_error l i = Some x -> exists y, nth_error l' i = Some y /\ P x y.
Proof. induction 1; intros i a H1; destruct i; simpl in *; try discriminate; [injection H1 as <-; eauto|eauto]. Qed.
Lemma Forall2_nth' {A B} (P : A -> B -> Prop) l l' : Forall2 P l l' -> forall i y, nth_error l' i = Some y -> exists x, nth_error l i = Some x /\ P x y.
Proof. induction 1; intros i a H1; destruct i; simpl in *; try discriminate; [injection H1 as <-; eauto|eauto]. Qed.

Section Pattern.
  Context {N : Num}.
  Variable cutoff : N.
  Variable pos : nat -> pt N.
  Variable owned : list (list nat).
  Variable hits : list (list (list (nat * nat))).
  Let points := map (map pos) owned.
  Hypothesis Q : query_ok cutoff points hits.
  Let d := mkpd (N := N) owned points (map csr_offsets hits) (map (@List.concat _) hits).
  Definition column_of (h : nat * nat) : nat := nth (fst h) (nth (snd h) owned []) 0%nat.
  Definition ins (st : distance_map N * list (nat * nat)) (rc : nat * nat) : distance_map N * list (nat * nat) :=
    (map_insert (fst st) rc (pdist (pos (fst rc)) (pos (snd rc))), (snd st ++ [rc])%list).

  Lemma owned_hits : forall r o, nth_error owned r = Some o -> exists hs, nth_error hits r = Some hs /\
     Forall2 (fun i h => forall k r', In (k, r') h <-> exists q, nth_error (nth r' points []) k = Some q /\ nleb N (pdist (pos i) q) cutoff = true) o hs.
  Proof.
    intros r o H. destruct (Forall2_nth _ _ _ Q r (map pos o)) as [hs [E F]].
    - unfold points. rewrite nth_error_map, H. reflexivity.
    - exists hs. split; [assumption|]. clear - F. revert hs F. induction o as [|i o IH]; intros hs F; inversion F; subst; constructor; auto.
  Qed.
  Lemma hit_dof k r' q : nth_error (nth r' points []) k = Some q -> exists o j, nth_error owned r' = Some o /\ nth_error o k = Some j /\ q = pos j /\ column_of (k, r') = j.
  Proof.
    intros H. assert (Hr : (r' < List.length owned)%nat).
    { destruct (le_lt_dec (List.length owned) r'); [|assumption]. rewrite nth_overflow in H by (unfold points; now rewrite map_length). destruct k; discriminate. }
    destruct (nth_error owned r') as [o|] eqn:E; [|apply nth_error_None in E; lia].
    assert (E2 : nth r' points [] = map pos o).
    { apply nth_error_nth. unfold points. rewrite nth_error_map, E. reflexivity. }
    rewrite E2, nth_error_map in H. destruct (nth_error o k) as [j|] eqn:E3; [|discriminate]. injection H as <-.
    exists o, j. repeat split; auto. unfold column_of. simpl. rewrite (nth_error_nth _ _ _ E). now apply nth_error_nth.
  Qed.
  Lemma entry_ok r o hs i row h j hit st : nth_error owned r = Some o -> nth_error hits r = Some hs -> nth_error o i = Some row -> nth_error hs i = Some h ->
    nth_error (List.concat hs) j = Some hit -> In hit h ->
    (forall k r', In (k, r') h <-> exists q, nth_error (nth r' points []) k = Some q /\ nleb N (pdist (pos row) q) cutoff = true) ->
    pattern_entry d r i st j = Ok (ins st (row, column_of hit)).
  Proof.
    intros Ho Hh Hi Hhi Hj Hin F. destruct hit as [k r']. apply F in Hin as [q [Hq _]]. destruct (hit_dof _ _ _ Hq) as [o' [jj [E1 [E2 [-> E3]]]]].
    unfold pattern_entry. cbn [d pd_owned pd_points pd_hits]. rewrite (nth_error_at _ _ _ Ho). cbn [bind]. rewrite (nth_error_at _ _ _ Hi). cbn [bind].
    rewrite (nth_error_at (map (@List.concat _) hits) r (List.concat hs)) by (rewrite nth_error_map, Hh; reflexivity). cbn [bind].
    rewrite (nth_error_at _ _ _ Hj). cbn [bind fst snd]. rewrite (nth_error_at _ _ _ E1). cbn [bind]. rewrite (nth_error_at _ _ _ E2). cbn [bind].
    rewrite (nth_error_at points r (map pos o)) by (unfold points; rewrite nth_error_map, Ho; reflexivity). cbn [bind].
    rewrite (nth_error_at (map pos o) i (pos row)) by (rewrite nth_error_map, Hi; reflexivity). cbn [bind].
    rewrite (nth_error_at points r' (map pos o')) by (unfold points; rewrite nth_error_map, E1; reflexivity). cbn [bind].
    rewrite (nth_error_at (map pos o') k (pos jj)) by (rewrite nth_error_map, E2; reflexivity). cbn [bind].
    rewrite E3. reflexivity.
  Qed.
  Definition row_entries (row : nat) (h : list (nat * nat)) : list (nat * nat) := map (fun hit => (row, column_of hit)) h.
  Lemma row_ok r o hs i row h st : nth_error owned r = Some o -> nth_error hits r = Some hs -> nth_error o i = Some row -> nth_error hs i = Some h ->
    (forall k r', In (k, r') h <-> exists q, nth_error (nth r' points []) k = Some q /\ nleb N (pdist (pos row) q) cutoff = true) ->
    pattern_row d r st i = Ok (fold_left ins (row_entries row h) st).
  Proof.
    intros Ho Hh Hi Hhi F. unfold pattern_row. cbn [d pd_offsets].
    rewrite (nth_error_at (map csr_offsets hits) r (csr_offsets hs)) by (rewrite nth_error_map, Hh; reflexivity). cbn [bind].
    assert (Hlen : (i < List.length hs)%nat) by (apply nth_error_Some; congruence).
    rewrite (nth_error_at _ _ _ (csr_nth hs i ltac:(lia))). cbn [bind]. rewrite (nth_error_at _ _ _ (csr_nth hs (S i) ltac:(lia))). cbn [bind].
    rewrite (firstn_S_concat hs i h Hhi). rewrite (Nat.add_comm _ (List.length h)), Nat.add_sub.
    unfold row_entries. rewrite <- (map_length (fun hit => (row, column_of hit)) h). apply loop_list.
    intros b j y Hy. rewrite nth_error_map in Hy. destruct (nth_error h j) as [hit|] eqn:E; [|discriminate]. injection Hy as <-.
    eapply entry_ok; eauto. - eapply nth_error_concat; eauto. - eapply nth_error_In; eauto.
  Qed.
  Definition rank_entries (o : list nat) (hs : list (list (nat * nat))) : list (nat * nat) := List.concat (map (fun p => row_entries (fst p) (snd p)) (combine o hs)).
  Lemma fold_ins_concat (l : list (list (nat * nat))) : forall st, fold_left (fun a es => fold_left ins es a) l st = fold_left ins (List.concat l) st.
  Proof. induction l as [|x l IH]; intros st; simpl; [reflexivity|]. rewrite fold_left_app. apply IH. Qed.
  Lemma nth_error_combine {A B} (l : list A) (l' : list B) : forall i x y, nth_error (combine l l') i = Some (x, y) -> nth_error l i = Some x /\ nth_error l' i = Some y.
  Proof. revert l'. induction l as [|a l IH]; intros l' i x y H; [destruct i; discriminate|]. destruct l' as [|b l']; [destruct i; discriminate|]. destruct i; simpl in *; [injection H as <- <-; auto|auto]. Qed.
  Lemma Forall2_nth2 {A B} (P : A -> B -> Prop) l l' : Forall2 P l l' -> forall i x y, nth_error l i = Some x -> nth_error l' i = Some y -> P x y.
  Proof. induction 1; intros i a b H1 H2; destruct i; simpl in *; try discriminate; [injection H1 as <-; injection H2 as <-; auto|eauto]. Qed.
  Lemma F2_len {A B} (P : A -> B -> Prop) l l' : Forall2 P l l' -> List.length l = List.length l'.
  Proof. induction 1; simpl; auto. Qed.
  Lemma rank_ok r o hs st : nth_error owned r = Some o -> nth_error hits r = Some hs ->
    Forall2 (fun i h => forall k r', In (k, r') h <-> exists q, nth_error (nth r' points []) k = Some q /\ nleb N (pdist (pos i) q) cutoff = true) o hs ->
    pattern_rank d st r = Ok (fold_left ins (rank_entries o hs) st).
  Proof.
    intros Ho Hh F. unfold pattern_rank. cbn [d pd_offsets].
    rewrite (nth_error_at (map csr_offsets hits) r (csr_offsets hs)) by (rewrite nth_error_map, Hh; reflexivity). cbn [bind].
    assert (L : List.length (csr_offsets hs) = S (List.length hs)) by (unfold csr_offsets; rewrite map_length, seq_length; reflexivity).
    rewrite L. cbn [Nat.eqb]. rewrite Nat.sub_succ, Nat.sub_0_r.
    unfold rank_entries. rewrite <- fold_ins_concat.
    assert (L2 : List.length hs = List.length (map (fun p => row_entries (fst p) (snd p)) (combine o hs))).
    { rewrite map_length, combine_length, (F2_len _ _ _ F). lia. }
    rewrite L2. apply loop_list. intros b j y Hy. rewrite nth_error_map in Hy. destruct (nth_error (combine o hs) j) as [[row h]|] eqn:E; [|discriminate].
    injection Hy as <-. apply nth_error_combine in E as [E1 E2]. simpl. apply (row_ok r o hs j row h b Ho Hh E1 E2). exact (Forall2_nth2 _ _ _ F j row h E1 E2).
  Qed.
  Definition all_entries : list (nat * nat) := List.concat (map (fun p => rank_entries (fst p) (snd p)) (combine owned hits)).
  Lemma lengths : List.length owned = List.length hits.
  Proof. rewrite <- (F2_len _ _ _ Q). unfold points. now rewrite map_length. Qed.
  Lemma loops_ok m : loop_from (pattern_rank d) 0 (List.length owned) (m, []) = Ok (fold_left ins all_entries (m, [])).
  Proof.
    unfold all_entries. rewrite <- fold_ins_concat.
    assert (L2 : List.length owned = List.length (map (fun p => rank_entries (fst p) (snd p)) (combine owned hits))).
    { rewrite map_length, combine_length, <- lengths. lia. }
    rewrite L2 at 1. apply loop_list. intros b j y Hy. rewrite nth_error_map in Hy. destruct (nth_error (combine owned hits) j) as [[o hs]|] eqn:E; [|discriminate].
    injection Hy as <-. apply nth_error_combine in E as [E1 E2]. simpl. apply rank_ok; auto.
    destruct (owned_hits j o E1) as [hs' [E3 F]]. congruence.
  Qed.
  (** Which pairs are entered: those within the cutoff. *)
  Lemma in_combine_nth {A B} (l : list A) (l' : list B) x y : In (x, y) (combine l l') -> exists i, nth_error l i = Some x /\ nth_error l' i = Some y.
  Proof. intros H. apply In_nth_error in H as [i H]. exists i. now apply nth_error_combine. Qed.
  Lemma combine_nth_in {A B} (l : list A) (l' : list B) : forall i x y, nth_error l i = Some x -> nth_error l' i = Some y -> In (x, y) (combine l l').
  Proof. revert l'. induction l as [|a l IH]; intros l' i x y H1 H2; destruct i, l'; simpl in *; try discriminate; [injection H1 as <-; injection H2 as <-; auto|right; eauto]. Qed.
  Lemma entries_iff i j : In (i, j) all_entries <-> In i (List.concat owned) /\ In j (List.concat owned) /\ nleb N (pdist (pos i) (pos j)) cutoff = true.
  Proof.
    unfold all_entries. split.
    - intros H. apply in_concat in H as [l [Hl Hin]]. apply in_map_iff in Hl as [[o hs] [<- Hc]]. apply in_combine_nth in Hc as [r [Ho Hh]].
      destruct (owned_hits r o Ho) as [hs' [E F]]. assert (hs' = hs) by congruence. subst hs'.
      simpl in Hin. unfold rank_entries in Hin. apply in_concat in Hin as [l [Hl Hin]]. apply in_map_iff in Hl as [[row h] [<- Hc]]. simpl in Hin.
      apply in_combine_nth in Hc as [t [Hrow Hht]]. pose proof (Forall2_nth2 _ _ _ F t row h Hrow Hht) as G.
      unfold row_entries in Hin. apply in_map_iff in Hin as [[k r'] [E2 Hk]]. apply G in Hk as [q [Hq Hle]].
      destruct (hit_dof _ _ _ Hq) as [o' [jj [E3 [E4 [-> E5]]]]]. inversion E2; subst i j. rewrite E5 in *.
      repeat split; auto; apply in_concat.
      + exists o. split; eapply nth_error_In; eauto.
      + exists o'. split; eapply nth_error_In; eauto.
    - intros [Hi [Hj Hle]]. apply in_concat in Hi as [o [Ho Hi]]. apply In_nth_error in Ho as [r Ho]. apply In_nth_error in Hi as [t Hi].
      apply in_concat in Hj as [o' [Ho' Hj]]. apply In_nth_error in Ho' as [r' Ho']. apply In_nth_error in Hj as [k Hj].
      destruct (owned_hits r o Ho) as [hs [E F]]. destruct (Forall2_nth _ _ _ F t i Hi) as [h [Eh G]].
      assert (Hq : nth_error (nth r' points []) k = Some (pos j)).
      { rewrite (nth_error_nth points r' [] (x := map pos o')) by (unfold points; rewrite nth_error_map, Ho'; reflexivity). rewrite nth_error_map, Hj. reflexivity. }
      apply in_concat. exists (rank_entries o hs). split; [apply in_map_iff; exists (o, hs); split; [reflexivity|eapply combine_nth_in; eauto]|].
      unfold rank_entries. apply in_concat. exists (row_entries i h). split; [apply in_map_iff; exists (i, h); split; [reflexivity|eapply combine_nth_in; eauto]|].
      unfold row_entries. apply in_map_iff. exists (k, r'). split.
      + destruct (hit_dof _ _ _ Hq) as [o'' [jj [E3 [E4 [_ E5]]]]]. rewrite E5. congruence.
      + apply G. exists (pos j). auto.
  Qed.
  Lemma fold_ins_snd es : forall st, snd (fold_left ins es st) = (snd st ++ es)%list.
  Proof. induction es as [|e es IH]; intros st; simpl; [now rewrite app_nil_r|]. rewrite IH. simpl. now rewrite <- app_assoc. Qed.
  Lemma key_eqb_eq a b : key_eqb a b = true <-> a = b.
  Proof. destruct a, b. unfold key_eqb. simpl. rewrite andb_true_iff, !Nat.eqb_eq. split; [intros [-> ->]; reflexivity|intros H; inversion H; auto]. Qed.
  Lemma fold_ins_find es k : forall st, map_find (fst (fold_left ins es st)) k =
    if existsb (fun e => key_eqb e k) es then Some (pdist (pos (fst k)) (pos (snd k))) else map_find (fst st) k.
  Proof.
    induction es as [|e es IH]; intros st; cbn [fold_left existsb]; [reflexivity|]. rewrite IH. destruct (existsb _ es); [now rewrite orb_true_r|].
    rewrite orb_false_r. unfold ins. cbn [fst]. unfold map_find, map_insert. cbn [find fst]. destruct (key_eqb e k) eqn:E; [|reflexivity].
    apply key_eqb_eq in E. subst. reflexivity.
  Qed.

  Lemma pattern_ok sim par m : (forall k, In k (List.concat owned) <-> (k < sim)%nat) ->
    exists m' pat, sparsity_pattern d (List.length owned) sim par m = Ok (m', pat) /\
      (forall i j, In (i, j) pat <-> ((i < sim /\ j < sim)%nat /\ nleb N (pdist (pos i) (pos j)) cutoff = true) \/
                                    ((i < sim + par /\ j < sim + par)%nat /\ ~ (i < sim /\ j < sim)%nat)) /\
      (forall i j, (i < sim)%nat -> (j < sim)%nat -> In (i, j) pat -> map_find m' (i, j) = Some (pdist (pos i) (pos j))).
  Proof.
    intros Hall. unfold sparsity_pattern. rewrite loops_ok. cbn [bind]. do 2 eexists. split; [reflexivity|].
    assert (P : forall i j, In (i, j) (parameter_entries sim par) <-> ((i < sim + par /\ j < sim + par)%nat /\ ~ (i < sim /\ j < sim)%nat)).
    { intros i j. unfold parameter_entries. rewrite in_app_iff, !in_prod_iff, !in_seq. lia. }
    rewrite fold_ins_snd. cbn [fst snd app]. split.
    - intros i j. rewrite in_app_iff, entries_iff, P, !Hall. tauto.
    - intros i j Hi Hj Hin. rewrite fold_ins_find. apply in_app_iff in Hin as [Hin|Hin]; [|apply P in Hin; lia].
      replace (existsb _ _) with true; [reflexivity|]. symmetry. apply existsb_exists. exists (i, j). split; [assumption|]. now apply key_eqb_eq.
  Qed.
End Pattern.

(** The localised covariance of the whole procedure. *)
Lemma existsb_key pat i j : existsb (key_eqb (i, j)) pat = true <-> In (i, j) pat.
Proof. rewrite existsb_exists. split; [intros [x [H E]]; apply key_eqb_eq in E; now subst|intros H; exists (i, j); split; [assumption|now apply key_eqb_eq]]. Qed.
Lemma distance_ok (p q : pt RNum) : pdist (N := RNum) p q = distance p q.
Proof. unfold pdist, pnorm, pdot, psub, distance, Rsqr. reflexivity. Qed.
Lemma distance_sym p q : distance p q = distance q p.
Proof. unfold distance. f_equal. unfold Rsqr. ring. Qed.
Lemma distance_self p : distance p p = 0%R.
Proof. unfold distance. rewrite !Rminus_diag_eq by reflexivity. rewrite Rsqr_0, !Rplus_0_l. apply sqrt_0. Qed.
Lemma distance_pos p q : (0 <= distance p q)%R.
Proof. apply sqrt_pos. Qed.
Lemma taper_ok fn (cutoff dist : R) : (0 < cutoff)%R -> (0 <= dist)%R -> localization (N := RNum) fn cutoff dist = taper fn cutoff dist.
Proof.
  intros Hc Hd. unfold localization, taper. destruct fn; [|cbn [num RNum nltb nofZ]; rcase; destruct (Rle_dec dist cutoff); try lra; reflexivity|reflexivity].
  rewrite <- (gc_textbook dist (cutoff / 2)) by lra. rewrite Rabs_right by lra. unfold gc. f_equal. cbn [num RNum nofZ nmul ndiv]. field. lra.
Qed.
Lemma taper_range fn cutoff dist : (0 < cutoff)%R -> (0 <= dist)%R -> (0 <= taper fn cutoff dist <= 1)%R.
Proof. intros. rewrite <- taper_ok by assumption. now apply localization_ok. Qed.
Lemma taper_zero fn cutoff : (0 < cutoff)%R -> taper fn cutoff 0 = 1%R.
Proof. intros. rewrite <- taper_ok by lra. now apply localization_zero. Qed.
Lemma taper_mono fn cutoff d d' : (0 < cutoff)%R -> (0 <= d <= d')%R -> (taper fn cutoff d' <= taper fn cutoff d)%R.
Proof. intros. rewrite <- !taper_ok by lra. now apply localization_mono. Qed.
Lemma localized_ok fn (cutoff : R) (pos : nat -> pt RNum) owned hits sim par m (ens : list (nat -> R)) : ens <> [] -> (0 < cutoff)%R ->
  query_ok (N := RNum) cutoff (map (map pos) owned) hits -> (forall k, In k (List.concat owned) <-> (k < sim)%nat) ->
  exists m' pat, sparsity_pattern (N := RNum) (mkpd (N := RNum) owned (map (map pos) owned) (map csr_offsets hits) (map (@List.concat _) hits)) (List.length owned) sim par m = Ok (m', pat) /\
  forall i j, (i < sim + par)%nat -> (j < sim + par)%nat ->
    sample_covariance (N := RNum) fn cutoff sim pat m' ens i j = Ok (localized_covariance fn cutoff pos sim ens i j).
Proof.
  intros Hne Hcut HQ Hall. destruct (pattern_ok (N := RNum) cutoff pos owned hits HQ sim par m Hall) as [m' [pat [E [P1 P2]]]].
  exists m', pat. split; [exact E|]. intros i j Hi Hj. unfold sample_covariance, localized_covariance.
  assert (Dp : pdist (N := RNum) (pos i) (pos j) = distance (pos i) (pos j)) by apply distance_ok.
  destruct (Nat.ltb_spec i sim) as [hi|hi]; destruct (Nat.ltb_spec j sim) as [hj|hj]; cbn [andb].
  - destruct (existsb (key_eqb (i, j)) pat) eqn:Ex.
    + apply existsb_key in Ex. pose proof (P2 i j hi hj Ex) as Ef. apply P1 in Ex as [[_ Hle]|[_ Hn]]; [|tauto].
      cbn [RNum nleb] in Hle. rewrite Dp in Hle. apply Rleb_true in Hle. destruct (Rle_dec _ _) as [_|n]; [|contradiction].
      unfold cov_value. rewrite cov_ok by assumption. cbn [bind]. rewrite (proj2 (Nat.ltb_lt i sim) hi), (proj2 (Nat.ltb_lt j sim) hj). cbn [andb]. rewrite Ef, Dp. rewrite taper_ok by (assumption || apply distance_pos). reflexivity.
    + destruct (Rle_dec _ _) as [Hle|_]; [|reflexivity]. exfalso. assert (H : In (i, j) pat).
      { apply P1. left. split; [auto|]. cbn [RNum nleb]. rewrite Dp. now apply Rleb_true. }
      apply existsb_key in H. congruence.
  - assert (H : In (i, j) pat) by (apply P1; right; lia). apply existsb_key in H. rewrite H. unfold cov_value. rewrite cov_ok by assumption. cbn [bind].
    rewrite (proj2 (Nat.ltb_lt i sim) hi), (proj2 (Nat.ltb_ge j sim) hj). cbn [andb]. cbn [RNum num nofZ nmul]. f_equal. lra.
  - assert (H : In (i, j) pat) by (apply P1; right; lia). apply existsb_key in H. rewrite H. unfold cov_value. rewrite cov_ok by assumption. cbn [bind].
    rewrite (proj2 (Nat.ltb_ge i sim) hi). cbn [andb]. cbn [RNum num nofZ nmul]. f_equal. lra.
  - assert (H : In (i, j) pat) by (apply P1; right; lia). apply existsb_key in H. rewrite H. unfold cov_value. rewrite cov_ok by assumption. cbn [bind].
    rewrite (proj2 (Nat.ltb_ge i sim) hi). cbn [andb]. cbn [RNum num nofZ nmul]. f_equal. lra.
Qed.

Lemma localized_shape fn cutoff pos sim ens : (0 < cutoff)%R -> (2 <= List.length ens)%nat ->
  (forall i j, localized_covariance fn cutoff pos sim ens i j = localized_covariance fn cutoff pos sim ens j i) /\
  (forall i, localized_covariance fn cutoff pos sim ens i i = unbiased_covariance ens i i /\ (0 <= unbiased_covariance ens i i)%R) /\
  (forall i j, exists t, (0 <= t <= 1)%R /\ localized_covariance fn cutoff pos sim ens i j = (unbiased_covariance ens i j * t)%R) /\
  (forall i j, (sim <= i)%nat \/ (sim <= j)%nat -> localized_covariance fn cutoff pos sim ens i j = unbiased_covariance ens i j).
Proof.
  intros Hc Hl. repeat split.
  - intros i j. unfold localized_covariance. rewrite (andb_comm (i <? sim)%nat), (distance_sym (pos i)), (unbiased_sym ens i j). reflexivity.
  - unfold localized_covariance. destruct (_ && _); [|reflexivity]. rewrite distance_self, taper_zero by assumption. destruct (Rle_dec 0 cutoff); [|lra]. lra.
  - now apply diag_nonneg.
  - intros i j. unfold localized_covariance. destruct (_ && _); [|exists 1%R; lra]. destruct (Rle_dec _ _); [|exists 0%R; lra].
    exists (taper fn cutoff (distance (pos i) (pos j))). split; [|reflexivity]. apply taper_range; [assumption|apply distance_pos].
  - intros i j H. unfold localized_covariance. destruct (Nat.ltb_spec i sim), (Nat.ltb_spec j sim); try reflexivity; lia.
Qed.
Lemma none_is_step cutoff pos sim ens i j : localized_covariance no_cutoff cutoff pos sim ens i j = localized_covariance step_cutoff cutoff pos sim ens i j.
Proof. unfold localized_covariance, taper. destruct (_ && _); [|reflexivity]. destruct (Rle_dec _ _); reflexivity. Qed.
Lemma wide_cutoff cutoff pos sim ens : (2 <= List.length ens)%nat -> (forall i j, (i < sim)%nat -> (j < sim)%nat -> (distance (pos i) (pos j) <= cutoff)%R) ->
  (forall i j, localized_covariance no_cutoff cutoff pos sim ens i j = unbiased_covariance ens i j) /\ forall n, positive_semidefinite n (localized_covariance no_cutoff cutoff pos sim ens).
Proof.
  intros Hl Hd. assert (E : forall i j, localized_covariance no_cutoff cutoff pos sim ens i j = unbiased_covariance ens i j).
  { intros i j. unfold localized_covariance, taper. destruct (Nat.ltb_spec i sim), (Nat.ltb_spec j sim); cbn [andb]; try reflexivity. destruct (Rle_dec _ _) as [_|n]; [lra|]. exfalso. auto. }
  split; [exact E|]. intros n v. unfold quadratic. unfold Rsum_to at 1. rewrite (Rsum_ext _ (fun i => Rsum_to n (fun j => (v i * unbiased_covariance ens i j * v j)%R))).
  - apply (cov_psd ens n Hl v).
  - intros i _. apply Rsum_ext. intros j _. now rewrite E.
Qed.
