(** AssimilationProofs4.v -- C36: gathering and scattering; C57: augmented parameters. *)
From Coq Require Import Reals ZArith Bool List Lia Permutation.
From Verif Require Import Base BaseFacts AssimilationModel AssimilationSpec AssimilationProofs AssimilationProofs2 AssimilationProofs3.
Import ListNotations.

Section G.
  Context {N : Num}.
  Lemma write_ok (l : list N) : forall i v, (i < List.length l)%nat -> exists l', write l i v = Ok l' /\ List.length l' = List.length l /\
    forall j, nth_error l' j = if Nat.eqb j i then Some v else nth_error l j.
  Proof.
    induction l as [|x l IH]; intros i v H; [simpl in H; lia|]. destruct i as [|i]; simpl.
    - eexists. split; [reflexivity|]. split; [reflexivity|]. intros [|j]; reflexivity.
    - simpl in H. destruct (IH i v ltac:(lia)) as [l' [E [L F]]]. rewrite E. simpl. eexists. split; [reflexivity|]. split; [simpl; lia|].
      intros [|j]; simpl; auto.
  Qed.
  Lemma place_ok (full : list N) : forall set data l, part_of full set data -> List.length l = List.length full ->
    exists l', place set data l = Ok l' /\ List.length l' = List.length full /\
      forall j, nth_error l' j = if existsb (Nat.eqb j) set then nth_error full j else nth_error l j.
  Proof.
    intros set data l H. revert l. induction H as [|k v set data Hk F IH]; intros l L; simpl.
    - eexists. split; [reflexivity|]. split; [assumption|]. reflexivity.
    - assert (Hlt : (k < List.length full)%nat) by (apply nth_error_Some; congruence).
      destruct (write_ok l k v ltac:(lia)) as [l1 [E1 [L1 F1]]]. rewrite E1. simpl. destruct (IH l1 ltac:(lia)) as [l2 [E2 [L2 F2]]].
      exists l2. split; [assumption|]. split; [assumption|]. intros j. rewrite F2, F1. destruct (existsb (Nat.eqb j) set); [now rewrite orb_true_r|].
      rewrite orb_false_r. destruct (Nat.eqb_spec j k); [subst; auto|reflexivity].
  Qed.
  Lemma part_seq (b : list N) : part_of b (seq 0 (List.length b)) b.
  Proof.
    unfold part_of. assert (G : forall (pre l : list N), Forall2 (fun k v => nth_error (pre ++ l) k = Some v) (seq (List.length pre) (List.length l)) l).
    { intros pre l. revert pre. induction l as [|x l IH]; intros pre; simpl; constructor.
      - rewrite nth_error_app2 by lia. now rewrite Nat.sub_diag.
      - specialize (IH (pre ++ [x])%list). rewrite app_length in IH. simpl in IH. rewrite Nat.add_1_r in IH.
        replace (pre ++ x :: l)%list with ((pre ++ [x]) ++ l)%list by now rewrite <- app_assoc. exact IH. }
    exact (G [] b).
  Qed.
  Lemma nth_error_eq {A} (l l' : list A) : (forall j, nth_error l j = nth_error l' j) -> l = l'.
  Proof.
    revert l'. induction l as [|x l IH]; intros l' H.
    - specialize (H 0%nat). destruct l'; [reflexivity|discriminate].
    - destruct l' as [|y l']; [specialize (H 0%nat); discriminate|]. pose proof (H 0%nat) as H0. simpl in H0. injection H0 as ->. f_equal. apply IH. intros j. apply (H (S j)).
  Qed.
  Lemma existsb_seq n j : existsb (Nat.eqb j) (seq 0 n) = Nat.ltb j n.
  Proof.
    destruct (Nat.ltb_spec j n).
    - apply existsb_exists. exists j. split; [apply in_seq; lia|apply Nat.eqb_refl].
    - destruct (existsb (Nat.eqb j) (seq 0 n)) eqn:E; [|reflexivity]. apply existsb_exists in E as [x [Hx E]]. apply in_seq in Hx. apply Nat.eqb_eq in E. lia.
  Qed.
  Lemma place_full (b l : list N) : List.length l = List.length b -> place (seq 0 (List.length b)) b l = Ok b.
  Proof.
    intros L. destruct (place_ok b (seq 0 (List.length b)) b l (part_seq b) L) as [l' [E [L' F]]]. rewrite E. f_equal. apply nth_error_eq. intros j. rewrite F, existsb_seq.
    destruct (Nat.ltb_spec j (List.length b)); [reflexivity|]. rewrite !(proj2 (nth_error_None _ _)) by lia. reflexivity.
  Qed.
  Lemma copy_ok n (b : list N) : List.length b = n -> copy_block n b = Ok b.
  Proof. intros <-. unfold copy_block. apply place_full. apply repeat_length. Qed.

  Lemma block_size0_sum (group : list (process N)) : block_size0 group = List.length (List.concat (map pr_set0 group)).
  Proof.
    unfold block_size0. assert (G : forall a, fold_left (fun s p => s + List.length (pr_set0 p))%nat group a = (a + List.length (List.concat (map pr_set0 group)))%nat).
    { induction group as [|p g IH]; intros a; simpl; [lia|]. rewrite IH, app_length. lia. }
    apply G.
  Qed.
  Lemma sizes (group : list (process N)) n0 n1 full : group <> [] -> holds group n0 n1 full -> block_size0 group = n0 /\ block_size1 group = n1.
  Proof.
    intros Hne [Hd [Hc [Hm Hp]]]. split.
    - rewrite block_size0_sum. rewrite <- (seq_length n0 0). apply Permutation_length. apply NoDup_Permutation; [assumption|apply seq_NoDup|].
      intros k. rewrite Hc, in_seq. lia.
    - destruct group as [|p g]; [easy|]. simpl. destruct (Hp p (or_introl eq_refl)) as [E _]. rewrite E. apply seq_length.
  Qed.
  Lemma gather_fold (group : list (process N)) n0 n1 i m b0 b1 : List.length (fst m) = n0 -> List.length (snd m) = n1 -> List.length b0 = n0 -> List.length b1 = n1 ->
    (forall p, In p group -> pr_set1 p = seq 0 n1 /\ exists mine, nth_error (pr_members p) i = Some mine /\ part_of (fst m) (pr_set0 p) (fst mine) /\ snd mine = snd m) ->
    exists b0', fold_left (fun acc p =>
      do '(b0, b1) <- acc;
      do m <- at_ (pr_members p) i;
      do b0' <- place (pr_set0 p) (fst m) b0;
      do b1' <- place (pr_set1 p) (snd m) b1;
      Ok (b0', b1')) group (Ok (b0, b1)) = Ok (b0', match group with [] => b1 | _ => snd m end) /\ List.length b0' = n0 /\
      forall j, nth_error b0' j = if existsb (Nat.eqb j) (List.concat (map pr_set0 group)) then nth_error (fst m) j else nth_error b0 j.
  Proof.
    intros L0 L1. revert b0 b1. induction group as [|p g IH]; intros b0 b1 K0 K1 H.
    - exists b0. simpl. auto.
    - destruct (H p (or_introl eq_refl)) as [S1 [mine [E1 [E2 E3]]]].
      destruct (place_ok (fst m) (pr_set0 p) (fst mine) b0 E2 ltac:(lia)) as [c0 [P0 [Q0 F0]]].
      assert (P1 : place (pr_set1 p) (snd mine) b1 = Ok (snd m)).
      { rewrite S1, E3. rewrite <- L1. apply place_full. lia. }
      cbn [fold_left bind]. rewrite (nth_error_at _ _ _ E1). cbn [bind]. rewrite P0. cbn [bind]. rewrite P1. cbn [bind].
      destruct (IH c0 (snd m) ltac:(lia) L1 ltac:(intros; apply H; now right)) as [d0 [E [L F]]]. exists d0. split; [|split; [assumption|]].
      + rewrite E. destruct g; reflexivity.
      + intros j. rewrite F. cbn [map List.concat]. rewrite existsb_app. rewrite F0. destruct (existsb (Nat.eqb j) (pr_set0 p)), (existsb (Nat.eqb j) (List.concat (map pr_set0 g))); reflexivity.
  Qed.
  Lemma Forall2_nth_both {A B} (P : A -> B -> Prop) l l' : Forall2 P l l' -> forall i x, nth_error l i = Some x -> exists y, nth_error l' i = Some y /\ P x y.
  Proof. exact (Forall2_nth P l l'). Qed.
  Lemma gather_member_ok (group : list (process N)) n0 n1 full i m : group <> [] -> holds group n0 n1 full -> nth_error full i = Some m -> gather_member group i = Ok m.
  Proof.
    intros Hne Hh Hi. destruct (sizes group n0 n1 full Hne Hh) as [S0 S1]. destruct Hh as [Hd [Hc [Hm Hp]]].
    destruct (Hm m (nth_error_In _ _ Hi)) as [L0 L1]. unfold gather_member. rewrite S0, S1.
    destruct (gather_fold group n0 n1 i m (repeat (nofZ N 0) n0) (repeat (nofZ N 0) n1) L0 L1 (repeat_length _ _) (repeat_length _ _)) as [b0 [E [L F]]].
    - intros p Hin. destruct (Hp p Hin) as [E1 E2]. split; [assumption|]. destruct (Forall2_nth _ _ _ E2 i m Hi) as [mine [Em [Ea Eb]]]. eauto.
    - rewrite E. f_equal. destruct m as [m0 m1]. cbn [fst snd] in *. f_equal; [|now destruct group].
      apply nth_error_eq. intros j. rewrite F. destruct (existsb (Nat.eqb j) _) eqn:Ex; [reflexivity|].
      assert (~ (j < n0)%nat).
      { intros Hlt. apply Hc in Hlt. assert (existsb (Nat.eqb j) (List.concat (map pr_set0 group)) = true) by (apply existsb_exists; exists j; split; [assumption|apply Nat.eqb_refl]). congruence. }
      rewrite !(proj2 (nth_error_None _ _)); auto; [lia|rewrite repeat_length; lia].
  Qed.
  Lemma collect_ok {A} (f : nat -> res A) (l : list A) : forall start, (forall i x, nth_error l i = Some x -> f (start + i)%nat = Ok x) -> collect f start (List.length l) = Ok l.
  Proof.
    induction l as [|x l IH]; intros start H; simpl; [reflexivity|]. pose proof (H 0%nat x eq_refl) as E. rewrite Nat.add_0_r in E. rewrite E. simpl.
    rewrite IH; [reflexivity|]. intros i y Hy. replace (S start + i)%nat with (start + S i)%nat by lia. now apply H.
  Qed.
  Lemma gather_group_ok (group : list (process N)) n0 n1 full : group <> [] -> holds group n0 n1 full -> gather_group group = Ok full.
  Proof.
    intros Hne Hh. unfold gather_group. destruct group as [|root rest]; [easy|].
    assert (L : List.length (pr_members root) = List.length full).
    { destruct Hh as [_ [_ [_ Hp]]]. destruct (Hp root (or_introl eq_refl)) as [_ F]. symmetry. eapply F2_len; eauto. }
    rewrite L. apply collect_ok. intros i x Hx. simpl. eapply gather_member_ok; eauto.
  Qed.

  Lemma all_res_map {A B} (f : A -> res B) (g : A -> B) l : (forall x, In x l -> f x = Ok (g x)) -> all_res (map f l) = Ok (map g l).
  Proof. induction l as [|x l IH]; intros H; simpl; [reflexivity|]. rewrite (H x (or_introl eq_refl)). simpl. rewrite IH by (intros; apply H; now right). reflexivity. Qed.
  Lemma in_group (w : world N) c p : In (c, p) w -> In p (group_of w c).
  Proof. intros H. unfold group_of. apply in_map_iff. exists (c, p). split; [reflexivity|]. apply filter_In. split; [assumption|]. simpl. apply Nat.eqb_refl. Qed.
  Lemma in_positions {A} (w : list A) g x : In (g, x) (combine (seq 0 (List.length w)) w) -> nth_error w g = Some x.
  Proof.
    intros H. apply in_combine_nth in H as [i [H1 H2]]. assert (g = i); [|now subst].
    assert (Hi : (i < List.length w)%nat) by (apply nth_error_Some; congruence).
    apply (nth_error_nth _ _ 0%nat) in H1. rewrite seq_nth in H1 by assumption. simpl in H1. now subst.
  Qed.
  Lemma concat_owners_sizes (w : world N) F n0 n1 m : (forall c p, In (c, p) w -> forall m, In m (F c) -> List.length (fst m) = n0 /\ List.length (snd m) = n1) ->
    In m (List.concat (owners w F)) -> List.length (fst m) = n0 /\ List.length (snd m) = n1.
  Proof.
    intros H Hin. apply in_concat in Hin as [l [Hl Hm]]. unfold owners in Hl. apply in_map_iff in Hl as [[g [c p]] [<- Hc]]. simpl in Hm. destruct (Nat.eqb _ 0); [|easy].
    apply in_positions in Hc. apply nth_error_In in Hc. eapply H; eauto.
  Qed.
  Lemma gather_ok (w : world N) n0 n1 (F : nat -> list (list N * list N)) : (forall c p, In (c, p) w -> holds (group_of w c) n0 n1 (F c)) ->
    gather_ensemble w = Ok (List.concat (owners w F), map (@List.length _) (owners w F)).
  Proof.
    intros H. unfold gather_ensemble.
    assert (Hne : forall c p, In (c, p) w -> group_of w c <> []).
    { intros c p Hin E. apply in_group in Hin. rewrite E in Hin. easy. }
    rewrite (all_res_map _ (fun gp : nat * (nat * process N) => if Nat.eqb (local_rank w (fst gp) (fst (snd gp))) 0 then F (fst (snd gp)) else [])).
    2: { intros [g [c p]] Hin. apply in_positions in Hin. apply nth_error_In in Hin. simpl. unfold sent_by. destruct (Nat.eqb _ 0); [|reflexivity]. eapply gather_group_ok; eauto. }
    fold (owners w F). cbn [bind]. destruct w as [|[c0 p0] w0] eqn:Ew; [reflexivity|]. rewrite <- Ew in *. assert (Hin0 : In (c0, p0) w) by (subst; now left).
    destruct (sizes _ n0 n1 (F c0) (Hne c0 p0 Hin0) (H c0 p0 Hin0)) as [S0 S1]. cbv zeta. rewrite S0, S1.
    rewrite (all_res_map _ (fun m => m)).
    - rewrite map_id. reflexivity.
    - intros m Hm. destruct (concat_owners_sizes w F n0 n1 m) as [L0 L1]; [|assumption|].
      + intros c p Hin m' Hm'. destruct (H c p Hin) as [_ [_ [Hs _]]]. auto.
      + rewrite (copy_ok n0 (fst m) L0). cbn [bind]. rewrite (copy_ok n1 (snd m) L1). cbn [bind]. now destruct m.
  Qed.

  Lemma send_ok (Ls : list (list (list N * list N))) : send_buffers (map (@List.length _) Ls) (List.concat Ls) = Ok (map (map (fun m => (fst m ++ snd m)%list)) Ls).
  Proof.
    induction Ls as [|L Ls IH]; cbn [map send_buffers List.concat]; [reflexivity|]. rewrite app_length.
    replace (Nat.ltb _ _) with false by (symmetry; apply Nat.ltb_ge; lia).
    rewrite skipn_app, skipn_all, Nat.sub_diag. cbn [skipn app]. rewrite IH. cbn [bind].
    rewrite firstn_app, firstn_all, Nat.sub_diag. cbn [firstn]. rewrite app_nil_r. reflexivity.
  Qed.
  Lemma root_ok (w : world N) c p : In (c, p) w -> exists q, nth_error w (root_of w c) = Some (c, q) /\ local_rank w (root_of w c) c = 0%nat.
  Proof.
    unfold local_rank, group_of. induction w as [|[c' q] w IH]; intros H; [easy|]. simpl. destruct (Nat.eqb_spec c' c) as [->|Hn].
    - exists q. split; reflexivity.
    - destruct H as [H|H]; [inversion H; subst; easy|]. destruct (IH H) as [q' [E1 E2]]. exists q'. split; [exact E1|]. simpl.
      destruct (Nat.eqb_spec c' c); [easy|]. exact E2.
  Qed.
  Lemma positions_nth {A} (w : list A) g x : nth_error w g = Some x -> nth_error (combine (seq 0 (List.length w)) w) g = Some (g, x).
  Proof.
    intros H. assert (G : forall (w : list A) a g x, nth_error w g = Some x -> nth_error (combine (seq a (List.length w)) w) g = Some ((a + g)%nat, x)).
    { clear. induction w as [|y w IH]; intros a g x H; [destruct g; discriminate|]. destruct g; simpl in *; [injection H as ->; now rewrite Nat.add_0_r|].
      rewrite (IH (S a) g x H). f_equal. f_equal. lia. }
    exact (G w 0%nat g x H).
  Qed.
  Lemma owners_root (w : world N) F c p : In (c, p) w -> nth_error (owners w F) (root_of w c) = Some (F c).
  Proof.
    intros H. destruct (root_ok w c p H) as [q [E1 E2]]. unfold owners. rewrite nth_error_map, (positions_nth w _ _ E1). simpl. rewrite E2. reflexivity.
  Qed.

  Definition new_member (root : bool) n1 (p : process N) (m : list N * list N) : list N * list N :=
    (map (fun k => nth k (fst m) (nofZ N 0)) (pr_set0 p), if root then snd m else repeat (nofZ N 0) n1).
  Lemma nth_seq (l : list N) : map (fun k => nth k l (nofZ N 0)) (seq 0 (List.length l)) = l.
  Proof.
    apply nth_error_eq. intros j. rewrite nth_error_map. destruct (Nat.ltb_spec j (List.length l)) as [H|H].
    - assert (Ej : nth_error (seq 0 (List.length l)) j = Some j).
      { rewrite (nth_error_nth' _ 0%nat) by (rewrite seq_length; lia). rewrite seq_nth by lia. reflexivity. }
      rewrite Ej. simpl. symmetry. now apply nth_error_nth'.
    - rewrite !(proj2 (nth_error_None _ _)); auto. now rewrite seq_length.
  Qed.
  Lemma map_const_repeat {A B} (l : list A) (x : B) : map (fun _ => x) l = repeat x (List.length l).
  Proof. induction l; simpl; congruence. Qed.
  Lemma scatter_member_ok root n0 n1 (L : list (list N * list N)) p i m : nth_error L i = Some m -> List.length (fst m) = n0 -> List.length (snd m) = n1 ->
    (forall k, In k (pr_set0 p) -> (k < n0)%nat) -> pr_set1 p = seq 0 n1 ->
    scatter_member root (n0, n1) (map (fun m => (fst m ++ snd m)%list) L) p i = Ok (new_member root n1 p m).
  Proof.
    intros Hi L0 L1 H0 H1. unfold scatter_member. rewrite (nth_error_at (map _ L) i (fst m ++ snd m)%list) by (rewrite nth_error_map, Hi; reflexivity). cbn [bind fst snd].
    rewrite (all_res_map _ (fun k => nth k (fst m) (nofZ N 0))).
    2: { intros k Hk. rewrite (proj2 (Nat.ltb_lt k n0) (H0 k Hk)). apply nth_error_at. rewrite nth_error_app1 by (rewrite L0; auto). apply nth_error_nth'. rewrite L0; auto. }
    cbn [bind]. rewrite H1. unfold new_member. destruct root; cbn [andb].
    - rewrite (all_res_map _ (fun k => nth k (snd m) (nofZ N 0))).
      + cbn [bind]. rewrite <- L1, nth_seq. reflexivity.
      + intros k Hk. apply in_seq in Hk. rewrite (proj2 (Nat.ltb_lt k n1)) by lia. apply nth_error_at. rewrite nth_error_app2 by lia. replace (n0 + k - _)%nat with k by lia. apply nth_error_nth'. lia.
    - rewrite (all_res_map _ (fun _ => nofZ N 0)) by reflexivity. cbn [bind]. rewrite map_const_repeat, seq_length. reflexivity.
  Qed.
  Definition new_process (w : world N) (F' : nat -> list (list N * list N)) n1 (gp : nat * (nat * process N)) : nat * process N :=
    let '(g, (c, p)) := gp in (c, mkproc (pr_set0 p) (pr_set1 p) (map (new_member (Nat.eqb (local_rank w g c) 0) n1 p) (F' c))).
  Lemma scatter_eq (w : world N) n0 n1 (F F' : nat -> list (list N * list N)) : (forall c p, In (c, p) w -> holds (group_of w c) n0 n1 (F c)) ->
    (forall c p, In (c, p) w -> List.length (F' c) = List.length (F c) /\ forall m, In m (F' c) -> List.length (fst m) = n0 /\ List.length (snd m) = n1) ->
    scatter_ensemble w (map (@List.length _) (owners w F)) (List.concat (owners w F')) = Ok (map (new_process w F' n1) (combine (seq 0 (List.length w)) w)).
  Proof.
    intros H H'. unfold scatter_ensemble.
    assert (EL : map (@List.length _) (owners w F) = map (@List.length _) (owners w F')).
    { unfold owners. rewrite !map_map. apply map_ext_in. intros [g [c p]] Hin. apply in_positions in Hin. apply nth_error_In in Hin. simpl. destruct (Nat.eqb _ 0); [|reflexivity]. symmetry. now apply (H' c p). }
    rewrite EL, send_ok. cbn [bind]. rewrite (all_res_map _ (new_process w F' n1)); [reflexivity|].
    intros [g [c p]] Hin. apply in_positions in Hin. assert (Hw : In (c, p) w) by (eapply nth_error_In; eauto). unfold scatter_process, new_process.
    rewrite (nth_error_at (map _ (owners w F')) (root_of w c) (map (fun m => (fst m ++ snd m)%list) (F' c))) by (rewrite nth_error_map, (owners_root w F' c p Hw); reflexivity). cbn [bind]. cbv zeta.
    assert (Hne : group_of w c <> []) by (intros E; apply in_group in Hw; rewrite E in Hw; easy).
    destruct (sizes _ n0 n1 (F c) Hne (H c p Hw)) as [S0 S1]. rewrite S0, S1.
    destruct (H' c p Hw) as [HL Hsz]. destruct (H c p Hw) as [Hd [Hc [Hm Hp]]]. destruct (Hp p (in_group w c p Hw)) as [E1 E2].
    assert (Lm : List.length (pr_members p) = List.length (map (new_member (Nat.eqb (local_rank w g c) 0) n1 p) (F' c))).
    { rewrite map_length, HL. symmetry. eapply F2_len; eauto. }
    rewrite Lm, (collect_ok _ (map (new_member (Nat.eqb (local_rank w g c) 0) n1 p) (F' c)) 0); [reflexivity|].
    intros i x Hx. rewrite nth_error_map in Hx. destruct (nth_error (F' c) i) as [m|] eqn:Em; [|discriminate]. injection Hx as <-. simpl.
    destruct (Hsz m (nth_error_In _ _ Em)) as [M0 M1]. apply scatter_member_ok; auto.
    intros k Hk. apply Hc. apply in_concat. exists (pr_set0 p). split; [apply in_map, in_group; assumption|assumption].
  Qed.

  (** Positions inside a group. *)
  Lemma group_position (w : world N) c : forall r p, nth_error (group_of w c) r = Some p -> exists g, nth_error w g = Some (c, p) /\ local_rank w g c = r.
  Proof.
    unfold local_rank, group_of. induction w as [|[c' q] w IH]; intros r p H; [destruct r; discriminate|]. simpl in H. destruct (Nat.eqb_spec c' c) as [->|Hn].
    - destruct r as [|r]; simpl in H.
      + injection H as ->. exists 0%nat. split; reflexivity.
      + destruct (IH r p H) as [g [E1 E2]]. exists (S g). split; [exact E1|]. simpl. rewrite Nat.eqb_refl. simpl. now rewrite E2.
    - destruct (IH r p H) as [g [E1 E2]]. exists (S g). split; [exact E1|]. simpl. destruct (Nat.eqb_spec c' c); [easy|]. exact E2.
  Qed.
  Lemma local_rank_colors (w w' : world N) g c : map fst w = map fst w' -> local_rank w g c = local_rank w' g c.
  Proof.
    intros E. unfold local_rank, group_of. rewrite !map_length. revert w' g E. induction w as [|[a p] w IH]; intros [|[b q] w'] g E; simpl in E; try discriminate; [reflexivity|].
    injection E as -> E. destruct g as [|g]; [reflexivity|]. simpl. destruct (Nat.eqb b c); simpl; [f_equal|]; apply IH; assumption.
  Qed.
  Lemma group_sets (w w' : world N) c : Forall2 (fun a b => fst a = fst b /\ pr_set0 (snd a) = pr_set0 (snd b)) w w' -> map pr_set0 (group_of w c) = map pr_set0 (group_of w' c).
  Proof.
    unfold group_of. induction 1 as [|a b w w' [H1 H2] F IH]; simpl; [reflexivity|]. rewrite <- H1. destruct (Nat.eqb (fst a) c); simpl; [f_equal; auto|]; assumption.
  Qed.
  Lemma new_world_rel (w : world N) F' n1 : Forall2 (fun a b => fst a = fst b /\ pr_set0 (snd a) = pr_set0 (snd b)) w (map (new_process w F' n1) (combine (seq 0 (List.length w)) w)).
  Proof.
    assert (G : forall w0 l a, Forall2 (fun a b => fst a = fst b /\ pr_set0 (snd a) = pr_set0 (snd b)) l (map (new_process w0 F' n1) (combine (seq a (List.length l)) l))).
    { intros w0. induction l as [|[c p] l IH]; intros a; simpl; constructor; auto. }
    apply G.
  Qed.
  Lemma scatter_ok (w : world N) n0 n1 (F F' : nat -> list (list N * list N)) : (forall c p, In (c, p) w -> holds (group_of w c) n0 n1 (F c)) ->
    (forall c p, In (c, p) w -> List.length (F' c) = List.length (F c) /\ forall m, In m (F' c) -> List.length (fst m) = n0 /\ List.length (snd m) = n1) ->
    exists w', scatter_ensemble w (map (@List.length _) (owners w F)) (List.concat (owners w F')) = Ok w' /\ map fst w' = map fst w /\
      forall c p, In (c, p) w -> map pr_set0 (group_of w' c) = map pr_set0 (group_of w c) /\ holds_at_root (group_of w' c) n0 n1 (F' c).
  Proof.
    intros H H'. eexists. split; [exact (scatter_eq w n0 n1 F F' H H')|]. set (w' := map (new_process w F' n1) (combine (seq 0 (List.length w)) w)).
    pose proof (new_world_rel w F' n1) as R. fold w' in R.
    assert (Ec : map fst w' = map fst w).
    { clearbody w'. clear - R. induction R as [|a b l l' [E _] R IH]; simpl; [reflexivity|]. now rewrite IH, E. }
    split; [exact Ec|]. intros c p Hw. pose proof (group_sets w w' c R) as Es. split; [now symmetry|].
    destruct (H c p Hw) as [Hd [Hc [Hm Hp]]]. unfold holds_at_root. rewrite <- Es. split; [assumption|]. split; [assumption|]. split; [now apply (H' c p)|].
    intros r p' Hr. destruct (group_position w' c r p' Hr) as [g [Eg El]]. rewrite (local_rank_colors w' w g c Ec) in El.
    unfold w' in Eg. rewrite nth_error_map in Eg. destruct (nth_error (combine (seq 0 (List.length w)) w) g) as [[g' [c' q]]|] eqn:Eq; [|discriminate].
    pose proof (nth_error_In _ _ Eq) as Hin. apply in_positions in Hin. apply nth_error_combine in Eq as [Es' Eq]. assert (g' = g).
    { assert (Hg : (g < List.length w)%nat) by (apply nth_error_Some; congruence). apply (nth_error_nth _ _ 0%nat) in Es'. rewrite seq_nth in Es' by assumption. simpl in Es'. now subst. }
    subst g'. unfold new_process in Eg. injection Eg as -> <-. assert (Hq : In (c, q) w) by (eapply nth_error_In; eauto).
    destruct (Hp q (in_group w c q Hq)) as [E1 E2]. cbn [pr_set0 pr_set1 pr_members]. split; [assumption|]. rewrite El.
    destruct (H' c q Hq) as [_ Hsz].
    assert (Hk : forall k, In k (pr_set0 q) -> (k < n0)%nat) by (intros k Hk; apply Hc; apply in_concat; exists (pr_set0 q); split; [apply in_map, in_group; assumption|assumption]).
    clear - Hsz Hk. revert Hsz. generalize (F' c) as fs. induction fs as [|m l IH]; intros Hsz; simpl; constructor.
    - unfold new_member. cbn [fst snd]. split; [|reflexivity]. destruct (Hsz m (or_introl eq_refl)) as [L0 _]. unfold part_of. clear - Hk L0. revert Hk. generalize (pr_set0 q) as s. induction s as [|k s IH]; intros Hk; simpl; constructor.
      + apply nth_error_nth'. rewrite L0. apply Hk. now left.
      + apply IH. intros. apply Hk. now right.
    - apply IH. intros. apply Hsz. now right.
  Qed.

  (** Without update: everything comes back, except the parameters of the processes that are not the first of their group. *)
  Lemma round_trip (w : world N) n0 n1 F : (forall c p, In (c, p) w -> holds (group_of w c) n0 n1 (F c)) ->
    exists counts ens w', gather_ensemble w = Ok (ens, counts) /\ scatter_ensemble w counts ens = Ok w' /\ map fst w' = map fst w /\
      forall c p, In (c, p) w -> map pr_set0 (group_of w' c) = map pr_set0 (group_of w c) /\ holds_at_root (group_of w' c) n0 n1 (F c).
  Proof.
    intros H. destruct (scatter_ok w n0 n1 F F H) as [w' [E [Ec P]]].
    - intros c p Hin. split; [reflexivity|]. now destruct (H c p Hin) as [_ [_ [Hm _]]].
    - exists (map (@List.length _) (owners w F)), (List.concat (owners w F)), w'. split; [now apply gather_ok with (n0 := n0) (n1 := n1)|]. auto.
  Qed.
  (** With one process per group, or without parameters, nothing is lost at all. *)
  Lemma holds_root_single (group : list (process N)) n0 n1 full : (List.length group <= 1)%nat \/ n1 = 0%nat -> holds_at_root group n0 n1 full -> holds group n0 n1 full.
  Proof.
    intros Hc [H1 [H2 [H3 H4]]]. split; [assumption|]. split; [assumption|]. split; [assumption|]. intros p Hin. apply In_nth_error in Hin as [r Hr].
    destruct (H4 r p Hr) as [E F]. split; [assumption|]. assert (Hr' : (r < List.length group)%nat) by (apply nth_error_Some; congruence).
    assert (G : forall m, In m full -> (if Nat.eqb r 0 then snd m else repeat (nofZ N 0) n1) = snd m).
    { intros m Hm. destruct (Nat.eqb_spec r 0); [reflexivity|]. destruct Hc as [Hc| ->]; [lia|]. simpl. destruct (H3 m Hm) as [_ L]. now destruct (snd m). }
    clear - F G. induction F as [|m mine l l' [P1 P2] F IH]; constructor.
    - split; [assumption|]. rewrite P2. apply G. now left.
    - apply IH. intros. apply G. now right.
  Qed.

  (** ** Augmented parameters *)
  Lemma put_read a b (v : list N) (e : beam_entry N) : List.length v = List.length (selected a b) -> exists e', put_parameters (selected a b) v e = Ok e' /\ read_parameters (selected a b) e' = v /\
    (a = false -> absorption_efficiency e' = absorption_efficiency e) /\ (b = false -> max_power e' = max_power e).
  Proof.
    destruct a, b; simpl; intros L; do 3 (try (destruct v; simpl in *; try discriminate)); eexists; repeat split; try reflexivity; discriminate.
  Qed.
  Lemma put_same a b (e : beam_entry N) : put_parameters (selected a b) (read_parameters (selected a b) e) e = Ok e.
  Proof. destruct a, b, e; reflexivity. Qed.
  Lemma put_both (x y : N) (e : beam_entry N) : put_parameters (selected true true) [x; y] e = Ok (mkbeam x y) /\ read_parameters (selected true true) e = [absorption_efficiency e; max_power e].
  Proof. split; reflexivity. Qed.
  Lemma put_missing a b (e : beam_entry N) : a = true \/ b = true -> put_parameters (selected a b) [] e = UB.
  Proof. destruct a, b; intros [H|H]; try discriminate; reflexivity. Qed.
End G.

(** The whole update with the covariance of the ensemble. *)
Lemma assimilate_ok fn (cutoff : R) (pos : nat -> pt RNum) owned hits sim par m (ens : list (nat -> R)) Ro (data : list R) s draws k solve :
  ens <> [] -> (0 < cutoff)%R -> query_ok (N := RNum) cutoff (map (map pos) owned) hits -> (forall k, In k (List.concat owned) <-> (k < sim)%nat) ->
  (forall e, (e < List.length data)%nat -> (s e < sim)%nat) ->
  exists m' pat, sparsity_pattern (N := RNum) (mkpd (N := RNum) owned (map (map pos) owned) (map csr_offsets hits) (map (@List.concat _) hits)) (List.length owned) sim par m = Ok (m', pat) /\
  exists ens', assimilate (N := RNum) fn cutoff sim par pat m' (obs (List.length data) s) Ro data draws k solve ens = Ok ens' /\ List.length ens' = List.length ens /\
  forall mb x, nth_error ens mb = Some x -> exists x', nth_error ens' mb = Some x' /\
    forall i, (i < sim + par)%nat -> x' i = (x i + Rsum_to (List.length data) (fun e => localized_covariance fn cutoff pos sim ens i (s e) *
      solve (perturbed_innovation (N := RNum) (obs (List.length data) s) (fun i => nth i data 0) Ro draws (List.length data) k mb x) e))%R.
Proof.
  intros Hne Hc HQ Hall Hs. destruct (localized_ok fn cutoff pos owned hits sim par m ens Hne Hc HQ Hall) as [m' [pat [E1 E2]]].
  destruct (pattern_ok (N := RNum) cutoff pos owned hits HQ sim par m Hall) as [m2 [pat2 [E3 [P1 _]]]].
  assert (pat2 = pat) by (rewrite E1 in E3; injection E3; congruence). subst pat2.
  exists m', pat. split; [exact E1|]. unfold assimilate.
  assert (G : forall l, (forall p, In p l -> In p pat) -> fold_left (fun acc (p : nat * nat) => do _ <- acc; do _ <- sample_covariance (N := RNum) fn cutoff sim pat m' ens (fst p) (snd p); Ok tt) l (Ok tt) = Ok tt).
  { induction l as [|[i j] l IH]; intros Hl; [reflexivity|]. cbn [fold_left bind fst snd]. assert (Hin : In (i, j) pat) by (apply Hl; now left).
    apply P1 in Hin. rewrite E2 by lia. cbn [bind]. apply IH. intros. apply Hl. now right. }
  rewrite (G pat (fun p H => H)). cbn [bind].
  destruct (update_ok (sim + par) (fun i j => match sample_covariance (N := RNum) fn cutoff sim pat m' ens i j with Ok x => x | _ => 0%R end) Ro data s draws k solve ens) as [ens' [F1 [F2 F3]]].
  { intros e He. specialize (Hs e He). lia. }
  exists ens'. split; [exact F1|]. split; [exact F2|]. intros mb x Hx. destruct (F3 mb x Hx) as [x' [G1 G2]]. exists x'. split; [exact G1|].
  intros i Hi. rewrite G2. f_equal. apply Rsum_to_ext. intros e He. specialize (Hs e He). rewrite E2 by lia. reflexivity.
Qed.
