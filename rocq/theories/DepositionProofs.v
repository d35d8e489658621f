(** DepositionProofs.v -- reading deposition files (C12), merging (C14), candidate cells (C53). *)
From Coq Require Import Reals ZArith Bool List String Sorted Permutation Lra Lia.
From Verif Require Import Base BaseFacts QuaternionModel ScanPathModel ScanPathSpec ScanPathProofs DepositionModel DepositionSpec.
Import ListNotations.

(** ** C12 *)
Lemma num_tok_ok {N} (P : parser N) toks i v : num_tok P toks i = Ok v <-> exists s, nth_error toks i = Some s /\ stod P s = Some v.
Proof.
  unfold num_tok, at_. destruct (nth_error toks i) as [s|]; simpl.
  - destruct (stod P s) eqn:E; split.
    + intros H; injection H as <-; eauto.
    + intros [s' [H1 H2]]; injection H1 as <-; congruence.
    + discriminate.
    + intros [s' [H1 H2]]; injection H1 as <-; congruence.
  - split; [discriminate|]. intros [s [H _]]; discriminate.
Qed.

Definition dep_app {N} (r : dep N) (rows : list (row N)) : dep N :=
  mkdep (d_boxes r ++ map r_box rows) (d_times r ++ map r_time rows) (d_cos r ++ map r_cos rows) (d_sin r ++ map r_sin rows).
Lemma dep_app_nil {N} (r : dep N) : dep_app r [] = r.
Proof. unfold dep_app. simpl. rewrite !app_nil_r. destruct r; reflexivity. Qed.
Lemma dep_app_app {N} (r : dep N) a b : dep_app (dep_app r a) b = dep_app r (a ++ b).
Proof. unfold dep_app. simpl. rewrite !map_app, !app_assoc. reflexivity. Qed.
Lemma dep_push_app {N} (r : dep N) b t c s : dep_push r b t c s = dep_app r [mkrow b t c s].
Proof. reflexivity. Qed.
Lemma dep_nil_app {N} (rows : list (row N)) d : columns d rows <-> d = dep_app dep_nil rows.
Proof.
  unfold columns, dep_app, dep_nil. simpl. split.
  - intros (A & B & C & D). destruct d; simpl in *; congruence.
  - intros ->. simpl. auto.
Qed.

Definition time_ok {N} (r : dep N) (t : N) : Prop :=
  forall prev l, d_times r = l ++ [prev] -> nleb N prev t = true.

Lemma read_line_ok {N} (P : parser N) ncos nsin dim3 (r r' : dep N) line :
  read_line P ncos nsin dim3 r line = Ok r' <->
  exists e, row_of_line P ncos nsin dim3 line e /\ time_ok r (r_time e) /\ r' = dep_app r [e].
Proof.
  assert (T : forall t (x : unit), check_time r t = Ok x <-> time_ok r t).
  { intros t x. destruct x. unfold check_time. destruct (d_times r) as [|y l] eqn:ED using rev_ind.
    - simpl. split; [|reflexivity]. intros _ prev l H. rewrite ED in H. destruct l; discriminate.
    - rewrite app_length, back_app. replace (Nat.ltb 0 (List.length l + List.length [y])) with true by (symmetry; apply Nat.ltb_lt; simpl; lia).
      simpl. destruct (nleb N y t) eqn:E; split; try discriminate; try reflexivity.
      + intros _ prev l' H. rewrite ED in H. apply app_inj_tail in H. destruct H as [_ ->]. exact E.
      + intros H. specialize (H y l ED). congruence. }
  unfold row_of_line. split.
  - intros H. unfold read_line in H. cbv zeta in H. destruct dim3.
    + inv_bind H. inv_bind H. inv_bind H. inv_bind H. inv_bind H. inv_bind H. inv_bind H. inv_bind H. inv_bind H.
      injection H as <-.
      apply num_tok_ok in E, E0, E1, E2, E3, E4, E5, E7. apply T in E6.
      destruct E as (s0 & X0 & Y0), E0 as (s1 & X1 & Y1), E1 as (s2 & X2 & Y2), E2 as (s3 & X3 & Y3), E3 as (s4 & X4 & Y4), E4 as (s5 & X5 & Y5), E5 as (s6 & X6 & Y6), E7 as (s7 & X7 & Y7).
      eexists (mkrow _ a5 _ _). split; [|split; [exact E6|apply dep_push_app]].
      exists (split is_space line). split; [reflexivity|].
      destruct (split is_space line) as [|t0 [|t1 [|t2 [|t3 [|t4 [|t5 [|t6 [|t7 rest]]]]]]]]; try discriminate.
      simpl in *. injection X0 as ->. injection X1 as ->. injection X2 as ->. injection X3 as ->. injection X4 as ->. injection X5 as ->. injection X6 as ->. injection X7 as ->.
      do 16 eexists. split; [reflexivity|]. repeat (split; [eassumption|]). repeat split; reflexivity.
    + inv_bind H. inv_bind H. simpl in H. inv_bind H. inv_bind H. inv_bind H. inv_bind H. inv_bind H.
      injection H as <-.
      apply num_tok_ok in E, E0, E1, E2, E3, E5. apply T in E4.
      destruct E as (s0 & X0 & Y0), E0 as (s1 & X1 & Y1), E1 as (s2 & X2 & Y2), E2 as (s3 & X3 & Y3), E3 as (s4 & X4 & Y4), E5 as (s5 & X5 & Y5).
      eexists (mkrow _ a3 _ _). split; [|split; [exact E4|apply dep_push_app]].
      exists (split is_space line). split; [reflexivity|].
      destruct (split is_space line) as [|t0 [|t1 [|t2 [|t3 [|t4 [|t5 rest]]]]]]; try discriminate.
      simpl in *. injection X0 as ->. injection X1 as ->. injection X2 as ->. injection X3 as ->. injection X4 as ->. injection X5 as ->.
      do 12 eexists. split; [reflexivity|]. repeat (split; [eassumption|]). repeat split; reflexivity.
  - intros (e & (toks & HS & HL) & HT & ->). apply (T (r_time e) tt) in HT. unfold read_line. rewrite HS. cbv zeta. destruct dim3.
    + destruct HL as (cx & cy & cz & sx & sy & sz & t & a & rest & vcx & vcy & vcz & vsx & vsy & vsz & va & -> & A1 & A2 & A3 & A4 & A5 & A6 & A7 & A8 & A9 & A10 & A11).
      unfold num_tok, at_. simpl. rewrite A1. simpl. rewrite A2. simpl. rewrite A3. simpl. rewrite A4. simpl. rewrite A5. simpl. rewrite A6. simpl. rewrite A7. simpl.
      rewrite HT. simpl. rewrite A8. simpl.
      rewrite dep_push_app. destruct e; simpl in *; subst. reflexivity.
    + destruct HL as (cx & cy & sx & sy & t & a & rest & vcx & vcy & vsx & vsy & va & -> & A1 & A2 & A4 & A5 & A7 & A8 & A9 & A10 & A11).
      unfold num_tok, at_. simpl. rewrite A1. simpl. rewrite A2. simpl. rewrite A4. simpl. rewrite A5. simpl. rewrite A7. simpl.
      rewrite HT. simpl. rewrite A8. simpl.
      rewrite dep_push_app. destruct e; simpl in *; subst. reflexivity.
Qed.

Lemma read_lines_ok {N} (P : parser N) ncos nsin dim3 lines : forall (r r' : dep N),
  read_lines P ncos nsin dim3 r lines = Ok r' <->
  exists rows, Forall2 (row_of_line P ncos nsin dim3) lines rows /\ r' = dep_app r rows /\
    (forall i a b, (List.length (d_times r) <= S i)%nat -> nth_error (d_times r ++ map r_time rows) i = Some a -> nth_error (d_times r ++ map r_time rows) (S i) = Some b -> nleb N a b = true).
Proof.
  induction lines as [|l lines IH]; intros r r'; cbn [read_lines].
  - split.
    + intros H; injection H as <-. exists []. split; [constructor|]. split; [rewrite dep_app_nil; reflexivity|].
      intros i a b Hi _ Hb. change (map r_time (@nil (row N))) with (@nil N) in Hb. rewrite app_nil_r in Hb. assert (nth_error (d_times r) (S i) <> None) by congruence. apply nth_error_Some in H. lia.
    + intros (rows & F & -> & _). inversion F; subst. rewrite dep_app_nil. reflexivity.
  - split.
    + intros H. inv_bind H. apply read_line_ok in E. destruct E as (e & HE & HT & ->). apply IH in H. destruct H as (rows & F & -> & HSo).
      exists (e :: rows). split; [constructor; assumption|]. split; [exact (dep_app_app r [e] rows)|].
      intros i a b Hi Ha Hb. unfold dep_app in HSo; cbn [d_times map] in HSo. rewrite <- app_assoc in HSo. cbn [app map] in HSo, Ha, Hb.
      destruct (Nat.eq_dec (S i) (List.length (d_times r))) as [Ei|Ei].
      * rewrite nth_error_app2 in Hb by lia. rewrite Ei, Nat.sub_diag in Hb. simpl in Hb. injection Hb as <-.
        rewrite nth_error_app1 in Ha by lia. destruct (d_times r) as [|y t] eqn:ED using rev_ind; [simpl in Ei; lia|].
        rewrite app_length in Ei; simpl in Ei. rewrite nth_error_app2 in Ha by lia. replace (i - List.length t)%nat with 0%nat in Ha by lia.
        simpl in Ha. injection Ha as <-. apply (HT y t ED).
      * apply (HSo i a b); [rewrite app_length; simpl; lia|exact Ha|exact Hb].
    + intros (rows & F & -> & HSo). inversion F as [|? e ? rows' HE F']; subst.
      assert (HT : time_ok r (r_time e)).
      { intros prev t ED. apply (HSo (List.length t)); rewrite ED; cbn [map].
        - rewrite app_length; simpl; lia.
        - rewrite <- app_assoc. rewrite nth_error_app2 by lia. rewrite Nat.sub_diag. reflexivity.
        - rewrite nth_error_app2 by (rewrite app_length; simpl; lia). rewrite app_length. replace (S (List.length t) - (List.length t + List.length [prev]))%nat with 0%nat by (simpl List.length; lia). reflexivity. }
      assert (HR : read_line P ncos nsin dim3 r l = Ok (dep_app r [e])) by (apply read_line_ok; eauto).
      rewrite HR. simpl. apply IH. exists rows'. split; [assumption|]. split; [exact (eq_sym (dep_app_app r [e] rows'))|].
      intros i a b Hi. unfold dep_app; cbn [d_times map]. rewrite <- app_assoc. cbn [app]. apply HSo. unfold dep_app in Hi; cbn [d_times map] in Hi. rewrite app_length in Hi. simpl in Hi. lia.
Qed.

Lemma read_ok {N} (P : parser N) ncos nsin dim3 lines d :
  read_material_deposition P ncos nsin dim3 lines = Ok d <->
  exists h body rows, lines = h :: body /\ stoi P h = Some (if dim3 then 3%Z else 2%Z) /\
    Forall2 (row_of_line P ncos nsin dim3) body rows /\ columns d rows /\ never_decreases (d_times d).
Proof.
  unfold read_material_deposition. split.
  - destruct lines as [|h body]; [discriminate|]. destruct (stoi P h) as [z|] eqn:EZ; [|discriminate].
    destruct (Z.eqb_spec z (if dim3 then 3 else 2)); [|discriminate]. subst z. intros H. apply read_lines_ok in H.
    destruct H as (rows & F & -> & S). exists h, body, rows. split; [reflexivity|]. split; [exact EZ|]. split; [exact F|].
    split; [apply dep_nil_app; reflexivity|]. intros i a b. apply S. simpl. lia.
  - intros (h & body & rows & -> & EZ & F & C & S). rewrite EZ, Z.eqb_refl. apply read_lines_ok. apply dep_nil_app in C. subst d.
    exists rows. split; [exact F|]. split; [reflexivity|]. intros i a b _. apply S.
Qed.

Lemma never_decreases_sorted (l : list R) : @never_decreases RNum l -> StronglySorted Rle l.
Proof.
  intros H. apply Sorted_StronglySorted; [intros a b c; apply Rle_trans|].
  induction l as [|a l IH]; constructor.
  - apply IH. intros i x y Hx Hy. apply (H (S i)); assumption.
  - destruct l as [|b l]; constructor. apply Rleb_true. apply (H 0%nat); reflexivity.
Qed.

Lemma read_box_R (P : parser RNum) dim3 line (r : row RNum) : row_of_line P cos sin dim3 line r ->
  exists a : R, (r_cos r : R) = cos a /\ (r_sin r : R) = sin a /\
  exists vals : list R, Forall2 (fun tok v => stod P tok = Some v) (firstn (if dim3 then 6 else 4) (split is_space line)) vals /\
  match dim3, vals with
  | true, [cx; cy; cz; sx; sy; sz] =>
      ((px (fst (r_box r)) + px (snd (r_box r))) / 2 = cx)%R /\ ((py (fst (r_box r)) + py (snd (r_box r))) / 2 = cy)%R /\
      ((pz (fst (r_box r)) + pz (snd (r_box r))) / 2 = cz)%R /\ (px (snd (r_box r)) - px (fst (r_box r)) = sx)%R /\
      (py (snd (r_box r)) - py (fst (r_box r)) = sy)%R /\ (pz (snd (r_box r)) - pz (fst (r_box r)) = sz)%R
  | false, [cx; cy; sx; sy] =>
      ((px (fst (r_box r)) + px (snd (r_box r))) / 2 = cx)%R /\ ((py (fst (r_box r)) + py (snd (r_box r))) / 2 = cy)%R /\
      (px (snd (r_box r)) - px (fst (r_box r)) = sx)%R /\ (py (snd (r_box r)) - py (fst (r_box r)) = sy)%R
  | _, _ => False
  end.
Proof.
  intros (toks & HS & H). destruct dim3.
  - destruct H as (cx & cy & cz & sx & sy & sz & t & a & rest & vcx & vcy & vcz & vsx & vsy & vsz & va & -> & A1 & A2 & A3 & A4 & A5 & A6 & A7 & A8 & A9 & A10 & A11).
    exists va. split; [exact A9|]. split; [exact A10|]. exists [vcx; vcy; vcz; vsx; vsy; vsz]. rewrite HS. simpl. split; [repeat constructor; assumption|].
    rewrite A11. unfold half; simpl. repeat split; lra.
  - destruct H as (cx & cy & sx & sy & t & a & rest & vcx & vcy & vsx & vsy & va & -> & A1 & A2 & A4 & A5 & A7 & A8 & A9 & A10 & A11).
    exists va. split; [exact A9|]. split; [exact A10|]. exists [vcx; vcy; vsx; vsy]. rewrite HS. simpl. split; [repeat constructor; assumption|].
    rewrite A11. unfold half; simpl. repeat split; lra.
Qed.

(** ** C14 *)
Lemma columns_concat {N} (paths : list (dep N)) (rows : list (list (row N))) :
  Forall2 columns paths rows -> columns (concat_dep paths) (List.concat rows).
Proof.
  intros F. unfold columns, concat_dep. simpl. induction F as [|d r ds rs (A & B & C & D) F IH]; simpl; [auto|].
  destruct IH as (I1 & I2 & I3 & I4). rewrite A, B, C, D, I1, I2, I3, I4, !map_app. auto.
Qed.

Lemma permuted_ok {A B} (f : A -> B) (l : list A) p : Forall (fun i => (i < List.length l)%nat) p ->
  exists r, permuted (map f l) p = Ok (map f r) /\ permuted l p = Ok r.
Proof.
  induction 1 as [|i p Hi F [r [IH1 IH2]]]; [exists []; split; reflexivity|].
  destruct (at_lt l i Hi) as (a & EN & EA & _). exists (a :: r). unfold at_ in EA |- *. simpl. unfold at_. rewrite nth_error_map, EN. simpl. rewrite IH1, IH2. split; reflexivity.
Qed.
Lemma permuted_nth {A} (l : list A) p r (x : A) : permuted l p = Ok r -> r = map (fun i => nth i l x) p.
Proof.
  revert r; induction p as [|i p IH]; intros r H; simpl in H; [injection H as <-; reflexivity|].
  inv_bind H. inv_bind H. injection H as <-. simpl. f_equal; [|apply IH; assumption || reflexivity].
  unfold at_ in E. destruct (nth_error l i) eqn:EN; [|discriminate]. injection E as <-. symmetry. apply nth_error_nth, EN.
Qed.
Lemma map_nth_seq {A} (l : list A) x : map (fun i => nth i l x) (seq 0 (List.length l)) = l.
Proof.
  apply (nth_ext _ _ x x); [rewrite map_length, seq_length; reflexivity|].
  intros n Hn. rewrite map_length, seq_length in Hn.
  rewrite (nth_indep _ x (nth 0%nat l x)) by (rewrite map_length, seq_length; exact Hn).
  change (nth 0 l x) with ((fun i => nth i l x) 0%nat). rewrite map_nth, seq_nth by exact Hn. reflexivity.
Qed.

Lemma R_strict_weak (f : nat -> R) : strict_weak (fun i j => Rltb (f i) (f j)).
Proof.
  split; [|split].
  - intros i. apply Rltb_false. lra.
  - intros i j k. rewrite !Rltb_true. lra.
  - intros i j k. rewrite !Rltb_false. lra.
Qed.

Lemma merge_ok sort (paths : list (dep RNum)) (rows : list (list (row RNum))) : std_sort sort -> Forall2 columns paths rows ->
  exists d merged, merge_deposition_paths sort paths = Ok d /\ columns d merged /\ Permutation (List.concat rows) merged /\
    StronglySorted Rle (d_times d).
Proof.
  intros HS F. assert (C := columns_concat paths rows F). set (all := List.concat rows) in *. set (D := concat_dep paths) in *.
  destruct C as (C1 & C2 & C3 & C4).
  assert (LN : List.length (d_boxes D) = List.length all) by (rewrite C1, map_length; reflexivity).
  set (time := fun i => nth i (d_times D) (nofZ RNum 0)).
  set (perm := sort (fun i j => nltb RNum (time i) (time j)) (seq 0 (List.length (d_boxes D)))).
  destruct (HS (fun i j => nltb RNum (time i) (time j)) (seq 0 (List.length (d_boxes D))) (R_strict_weak time)) as [HP HO]. fold perm in HP, HO.
  assert (HB : Forall (fun i => (i < List.length all)%nat) perm).
  { apply Forall_forall. intros i Hi. apply (Permutation_in _ (Permutation_sym HP)) in Hi. apply in_seq in Hi. lia. }
  destruct (permuted_ok (@r_box RNum) all perm HB) as [m [M1 M0]].
  destruct (permuted_ok (@r_time RNum) all perm HB) as [m2 [M2 M0']].
  destruct (permuted_ok (@r_cos RNum) all perm HB) as [m3 [M3 M0'']].
  destruct (permuted_ok (@r_sin RNum) all perm HB) as [m4 [M4 M0''']].
  rewrite M0 in M0', M0'', M0'''. injection M0' as <-. injection M0'' as <-. injection M0''' as <-.
  assert (EQ : merge_deposition_paths sort paths = (do b <- permuted (d_boxes D) perm; do t <- permuted (d_times D) perm;
    do c <- permuted (d_cos D) perm; do s <- permuted (d_sin D) perm; Ok (mkdep b t c s))) by reflexivity.
  rewrite EQ. clear EQ. clearbody perm. rewrite C1, C2, C3, C4. 
  rewrite M1. cbn [bind]. rewrite M2. cbn [bind]. rewrite M3. cbn [bind]. rewrite M4. cbn [bind].
  eexists. exists m. split; [reflexivity|]. split; [unfold columns; simpl; auto|].
  set (x := mkrow (N := RNum) (mkpt (N := RNum) 0%R 0%R 0%R, mkpt (N := RNum) 0%R 0%R 0%R) 0%R 0%R 0%R).
  assert (E := permuted_nth all perm m x M0). split.
  - rewrite E. rewrite <- (map_nth_seq all x) at 1. apply Permutation_map. rewrite <- LN. exact HP.
  - simpl. rewrite E, map_map. clear - HO C2 HB. induction HO as [|i p S IH O]; simpl; constructor.
    + apply IH. inversion HB; assumption.
    + rewrite Forall_forall in O |- *. intros t Ht. apply in_map_iff in Ht. destruct Ht as (j & <- & Hj). specialize (O j Hj).
      simpl in O. apply Rltb_false in O. unfold time in O. rewrite C2 in O.
      assert (Z : forall k, nth k (map r_time all) 0%R = r_time (nth k all x)) by (intros k; exact (map_nth (fun r : row RNum => r_time r) all x k)).
      simpl in O. rewrite !Z in O. exact O.
Qed.

(** Insertion sort meets the contract of std::sort. *)
Fixpoint insert (lt : nat -> nat -> bool) (x : nat) (l : list nat) : list nat :=
  match l with [] => [x] | y :: r => if lt y x then y :: insert lt x r else x :: l end.
Definition isort (lt : nat -> nat -> bool) (l : list nat) : list nat := fold_right (insert lt) [] l.
Lemma insert_perm lt x l : Permutation (x :: l) (insert lt x l).
Proof. induction l as [|y l IH]; simpl; [reflexivity|]. destruct (lt y x); [|reflexivity]. rewrite perm_swap. constructor. exact IH. Qed.
Lemma isort_meets_contract : std_sort isort.
Proof.
  intros lt l [I [T W]]. induction l as [|x l [IH1 IH2]]; simpl; [split; constructor|]. fold (isort lt l). split.
  - rewrite <- insert_perm. constructor. exact IH1.
  - revert IH2. generalize (isort lt l). intros m. induction 1 as [|y m S IH O]; simpl; [repeat constructor|].
    destruct (lt y x) eqn:E.
    + constructor; [exact IH|]. rewrite Forall_forall in O |- *. intros z Hz. apply (Permutation_in _ (Permutation_sym (insert_perm lt x m))) in Hz.
      destruct Hz as [<-|Hz]; [|apply O, Hz]. destruct (lt x y) eqn:E2; [|reflexivity]. rewrite <- (I y). symmetry. eauto.
    + constructor; [constructor; assumption|]. constructor; [exact E|]. rewrite Forall_forall in O |- *. intros z Hz. apply (W x y z); auto.
Qed.

(** ** C53 *)
Lemma candidates {C} dim3 stl (cells : list (mesh_cell RNum C)) boxes : 
  List.length (get_elements_to_activate dim3 stl cells boxes) = List.length boxes /\
  forall i b ids, nth_error boxes i = Some b -> nth_error (get_elements_to_activate dim3 stl cells boxes) i = Some ids ->
  forall c, In c ids <-> exists cell, In cell cells /\ mc_id cell = c /\ mc_owned cell = true /\ mc_fe cell = 1%nat /\
    (stl = true -> mc_stl cell = true) /\ boxes_intersect dim3 (mc_lo cell, mc_hi cell) b = true.
Proof.
  unfold get_elements_to_activate. split; [apply map_length|]. intros i b ids HB HI c. rewrite nth_error_map, HB in HI. simpl in HI. injection HI as <-.
  rewrite in_map_iff. split.
  - intros (cell & <- & H). apply filter_In in H. destruct H as [H HX]. apply filter_In in H. destruct H as [H HC]. unfold candidate in HC.
    apply andb_prop in HC. destruct HC as [HC HS]. apply andb_prop in HC. destruct HC as [HO HF]. apply Nat.eqb_eq in HF.
    exists cell. repeat split; auto. intros ->. simpl in HS. exact HS.
  - intros (cell & HIn & <- & HO & HF & HS & HX). exists cell. split; [reflexivity|]. apply filter_In. split; [|exact HX]. apply filter_In. split; [exact HIn|].
    unfold candidate. rewrite HO, HF. simpl. destruct stl; simpl; auto.
Qed.
Lemma intersect_iff dim3 (a b : pt RNum * pt RNum) :
  (px (fst a) <= px (snd a))%R -> (py (fst a) <= py (snd a))%R -> (pz (fst a) <= pz (snd a))%R ->
  (px (fst b) <= px (snd b))%R -> (py (fst b) <= py (snd b))%R -> (pz (fst b) <= pz (snd b))%R ->
  (boxes_intersect dim3 a b = true <-> exists p, in_dep_box dim3 a p /\ in_dep_box dim3 b p).
Proof.
  intros A1 A2 A3 B1 B2 B3. unfold boxes_intersect, in_dep_box. split.
  - intros H. apply andb_prop in H. destruct H as [H H5]. apply andb_prop in H. destruct H as [H H4]. apply andb_prop in H. destruct H as [H H3].
    apply andb_prop in H. destruct H as [H1 H2]. apply Rleb_true in H1, H2, H3, H4.
    exists (mkpt (N := RNum) (Rmax (px (fst a)) (px (fst b))) (Rmax (py (fst a)) (py (fst b))) (Rmax (pz (fst a)) (pz (fst b)))). simpl.
    assert (Z : dim3 = true -> (pz (fst a) <= pz (snd b))%R /\ (pz (fst b) <= pz (snd a))%R).
    { intros ->. simpl in H5. apply andb_prop in H5. destruct H5 as [H5 H6]. apply Rleb_true in H5, H6. auto. }
    unfold Rmax. repeat split; repeat destruct (Rle_dec _ _); try lra; intros; try (destruct Z; [assumption|]); lra.
  - intros (p & (X1 & Y1 & Z1) & (X2 & Y2 & Z2)). simpl in *.
    assert (R1 : Rleb (px (fst a)) (px (snd b)) = true) by (apply Rleb_true; lra).
    assert (R2 : Rleb (px (fst b)) (px (snd a)) = true) by (apply Rleb_true; lra).
    assert (R3 : Rleb (py (fst a)) (py (snd b)) = true) by (apply Rleb_true; lra).
    assert (R4 : Rleb (py (fst b)) (py (snd a)) = true) by (apply Rleb_true; lra).
    rewrite R1, R2, R3, R4. simpl. destruct dim3; simpl; [|reflexivity]. specialize (Z1 eq_refl). specialize (Z2 eq_refl).
    apply andb_true_intro. split; apply Rleb_true; lra.
Qed.

Lemma no_segments (N : Num) fuel dim3 (dp : dep_params N) five : deposition_along fuel dim3 dp five [] = Throw.
Proof. reflexivity. Qed.
