(** AdaptProofs.v -- proofs for C49. *)
From Coq Require Import Reals ZArith Bool List Floats Lia Lra Sorted.
From Verif Require Import Base BaseFacts AdaptModel AdaptSpec.
Import ListNotations.
Local Open Scope R_scope.

(** ** mapM *)
Lemma mapM_ok {A B} (f : A -> res B) l : (forall a, In a l -> exists b, f a = Ok b) -> exists bs, mapM f l = Ok bs /\ length bs = length l /\
  forall i a, nth_error l i = Some a -> exists b, nth_error bs i = Some b /\ f a = Ok b.
Proof.
  induction l as [|a l IH]; intros H.
  - exists []. split; [reflexivity|]. split; [reflexivity|]. intros [|i] a E; discriminate.
  - destruct (H a (or_introl eq_refl)) as [b Hb]. destruct IH as [bs [E [L C]]]; [intros; apply H; right; assumption|].
    exists (b :: bs). cbn [mapM]. rewrite Hb. cbn [bind]. rewrite E. cbn [bind]. split; [reflexivity|]. split; [cbn; congruence|].
    intros [|i] a' E'; cbn in *; [injection E' as <-; eauto|apply C; assumption].
Qed.
Lemma mapM_inv {A B} (f : A -> res B) l bs : mapM f l = Ok bs -> length bs = length l /\
  forall i a, nth_error l i = Some a -> exists b, nth_error bs i = Some b /\ f a = Ok b.
Proof.
  revert bs. induction l as [|a l IH]; cbn [mapM]; intros bs H.
  - injection H as <-. split; [reflexivity|]. intros [|i] a E; discriminate.
  - destruct (f a) as [b| |] eqn:Hb; cbn [bind] in H; try discriminate. destruct (mapM f l) as [r| |]; cbn [bind] in H; try discriminate. injection H as <-.
    destruct (IH r eq_refl) as [L C]. split; [cbn; congruence|]. intros [|i] a' E'; cbn in *; [injection E' as <-; eauto|apply C; assumption].
Qed.
Lemma mapM_bad {A B} (f : A -> res B) l a : (forall x, In x l -> f x <> Throw) -> In a l -> f a = UB -> mapM f l = UB.
Proof.
  induction l as [|x l IH]; intros H I E; [destruct I|]. cbn [mapM]. destruct (f x) as [b| |] eqn:Ex; cbn [bind].
  - destruct I as [->|I]; [congruence|]. rewrite IH; auto. intros y Hy. apply H. right; assumption.
  - exfalso. apply (H x (or_introl eq_refl) Ex).
  - reflexivity.
Qed.

(** ** The minimum search, over any carrier whose strict order is transitive and total below the largest number *)
Section Search.
  Context {N : Num}.
  Definition below (x : N) : Prop := nltb N x (nmax N) = true.
  Definition ordered : Prop :=
    (forall x y z : N, nltb N x y = true -> nltb N y z = true -> nltb N x z = true) /\
    (forall x y z : N, nltb N x y = true -> below z -> nltb N z y = false -> nltb N x z = true) /\
    (forall x : N, nltb N x x = false).
  Hypothesis O : ordered.

  Definition first_best {I : Type} (cands : list (I * N)) (i : I) (d : N) : Prop :=
    exists pos, nth_error cands pos = Some (i, d) /\ below d /\ (forall c, In c cands -> nltb N (snd c) d = false) /\
      (forall pos' c, (pos' < pos)%nat -> nth_error cands pos' = Some c -> below (snd c) -> nltb N d (snd c) = true).
  Lemma closest_spec {I : Type} (cands : list (I * N)) :
    match closest cands with
    | (None, d) => d = nmax N /\ forall c, In c cands -> ~ below (snd c)
    | (Some i, d) => first_best cands i d
    end.
  Proof.
    destruct O as [T [NT IR]]. induction cands as [|[i d] l IH] using rev_ind.
    - cbn. split; [reflexivity|intros c []].
    - unfold closest in *. rewrite fold_left_app. cbn [fold_left]. destruct (fold_left closer l (None, nmax N)) as [[k|] cur] eqn:E.
      + unfold closer. cbn [fst snd]. destruct (nltb N d cur) eqn:C.
        * destruct IH as [pos [E1 [B [M F]]]]. exists (length l). split; [|split; [|split]].
          -- rewrite nth_error_app2 by lia. rewrite Nat.sub_diag. reflexivity.
          -- unfold below in *. eapply T; eassumption.
          -- intros c Hc. apply in_app_or in Hc as [Hc|[<-|[]]]; [|apply IR].
             destruct (nltb N (snd c) d) eqn:Q; [|reflexivity]. rewrite <- (M c Hc). symmetry. eapply T; eassumption.
          -- intros pos' c L Ec Bc. rewrite nth_error_app1 in Ec by lia. apply NT with cur; [assumption|assumption|].
             apply M. eapply nth_error_In; eassumption.
        * destruct IH as [pos [E1 [B [M F]]]]. assert (pos < length l)%nat as Lp by (apply nth_error_Some; congruence).
          exists pos. split; [|split; [|split]].
          -- rewrite nth_error_app1 by lia. assumption.
          -- assumption.
          -- intros c Hc. apply in_app_or in Hc as [Hc|[<-|[]]]; [apply M; assumption|assumption].
          -- intros pos' c L Ec Bc. rewrite nth_error_app1 in Ec by lia. eapply F; eassumption.
      + destruct IH as [-> IH]. unfold closer. cbn [fst snd]. destruct (nltb N d (nmax N)) eqn:C.
        * exists (length l). split; [|split; [|split]].
          -- rewrite nth_error_app2 by lia. rewrite Nat.sub_diag. reflexivity.
          -- assumption.
          -- intros c Hc. apply in_app_or in Hc as [Hc|[<-|[]]]; [|apply IR].
             destruct (nltb N (snd c) d) eqn:Q; [|reflexivity]. exfalso. apply (IH c Hc). unfold below. eapply T; eassumption.
          -- intros pos' c L Ec Bc. rewrite nth_error_app1 in Ec by lia. exfalso. apply (IH c); [eapply nth_error_In; eassumption|assumption].
        * split; [reflexivity|]. intros c Hc. apply in_app_or in Hc as [Hc|[<-|[]]]; [apply IH; assumption|]. unfold below. cbn [snd]. congruence.
  Qed.

  (** fine_to_coarse runs one search per coarse point. *)
  Definition fine_candidates (children : list (list (list N))) (c : list N) : list ((nat * nat) * N) :=
    map (fun ijf => (fst ijf, norm_square_diff (snd ijf) c)) (numbered children).
  Lemma offer_fold (coarse : list (list N)) l : forall st : list (option (nat * nat) * N), length st = length coarse ->
    fold_left (offer coarse) l st =
    map (fun cs => fold_left closer (map (fun ijf => (fst ijf, norm_square_diff (snd ijf) (fst cs))) l) (snd cs)) (combine coarse st).
  Proof.
    clear. induction l as [|x l IH]; intros st L.
    - cbn [fold_left map]. revert st L. induction coarse as [|c coarse IHc]; intros [|s st] L; try discriminate; [reflexivity|]. cbn [combine map snd]. f_equal. apply IHc. cbn in L. congruence.
    - cbn [fold_left map]. rewrite IH by (unfold offer; rewrite map_length, combine_length; lia).
      clear IH. unfold offer. revert st L. induction coarse as [|c coarse IHc]; intros [|s st] L; try discriminate; [reflexivity|].
      cbn [combine map snd fst]. f_equal. apply IHc. cbn in L. congruence.
  Qed.
  Lemma best_searches (coarse : list (list N)) children :
    fold_left (offer coarse) (numbered children) (repeat (None, nmax N) (length coarse)) = map (fun c => closest (fine_candidates children c)) coarse.
  Proof.
    clear. rewrite offer_fold by apply repeat_length. unfold closest, fine_candidates.
    generalize (numbered children) as l. intros l. induction coarse as [|c coarse IH]; [reflexivity|]. cbn [length repeat combine map snd fst]. f_equal. exact IH.
  Qed.
  (** *** The order in which children's points are visited *)
  Definition numbered_from (i0 : nat) (children : list (list (list N))) : list ((nat * nat) * list N) :=
    concat (map (fun ic => map (fun jf => ((fst ic, fst jf), snd jf)) (combine (seq 0 (length (snd ic))) (snd ic)))
                (combine (seq i0 (length children)) children)).
  Definition row_from (i j0 : nat) (row : list (list N)) : list ((nat * nat) * list N) :=
    map (fun jf => ((i, fst jf), snd jf)) (combine (seq j0 (length row)) row).
  Definition lex (a b : nat * nat) : Prop := (fst a < fst b \/ fst a = fst b /\ snd a < snd b)%nat.
  Lemma numbered_from_cons i0 row children : numbered_from i0 (row :: children) = row_from i0 0 row ++ numbered_from (S i0) children.
  Proof. reflexivity. Qed.
  Lemma in_row i j0 (row : list (list N)) k j f : In (k, j, f) (row_from i j0 row) <-> k = i /\ (j0 <= j)%nat /\ nth_error row (j - j0) = Some f.
  Proof.
    clear. revert j0. induction row as [|r row IH]; intros j0.
    - split; [intros []|]. intros [_ [_ E]]. destruct (j - j0)%nat; discriminate.
    - change (row_from i j0 (r :: row)) with ((i, j0, r) :: row_from i (S j0) row). cbn [In]. rewrite IH. split.
      + intros [E|[-> [L E]]].
        * injection E as <- <- <-. rewrite Nat.sub_diag. repeat split. lia.
        * repeat split; [lia|]. replace (j - j0)%nat with (S (j - S j0)) by lia. exact E.
      + intros [-> [L E]]. destruct (Nat.eq_dec j j0) as [->|D].
        * rewrite Nat.sub_diag in E. cbn in E. left. congruence.
        * right. repeat split; [lia|]. replace (j - j0)%nat with (S (j - S j0)) in E by lia. exact E.
  Qed.
  Lemma in_numbered i0 (children : list (list (list N))) i j f : In (i, j, f) (numbered_from i0 children) <->
    (i0 <= i)%nat /\ exists row, nth_error children (i - i0) = Some row /\ nth_error row j = Some f.
  Proof.
    revert i0. induction children as [|r children IH]; intros i0.
    - split; [intros []|]. intros [_ [row [E _]]]. destruct (i - i0)%nat; discriminate.
    - rewrite numbered_from_cons, in_app_iff, in_row, IH. split.
      + intros [[-> [_ E]]|[L [row [E1 E2]]]].
        * rewrite Nat.sub_0_r in E. split; [lia|]. rewrite Nat.sub_diag. exists r. split; [reflexivity|assumption].
        * split; [lia|]. exists row. replace (i - i0)%nat with (S (i - S i0)) by lia. split; assumption.
      + intros [L [row [E1 E2]]]. destruct (Nat.eq_dec i i0) as [->|D].
        * rewrite Nat.sub_diag in E1. cbn in E1. injection E1 as ->. left. rewrite Nat.sub_0_r. repeat split; [lia|assumption].
        * right. split; [lia|]. exists row. replace (i - i0)%nat with (S (i - S i0)) in E1 by lia. split; assumption.
  Qed.
  Lemma sorted_app {A} (P : A -> A -> Prop) a b : StronglySorted P a -> StronglySorted P b -> (forall x y, In x a -> In y b -> P x y) -> StronglySorted P (a ++ b).
  Proof.
    clear. induction a as [|x a IH]; intros Sa Sb H; [assumption|]. cbn. inversion Sa as [|? ? S1 F]; subst. constructor.
    - apply IH; [assumption|assumption|]. intros u v Hu Hv. apply H; [right; assumption|assumption].
    - apply Forall_app. split; [assumption|]. apply Forall_forall. intros y Hy. apply H; [left; reflexivity|assumption].
  Qed.
  Lemma row_sorted i j0 row : StronglySorted (fun a b => lex (fst a) (fst b)) (row_from i j0 row).
  Proof.
    revert j0. induction row as [|r row IH]; intros j0; [constructor|].
    change (row_from i j0 (r :: row)) with ((i, j0, r) :: row_from i (S j0) row). constructor; [apply IH|].
    apply Forall_forall. intros [[k j] f] Hx. apply in_row in Hx as [-> [L _]]. right. cbn. lia.
  Qed.
  Lemma numbered_sorted i0 children : StronglySorted (fun a b => lex (fst a) (fst b)) (numbered_from i0 children).
  Proof.
    revert i0. induction children as [|r children IH]; intros i0; [constructor|]. rewrite numbered_from_cons. apply sorted_app; [apply row_sorted|apply IH|].
    intros [[i j] f] [[i' j'] f'] Hx Hy. apply in_row in Hx as [-> _]. apply in_numbered in Hy as [L _]. left. cbn. lia.
  Qed.
  Lemma sorted_nth {A} (P : A -> A -> Prop) l : StronglySorted P l -> forall p q x y, nth_error l p = Some x -> nth_error l q = Some y -> (p < q)%nat -> P x y.
  Proof.
    clear. induction 1 as [|a l Hs IH F]; intros p q x y Ex Ey L; [destruct p; discriminate|].
    destruct q as [|q]; [lia|]. destruct p as [|p]; cbn in *.
    - injection Ex as <-. rewrite Forall_forall in F. apply F. eapply nth_error_In; eassumption.
    - eapply IH; try eassumption. lia.
  Qed.
  (** Same, read backwards: a lexicographically smaller pair comes earlier. *)
  Lemma numbered_order (children : list (list (list N))) p q x y : nth_error (numbered children) p = Some x -> nth_error (numbered children) q = Some y -> lex (fst x) (fst y) -> (p < q)%nat.
  Proof.
    intros Ex Ey L. destruct (lt_eq_lt_dec p q) as [[H|H]|H]; [assumption| |].
    - subst q. rewrite Ex in Ey. injection Ey as <-. unfold lex in L. lia.
    - pose proof (sorted_nth _ _ (numbered_sorted 0 children) _ _ _ _ Ey Ex H) as L'. cbn beta in L'. unfold lex in *. lia.
  Qed.
  Lemma closest_fine (children : list (list (list N))) (c : list N) :
    match closest (fine_candidates children c) with
    | (None, _) => forall i j row f, nth_error children i = Some row -> nth_error row j = Some f -> ~ below (norm_square_diff f c)
    | (Some (i, j), d) => exists row f, nth_error children i = Some row /\ nth_error row j = Some f /\ d = norm_square_diff f c /\ below d /\
        (forall row' f', In row' children -> In f' row' -> nltb N (norm_square_diff f' c) d = false) /\
        (forall i' j' row' f', nth_error children i' = Some row' -> nth_error row' j' = Some f' -> lex (i', j') (i, j) ->
           below (norm_square_diff f' c) -> nltb N d (norm_square_diff f' c) = true)
    end.
  Proof.
    pose proof (closest_spec (fine_candidates children c)) as H. destruct (closest (fine_candidates children c)) as [[[i j]|] d].
    - destruct H as [pos [E [B [M F]]]]. unfold fine_candidates in E. rewrite nth_error_map in E.
      destruct (nth_error (numbered children) pos) as [[[i0 j0] f]|] eqn:En; [|discriminate]. cbn in E. injection E as <- <- <-.
      pose proof (nth_error_In _ _ En) as In0. apply (in_numbered 0) in In0 as [_ [row [E1 E2]]]. rewrite Nat.sub_0_r in E1.
      exists row, f. split; [assumption|]. split; [assumption|]. split; [reflexivity|]. split; [assumption|]. split.
      + intros row' f' H1 H2. destruct (In_nth_error _ _ H1) as [i' E1']. destruct (In_nth_error _ _ H2) as [j' E2'].
        apply (M ((i', j'), norm_square_diff f' c)). unfold fine_candidates. apply in_map_iff. exists ((i', j'), f'). split; [reflexivity|].
        apply (in_numbered 0). split; [lia|]. exists row'. rewrite Nat.sub_0_r. split; assumption.
      + intros i' j' row' f' E1' E2' L B'. assert (In ((i', j'), f') (numbered children)) as I' by (apply (in_numbered 0); split; [lia|]; exists row'; rewrite Nat.sub_0_r; split; assumption).
        destruct (In_nth_error _ _ I') as [q Eq]. apply (F q ((i', j'), norm_square_diff f' c)).
        * eapply numbered_order; [exact Eq|exact En|exact L].
        * unfold fine_candidates. rewrite nth_error_map, Eq. reflexivity.
        * assumption.
    - destruct H as [_ H]. intros i j row f E1 E2. apply (H ((i, j), norm_square_diff f c)). unfold fine_candidates. apply in_map_iff. exists ((i, j), f). split; [reflexivity|].
      apply (in_numbered 0). split; [lia|]. exists row. rewrite Nat.sub_0_r. split; assumption.
  Qed.
  Lemma nth_combine_seq {A} (l : list A) k0 k : nth_error (combine (seq k0 (length l)) l) k = match nth_error l k with Some a => Some ((k0 + k)%nat, a) | None => None end.
  Proof.
    clear. revert k0 k. induction l as [|a l IH]; intros k0 [|k]; cbn; try reflexivity; [do 2 f_equal; lia|]. rewrite IH. destruct (nth_error l k); [do 2 f_equal; lia|reflexivity].
  Qed.
  Lemma nth_candidates (coarse : list (list N)) (f : list N) k : nth_error (coarse_candidates coarse f) k = match nth_error coarse k with Some c => Some (k, norm_square_diff f c) | None => None end.
  Proof.
    clear. unfold coarse_candidates. rewrite <- (map_length (fun c => norm_square_diff f c) coarse). rewrite nth_combine_seq, nth_error_map. destruct (nth_error coarse k); reflexivity.
  Qed.
  Lemma closest_coarse (coarse : list (list N)) (f : list N) :
    match closest (coarse_candidates coarse f) with
    | (None, _) => forall c, In c coarse -> ~ below (norm_square_diff f c)
    | (Some k, d) => exists c, nth_error coarse k = Some c /\ d = norm_square_diff f c /\ below d /\
        (forall c', In c' coarse -> nltb N (norm_square_diff f c') d = false) /\
        (forall k' c', nth_error coarse k' = Some c' -> (k' < k)%nat -> below (norm_square_diff f c') -> nltb N d (norm_square_diff f c') = true)
    end.
  Proof.
    pose proof (closest_spec (coarse_candidates coarse f)) as H. destruct (closest (coarse_candidates coarse f)) as [[k|] d].
    - destruct H as [pos [E [B [M F]]]]. rewrite nth_candidates in E. destruct (nth_error coarse pos) as [c|] eqn:Ec; [|discriminate]. injection E as <- <-.
      exists c. split; [assumption|]. split; [reflexivity|]. split; [assumption|]. split.
      + intros c' Hc'. destruct (In_nth_error _ _ Hc') as [k' E']. apply (M (k', norm_square_diff f c')). apply (nth_error_In _ k'). rewrite nth_candidates, E'. reflexivity.
      + intros k' c' E' L B'. apply (F k' (k', norm_square_diff f c')); [assumption| |assumption]. rewrite nth_candidates, E'. reflexivity.
    - destruct H as [_ H]. intros c Hc. destruct (In_nth_error _ _ Hc) as [k' E']. apply (H (k', norm_square_diff f c)). apply (nth_error_In _ k'). rewrite nth_candidates, E'. reflexivity.
  Qed.
End Search.

(** ** Real numbers *)
Lemma ordered_R : ordered (N := RNum).
Proof.
  split; [|split]; unfold below; cbn.
  - intros x y z H1 H2. apply Rltb_true in H1, H2. apply Rltb_true. lra.
  - intros x y z H1 _ H2. apply Rltb_true in H1. apply Rltb_false in H2. apply Rltb_true. lra.
  - intros x. apply Rltb_false. lra.
Qed.
Lemma nsd_R (a b : list R) : norm_square_diff (N := RNum) a b = distance a b * distance a b.
Proof.
  unfold distance. set (l := map (fun xy : R * R => (fst xy - snd xy) * (fst xy - snd xy)) (combine a b)).
  assert (0 <= fold_right Rplus 0 l) as P.
  { unfold l. generalize (combine a b). intros c. induction c as [|[x y] c IH]; cbn; [lra|]. pose proof (Rle_0_sqr (x - y)). unfold Rsqr in H. lra. }
  rewrite sqrt_sqrt by assumption. unfold norm_square_diff. change (map _ (combine a b)) with l. clearbody l. destruct l as [|x l]; cbn [nofZ RNum]; [reflexivity|].
  clear. cbn [fold_right]. revert x. induction l as [|y l IH]; intros x; cbn [fold_left fold_right]; [cbn; lra|]. rewrite IH. cbn. lra.
Qed.
Lemma distance_sym a b : distance a b = distance b a.
Proof.
  unfold distance. f_equal. f_equal. revert b. induction a as [|x a IH]; intros [|y b]; try reflexivity. cbn. f_equal; [ring|apply IH].
Qed.
Lemma distance_nonneg a b : 0 <= distance a b.
Proof. apply sqrt_pos. Qed.
Lemma nsd_le (a b c d : list R) : nltb RNum (norm_square_diff (N := RNum) a b) (norm_square_diff (N := RNum) c d) = false -> distance c d <= distance a b.
Proof.
  intros H. apply Rltb_false in H. rewrite !nsd_R in H. pose proof (distance_nonneg a b). pose proof (distance_nonneg c d). apply Rsqr_incr_0; assumption.
Qed.
Lemma nsd_lt (a b c d : list R) : nltb RNum (norm_square_diff (N := RNum) a b) (norm_square_diff (N := RNum) c d) = true -> distance a b < distance c d.
Proof.
  intros H. apply Rltb_true in H. rewrite !nsd_R in H. pose proof (distance_nonneg a b). pose proof (distance_nonneg c d). apply Rsqr_incrst_0; assumption.
Qed.
Lemma in_range_below targets sources t s : in_range targets sources -> In t targets -> In s sources -> below (N := RNum) (norm_square_diff (N := RNum) t s).
Proof. intros H Ht Hs. unfold below. apply Rltb_true. rewrite nsd_R. apply H; assumption. Qed.

Lemma closest_coarse_R (coarse : list (list R)) f : coarse <> [] -> (forall c, In c coarse -> distance f c * distance f c < IZR dblmaxZ) ->
  exists k, fst (closest (coarse_candidates (N := RNum) coarse f)) = Some k /\ first_nearest coarse f k.
Proof.
  intros NE RG. assert (forall c, In c coarse -> below (N := RNum) (norm_square_diff (N := RNum) f c)) as BL.
  { intros c Hc. unfold below. apply Rltb_true. rewrite nsd_R. apply RG; assumption. }
  pose proof (closest_coarse (N := RNum) ordered_R coarse f) as H. destruct (closest (coarse_candidates (N := RNum) coarse f)) as [[k|] d].
  - exists k. split; [reflexivity|]. destruct H as [c [E [-> [_ [M F]]]]]. exists c. split; [exact E|]. split.
    + intros s' Hs. apply nsd_le. apply M. exact Hs.
    + intros k' s' L E'. apply nsd_lt. apply (F k' s' E' L). apply BL. eapply nth_error_In; exact E'.
  - destruct coarse as [|c coarse]; [congruence|]. exfalso. apply (H c (or_introl eq_refl)). apply BL. left; reflexivity.
Qed.

Lemma coarse_to_fine_R {T} (dflt : T) n dim coarse children vals : (0 < n)%nat -> quad_cell n dim coarse -> (forall ch, In ch children -> quad_cell n dim ch) ->
  in_range (concat children) coarse -> length vals = n ->
  exists out, coarse_to_fine (N := RNum) dflt coarse children vals = Ok out /\ length out = length children /\
    forall i pts, nth_error children i = Some pts -> exists row, nth_error out i = Some row /\ length row = n /\
      forall j f, nth_error pts j = Some f -> exists k, first_nearest coarse f k /\ nth_error row j = nth_error vals k /\ (k < n)%nat.
Proof.
  intros n0 [Lc _] QC RG LV. unfold coarse_to_fine.
  assert (forall pts, In pts children -> exists row, child_row (N := RNum) dflt coarse vals pts = Ok row /\ length row = n /\
    forall j f, nth_error pts j = Some f -> exists k, first_nearest coarse f k /\ nth_error row j = nth_error vals k /\ (k < n)%nat) as ROW.
  { intros pts Hp. destruct (QC pts Hp) as [Lp _]. unfold child_row. cbn [num RNum] in *.
    replace (length coarse <? length pts)%nat with false by (symmetry; apply Nat.ltb_ge; lia).
    assert (forall f, In f pts -> exists k, fst (closest (coarse_candidates (N := RNum) coarse f)) = Some k /\ first_nearest coarse f k) as CL.
    { intros f Hf. apply closest_coarse_R; [intros ->; cbn in Lc; lia|]. intros c Hc. apply RG; [|exact Hc]. apply in_concat. exists pts. split; assumption. }
    destruct (mapM_ok (fun f => at_opt vals (fst (closest (coarse_candidates (N := RNum) coarse f)))) pts) as [bs [E [Lb C]]].
    { intros f Hf. destruct (CL f Hf) as [k [Ek [c [Ec _]]]]. rewrite Ek. cbn [at_opt]. destruct (at_lt vals k) as [a [_ [Ea _]]]; [|eauto].
      rewrite LV, <- Lc. apply nth_error_Some. congruence. }
    cbn [num RNum] in *. rewrite E. cbn [bind]. exists (bs ++ repeat dflt (length coarse - length pts)). split; [reflexivity|]. split.
    - rewrite app_length, repeat_length. lia.
    - intros j f Ef. destruct (C j f Ef) as [b [Eb Hb]]. destruct (CL f (nth_error_In _ _ Ef)) as [k [Ek FN]]. rewrite Ek in Hb. cbn [at_opt] in Hb.
      exists k. split; [exact FN|]. destruct FN as [c [Ec _]]. assert (k < n)%nat by (rewrite <- Lc; apply nth_error_Some; congruence). split; [|assumption].
      assert (j < length pts)%nat by (apply nth_error_Some; congruence). rewrite nth_error_app1 by lia. rewrite Eb. unfold at_ in Hb. destruct (nth_error vals k); congruence. }
  destruct (mapM_ok (child_row (N := RNum) dflt coarse vals) children) as [out [E [Lo C]]].
  { intros pts Hp. destruct (ROW pts Hp) as [row [H _]]. eauto. }
  cbn [num RNum] in *. exists out. split; [exact E|]. split; [exact Lo|]. intros i pts Ep. destruct (C i pts Ep) as [row [Er Hr]]. destruct (ROW pts (nth_error_In _ _ Ep)) as [row' [Hr' [L H]]].
  assert (row' = row) as -> by congruence. exists row. repeat split; assumption.
Qed.

Lemma closest_fine_R (children : list (list (list R))) c : (exists row, In row children /\ row <> []) ->
  (forall row f, In row children -> In f row -> distance c f * distance c f < IZR dblmaxZ) ->
  exists i j, fst (closest (fine_candidates (N := RNum) children c)) = Some (i, j) /\ first_nearest_child children c i j.
Proof.
  intros NE RG. assert (forall row f, In row children -> In f row -> below (N := RNum) (norm_square_diff (N := RNum) f c)) as BL.
  { intros row f Hr Hf. unfold below. apply Rltb_true. rewrite nsd_R, distance_sym. eapply RG; eassumption. }
  pose proof (closest_fine (N := RNum) ordered_R children c) as H. destruct (closest (fine_candidates (N := RNum) children c)) as [[[i j]|] d].
  - exists i, j. split; [reflexivity|]. destruct H as [row [f [E1 [E2 [-> [_ [M F]]]]]]]. exists row, f. split; [exact E1|]. split; [exact E2|]. split.
    + intros row' s' Hr Hs. rewrite (distance_sym c f), (distance_sym c s'). apply nsd_le. eapply M; eassumption.
    + intros i' j' row' s' E1' E2' L. rewrite (distance_sym c f), (distance_sym c s'). apply nsd_lt. eapply F; [exact E1'|exact E2'|exact L|].
      eapply BL; eapply nth_error_In; eassumption.
  - exfalso. destruct NE as [row [Hr Nr]]. destruct row as [|f row]; [congruence|]. destruct (In_nth_error _ _ Hr) as [i Ei].
    apply (H i 0%nat (f :: row) f Ei eq_refl). eapply BL; [exact Hr|left; reflexivity].
Qed.
Lemma fine_to_coarse_R {T} n dim coarse children (vals : list (list T)) : (0 < n)%nat -> quad_cell n dim coarse -> children <> [] ->
  (forall ch, In ch children -> quad_cell n dim ch) -> in_range coarse (concat children) ->
  length vals = length children -> (forall v, In v vals -> length v = n) ->
  exists out, fine_to_coarse (N := RNum) coarse children vals = Ok out /\ length out = n /\
    forall k c, nth_error coarse k = Some c -> exists i j v, first_nearest_child children c i j /\ nth_error vals i = Some v /\ nth_error out k = nth_error v j /\ (j < n)%nat.
Proof.
  intros n0 [Lc _] NE QC RG LV LV'. unfold fine_to_coarse. cbv zeta. pose proof (best_searches (N := RNum) coarse children) as BS. cbn [num RNum] in *. rewrite BS. clear BS.
  assert (forall c, In c coarse -> exists i j, fst (closest (fine_candidates (N := RNum) children c)) = Some (i, j) /\ first_nearest_child children c i j) as CL.
  { intros c Hc. apply closest_fine_R.
    - destruct children as [|ch children]; [congruence|]. exists ch. split; [left; reflexivity|]. destruct (QC ch (or_introl eq_refl)) as [L _]. intros ->. cbn in L. lia.
    - intros row f Hr Hf. apply RG; [exact Hc|]. apply in_concat. exists row. split; assumption. }
  assert (forall c i j, first_nearest_child children c i j -> exists v x, nth_error vals i = Some v /\ nth_error v j = Some x /\ (j < n)%nat) as RD.
  { intros c i j [row [f [E1 [E2 _]]]]. assert (i < length vals)%nat as Li by (rewrite LV; apply nth_error_Some; congruence).
    destruct (at_lt vals i Li) as [v [Ev [_ Iv]]]. assert (j < n)%nat as Lj.
    { destruct (QC row (nth_error_In _ _ E1)) as [L _]. rewrite <- L. apply nth_error_Some. congruence. }
    exists v. destruct (at_lt v j) as [x [Ex _]]; [rewrite (LV' v Iv); exact Lj|]. exists x. repeat split; assumption. }
  destruct (mapM_ok (fun b : option (nat * nat) * R => match fst b with Some (i, j) => do row <- at_ vals i; at_ row j | None => UB end)
              (map (fun c => closest (fine_candidates (N := RNum) children c)) coarse)) as [out [E [Lo C]]].
  { intros b Hb. apply in_map_iff in Hb as [c [<- Hc]]. destruct (CL c Hc) as [i [j [Ei FN]]]. cbn [num RNum] in *. rewrite Ei. destruct (RD c i j FN) as [v [x [Ev [Ex _]]]].
    unfold at_. rewrite Ev. cbn [bind]. rewrite Ex. eauto. }
  exists out. split; [exact E|]. split; [rewrite map_length in Lo; exact (eq_trans Lo Lc)|]. intros k c Ec.
  destruct (C k (closest (fine_candidates (N := RNum) children c))) as [x [Ex Hx]]; [refine (eq_trans (nth_error_map _ _ _) _); cbn [num RNum]; rewrite Ec; reflexivity|].
  destruct (CL c (nth_error_In _ _ Ec)) as [i [j [Ei FN]]]. destruct (RD c i j FN) as [v [y [Ev [Ey Lj]]]]. exists i, j, v.
  split; [exact FN|]. split; [exact Ev|]. split; [|exact Lj]. cbn [num RNum] in *. rewrite Ei in Hx. unfold at_ in Hx. rewrite Ev in Hx. cbn [bind] in Hx. rewrite Ey in Hx. congruence.
Qed.

Lemma nth_error_ext_len {A} (a b : list A) n : length a = n -> length b = n -> (forall k, (k < n)%nat -> nth_error a k = nth_error b k) -> a = b.
Proof.
  revert b n. induction a as [|x a IH]; intros [|y b] n La Lb H; try (cbn in La, Lb; lia); [reflexivity|]. cbn [length] in La, Lb.
  assert (x = y) as -> by (assert (Some x = Some y) as Q by (apply (H 0%nat); lia); congruence). f_equal. apply (IH b (length a)); [reflexivity|lia|].
  intros k Hk. apply (H (S k)). lia.
Qed.
(** Refining and then coarsening a cell gives the values back when every fine point nearest to a coarse point has that coarse point as its
    nearest. *)
Lemma first_nearest_unique src t k k' : first_nearest src t k -> first_nearest src t k' -> k = k'.
Proof.
  intros [s [E [M F]]] [s' [E' [M' F']]]. destruct (lt_eq_lt_dec k k') as [[L|L]|L]; [|assumption|].
  - specialize (F' k s L E). specialize (M s' (nth_error_In _ _ E')). lra.
  - specialize (F k' s' L E'). specialize (M' s (nth_error_In _ _ E)). lra.
Qed.
Lemma round_trip_R {T} (dflt : T) n dim coarse children vals : (0 < n)%nat -> quad_cell n dim coarse -> children <> [] ->
  (forall ch, In ch children -> quad_cell n dim ch) -> in_range coarse (concat children) -> in_range (concat children) coarse -> length vals = n ->
  (forall k c i j row f, nth_error coarse k = Some c -> first_nearest_child children c i j -> nth_error children i = Some row -> nth_error row j = Some f -> first_nearest coarse f k) ->
  (do fine <- coarse_to_fine (N := RNum) dflt coarse children vals; fine_to_coarse (N := RNum) coarse children fine) = Ok vals.
Proof.
  intros n0 Qc NE QC RG RG' LV PAIR. destruct (coarse_to_fine_R dflt n dim coarse children vals n0 Qc QC RG' LV) as [out [E [Lo H]]]. cbn [num RNum] in *. rewrite E. cbn [bind].
  destruct (fine_to_coarse_R n dim coarse children out n0 Qc NE QC RG Lo) as [back_ [E' [Lb H']]].
  { intros v Hv. destruct (In_nth_error _ _ Hv) as [i Ei]. assert (i < length children)%nat as Li by (rewrite <- Lo; apply nth_error_Some; congruence).
    destruct (at_lt children i Li) as [pts [Ep _]]. destruct (H i pts Ep) as [row [Er [L _]]]. congruence. }
  cbn [num RNum] in *. rewrite E'. f_equal. apply nth_error_ext_len with n; [assumption|assumption|].
  intros k Hk. destruct Qc as [Lc _]. destruct (at_lt coarse k) as [c [Ec _]]; [lia|]. destruct (H' k c Ec) as [i [j [v [FN [Ev [Eb Lj]]]]]].
  pose proof FN as FN0. destruct FN as [row [f [E1 [E2 F2]]]]. destruct (H i row E1) as [v' [Ev' [_ Hv]]]. assert (v' = v) as -> by congruence.
  destruct (Hv j f E2) as [k' [FN' [E3 _]]]. rewrite Eb, E3. f_equal. eapply first_nearest_unique; [exact FN'|]. eapply PAIR; try eassumption.
Qed.
