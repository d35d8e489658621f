(** LayoutProofs.v -- the loops over batches, points and lanes give every point the data of its cell. *)
From Coq Require Import ZArith Bool List Lia Sorted.
From Verif Require Import Base CellModel MaterialModel LayoutModel LayoutSpec.
Import ListNotations.

Lemma in_numb {A} (l : list A) i x : In (i, x) (numb l) <-> nth_error l i = Some x.
Proof.
  unfold numb. enough (G : forall s, In (i, x) (combine (seq s (List.length l)) l) <-> (s <= i /\ nth_error l (i - s) = Some x)).
  { rewrite (G 0). rewrite Nat.sub_0_r. split; [intros [_ H]; exact H|intros H; split; [lia|exact H]]. }
  induction l as [|a l IH]; intros s; cbn [List.length seq combine].
  - split; [intros []|]. intros [_ H]. destruct (i - s); discriminate.
  - cbn [In]. rewrite IH. split.
    + intros [E|[H1 H2]]; [injection E as <- <-; split; [lia|]; rewrite Nat.sub_diag; reflexivity|]. split; [lia|]. replace (i - s) with (S (i - S s)) by lia. exact H2.
    + intros [H1 H2]. destruct (Nat.eq_dec s i) as [->|E]; [left; rewrite Nat.sub_diag in H2; cbn in H2; injection H2 as ->; reflexivity|]. right. split; [lia|].
      replace (i - s) with (S (i - S s)) in H2 by lia. exact H2.
Qed.
Lemma in_visits {L} first (batches : list (list L)) n_q b q i l : In (b, q, i, l) (visits first batches n_q) <-> exists b', b = first + b' /\ lane batches b' i l /\ q < n_q.
Proof.
  unfold visits. rewrite in_flat_map. split.
  - intros [[b' lanes] [I1 I2]]. apply in_flat_map in I2 as [q' [Iq I2]]. apply in_map_iff in I2 as [[i' l'] [E Il]]. cbn [fst snd] in *. injection E as <- <- <- <-.
    apply in_numb in I1. apply in_numb in Il. apply in_seq in Iq. exists b'. split; [reflexivity|]. split; [exists lanes; split; assumption|lia].
  - intros [b' [-> [[lanes [N1 N2]] Q]]]. exists (b', lanes). split; [apply in_numb; exact N1|]. apply in_flat_map. exists q. split; [apply in_seq; lia|]. apply in_map_iff. exists (i, l). split; [reflexivity|]. apply in_numb. exact N2.
Qed.
Lemma lane_fun {L} (batches : list (list L)) b i l l' : lane batches b i l -> lane batches b i l' -> l = l'.
Proof. intros [x [A B]] [y [C D]]. congruence. Qed.
Lemma put_same {A} (t : tab A) b q i v : put t b q i v b q i = v.
Proof. unfold put. rewrite !Nat.eqb_refl. reflexivity. Qed.
Lemma put_other {A} (t : tab A) b q i v b' q' i' : (b', q', i') <> (b, q, i) -> put t b q i v b' q' i' = t b' q' i'.
Proof.
  intros N. unfold put. destruct (Nat.eqb_spec b' b), (Nat.eqb_spec q' q), (Nat.eqb_spec i' i); cbn; try reflexivity. subst. congruence.
Qed.
(** A fold that writes, for each visit, a value (or nothing) which only depends on the entry. *)
Lemma fold_put {A L} (f : tab A -> nat * nat * nat * L -> res (tab A)) (vs : list (nat * nat * nat * L)) (val : L -> option A) :
  (forall t b q i l, In (b, q, i, l) vs -> f t (b, q, i, l) = Ok (match val l with Some v => put t b q i v | None => t end)) ->
  (forall b q i l l', In (b, q, i, l) vs -> In (b, q, i, l') vs -> l = l') ->
  forall t0, exists t, foldR f vs t0 = Ok t /\
    (forall b q i l, In (b, q, i, l) vs -> t b q i = match val l with Some v => v | None => t0 b q i end) /\
    (forall b q i, (forall l, ~ In (b, q, i, l) vs) -> t b q i = t0 b q i).
Proof.
  induction vs as [|[[[b0 q0] i0] l0] vs IH] using rev_ind; intros Hf Fn t0.
  - exists t0. split; [reflexivity|]. split; [intros b q i l []|reflexivity].
  - destruct (IH ltac:(intros; apply Hf, in_or_app; left; assumption) ltac:(intros b q i l l' I1 I2; apply (Fn b q i); apply in_or_app; left; assumption) t0) as [t [E [W O]]].
    unfold foldR in *. rewrite fold_left_app. cbn [fold_left]. rewrite E. cbn [bind]. rewrite Hf by (apply in_or_app; right; left; reflexivity). eexists. split; [reflexivity|]. split.
    + intros b q i l I. apply in_app_or in I as [I|[I|[]]].
      * destruct (val l0) as [v0|] eqn:V0; [|apply W; exact I]. destruct (Nat.eq_dec b b0) as [->|N]; [|rewrite put_other by congruence; apply W; exact I].
        destruct (Nat.eq_dec q q0) as [->|N]; [|rewrite put_other by congruence; apply W; exact I]. destruct (Nat.eq_dec i i0) as [->|N]; [|rewrite put_other by congruence; apply W; exact I].
        rewrite put_same. assert (l = l0) by (apply (Fn b0 q0 i0); apply in_or_app; [left; exact I|right; left; reflexivity]). subst l. rewrite V0. reflexivity.
      * injection I as <- <- <- <-. destruct (val l0) as [v0|] eqn:V0; [apply put_same|].
        assert (D : (exists l, In (b0, q0, i0, l) vs) \/ forall l, ~ In (b0, q0, i0, l) vs).
        { clear. induction vs as [|[[[b q] i] l] vs [[l' IH]|IH]]; [right; intros l []|left; exists l'; right; exact IH|].
          destruct (Nat.eq_dec b b0) as [->|N]; [|right; intros l' [X|X]; [congruence|exact (IH l' X)]]. destruct (Nat.eq_dec q q0) as [->|N]; [|right; intros l' [X|X]; [congruence|exact (IH l' X)]].
          destruct (Nat.eq_dec i i0) as [->|N]; [|right; intros l' [X|X]; [congruence|exact (IH l' X)]]. left. exists l. left. reflexivity. }
        destruct D as [[l I]|D]; [|apply O; exact D]. rewrite (W _ _ _ _ I). assert (l = l0) by (apply (Fn b0 q0 i0); apply in_or_app; [left; exact I|right; left; reflexivity]). subst l. rewrite V0. reflexivity.
    + intros b q i N. assert (O' : t b q i = t0 b q i) by (apply O; intros l I; apply (N l), in_or_app; left; exact I).
      destruct (val l0) as [v0|]; [|exact O']. rewrite put_other; [exact O'|]. intros X. injection X as -> -> ->. apply (N l0), in_or_app. right. left. reflexivity.
Qed.
Lemma visits_fun {L} first (batches : list (list L)) n_q b q i l l' : In (b, q, i, l) (visits first batches n_q) -> In (b, q, i, l') (visits first batches n_q) -> l = l'.
Proof. intros I I'. apply in_visits in I as [b1 [E1 [L1 _]]]. apply in_visits in I' as [b2 [E2 [L2 _]]]. assert (b1 = b2) by lia. subst b2. exact (lane_fun _ _ _ _ _ L1 L2). Qed.

(** ** Host, cells *)
Lemma foldR_pure {A B} (f : A -> B -> A) l a : foldR (fun x y => Ok (f x y)) l a = Ok (fold_left f l a).
Proof. unfold foldR. revert a. induction l as [|b l IH]; intros a; [reflexivity|]. cbn [fold_left bind]. apply IH. Qed.
Lemma host_cells_at {A} batches n_q (value : nat -> A) t0 :
  (forall b q i c, lane batches b i c -> q < n_q -> host_cells batches n_q value t0 b q i = value c) /\
  (forall b q i, (forall c, ~ lane batches b i c) \/ n_q <= q -> host_cells batches n_q value t0 b q i = t0 b q i).
Proof.
  destruct (fold_put (fun t v => Ok (let '(b, q, i, c) := v in put t b q i (value c))) (visits 0 batches n_q) (fun c => Some (value c))) with (t0 := t0) as [t [E [W O]]].
  - intros; reflexivity.
  - intros b q i l l'. apply visits_fun.
  - rewrite foldR_pure in E. injection E as E. unfold host_cells. rewrite E. split.
    + intros b q i c L Q. apply W. apply in_visits. exists b. repeat split; assumption.
    + intros b q i N. apply O. intros l I. apply in_visits in I as [b' [X [L Q]]]. cbn in X. subst b'. destruct N as [N|N]; [exact (N l L)|lia].
Qed.
(** ** The map from cells to lanes *)
Lemma lane_concat {L} (batches : list (list L)) l : In l (List.concat batches) <-> exists b i, lane batches b i l.
Proof.
  rewrite in_concat. split.
  - intros [lanes [I1 I2]]. apply In_nth_error in I1 as [b Hb]. apply In_nth_error in I2 as [i Hi]. exists b, i, lanes. split; assumption.
  - intros [b [i [lanes [Hb Hi]]]]. exists lanes. split; eapply nth_error_In; eassumption.
Qed.
Lemma NoDup_app_parts {A} (l l' : list A) : NoDup (l ++ l') -> NoDup l /\ NoDup l' /\ forall x, In x l -> ~ In x l'.
Proof.
  induction l as [|a l IH]; intros H; [split; [constructor|split; [exact H|intros x []]]|]. cbn in H. inversion H as [|? ? N1 N2]; subst. destruct (IH N2) as [X [Y Z]].
  split; [constructor; [intros I; apply N1, in_or_app; left; exact I|exact X]|]. split; [exact Y|]. intros x [<-|I]; [intros I; apply N1, in_or_app; right; exact I|exact (Z x I)].
Qed.
Lemma lane_once {L} (batches : list (list L)) b i b' i' l : NoDup (List.concat batches) -> lane batches b i l -> lane batches b' i' l -> b = b' /\ i = i'.
Proof.
  revert b b'. induction batches as [|x batches IH]; intros b b' N [y [B Y]] [y' [B' Y']]; [destruct b; discriminate|]. cbn [List.concat] in N. destruct (NoDup_app_parts _ _ N) as [Nx [Nr D]].
  assert (T : forall k z j, nth_error batches k = Some z -> nth_error z j = Some l -> In l (List.concat batches)) by (intros k z j H1 H2; apply lane_concat; exists k, j, z; split; assumption).
  destruct b as [|b], b' as [|b']; cbn [nth_error] in B, B'.
  - injection B as <-. injection B' as <-. split; [reflexivity|]. apply (proj1 (NoDup_nth_error x) Nx); [apply nth_error_Some; congruence|congruence].
  - injection B as <-. exfalso. apply (D l); [eapply nth_error_In; exact Y|exact (T _ _ _ B' Y')].
  - injection B' as <-. exfalso. apply (D l); [eapply nth_error_In; exact Y'|exact (T _ _ _ B Y)].
  - destruct (IH b b' Nr) as [-> ->]; [exists y; split; assumption|exists y'; split; assumption|]. split; reflexivity.
Qed.
Lemma fold_map {K V} (es : list (nat * K)) (val : K -> V) (f0 : nat -> V) :
  let m := fold_left (fun m e => fun d => if Nat.eqb d (fst e) then val (snd e) else m d) es f0 in
  (forall c, (forall k, ~ In (c, k) es) -> m c = f0 c) /\ (forall c k, In (c, k) es -> (forall k', In (c, k') es -> val k' = val k) -> m c = val k).
Proof.
  cbv zeta. induction es as [|[c0 k0] es IH] using rev_ind; [split; [reflexivity|intros c k []]|]. rewrite fold_left_app. cbn [fold_left fst snd]. destruct IH as [I1 I2]. split.
  - intros c N. destruct (Nat.eqb_spec c c0) as [->|E]; [exfalso; apply (N k0), in_or_app; right; left; reflexivity|]. apply I1. intros k I. apply (N k), in_or_app. left. exact I.
  - intros c k I Same. destruct (Nat.eqb_spec c c0) as [->|E]; [apply Same, in_or_app; right; left; reflexivity|]. apply I2; [|intros k' I'; apply Same, in_or_app; left; exact I']. apply in_app_or in I as [I|[I|[]]]; [exact I|congruence].
Qed.
Lemma host_map_fold batches : host_map batches = fold_left (fun m e => fun d => if Nat.eqb d (fst e) then Some (snd e) else m d) (map (fun v : nat * nat * nat * nat => let '(b, _, i, c) := v in (c, (b, i))) (visits 0 batches 1)) (fun _ => None).
Proof.
  unfold host_map. generalize (fun _ : nat => @None (nat * nat)). generalize (visits 0 batches 1). intros l. induction l as [|[[[b q] i] c] l IH]; intros m; [reflexivity|]. cbn [fold_left map fst snd]. apply IH.
Qed.
Lemma host_map_at batches : NoDup (List.concat batches) -> (forall b i c, lane batches b i c -> host_map batches c = Some (b, i)) /\ (forall c, ~ In c (List.concat batches) -> host_map batches c = None).
Proof.
  intros N. rewrite host_map_fold. set (es := map _ _). pose proof (fold_map es (@Some (nat * nat)) (fun _ => None)) as [F1 F2]. cbv zeta in F1, F2.
  assert (Ie : forall c b i, In (c, (b, i)) es <-> lane batches b i c).
  { intros c b i. unfold es. rewrite in_map_iff. split.
    - intros [[[[b' q'] i'] c'] [E I]]. injection E as -> -> ->. apply in_visits in I as [b' [X [L _]]]. cbn in X. subst b'. exact L.
    - intros L. exists (b, 0, i, c). split; [reflexivity|]. apply in_visits. exists b. repeat split; [exact L|lia]. }
  split.
  - intros b i c L. apply F2; [apply Ie; exact L|]. intros [b' i'] I. apply Ie in I. destruct (lane_once _ _ _ _ _ _ N L I) as [-> ->]. reflexivity.
  - intros c NI. apply F1. intros [b i] I. apply Ie in I. apply NI, lane_concat. exists b, i. exact I.
Qed.
