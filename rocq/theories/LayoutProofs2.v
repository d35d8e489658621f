(** LayoutProofs2.v -- angles of the cells, faces, the device. *)
From Coq Require Import ZArith Bool List Lia Sorted.
From Verif Require Import Base CellModel MaterialModel LayoutModel LayoutSpec LayoutProofs.
Import ListNotations.

Lemma at_nth {A} (l : list A) i : at_ l i = match nth_error l i with Some x => Ok x | None => UB end.
Proof. unfold at_. destruct (nth_error l i); reflexivity. Qed.
(** ** The cells with material *)
Lemma numb_sorted {A} (l : list A) : StronglySorted (fun x y => fst x < fst y) (numb l).
Proof.
  unfold numb. generalize 0 as s. induction l as [|a l IH]; intros s; cbn [List.length seq combine]; [constructor|]. constructor; [apply IH|]. apply Forall_forall. intros [i x] I. apply in_combine_l in I. apply in_seq in I. cbn. lia.
Qed.
Lemma sorted_filter {A} (R : A -> A -> Prop) f (l : list A) : StronglySorted R l -> StronglySorted R (filter f l).
Proof.
  induction 1 as [|a l S IH F]; [constructor|]. cbn. destruct (f a); [|exact IH]. constructor; [exact IH|]. apply Forall_forall. intros x I. apply filter_In in I as [I _]. exact (proj1 (Forall_forall _ _) F x I).
Qed.
Lemma with_material_sorted cells : StronglySorted lt (with_material cells).
Proof.
  unfold with_material. set (l := filter _ _). assert (S : StronglySorted (fun x y => fst x < fst y) l) by apply sorted_filter, numb_sorted. induction S as [|a m S IH F]; [constructor|].
  cbn [map]. constructor; [exact IH|]. apply Forall_forall. intros x I. apply in_map_iff in I as [y [<- I]]. exact (proj1 (Forall_forall _ _) F y I).
Qed.
Lemma in_with_material cells c : In c (with_material cells) <-> owned_active cells c.
Proof.
  unfold with_material. rewrite in_map_iff. split.
  - intros [[i x] [E I]]. cbn in E. subst i. apply filter_In in I as [I B]. apply in_numb in I. apply andb_prop in B as [B1 B2]. exists x. repeat split; assumption.
  - intros [x [N [B1 B2]]]. exists (c, x). split; [reflexivity|]. apply filter_In. split; [apply in_numb; exact N|]. cbn. rewrite B1, B2. reflexivity.
Qed.
Lemma sorted_nodup l : StronglySorted lt l -> NoDup l.
Proof. induction 1 as [|a l S IH F]; constructor; [|exact IH]. intros I. pose proof (proj1 (Forall_forall _ _) F a I). lia. Qed.
Lemma sorted_unique l l' : StronglySorted lt l -> StronglySorted lt l' -> (forall x, In x l <-> In x l') -> l = l'.
Proof.
  intros S. revert l'. induction S as [|a l S IH F]; intros l' S' E.
  - destruct l' as [|b l']; [reflexivity|]. destruct (proj2 (E b) (or_introl eq_refl)).
  - destruct S' as [|b l' S' F']; [destruct (proj1 (E a) (or_introl eq_refl))|].
    assert (a = b). { destruct (proj1 (E a) (or_introl eq_refl)) as [X|X]; [symmetry; exact X|]. destruct (proj2 (E b) (or_introl eq_refl)) as [Y|Y]; [exact Y|].
      pose proof (proj1 (Forall_forall _ _) F b Y). pose proof (proj1 (Forall_forall _ _) F' a X). lia. }
    subst b. f_equal. apply IH; [exact S'|]. intros x. split; intros I.
    + destruct (proj1 (E x) (or_intror I)) as [<-|X]; [|exact X]. pose proof (proj1 (Forall_forall _ _) F a I). lia.
    + destruct (proj2 (E x) (or_intror I)) as [<-|X]; [|exact X]. pose proof (proj1 (Forall_forall _ _) F' a I). lia.
Qed.
Lemma nth_sorted l : (forall i j a b, nth_error l i = Some a -> nth_error l j = Some b -> (i < j <-> a < b)) -> StronglySorted lt l.
Proof.
  induction l as [|x l IH]; intros H; [constructor|]. constructor.
  - apply IH. intros i j a b A B. specialize (H (S i) (S j) a b A B). lia.
  - apply Forall_forall. intros y I. apply In_nth_error in I as [j J]. apply (H 0 (S j) x y eq_refl J). lia.
Qed.
Lemma sorted_nth l : StronglySorted lt l -> forall i j a b, nth_error l i = Some a -> nth_error l j = Some b -> (i < j <-> a < b).
Proof.
  induction 1 as [|x l S IH F]; intros i j a b A B; [destruct i; discriminate|]. destruct i as [|i], j as [|j]; cbn [nth_error] in A, B.
  - injection A as <-. injection B as <-. lia.
  - injection A as <-. apply nth_error_In in B. pose proof (proj1 (Forall_forall _ _) F b B). lia.
  - injection B as <-. apply nth_error_In in A. pose proof (proj1 (Forall_forall _ _) F a A). lia.
  - specialize (IH i j a b A B). lia.
Qed.
Lemma in_order_is cells l : in_order cells l <-> l = with_material cells.
Proof.
  split.
  - intros [E [_ O]]. apply sorted_unique; [apply nth_sorted; exact O|apply with_material_sorted|]. intros x. rewrite in_with_material. apply E.
  - intros ->. split; [apply in_with_material|]. split; [apply sorted_nodup, with_material_sorted|apply sorted_nth, with_material_sorted].
Qed.
Lemma mapping_at cells k c : nth_error (with_material cells) k = Some c -> cell_mapping cells c = Some k.
Proof.
  intros K. unfold cell_mapping.
  assert (F : fold_left (fun (m : nat -> option nat) (pc : nat * nat) => fun d => if Nat.eqb d (snd pc) then Some (fst pc) else m d) (numb (with_material cells)) (fun _ => None) =
              fold_left (fun m e => fun d => if Nat.eqb d (fst e) then Some (snd e) else m d) (map (fun pc : nat * nat => (snd pc, fst pc)) (numb (with_material cells))) (fun _ => None)).
  { generalize (fun _ : nat => @None nat). generalize (numb (with_material cells)). intros l. induction l as [|[p d] l IH]; intros m; [reflexivity|]. cbn [fold_left map fst snd]. apply IH. }
  rewrite F. destruct (fold_map (map (fun pc : nat * nat => (snd pc, fst pc)) (numb (with_material cells))) (@Some nat) (fun _ => None)) as [_ M]. cbv zeta in M. apply M.
  - apply in_map_iff. exists (k, c). split; [reflexivity|]. apply in_numb. exact K.
  - intros k' I. apply in_map_iff in I as [[p d] [E I]]. cbn in E. injection E as -> ->. apply in_numb in I. f_equal. pose proof (sorted_nodup _ (with_material_sorted cells)) as N.
    apply (proj1 (NoDup_nth_error _) N); [apply nth_error_Some; congruence|congruence].
Qed.
(** ** Angles on the host *)
Lemma orientation_at {A} cells batches n_q (angle : nat -> A) l t0 : in_order cells l -> (forall b i c, lane batches b i c -> owned_cell cells c) ->
  exists t, host_orientation cells batches n_q (map angle l) t0 = Ok t /\
    (forall b q i c, lane batches b i c -> q < n_q -> active_cell cells c -> t b q i = angle c) /\
    (forall b q i c, lane batches b i c -> q < n_q -> ~ active_cell cells c -> t b q i = t0 b q i).
Proof.
  intros IO Ow. apply in_order_is in IO. subst l.
  destruct (fold_put (fun t (v : nat * nat * nat * nat) => let '(b, q, i, c) := v in
    do x <- lget cells c; if lc_active x then do a <- at_ (map angle (with_material cells)) (match cell_mapping cells c with Some j => j | None => 0 end); Ok (put t b q i a) else Ok t)
    (visits 0 batches n_q) (fun c => match nth_error cells c with Some x => if lc_active x then Some (angle c) else None | None => None end)) with (t0 := t0) as [t [E [W O]]].
  - intros t b q i c I. apply in_visits in I as [b' [X [L _]]]. destruct (Ow _ _ _ L) as [x [N1 N2]]. unfold lget. rewrite at_nth, N1. cbn [bind]. destruct (lc_active x) eqn:Ac; [|reflexivity].
    assert (IW : In c (with_material cells)) by (apply in_with_material; exists x; repeat split; assumption). apply In_nth_error in IW as [k K]. rewrite (mapping_at cells k c K), at_nth, nth_error_map, K. reflexivity.
  - intros b q i c c'. apply visits_fun.
  - exists t. split; [exact E|]. split.
    + intros b q i c L Q [x [N1 N2]]. rewrite (W b q i c) by (apply in_visits; exists b; repeat split; assumption). rewrite N1, N2. reflexivity.
    + intros b q i c L Q NA. rewrite (W b q i c) by (apply in_visits; exists b; repeat split; assumption). destruct (Ow _ _ _ L) as [x [N1 N2]]. rewrite N1. destruct (lc_active x) eqn:Ac; [|reflexivity].
      exfalso. apply NA. exists x. split; assumption.
Qed.
(** Angles for fewer cells than those with material: out of bounds. *)
Lemma orientation_short {A} cells batches n_q (angles : list A) t0 b i c k : lane batches b i c -> nth_error (with_material cells) k = Some c -> List.length angles <= k -> 0 < n_q -> (forall b i c, lane batches b i c -> owned_cell cells c) ->
  host_orientation cells batches n_q angles t0 = UB.
Proof.
  intros L K Sh Q Ow. unfold host_orientation. set (f := fun _ _ => _). assert (I : In (b, 0, i, c) (visits 0 batches n_q)) by (apply in_visits; exists b; repeat split; assumption). revert t0.
  assert (All : forall b q i c, In (b, q, i, c) (visits 0 batches n_q) -> owned_cell cells c) by (intros b1 q1 i1 c1 H; apply in_visits in H as [b' [X [L1 _]]]; exact (Ow _ _ _ L1)).
  assert (B : forall vs, fold_left (fun acc v => do x <- acc; f x v) vs UB = UB) by (induction vs as [|v vs IH]; [reflexivity|exact IH]).
  revert I All. generalize (visits 0 batches n_q). intros vs. induction vs as [|v vs IH]; intros I All t0; [destruct I|]. unfold foldR in *. cbn [fold_left bind].
  destruct I as [->|I].
  - unfold f at 2. destruct (proj1 (in_with_material cells c) (nth_error_In _ _ K)) as [x [N1 [N2 N3]]]. unfold lget. rewrite at_nth, N1. cbn [bind]. rewrite N3, (mapping_at cells k c K), at_nth, (proj2 (nth_error_None angles k) Sh). cbn [bind]. apply B.
  - destruct v as [[[b1 q1] i1] c1]. unfold f at 2. destruct (All b1 q1 i1 c1 (or_introl eq_refl)) as [x [N1 N2]]. unfold lget. rewrite at_nth, N1. cbn [bind].
    destruct (lc_active x); [|apply IH; [exact I|intros; eapply All; right; eassumption]]. rewrite at_nth. destruct (nth_error angles _); cbn [bind]; [|apply B]. apply IH; [exact I|intros; eapply All; right; eassumption].
Qed.
(** ** Faces *)
Lemma inner_side_at cells l : on_mesh cells (fst l) -> on_mesh cells (snd l) ->
  (exists c, inner_side cells l = Ok (Some c) /\ inner_boundary cells l c) \/ (inner_side cells l = Ok None /\ forall c, ~ inner_boundary cells l c).
Proof.
  intros M1 M2. unfold on_mesh in *. apply nth_error_Some in M1. apply nth_error_Some in M2. destruct (nth_error cells (fst l)) as [a|] eqn:E1; [|congruence]. destruct (nth_error cells (snd l)) as [b|] eqn:E2; [|congruence].
  unfold inner_side, lget. rewrite !at_nth, E1, E2. cbn [bind]. unfold inner_boundary. rewrite E1, E2. destruct (lc_active a) eqn:A1, (lc_active b) eqn:A2; cbn [Bool.eqb].
  - right. split; [reflexivity|]. intros c [x [y [X [Y H]]]]. injection X as <-. injection Y as <-. destruct H as [[_ [H _]]|[H _]]; congruence.
  - left. exists (fst l). split; [reflexivity|]. exists a, b. repeat split. left. repeat split; assumption.
  - left. exists (snd l). split; [reflexivity|]. exists a, b. repeat split. right. repeat split; assumption.
  - right. split; [reflexivity|]. intros c [x [y [X [Y H]]]]. injection X as <-. injection Y as <-. destruct H as [[H _]|[_ [H _]]]; congruence.
Qed.
Lemma inner_boundary_fun cells l c c' : inner_boundary cells l c -> inner_boundary cells l c' -> c = c'.
Proof. intros [a [b [A [B H]]]] [a' [b' [A' [B' H']]]]. assert (a = a') by congruence. assert (b = b') by congruence. subst. destruct H as [[H1 [H2 H3]]|[H1 [H2 H3]]], H' as [[G1 [G2 G3]]|[G1 [G2 G3]]]; congruence. Qed.
Lemma inner_boundary_mesh cells l c : inner_boundary cells l c -> on_mesh cells c.
Proof. intros [a [b [A [B H]]]]. unfold on_mesh. apply nth_error_Some. destruct H as [[_ [_ ->]]|[_ [_ ->]]]; congruence. Qed.
Definition owned_value {A} (cells : list lcell) (value : nat -> A) (s : option nat) : option A :=
  match s with Some c => match nth_error cells c with Some x => if lc_owned x then Some (value c) else None | None => None end | None => None end.
Definition side_ok {L} (cells : list lcell) (side : L -> res (option nat)) (l : L) : Prop := exists s, side l = Ok s /\ match s with Some c => on_mesh cells c | None => True end.
Lemma faces_fold {A L} cells (side : L -> res (option nat)) (value : nat -> A) first batches n_q t0 : (forall b i l, lane batches b i l -> side_ok cells side l) ->
  exists t, foldR (face_visit cells side value) (visits first batches n_q) t0 = Ok t /\
    (forall b q i l s, lane batches b i l -> q < n_q -> side l = Ok s -> t (first + b) q i = match owned_value cells value s with Some v => v | None => t0 (first + b) q i end) /\
    (forall b q i, (forall b' l, b = first + b' -> ~ lane batches b' i l) -> t b q i = t0 b q i).
Proof.
  intros Ok1. destruct (fold_put (face_visit cells side value) (visits first batches n_q) (fun l => match side l with Ok s => owned_value cells value s | _ => None end)) with (t0 := t0) as [t [E [W O]]].
  - intros t b q i l I. apply in_visits in I as [b' [X [Ln _]]]. destruct (Ok1 _ _ _ Ln) as [s [Es Hs]]. unfold face_visit. rewrite Es. cbn [bind]. destruct s as [c|]; [|reflexivity]. cbn [owned_value].
    unfold on_mesh in Hs. apply nth_error_Some in Hs. unfold lget. rewrite at_nth. destruct (nth_error cells c) as [x|]; [|congruence]. cbn [bind]. destruct (lc_owned x); reflexivity.
  - intros b q i c c'. apply visits_fun.
  - exists t. split; [exact E|]. split.
    + intros b q i l s Ln Q Es. rewrite (W (first + b) q i l) by (apply in_visits; exists b; repeat split; assumption). rewrite Es. reflexivity.
    + intros b q i N. apply O. intros l I. apply in_visits in I as [b' [X [Ln _]]]. exact (N b' l X Ln).
Qed.
Lemma faces_at {A} cells inner boundary n_q (value : nat -> A) t0 :
  (forall f i l, lane inner f i l -> on_mesh cells (fst l) /\ on_mesh cells (snd l)) -> (forall f i c, lane boundary f i c -> on_mesh cells c) ->
  exists t, host_faces cells inner boundary n_q value t0 = Ok t /\
    (forall f q i l c, lane inner f i l -> q < n_q -> inner_boundary cells l c -> t f q i = if match nth_error cells c with Some x => lc_owned x | None => false end then value c else t0 f q i) /\
    (forall f q i l, lane inner f i l -> q < n_q -> (forall c, ~ inner_boundary cells l c) -> t f q i = t0 f q i) /\
    (forall f q i c, lane boundary f i c -> q < n_q -> active_cell cells c -> t (List.length inner + f) q i = if match nth_error cells c with Some x => lc_owned x | None => false end then value c else t0 (List.length inner + f) q i).
Proof.
  intros Mi Mb.
  destruct (faces_fold cells (inner_side cells) value 0 inner n_q t0) as [t1 [E1 [W1 O1]]].
  { intros f i l Ln. destruct (Mi _ _ _ Ln) as [M1 M2]. destruct (inner_side_at cells l M1 M2) as [[c [E B]]|[E _]]; [exists (Some c); split; [exact E|exact (inner_boundary_mesh _ _ _ B)]|exists None; split; [exact E|exact I]]. }
  destruct (faces_fold cells (boundary_side cells) value (List.length inner) boundary n_q t1) as [t2 [E2 [W2 O2]]].
  { intros f i c Ln. pose proof (Mb _ _ _ Ln) as M. unfold side_ok, boundary_side, lget. rewrite at_nth. unfold on_mesh in M. destruct (nth_error cells c) as [x|] eqn:N; [|apply nth_error_None in N; lia]. cbn [bind].
    destruct (lc_active x); [exists (Some c); split; [reflexivity|exact M]|exists None; split; [reflexivity|exact I]]. }
  assert (Lt : forall f i l, lane inner f i l -> f < List.length inner) by (intros f i l [x [X _]]; apply nth_error_Some; congruence).
  exists t2. split; [unfold host_faces; rewrite E1; cbn [bind]; exact E2|]. split; [|split].
  - intros f q i l c Ln Q B. rewrite O2 by (intros b' l' X _; specialize (Lt _ _ _ Ln); lia). destruct (Mi _ _ _ Ln) as [M1 M2]. destruct (inner_side_at cells l M1 M2) as [[c' [E B']]|[E N]]; [|destruct (N c B)].
    rewrite (inner_boundary_fun _ _ _ _ B' B) in E. pose proof (W1 f q i l (Some c) Ln Q E) as X. cbn [Nat.add] in X. rewrite X. cbn [owned_value]. destruct (nth_error cells c) as [x|]; [destruct (lc_owned x)|]; reflexivity.
  - intros f q i l Ln Q N. rewrite O2 by (intros b' l' X _; specialize (Lt _ _ _ Ln); lia). destruct (Mi _ _ _ Ln) as [M1 M2]. destruct (inner_side_at cells l M1 M2) as [[c' [E B']]|[E _]]; [destruct (N c' B')|].
    exact (W1 f q i l None Ln Q E).
  - intros f q i c Ln Q [x [N Ac]]. assert (E : boundary_side cells c = Ok (Some c)) by (unfold boundary_side, lget; rewrite at_nth, N; cbn [bind]; rewrite Ac; reflexivity).
    rewrite (W2 f q i c (Some c) Ln Q E). cbn [owned_value]. rewrite N. destruct (lc_owned x); [reflexivity|].
    apply O1. intros b' l X Ln'. specialize (Lt _ _ _ Ln'). lia.
Qed.
Lemma orientation_too_few {A} cells batches n_q (angles : list A) t0 l b i c k : in_order cells l -> lane batches b i c -> nth_error l k = Some c -> List.length angles <= k -> 0 < n_q -> (forall b i c, lane batches b i c -> owned_cell cells c) ->
  host_orientation cells batches n_q angles t0 = UB.
Proof. intros IO. apply in_order_is in IO. subst l. apply orientation_short. Qed.
