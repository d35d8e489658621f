(** MeshProofs.v -- proofs of C76. *)
From Coq Require Import Reals Lra Lia Psatz List ZArith String Bool FinFun.
From Verif Require Import Base BaseFacts MaterialModel ScanPathModel InputModel GeometryModel CellModel MeshModel MeshSpec.
Import ListNotations.
Local Open Scope R_scope.

Notation axisR := (axis (N := RNum)).
Lemma nofnat_INR n : nofnat (N := RNum) n = INR n.
Proof. unfold nofnat. symmetry. apply INR_IZR_INZ. Qed.
Definition good (a : axisR) : Prop := (0 < ax_n a)%nat /\ ax_low a < ax_high a.
Lemma axes_good m axes : axes_of (N := RNum) m = Ok axes -> Forall good axes.
Proof.
  destruct m as [| ns p1 p2]; [discriminate|]. unfold axes_of. set (l := map _ _). destruct (forallb _ l) eqn:E; [|discriminate].
  intros H. injection H as <-. rewrite forallb_forall in E. apply Forall_forall. intros a Ha. specialize (E a Ha). apply andb_prop in E. destruct E as [E1 E2].
  split; [apply Nat.ltb_lt; exact E1|]. apply Rltb_true in E2. exact E2.
Qed.
Definition stepR (a : axisR) : R := (ax_high a - ax_low a) / INR (ax_n a).
Lemma step_eq a : step (N := RNum) a = stepR a.
Proof. unfold step, stepR. rewrite nofnat_INR. reflexivity. Qed.
Lemma vertex_eq a i : vertex (N := RNum) a i = ax_low a + INR i * stepR a.
Proof. unfold vertex. rewrite nofnat_INR, step_eq. reflexivity. Qed.
Lemma step_pos a : good a -> 0 < stepR a.
Proof. intros [A B]. unfold stepR. apply Rdiv_lt_0_compat; [lra|]. apply lt_0_INR. exact A. Qed.
Lemma vertex_0 a : vertex (N := RNum) a 0 = ax_low a.
Proof. rewrite vertex_eq. simpl INR. etransitivity; [|apply Rplus_0_r]. f_equal. apply Rmult_0_l. Qed.
Lemma vertex_n a : good a -> vertex (N := RNum) a (ax_n a) = ax_high a.
Proof.
  intros [A B]. rewrite vertex_eq. unfold stepR. assert (INR (ax_n a) <> 0) by (apply not_0_INR; lia).
  assert (X : forall l h n : R, n <> 0 -> l + n * ((h - l) / n) = h) by (intros; field; assumption). apply X. assumption.
Qed.
Lemma vertex_S a i : vertex (N := RNum) a (S i) = vertex (N := RNum) a i + stepR a.
Proof. rewrite !vertex_eq, S_INR. assert (X : forall l i s : R, l + (i + 1) * s = l + i * s + s) by (intros; ring). apply X. Qed.
Lemma vertex_mono a i j : good a -> (i <= j)%nat -> (vertex (N := RNum) a i : R) <= vertex (N := RNum) a j.
Proof. intros G H. rewrite !vertex_eq. apply Rplus_le_compat_l, Rmult_le_compat_r; [apply Rlt_le, step_pos, G|]. apply le_INR. exact H. Qed.
Lemma in_layer a (x : R) : good a -> ax_low a <= x < ax_high a -> exists i, (i < ax_n a)%nat /\ (vertex (N := RNum) a i : R) <= x < vertex (N := RNum) a (S i).
Proof.
  intros G [A B]. rewrite <- (vertex_n a G) in B. assert (A' : vertex (N := RNum) a 0 <= x) by (rewrite vertex_0; exact A).
  clear A. revert B. generalize (ax_n a) as n. induction n as [|n IH]; intros B; [exfalso; simpl num in *; lra|].
  destruct (Rlt_le_dec x (vertex (N := RNum) a n)) as [L|L].
  - destruct (IH L) as (i & Hi & V). exists i. split; [lia|exact V].
  - exists n. split; [lia|]. split; [exact L|exact B].
Qed.
Lemma layer_unique a (x : R) i j : good a -> (vertex (N := RNum) a i : R) <= x < vertex (N := RNum) a (S i) -> (vertex (N := RNum) a j : R) <= x < vertex (N := RNum) a (S j) -> i = j.
Proof.
  intros G [A B] [C D]. destruct (Nat.lt_trichotomy i j) as [L|[L|L]]; [|exact L|].
  - pose proof (vertex_mono a (S i) j G L) as X. simpl num in *. lra.
  - pose proof (vertex_mono a (S j) i G L) as X. simpl num in *. lra.
Qed.
Lemma in_indices (axes : list axisR) k : In k (indices axes) <-> Forall2 (fun a i => (i < ax_n a)%nat) axes k.
Proof.
  revert k. induction axes as [|a axes IH]; intros k; simpl.
  - split; [intros [<-|[]]; constructor|intros H; inversion H; left; reflexivity].
  - rewrite in_flat_map. split.
    + intros (i & Hi & Hk). apply in_map_iff in Hk. destruct Hk as (k' & <- & Hk'). constructor; [apply in_seq in Hi; lia|apply IH; exact Hk'].
    + intros H. inversion H as [|? i ? k' Hi Hk']; subst. exists i. split; [apply in_seq; lia|]. apply in_map. apply IH. exact Hk'.
Qed.
Lemma indices_length (axes : list axisR) : List.length (indices axes) = fold_right (fun a n => (ax_n a * n)%nat) 1%nat axes.
Proof.
  induction axes as [|a axes IH]; [reflexivity|]. simpl. rewrite <- IH. generalize (indices axes) as l. intros l.
  rewrite <- (seq_length (ax_n a) 0) at 2. generalize (seq 0 (ax_n a)) as s. induction s as [|i s IHs]; [reflexivity|].
  simpl. rewrite app_length, map_length, IHs. reflexivity.
Qed.
Lemma NoDup_app_intro {A} (l m : list A) : NoDup l -> NoDup m -> (forall x, In x l -> ~ In x m) -> NoDup (l ++ m).
Proof.
  induction l as [|x l IH]; intros H1 H2 H; [exact H2|]. simpl. inversion H1 as [|? ? N1 N2]; subst. constructor.
  - rewrite in_app_iff. intros [X|X]; [contradiction|]. apply (H x); [left; reflexivity|exact X].
  - apply IH; [exact N2|exact H2|]. intros y Hy. apply H. right. exact Hy.
Qed.
Lemma indices_nodup (axes : list axisR) : NoDup (indices axes).
Proof.
  induction axes as [|a axes IH]; [repeat constructor; intros []|]. simpl. generalize (seq_NoDup (ax_n a) 0). generalize (seq 0 (ax_n a)) as s.
  induction s as [|i s IHs]; intros ND; simpl; [constructor|]. inversion ND as [|? ? N1 N2]; subst. apply NoDup_app_intro.
  - apply Injective_map_NoDup; [|exact IH]. intros x y E. injection E as E. exact E.
  - apply IHs. exact N2.
  - intros x Hx Hy. apply in_map_iff in Hx. destruct Hx as (k & <- & _). apply in_flat_map in Hy. destruct Hy as (j & Hj & Hy).
    apply in_map_iff in Hy. destruct Hy as (k' & E & _). injection E as -> _. contradiction.
Qed.
Lemma tiling (axes : list axisR) p : Forall good axes -> inside p (whole axes) -> exists k, In k (indices axes) /\ inside p (cell_box axes k).
Proof.
  revert p. induction axes as [|a axes IH]; intros p G H; simpl in H; inversion H as [|x b p' bs Hx Hp]; subst.
  - exists []. split; [left; reflexivity|constructor].
  - inversion G as [|? ? Ga Gs]; subst. destruct (IH p' Gs Hp) as (k & Hk & Ik). destruct (in_layer a x Ga Hx) as (i & Hi & V).
    exists (i :: k). split; [apply in_indices; constructor; [exact Hi|apply in_indices; exact Hk]|]. constructor; [exact V|exact Ik].
Qed.
Lemma tiling_unique (axes : list axisR) p k k' : Forall good axes -> In k (indices axes) -> In k' (indices axes) -> inside p (cell_box axes k) -> inside p (cell_box axes k') -> k = k'.
Proof.
  rewrite !in_indices. revert p k k'. induction axes as [|a axes IH]; intros p k k' G A B C D; inversion A as [|? i ? l Hi Hl]; subst; inversion B as [|? i' ? l' Hi' Hl']; subst; [reflexivity|].
  inversion G as [|? ? Ga Gs]; subst. inversion C as [|x ? p' ? Hx Hp]; subst. inversion D as [|? ? ? ? Hx' Hp']; subst.
  f_equal; [exact (layer_unique a x i i' Ga Hx Hx')|]. exact (IH p' l l' Gs Hl Hl' Hp Hp').
Qed.
Lemma cells_within (axes : list axisR) p k : Forall good axes -> In k (indices axes) -> inside p (cell_box axes k) -> inside p (whole axes).
Proof.
  rewrite in_indices. revert p k. induction axes as [|a axes IH]; intros p k G A C; inversion A as [|? i ? l Hi Hl]; subst.
  - inversion C; constructor.
  - inversion G as [|? ? Ga Gs]; subst. inversion C as [|x ? p' ? Hx Hp]; subst. constructor; [|exact (IH p' l Gs Hl Hp)].
    cbn [fst snd] in *. pose proof (vertex_mono a 0 i Ga (Nat.le_0_l i)) as X. pose proof (vertex_mono a (S i) (ax_n a) Ga Hi) as Y. rewrite vertex_0 in X. rewrite vertex_n in Y by exact Ga. destruct Hx as [H1 H2]. split; [eapply Rle_trans; [exact X|exact H1]|eapply Rlt_le_trans; [exact H2|exact Y]].
Qed.
Lemma cell_volume (axes : list axisR) k : Forall good axes -> In k (indices axes) -> INR (List.length (indices axes)) * volume (cell_box axes k) = volume (whole axes).
Proof.
  rewrite indices_length, in_indices. revert k. induction axes as [|a axes IH]; intros k G A; inversion A as [|? i ? l Hi Hl]; subst; [simpl; lra|].
  inversion G as [|? ? Ga Gs]; subst. specialize (IH l Gs Hl). cbn [fold_right]. rewrite mult_INR.
  change (volume (cell_box (a :: axes) (i :: l))) with ((vertex (N := RNum) a (S i) - vertex (N := RNum) a i) * volume (cell_box axes l)).
  change (volume (whole (a :: axes))) with ((ax_high a - ax_low a) * volume (whole axes)). rewrite vertex_S.
  assert (P : INR (ax_n a) * stepR a = ax_high a - ax_low a). { unfold stepR. destruct Ga as [N0 _]. assert (INR (ax_n a) <> 0) by (apply not_0_INR; lia). assert (X : forall n d : R, n <> 0 -> n * (d / n) = d) by (intros; field; assumption). apply X; assumption. }
  set (V := volume (cell_box axes l)) in *. set (W := volume (whole axes)) in *. set (M := INR (fold_right _ _ axes)) in *.
  assert (X : forall n m v s w d x : R, n * s = d -> m * v = w -> n * m * ((x + s - x) * v) = d * w) by (intros n m v s w d x <- <-; ring). apply X; assumption.
Qed.
(** ** Sides *)
Lemma cell_nth (axes : list axisR) k d a i : nth_error axes d = Some a -> nth_error k d = Some i -> nth_error (cell_box axes k) d = Some (vertex (N := RNum) a i, vertex (N := RNum) a (S i)).
Proof.
  revert k d. induction axes as [|b axes IH]; intros k [|d]; simpl; try discriminate.
  - intros E F. injection E as ->. destruct k as [|j k]; [discriminate|]. injection F as ->. reflexivity.
  - destruct k as [|j k]; [discriminate|]. intros E F. apply (IH k d E F).
Qed.
Lemma cell_side (axes : list axisR) k d u a i : nth_error axes d = Some a -> nth_error k d = Some i -> side (cell_box axes k) d u = Some (if u then vertex (N := RNum) a (S i) else vertex (N := RNum) a i).
Proof. intros E F. unfold side. etransitivity; [exact (f_equal (option_map _) (cell_nth axes k d a i E F))|]. destruct u; reflexivity. Qed.
Lemma whole_side (axes : list axisR) d u a : nth_error axes d = Some a -> side (whole axes) d u = Some (if u then ax_high a else ax_low a).
Proof. intros E. unfold side, whole. rewrite nth_error_map, E. destruct u; reflexivity. Qed.
Lemma forall2_nth {A B} (P : A -> B -> Prop) l m d a : Forall2 P l m -> nth_error l d = Some a -> exists b, nth_error m d = Some b /\ P a b.
Proof.
  intros H. revert d. induction H as [|x y l m Hxy H IH]; intros [|d]; simpl; try discriminate.
  - intros E. injection E as <-. exists y. split; [reflexivity|exact Hxy].
  - apply IH.
Qed.
Fixpoint put_nth (k : list nat) (d v : nat) : list nat :=
  match k, d with [], _ => [] | _ :: k', O => v :: k' | i :: k', S d' => i :: put_nth k' d' v end.
Lemma put_nth_length k d v : List.length (put_nth k d v) = List.length k.
Proof. revert d. induction k as [|i k IH]; intros [|d]; simpl; auto. Qed.
Lemma put_nth_same k d v i : nth_error k d = Some i -> nth_error (put_nth k d v) d = Some v.
Proof. revert d. induction k as [|j k IH]; intros [|d]; simpl; try discriminate; [reflexivity|apply IH]. Qed.
Lemma put_nth_other k d e v : e <> d -> nth_error (put_nth k d v) e = nth_error k e.
Proof. revert d e. induction k as [|j k IH]; intros [|d] [|e] H; simpl; try reflexivity; try congruence. apply IH. congruence. Qed.
Lemma put_nth_indices (axes : list axisR) k d v a : Forall2 (fun a i => (i < ax_n a)%nat) axes k -> nth_error axes d = Some a -> (v < ax_n a)%nat -> Forall2 (fun a i => (i < ax_n a)%nat) axes (put_nth k d v).
Proof.
  intros H. revert d. induction H as [|x y l m Hxy H IH]; intros [|d]; simpl; try discriminate.
  - intros E L. injection E as ->. constructor; assumption.
  - intros E L. constructor; [exact Hxy|apply IH; assumption].
Qed.
Lemma boundary_side (axes : list axisR) k d u b : Forall good axes -> In k (indices axes) -> boundary_id axes k d u = Some b ->
  b = (2 * d + (if u then 1 else 0))%nat /\ (d < List.length axes)%nat /\ side (cell_box axes k) d u = side (whole axes) d u.
Proof.
  intros G K H. apply in_indices in K. unfold boundary_id in H. destruct (nth_error axes d) as [a|] eqn:Ea; [|discriminate]. destruct (nth_error k d) as [i|] eqn:Ei; [|discriminate].
  assert (D : (d < List.length axes)%nat) by (apply nth_error_Some; congruence).
  assert (Ga : good a) by (rewrite Forall_forall in G; apply G; eapply nth_error_In; exact Ea).
  rewrite (cell_side axes k d u a i Ea Ei), (whole_side axes d u a Ea).
  destruct u.
  - destruct (Nat.eqb (S i) (ax_n a)) eqn:E; [|discriminate]. apply Nat.eqb_eq in E. injection H as <-. split; [reflexivity|]. split; [exact D|]. rewrite E, vertex_n by exact Ga. reflexivity.
  - destruct (Nat.eqb i 0) eqn:E; [|discriminate]. apply Nat.eqb_eq in E. injection H as <-. split; [lia|]. split; [exact D|]. rewrite E, vertex_0. reflexivity.
Qed.
Lemma inner_side (axes : list axisR) k d u : In k (indices axes) -> (d < List.length axes)%nat -> boundary_id axes k d u = None ->
  exists k', In k' (indices axes) /\ next_to k d u k' /\ side (cell_box axes k) d u = side (cell_box axes k') d (negb u).
Proof.
  intros K D H. apply in_indices in K. unfold boundary_id in H. destruct (nth_error axes d) as [a|] eqn:Ea; [|apply nth_error_None in Ea; lia].
  destruct (forall2_nth _ _ _ _ _ K Ea) as (i & Ei & Li). rewrite Ei in H.
  assert (X : forall v, (v < ax_n a)%nat -> (if u then v = S i else i = S v) -> exists k', In k' (indices axes) /\ next_to k d u k' /\ side (cell_box axes k) d u = side (cell_box axes k') d (negb u)).
  { intros v Lv E. exists (put_nth k d v). split; [apply in_indices; eapply put_nth_indices; eassumption|]. split.
    - split; [apply put_nth_length|]. split; [intros e He; apply put_nth_other; exact He|]. exists i, v. split; [exact Ei|]. split; [eapply put_nth_same; exact Ei|exact E].
    - rewrite (cell_side axes k d u a i Ea Ei), (cell_side axes (put_nth k d v) d (negb u) a v Ea (put_nth_same k d v i Ei)). destruct u; cbn [negb]; rewrite E; reflexivity. }
  destruct u.
  - destruct (Nat.eqb (S i) (ax_n a)) eqn:E; [discriminate|]. apply Nat.eqb_neq in E. apply (X (S i)); [lia|reflexivity].
  - destruct (Nat.eqb i 0) eqn:E; [discriminate|]. apply Nat.eqb_neq in E. apply (X (i - 1)%nat); lia.
Qed.
(** Every point of a side of the box is on a face with the id of the side. *)
Lemma in_layer_closed a (x : R) : good a -> ax_low a <= x <= ax_high a -> exists i, (i < ax_n a)%nat /\ (vertex (N := RNum) a i : R) <= x <= vertex (N := RNum) a (S i) /\ (x = ax_low a -> i = 0%nat) /\ (x = ax_high a -> S i = ax_n a).
Proof.
  intros G [A B]. destruct B as [B|B].
  - destruct (in_layer a x G (conj A B)) as (i & Hi & V). exists i. split; [exact Hi|]. split; [lra|]. split; [|intros ->; lra].
    intros ->. symmetry. apply (layer_unique a (ax_low a) 0 i G); [|exact V]. rewrite vertex_S, vertex_0. pose proof (step_pos a G) as P. simpl num in *. lra.
  - assert (exists i, S i = ax_n a) as (i & Hi) by (destruct G as [N0 _]; destruct (ax_n a) as [|i]; [lia|exists i; reflexivity]).
    exists i. split; [lia|]. rewrite Hi, (vertex_n a G), B. split; [|split; [intros E; destruct G; simpl num in *; lra|reflexivity]].
    split; [|apply Rle_refl]. rewrite <- (vertex_n a G). apply vertex_mono; [exact G|lia].
Qed.
Lemma sides_covered (axes : list axisR) p d u s : Forall good axes -> touches p (whole axes) -> side (whole axes) d u = Some s -> nth_error p d = Some s ->
  exists k, In k (indices axes) /\ touches p (cell_box axes k) /\ boundary_id axes k d u = Some (2 * d + (if u then 1 else 0))%nat.
Proof.
  intros G T. 
  assert (X : exists k, Forall2 (fun a i => (i < ax_n a)%nat) axes k /\ touches p (cell_box axes k) /\
    forall d a i x, nth_error axes d = Some a -> nth_error k d = Some i -> nth_error p d = Some x -> (x = ax_low a -> i = 0%nat) /\ (x = ax_high a -> S i = ax_n a)).
  { clear d u s. revert p T. induction axes as [|a axes IH]; intros p T; simpl in T; inversion T as [|x b p' bs Hx Hp]; subst.
    - exists []. split; [constructor|]. split; [constructor|]. intros [|d]; discriminate.
    - inversion G as [|? ? Ga Gs]; subst. destruct (IH Gs p' Hp) as (k & K1 & K2 & K3). destruct (in_layer_closed a x Ga Hx) as (i & I1 & I2 & I3 & I4).
      exists (i :: k). split; [constructor; assumption|]. split; [constructor; assumption|]. intros [|d] a' i' x'; simpl.
      + intros E1 E2 E3. injection E1 as <-. injection E2 as <-. injection E3 as <-. split; assumption.
      + apply K3. }
  destruct X as (k & K1 & K2 & K3). intros S P. exists k. split; [apply in_indices; exact K1|]. split; [exact K2|].
  unfold side, whole in S. rewrite nth_error_map in S. destruct (nth_error axes d) as [a|] eqn:Ea; [|discriminate]. cbn [option_map fst snd] in S. injection S as S.
  destruct (forall2_nth _ _ _ _ _ K1 Ea) as (i & Ei & Li). destruct (K3 d a i s Ea Ei P) as [L U]. unfold boundary_id. rewrite Ea, Ei.
  destruct u.
  - rewrite U by (symmetry; exact S). rewrite Nat.eqb_refl. reflexivity.
  - rewrite L by (symmetry; exact S). simpl. f_equal. lia.
Qed.
Lemma filter_all {A} (f : A -> bool) l : (forall x, In x l -> f x = true) -> filter f l = l.
Proof. induction l as [|x l IH]; intros H; [reflexivity|]. simpl. rewrite (H x) by (left; reflexivity). f_equal. apply IH. intros y Hy. apply H. right. exact Hy. Qed.
Lemma boundary_ids_all (axes : list axisR) : Forall good axes -> boundary_ids axes = seq 0 (2 * List.length axes).
Proof.
  intros G. unfold boundary_ids. apply filter_all. intros b Hb. apply in_seq in Hb. apply existsb_exists.
  set (d := Nat.div2 b). set (u := Nat.odd b). assert (E : b = (2 * d + (if u then 1 else 0))%nat). { unfold d, u. pose proof (Nat.div2_odd b) as X. destruct (Nat.odd b); simpl Nat.b2n in X; lia. }
  assert (D : (d < List.length axes)%nat) by (destruct u; lia).
  assert (T : touches (map (fun a => if u then ax_high a else ax_low a) axes) (whole axes)).
  { clear E D Hb. induction G as [|a axes Ga Gs IH]; [constructor|]. constructor; [|exact IH]. destruct Ga as [_ Ga]. cbn [fst snd]. destruct u; simpl num in *; lra. }
  destruct (nth_error axes d) as [a|] eqn:Ea; [|apply nth_error_None in Ea; lia].
  destruct (sides_covered axes _ d u (if u then ax_high a else ax_low a) G T) as (k & K & _ & B).
  - unfold side, whole. rewrite nth_error_map, Ea. reflexivity.
  - rewrite nth_error_map, Ea. reflexivity.
  - exists k. split; [exact K|]. apply existsb_exists. exists (d, u). split.
    + apply in_prod; [apply in_seq; lia|]. destruct u; simpl; auto.
    + rewrite B, <- E. apply Nat.eqb_refl.
Qed.

(** ** Layers *)
Lemma centre_eq a i : layer_centre (N := RNum) a i = ax_low a + (INR i + / 2) * stepR a.
Proof.
  unfold layer_centre. etransitivity; [exact (f_equal (fun w => w / 2) (f_equal2 Rplus (vertex_eq a i) (vertex_eq a (S i))))|]. rewrite S_INR.
  assert (X : forall l i s : R, (l + i * s + (l + (i + 1) * s)) / 2 = l + (i + / 2) * s) by (intros; field). apply X.
Qed.
Lemma layers_below a (h : R) : good a -> ax_low a <= h <= ax_high a ->
  exists m, (m <= ax_n a)%nat /\ (forall i, (layer_centre (N := RNum) a i : R) < h /\ (i < ax_n a)%nat <-> (i < m)%nat) /\ Rabs (vertex (N := RNum) a m - h) <= stepR a / 2.
Proof.
  intros G [L U]. pose proof (step_pos a G) as S.
  assert (X : exists m, (m <= ax_n a)%nat /\ (forall i, (i < m)%nat -> (layer_centre (N := RNum) a i : R) < h) /\ ((m < ax_n a)%nat -> h <= layer_centre (N := RNum) a m)).
  { generalize (ax_n a) as n. induction n as [|n IH].
    - exists 0%nat. split; [lia|]. split; intros; lia.
    - destruct IH as (m & M1 & M2 & M3). destruct (Nat.eq_dec m n) as [->|E].
      + destruct (Rlt_le_dec (layer_centre (N := RNum) a n) h) as [Y|Y].
        * exists (Datatypes.S n). split; [lia|]. split; [|intros; lia]. intros i Hi. destruct (Nat.eq_dec i n) as [->|]; [exact Y|apply M2; lia].
        * exists n. split; [lia|]. split; [exact M2|intros _; exact Y].
      + exists m. split; [lia|]. split; [exact M2|]. intros _. apply M3. lia. }
  destruct X as (m & M1 & M2 & M3). exists m. split; [exact M1|]. split.
  - intros i. split; [|intros Hi; split; [apply M2; exact Hi|lia]]. intros [C Hi]. destruct (Nat.lt_ge_cases i m) as [Q|Q]; [exact Q|exfalso].
    assert (Z := M3 ltac:(lia)). rewrite centre_eq in C, Z. assert (INR m <= INR i) by (apply le_INR; exact Q). apply (Rlt_irrefl h). eapply Rle_lt_trans; [exact Z|]. eapply Rle_lt_trans; [|exact C].
    apply Rplus_le_compat_l, Rmult_le_compat_r; lra.
  - rewrite vertex_eq. assert (LO : ax_low a + (INR m - / 2) * stepR a <= h).
    { destruct m as [|m]; [|rewrite S_INR; assert (Z := M2 m ltac:(lia)); rewrite centre_eq in Z; replace (INR m + 1 - / 2) with (INR m + / 2) by lra; left; exact Z].
      simpl INR. revert L S. generalize (ax_low a) (stepR a). cbn [num RNum]. intros l s L S. nra. }
    assert (HI : h <= ax_low a + (INR m + / 2) * stepR a).
    { destruct (Nat.eq_dec m (ax_n a)) as [E|E]; [|assert (Z := M3 ltac:(lia)); rewrite centre_eq in Z; exact Z].
      rewrite <- (vertex_n a G), vertex_eq, <- E in U. revert U S. generalize (ax_low a) (stepR a) (INR m). cbn [num RNum]. intros l s n U S. nra. }
    revert LO HI S. generalize (ax_low a) (stepR a) (INR m). cbn [num RNum]. intros l s n LO HI S. apply Rabs_le. nra.
Qed.
Lemma active_height a (h : R) l : good a -> ax_low a <= h <= ax_high a ->
  exists m, (m <= ax_n a)%nat /\ (forall i, (i < ax_n a)%nat -> (layer (N := RNum) h l a i <> None <-> (i < m)%nat)) /\ Rabs (vertex (N := RNum) a m - h) <= (ax_high a - ax_low a) / INR (ax_n a) / 2.
Proof.
  intros G H. destruct (layers_below a h G H) as (m & M1 & M2 & M3). exists m. split; [exact M1|]. split; [|exact M3].
  intros i Hi. rewrite <- M2. unfold layer, initially_active. change (nltb RNum) with Rltb. destruct (Rltb (layer_centre (N := RNum) a i) h) eqn:E.
  - apply Rltb_true in E. split; [intros _; split; [exact E|exact Hi]|discriminate].
  - apply Rltb_false in E. split; [congruence|]. intros [C _]. exfalso. exact (Rlt_not_le _ _ C E).
Qed.
Lemma powder_height a (h l : R) : good a -> 0 <= l -> ax_low a <= h - l -> h <= ax_high a ->
  exists s m, (s <= m <= ax_n a)%nat /\ (forall i, (i < ax_n a)%nat -> (layer (N := RNum) h (Some l) a i = Some solid <-> (i < s)%nat) /\ (layer (N := RNum) h (Some l) a i = Some powder <-> (s <= i < m)%nat)) /\
    Rabs (vertex (N := RNum) a m - vertex (N := RNum) a s - l) <= (ax_high a - ax_low a) / INR (ax_n a).
Proof.
  intros G P Lo Hi. destruct (layers_below a h G) as (m & M1 & M2 & M3); [lra|]. destruct (layers_below a (h - l) G) as (s & S1 & S2 & S3); [lra|].
  assert (SM : (s <= m)%nat). { destruct (Nat.le_gt_cases s m) as [Q|Q]; [exact Q|exfalso]. destruct (proj2 (S2 m) Q) as [A B]. assert (Z : (m < m)%nat) by (apply M2; split; [lra|exact B]). lia. }
  exists s, m. split; [lia|]. split.
  - intros i Hn. unfold layer, initially_active, assign_state. change (nltb RNum) with Rltb. change (nsub RNum) with Rminus. specialize (M2 i). specialize (S2 i).
    set (c := layer_centre (N := RNum) a i) in *. clearbody c.
    destruct (Rltb c h) eqn:E1; [apply Rltb_true in E1|apply Rltb_false in E1]; (destruct (Rltb c (h - l)) eqn:E2; [apply Rltb_true in E2|apply Rltb_false in E2]).
    + assert (i < s)%nat by (apply S2; split; [exact E2|exact Hn]). split; split; intros Q; try discriminate; try reflexivity; try assumption; lia.
    + assert (i < m)%nat by (apply M2; split; [exact E1|exact Hn]). assert (~ (i < s)%nat) by (intros Q; apply S2 in Q; destruct Q as [Q _]; exact (Rlt_not_le _ _ Q E2)).
      split; split; intros Q; try discriminate; try reflexivity; try lia.
    + exfalso. simpl num in *. lra.
    + assert (~ (i < m)%nat) by (intros Q; apply M2 in Q; destruct Q as [Q _]; exact (Rlt_not_le _ _ Q E1)). split; split; intros Q; try discriminate; lia.
  - fold (stepR a). revert M3 S3. generalize (vertex (N := RNum) a m) (vertex (N := RNum) a s) (stepR a). cbn [num RNum]. intros x y z A B.
    apply Rabs_le. unfold Rabs in A, B. destruct (Rcase_abs (x - h)), (Rcase_abs (y - (h - l))); lra.
Qed.
