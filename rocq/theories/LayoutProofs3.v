(** LayoutProofs3.v -- the views of the device; the state of a cell after the round trip. *)
From Coq Require Import ZArith Bool List Lia Reals Lra.
From Verif Require Import Base CellModel MaterialModel MaterialSpec MaterialProofs MaterialProofs2 LayoutModel LayoutSpec LayoutProofs LayoutProofs2.
Import ListNotations.

Lemma in_entries colours : forall start c k, In (c, k) (device_entries start colours) <-> start <= k /\ nth_error (List.concat colours) (k - start) = Some c.
Proof.
  induction colours as [|cl rest IH]; intros start c k; cbn [device_entries List.concat].
  - split; [intros []|]. intros [_ H]. destruct (k - start); discriminate.
  - rewrite in_app_iff, IH, in_map_iff. split.
    + intros [[[i x] [E I]]|[H1 H2]].
      * injection E as -> <-. apply in_numb in I. cbn [fst]. split; [lia|]. replace (start + i - start) with i by lia. rewrite nth_error_app1; [exact I|]. apply nth_error_Some. congruence.
      * split; [lia|]. rewrite nth_error_app2 by lia. replace (k - start - List.length cl) with (k - (start + List.length cl)) by lia. exact H2.
    + intros [H1 H2]. destruct (Nat.lt_ge_cases (k - start) (List.length cl)) as [C|C].
      * left. rewrite nth_error_app1 in H2 by exact C. exists (k - start, c). split; [cbn; f_equal; lia|]. apply in_numb. exact H2.
      * right. rewrite nth_error_app2 in H2 by exact C. split; [lia|]. replace (k - (start + List.length cl)) with (k - start - List.length cl) by lia. exact H2.
Qed.
Lemma entries_at colours c k : In (c, k) (device_entries 0 colours) <-> nth_error (List.concat colours) k = Some c.
Proof. rewrite in_entries, Nat.sub_0_r. split; [intros [_ H]; exact H|intros H; split; [lia|exact H]]. Qed.
Lemma index_once {A} (l : list A) i j x : NoDup l -> nth_error l i = Some x -> nth_error l j = Some x -> i = j.
Proof. intros N I J. apply (proj1 (NoDup_nth_error l) N); [apply nth_error_Some; congruence|congruence]. Qed.
Lemma device_map_at n_q colours k c : NoDup (List.concat colours) -> nth_error (List.concat colours) k = Some c -> device_map n_q colours c = q_positions n_q k.
Proof.
  intros N K. unfold device_map. destruct (fold_map (device_entries 0 colours) (q_positions n_q) (fun _ => [])) as [_ M]. cbv zeta in M. apply M; [apply entries_at; exact K|].
  intros k' I. apply entries_at in I. f_equal. exact (index_once _ _ _ _ N I K).
Qed.
(** Writing values into an array. *)
Lemma update_spec {A} (l : list A) i v : i < List.length l -> exists l', update l i v = Ok l' /\ List.length l' = List.length l /\ forall j, nth_error l' j = if Nat.eqb j i then Some v else nth_error l j.
Proof.
  revert i. induction l as [|x l IH]; intros i L; [cbn in L; lia|]. destruct i as [|i]; cbn [update].
  - exists (v :: l). split; [reflexivity|]. split; [reflexivity|]. intros [|j]; reflexivity.
  - destruct (IH i ltac:(cbn in L; lia)) as [l' [E [Le W]]]. rewrite E. cbn [bind]. exists (x :: l'). split; [reflexivity|]. split; [cbn; lia|]. intros [|j]; [reflexivity|]. cbn [nth_error Nat.eqb]. apply W.
Qed.
Lemma fold_update {A V} (f : list A -> V -> res (list A)) (pos : V -> nat) (val : V -> A) (vs : list V) n :
  (forall a v, In v vs -> f a v = update a (pos v) (val v)) -> (forall v, In v vs -> pos v < n) -> (forall v w, In v vs -> In w vs -> pos v = pos w -> val v = val w) ->
  forall a0, List.length a0 = n -> exists a, foldR f vs a0 = Ok a /\ List.length a = n /\ forall v, In v vs -> nth_error a (pos v) = Some (val v).
Proof.
  induction vs as [|v vs IH] using rev_ind; intros Hf Hp Hs a0 L0; [exists a0; split; [reflexivity|]; split; [exact L0|]; intros v []|].
  destruct (IH ltac:(intros; apply Hf, in_or_app; left; assumption) ltac:(intros; apply Hp, in_or_app; left; assumption) ltac:(intros; apply Hs; [apply in_or_app; left; assumption..|assumption]) a0 L0) as [a [E [La W]]].
  unfold foldR in *. rewrite fold_left_app. cbn [fold_left]. rewrite E. cbn [bind]. rewrite Hf by (apply in_or_app; right; left; reflexivity).
  destruct (update_spec a (pos v) (val v)) as [a' [E' [L' W']]]; [rewrite La; apply Hp, in_or_app; right; left; reflexivity|]. exists a'. split; [exact E'|]. split; [lia|]. intros w I. rewrite W'.
  destruct (Nat.eqb_spec (pos w) (pos v)) as [P|P]; [f_equal; apply Hs; [apply in_or_app; right; left; reflexivity|exact I|symmetry; exact P]|].
  apply in_app_or in I as [I|[->|[]]]; [apply W; exact I|congruence].
Qed.
Lemma count_le cells : List.length (with_material cells) <= List.length (filter lc_owned cells).
Proof.
  unfold with_material. rewrite map_length. unfold numb. generalize 0 as s. induction cells as [|x cells IH]; intros s; [cbn; lia|]. cbn [List.length seq combine filter snd]. specialize (IH (S s)).
  destruct (lc_owned x); cbn [andb]; [destruct (lc_active x)|]; cbn [List.length]; lia.
Qed.
Lemma coloured_length cells colours : coloured cells colours -> List.length (List.concat colours) = List.length (with_material cells).
Proof.
  intros [N E]. apply Nat.le_antisymm; (apply NoDup_incl_length; [first [exact N|apply sorted_nodup, with_material_sorted]|]); intros c I; [apply in_with_material, E; exact I|apply E, in_with_material; exact I].
Qed.
Definition index_of (l : list nat) (c : nat) : nat := match find (fun ic => Nat.eqb (snd ic) c) (numb l) with Some ic => fst ic | None => 0 end.
Lemma index_of_at l c : In c l -> nth_error l (index_of l c) = Some c.
Proof.
  intros I. unfold index_of. apply In_nth_error in I as [k K]. apply in_numb in K. destruct (find _ _) as [[i x]|] eqn:F.
  - apply find_some in F as [F1 F2]. cbn in F2. apply Nat.eqb_eq in F2. subst x. apply in_numb in F1. exact F1.
  - exfalso. pose proof (find_none _ _ F _ K) as X. cbn in X. rewrite Nat.eqb_refl in X. discriminate.
Qed.
Lemma device_view_at {A} cells n_q colours (value : nat -> nat -> res A) (val : nat -> A) : coloured cells colours -> (forall k c, nth_error (with_material cells) k = Some c -> value k c = Ok (val c)) ->
  exists a, device_view cells n_q (device_map n_q colours) value = Ok a /\ List.length a = n_q * List.length (filter lc_owned cells) /\ forall c q p, place colours n_q c q p -> nth_error a p = Some (Some (val c)).
Proof.
  intros Co Va. destruct Co as [N E] eqn:X. clear X. pose proof (coloured_length cells colours Co) as Len. pose proof (count_le cells) as Cnt.
  set (vs := flat_map (fun nc => map (fun i => (nc, i)) (seq 0 n_q)) (numb (with_material cells))).
  assert (Iv : forall n c i, In ((n, c), i) vs <-> nth_error (with_material cells) n = Some c /\ i < n_q).
  { intros n c i. unfold vs. rewrite in_flat_map. split.
    - intros [[n' c'] [I1 I2]]. apply in_map_iff in I2 as [i' [X I2]]. injection X as <- <- <-. apply in_numb in I1. apply in_seq in I2. split; [exact I1|lia].
    - intros [I1 I2]. exists (n, c). split; [apply in_numb; exact I1|]. apply in_map_iff. exists i. split; [reflexivity|apply in_seq; lia]. }
  assert (Ix : forall n c i, In ((n, c), i) vs -> nth_error (List.concat colours) (index_of (List.concat colours) c) = Some c).
  { intros n c i I. apply Iv in I as [I _]. apply index_of_at. apply E, in_with_material. exact (nth_error_In _ _ I). }
  set (pos := fun v : (nat * nat) * nat => index_of (List.concat colours) (snd (fst v)) * n_q + snd v).
  destruct (fold_update (fun a (v : (nat * nat) * nat) => let '((n, c), i) := v in do x <- value n c; do p <- at_ (device_map n_q colours c) i; update a p (Some x)) pos (fun v => Some (val (snd (fst v)))) vs (n_q * List.length (filter lc_owned cells))) with (a0 := repeat (@None A) (n_q * List.length (filter lc_owned cells))) as [a [Ea [La W]]].
  - intros a [[n c] i] I. pose proof (Ix _ _ _ I) as K. apply Iv in I as [I Q]. rewrite (Va n c I). cbn [bind]. rewrite (device_map_at n_q colours _ c N K). unfold q_positions. rewrite at_nth, nth_error_map.
    assert (S : nth_error (seq 0 n_q) i = Some i) by (rewrite (nth_error_nth' (seq 0 n_q) 0) by (rewrite seq_length; lia); rewrite seq_nth by lia; reflexivity). rewrite S. reflexivity.
  - intros [[n c] i] I. pose proof (Ix _ _ _ I) as K. apply Iv in I as [I Q]. unfold pos. cbn [fst snd]. assert (B : index_of (List.concat colours) c < List.length (List.concat colours)) by (apply nth_error_Some; congruence). nia.
  - intros [[n c] i] [[n' c'] i'] I I' P. pose proof (Ix _ _ _ I) as K. pose proof (Ix _ _ _ I') as K'. apply Iv in I as [I Q]. apply Iv in I' as [I' Q']. unfold pos in P. cbn [fst snd] in *.
    assert (index_of (List.concat colours) c = index_of (List.concat colours) c') by nia. rewrite H in K. rewrite K in K'. injection K' as ->. reflexivity.
  - apply repeat_length.
  - exists a. split; [exact Ea|]. split; [exact La|]. intros c q p [Q [k [K ->]]].
    assert (Ic : In c (with_material cells)) by (apply in_with_material, E; exact (nth_error_In _ _ K)). apply In_nth_error in Ic as [n Hn].
    assert (I : In ((n, c), q) vs) by (apply Iv; split; assumption). pose proof (W _ I) as Wp. unfold pos in Wp. cbn [fst snd] in Wp. pose proof (Ix _ _ _ I) as K2. rewrite (index_once _ _ _ _ N K2 K) in Wp. exact Wp.
Qed.
Lemma device_cells_at {A} cells n_q colours (value : nat -> A) : coloured cells colours ->
  exists a, device_cells cells n_q colours value = Ok a /\ List.length a = n_q * List.length (filter lc_owned cells) /\ forall c q p, place colours n_q c q p -> nth_error a p = Some (Some (value c)).
Proof. intros Co. apply (device_view_at cells n_q colours (fun _ c => Ok (value c)) value Co). reflexivity. Qed.
Lemma device_orientation_at {A} cells n_q colours (angle : nat -> A) l : in_order cells l -> coloured cells colours ->
  exists a, device_orientation cells n_q colours (map angle l) = Ok a /\ List.length a = n_q * List.length (filter lc_owned cells) /\ forall c q p, place colours n_q c q p -> nth_error a p = Some (Some (angle c)).
Proof.
  intros IO Co. apply in_order_is in IO. subst l. apply (device_view_at cells n_q colours (fun n _ => at_ (map angle (with_material cells)) n) angle Co).
  intros k c K. rewrite at_nth, nth_error_map, K. reflexivity.
Qed.
(** ** The mean over the points *)
Lemma inv_cells_at n_q colours (inv : nat -> R) (old : nat -> option R) : NoDup (List.concat colours) ->
  (forall k c, nth_error (List.concat colours) k = Some c -> inv_rho_cp_cells (N := RNum) n_q colours inv old c = Some (fold_left (fun s q => (s + inv (k * n_q + q)%nat)%R) (seq 0 n_q) 0%R / INR n_q)%R) /\
  (forall c, ~ In c (List.concat colours) -> inv_rho_cp_cells (N := RNum) n_q colours inv old c = old c).
Proof.
  intros N. unfold inv_rho_cp_cells.
  assert (F : forall (es : list (nat * nat)) (old : nat -> option R), (forall e, In e es -> nth_error (List.concat colours) (snd e) = Some (fst e)) ->
    let m := fold_left (fun (m : nat -> option R) (e : nat * nat) => fun d => if Nat.eqb d (fst e) then Some (ndiv RNum (sum_list (N := RNum) (map inv (device_map n_q colours (fst e)))) (nofnat (N := RNum) n_q)) else m d) es old in
    m = fold_left (fun m e => fun d => if Nat.eqb d (fst e) then Some (ndiv RNum (sum_list (N := RNum) (map inv (q_positions n_q (snd e)))) (nofnat (N := RNum) n_q)) else m d) es old).
  { intros es. induction es as [|e es IH]; intros o H; [reflexivity|]. cbn [fold_left]. cbv zeta in IH. rewrite (device_map_at n_q colours (snd e) (fst e) N (H e (or_introl eq_refl))). apply IH. intros e' I. apply H. right. exact I. }
  cbv zeta in F. rewrite F by (intros [c k] I; apply entries_at; exact I).
  destruct (fold_map (device_entries 0 colours) (fun k => Some (ndiv RNum (sum_list (N := RNum) (map inv (q_positions n_q k))) (nofnat (N := RNum) n_q))) old) as [M1 M2]. cbv zeta in M1, M2. split.
  - intros k c K. etransitivity; [apply (M2 c k); [apply entries_at; exact K|intros k' I; apply entries_at in I; rewrite (index_once _ _ _ _ N I K); reflexivity]|].
    f_equal. assert (E : nofnat (N := RNum) n_q = INR n_q) by (unfold nofnat; cbn; symmetry; apply INR_IZR_INZ). rewrite E. change (ndiv RNum) with Rdiv. f_equal. unfold sum_list, q_positions. rewrite map_map.
    generalize (seq 0 n_q). intros l. cbn [num RNum].
    assert (G : forall a : R, fold_left (fun acc x => nadd RNum acc x) (map (fun x => inv (k * n_q + x)) l) a = fold_left (fun s q => (s + inv (k * n_q + q)%nat)%R) l a) by (induction l as [|q l IH]; intros a; [reflexivity|]; cbn [map fold_left]; apply IH).
    apply G.
  - intros c NI. apply M1. intros k I. apply entries_at in I. exact (NI (nth_error_In _ _ I)).
Qed.
(** ** Round trip of the state with the maps that reinit makes *)
Lemma round_trip_host k (state : nat -> ratios RNum) batches n_q cells c (t0 t1 : mf_table RNum) : NoDup (List.concat batches) -> In c (List.concat batches) -> In c cells -> 0 < n_q -> partition (state c) -> only_states k (state c) ->
  set_state k (host_cells batches n_q (fun c => r_liquid (state c)) t0) (host_cells batches n_q (fun c => r_powder (state c)) t1) n_q (host_map batches) cells state c = state c.
Proof.
  intros N Ib Ic Q P O. apply lane_concat in Ib as [b [i L]]. pose proof (proj1 (host_map_at batches N) b i c L) as Hm.
  rewrite <- (state_round_trip k state (fun _ _ => c) n_q (host_map batches) cells c Q Ic P O eq_refl) at 1. unfold set_state. rewrite Hm.
  assert (E : existsb (Nat.eqb c) cells = true) by (apply existsb_exists; exists c; split; [exact Ic|apply Nat.eqb_refl]). rewrite E.
  assert (C1 : forall (v : ratios RNum -> R) t, col (N := RNum) (host_cells batches n_q (fun c => v (state c)) t) n_q (b, i) = col (N := RNum) (fun _ _ _ => v (state c)) n_q (b, i)).
  { intros v t. unfold col. apply map_ext_in. intros q Iq. apply in_seq in Iq. cbn [fst snd]. apply (proj1 (host_cells_at batches n_q (fun c => v (state c)) t)); [exact L|lia]. }
  pose proof (C1 (fun r => r_liquid r) t0) as X0. pose proof (C1 (fun r => r_powder r) t1) as X1. cbv beta in X0, X1. unfold set_state_cell, get_state_liquid, get_state_powder.
  destruct k; [reflexivity| |]; cbv zeta; [rewrite <- X0|rewrite <- X0, <- X1]; reflexivity.
Qed.
