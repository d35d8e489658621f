(** MechProofs.v -- packing and unpacking the mechanical variables of a cell, transfer between processes and meshes. *)
From Coq Require Import ZArith Bool List Floats Lia.
From Verif Require Import Base BaseFacts CellModel CellProofs2 CellProofs3 RefineProofs MechModel MechSpec.
Import ListNotations.
Local Open Scope nat_scope.

Lemma mapRi {A B} (f : nat * A -> res B) (l : list A) :
  (forall i x, nth_error l i = Some x -> exists y, f (i, x) = Ok y) ->
  exists ys, mapR f (combine (seq 0 (List.length l)) l) = Ok ys /\ List.length ys = List.length l /\
    forall i x, nth_error l i = Some x -> exists y, nth_error ys i = Some y /\ f (i, x) = Ok y.
Proof.
  assert (forall (l : list A) s, (forall i x, nth_error l i = Some x -> exists y, f (s + i, x) = Ok y) ->
    exists ys, mapR f (combine (seq s (List.length l)) l) = Ok ys /\ List.length ys = List.length l /\
      forall i x, nth_error l i = Some x -> exists y, nth_error ys i = Some y /\ f (s + i, x) = Ok y) as G; [|exact (G l 0)].
  clear l. induction l as [|x l IH]; intros s H.
  - exists []. split; [reflexivity|]. split; [reflexivity|]. intros [|i]; discriminate.
  - cbn [List.length seq combine mapR]. destruct (H 0 x eq_refl) as (y & Ey). rewrite Nat.add_0_r in Ey. rewrite Ey. cbn [bind].
    destruct (IH (S s)) as (ys & E & L & HY); [intros i x' Ex; destruct (H (S i) x' Ex) as (y' & Ey'); exists y'; now rewrite <- Nat.add_succ_comm in Ey'|].
    rewrite E. cbn [bind]. exists (y :: ys). split; [reflexivity|]. split; [cbn; now rewrite L|].
    intros [|i] x' Ex; cbn in Ex |- *; [injection Ex as <-; exists y; split; [reflexivity| now rewrite Nat.add_0_r]|].
    destruct (HY i x' Ex) as (y' & A1 & A2). exists y'. split; [exact A1|]. now rewrite <- Nat.add_succ_comm.
Qed.
Lemma mapR_seq {B} (f : nat -> res B) (n : nat) :
  (forall i, i < n -> exists y, f i = Ok y) ->
  exists ys, mapR f (seq 0 n) = Ok ys /\ List.length ys = n /\ forall i, i < n -> exists y, nth_error ys i = Some y /\ f i = Ok y.
Proof.
  assert (forall n s, (forall i, i < n -> exists y, f (s + i) = Ok y) ->
    exists ys, mapR f (seq s n) = Ok ys /\ List.length ys = n /\ forall i, i < n -> exists y, nth_error ys i = Some y /\ f (s + i) = Ok y) as G; [|exact (G n 0)].
  clear n. induction n as [|n IH]; intros s H.
  - exists []. split; [reflexivity|]. split; [reflexivity|]. intros i; lia.
  - cbn [seq mapR]. destruct (H 0 ltac:(lia)) as (y & Ey). rewrite Nat.add_0_r in Ey. rewrite Ey. cbn [bind].
    destruct (IH (S s)) as (ys & E & L & HY); [intros i Hi; destruct (H (S i) ltac:(lia)) as (y' & Ey'); exists y'; now rewrite <- Nat.add_succ_comm in Ey'|].
    rewrite E. cbn [bind]. exists (y :: ys). split; [reflexivity|]. split; [cbn; now rewrite L|].
    intros [|i] Hi; cbn; [exists y; split; [reflexivity| now rewrite Nat.add_0_r]|].
    destruct (HY i ltac:(lia)) as (y' & A1 & A2). exists y'. split; [exact A1|]. now rewrite <- Nat.add_succ_comm.
Qed.
Lemma update_total {A} (l : list A) i v : i < List.length l ->
  exists l', update l i v = Ok l' /\ List.length l' = List.length l /\ forall j, nth_error l' j = if Nat.eqb j i then Some v else nth_error l j.
Proof.
  intros H. destruct (nth_error l i) as [x|] eqn:E; [|apply nth_error_None in E; lia]. rewrite (update_ok l i x v E). eexists. split; [reflexivity|]. split.
  - rewrite app_length, firstn_length_le by lia. cbn [List.length]. rewrite skipn_length. lia.
  - apply (update_nth l i v). apply (update_ok l i x v E).
Qed.
Lemma foldR_cons {A B} (f : A -> B -> res A) x l a a' : f a x = Ok a' -> foldR f (x :: l) a = foldR f l a'.
Proof. intros H. unfold foldR. cbn [fold_left bind]. now rewrite H. Qed.

(** ** Packing *)
Lemma copy_to_ok values : forall data pos, pos + List.length values <= List.length data ->
  exists d, copy_to data pos values = Ok d /\ List.length d = List.length data /\
    (forall k, k < List.length values -> nth_error d (pos + k) = nth_error values k) /\
    (forall j, j < pos \/ pos + List.length values <= j -> nth_error d j = nth_error data j).
Proof.
  induction values as [|v vs IH]; intros data pos L.
  - exists data. repeat split; try reflexivity. intros k Hk. cbn in Hk. lia.
  - cbn [copy_to]. cbn in L. destruct (update_total data pos v ltac:(lia)) as (d1 & E1 & L1 & N1). rewrite E1. cbn [bind].
    destruct (IH d1 (S pos) ltac:(lia)) as (d & E & Ld & H1 & H2). exists d. split; [exact E|]. split; [lia|]. split.
    + intros [|k] Hk; cbn.
      * rewrite H2 by lia. rewrite N1. now replace (pos + 0) with pos by lia; rewrite Nat.eqb_refl.
      * cbn in Hk. rewrite <- (H1 k) by lia. f_equal. lia.
    + intros j Hj. cbn in Hj. rewrite H2 by lia. rewrite N1. destruct (Nat.eqb_spec j pos); [lia| reflexivity].
Qed.
Section Pack.
  Variables (nq nc : nat) (m : mdata).
  Hypothesis SH : shaped_data nq nc m.
  Let so := stress_offset nq.
  Let bo := back_stress_offset nq nc.
  Lemma offsets : so = nq /\ bo = nq + nq * nc.
  Proof. unfold so, bo, stress_offset, back_stress_offset. lia. Qed.
  Definition entry_of (l : list (list float)) (q i : nat) : option float := match nth_error l q with Some t => nth_error t i | None => None end.
  Lemma entry_some (l : list (list float)) q i : List.length l = nq -> Forall (fun t => List.length t = nc) l -> q < nq -> i < nc -> exists t x, nth_error l q = Some t /\ nth_error t i = Some x.
  Proof.
    clear. intros L F Hq Hi. destruct (nth_error l q) as [t|] eqn:E; [|apply nth_error_None in E; lia].
    assert (List.length t = nc) as Lt by (rewrite Forall_forall in F; apply F; now apply (nth_error_In _ q)).
    destruct (nth_error t i) as [x|] eqn:Ex; [|apply nth_error_None in Ex; lia]. now exists t, x.
  Qed.
  Lemma index_bound q i : q < nq -> i < nc -> q * nc + i < nq * nc.
  Proof. clear. nia. Qed.
  Lemma index_inj q i q' i' : i < nc -> i' < nc -> q * nc + i = q' * nc + i' -> q = q' /\ i = i'.
  Proof. clear. intros. assert (q = q') by nia. subst. split; [reflexivity| lia]. Qed.
  Lemma pack_entry_ok q i data : q < nq -> i < nc -> List.length data = nq * n_doubles_per_quad nc ->
    exists d, pack_entry nq nc q i m data = Ok d /\ List.length d = List.length data /\
      nth_error d (so + q * nc + i) = entry_of (md_stress m) q i /\ nth_error d (bo + q * nc + i) = entry_of (md_back m) q i /\
      forall j, j <> so + q * nc + i -> j <> bo + q * nc + i -> nth_error d j = nth_error data j.
  Proof.
    intros Hq Hi L. destruct SH as (_ & L2 & L3 & F2 & F3). destruct offsets as (Es & Eb).
    assert (List.length data = nq + nq * nc + nq * nc) as L' by (rewrite L; unfold n_doubles_per_quad; lia).
    pose proof (index_bound q i Hq Hi) as IB.
    destruct (entry_some (md_stress m) q i L2 F2 Hq Hi) as (s & x & A1 & A2). destruct (entry_some (md_back m) q i L3 F3 Hq Hi) as (b & y & B1 & B2).
    unfold pack_entry, entry_of. fold so bo. rewrite A1, B1. rewrite (at_some _ _ _ A1). cbn [bind]. rewrite (at_some _ _ _ A2). cbn [bind].
    destruct (update_total data (so + q * nc + i) x ltac:(lia)) as (d1 & E1 & L1 & N1). rewrite E1. cbn [bind].
    rewrite (at_some _ _ _ B1). cbn [bind]. rewrite (at_some _ _ _ B2). cbn [bind].
    destruct (update_total d1 (bo + q * nc + i) y ltac:(lia)) as (d2 & E2 & L2' & N2). exists d2. split; [exact E2|]. split; [lia|]. split; [|split].
    - rewrite N2, N1, A2. destruct (Nat.eqb_spec (so + q * nc + i) (bo + q * nc + i)); [lia|]. now rewrite Nat.eqb_refl.
    - rewrite N2, B2, Nat.eqb_refl. reflexivity.
    - intros j J1 J2. rewrite N2, N1. destruct (Nat.eqb_spec j (bo + q * nc + i)); [lia|]. destruct (Nat.eqb_spec j (so + q * nc + i)); [lia| reflexivity].
  Qed.
  (** inner loop *)
  Lemma pack_inner q : q < nq -> forall k i0 data, i0 + k <= nc -> List.length data = nq * n_doubles_per_quad nc ->
    exists d, foldR (fun d i => pack_entry nq nc q i m d) (seq i0 k) data = Ok d /\ List.length d = List.length data /\
      (forall i, i0 <= i < i0 + k -> nth_error d (so + q * nc + i) = entry_of (md_stress m) q i /\ nth_error d (bo + q * nc + i) = entry_of (md_back m) q i) /\
      forall j, (forall i, i0 <= i < i0 + k -> j <> so + q * nc + i /\ j <> bo + q * nc + i) -> nth_error d j = nth_error data j.
  Proof.
    intros Hq. destruct offsets as (Es & Eb). induction k as [|k IH]; intros i0 data LE L.
    - exists data. split; [reflexivity|]. split; [reflexivity|]. split; [intros; lia| reflexivity].
    - cbn [seq]. destruct (pack_entry_ok q i0 data Hq ltac:(lia) L) as (d1 & E1 & L1 & A1 & A2 & A3).
      rewrite (foldR_cons (fun d i => pack_entry nq nc q i m d) i0 (seq (S i0) k) data d1 E1).
      destruct (IH (S i0) d1 ltac:(lia) ltac:(lia)) as (d & E & Ld & B1 & B2). exists d. split; [exact E|]. split; [lia|].
      assert (forall i, S i0 <= i < S i0 + k -> so + q * nc + i0 <> so + q * nc + i /\ so + q * nc + i0 <> bo + q * nc + i) as D1.
      { intros i Hi. pose proof (index_bound q i0 Hq ltac:(lia)). lia. }
      assert (forall i, S i0 <= i < S i0 + k -> bo + q * nc + i0 <> so + q * nc + i /\ bo + q * nc + i0 <> bo + q * nc + i) as D2.
      { intros i Hi. pose proof (index_bound q i Hq ltac:(lia)). lia. }
      split.
      + intros i Hi. destruct (Nat.eq_dec i i0) as [->|NE]; [|apply B1; lia]. rewrite (B2 _ D1), (B2 _ D2). now split.
      + intros j Hj. rewrite B2 by (intros i Hi; apply Hj; lia). destruct (Hj i0 ltac:(lia)) as (J1 & J2). now apply A3.
  Qed.
  (** outer loop *)
  Lemma pack_outer : forall k q0 data, q0 + k <= nq -> List.length data = nq * n_doubles_per_quad nc ->
    exists d, foldR (fun d q => foldR (fun d i => pack_entry nq nc q i m d) (seq 0 nc) d) (seq q0 k) data = Ok d /\ List.length d = List.length data /\
      (forall q i, q0 <= q < q0 + k -> i < nc -> nth_error d (so + q * nc + i) = entry_of (md_stress m) q i /\ nth_error d (bo + q * nc + i) = entry_of (md_back m) q i) /\
      forall j, (forall q i, q0 <= q < q0 + k -> i < nc -> j <> so + q * nc + i /\ j <> bo + q * nc + i) -> nth_error d j = nth_error data j.
  Proof.
    destruct offsets as (Es & Eb). induction k as [|k IH]; intros q0 data LE L.
    - exists data. split; [reflexivity|]. split; [reflexivity|]. split; [intros; lia| reflexivity].
    - cbn [seq]. destruct (pack_inner q0 ltac:(lia) nc 0 data ltac:(lia) L) as (d1 & E1 & L1 & A1 & A2).
      rewrite (foldR_cons (fun d q => foldR (fun d i => pack_entry nq nc q i m d) (seq 0 nc) d) q0 (seq (S q0) k) data d1 E1).
      destruct (IH (S q0) d1 ltac:(lia) ltac:(lia)) as (d & E & Ld & B1 & B2). exists d. split; [exact E|]. split; [lia|]. split.
      + intros q i Hq Hi. destruct (Nat.eq_dec q q0) as [->|NE]; [|apply B1; lia].
        pose proof (index_bound q0 i ltac:(lia) Hi) as IB0.
        rewrite (B2 (so + q0 * nc + i)), (B2 (bo + q0 * nc + i)); [apply A1; lia| |]; intros q' i' Hq' Hi'; pose proof (index_bound q' i' ltac:(lia) Hi'); (split; intros EQ; [destruct (Nat.eq_dec so bo)|]);
          try lia; (assert (q0 * nc + i = q' * nc + i') as EQ' by lia; apply index_inj in EQ'; lia).
      + intros j Hj. rewrite B2 by (intros q i Hq Hi; apply Hj; lia). apply A2. intros i Hi. apply Hj; lia.
  Qed.
  Lemma pack_ok : exists d, pack_mech nq nc m = Ok d /\ List.length d = nq * n_doubles_per_quad nc /\
    (forall q, q < nq -> nth_error d q = nth_error (md_plastic m) q) /\
    (forall q i, q < nq -> i < nc -> nth_error d (so + q * nc + i) = entry_of (md_stress m) q i /\ nth_error d (bo + q * nc + i) = entry_of (md_back m) q i).
  Proof.
    destruct SH as (L1 & _). destruct offsets as (Es & Eb). unfold pack_mech.
    assert (List.length (repeat 0%float (nq * n_doubles_per_quad nc)) = nq * n_doubles_per_quad nc) as L0 by apply repeat_length.
    destruct (copy_to_ok (md_plastic m) (repeat 0%float (nq * n_doubles_per_quad nc)) 0) as (d1 & E1 & Ld1 & A1 & _).
    { rewrite L0, L1. unfold n_doubles_per_quad. nia. }
    rewrite E1. cbn [bind]. destruct (pack_outer nq 0 d1 ltac:(lia) ltac:(lia)) as (d & E & Ld & B1 & B2). exists d. split; [exact E|]. split; [lia|]. split.
    - intros q Hq. rewrite B2; [apply (A1 q); lia|]. intros q' i Hq' Hi. lia.
    - intros q i Hq Hi. apply B1; lia.
  Qed.
  Lemma list_ext_nth {A} (a b : list A) : List.length a = List.length b -> (forall i, i < List.length b -> nth_error a i = nth_error b i) -> a = b.
  Proof.
    clear. revert b. induction a as [|x a IH]; intros [|y b] L H; cbn in L; try discriminate; [reflexivity|]. f_equal.
    - specialize (H 0 ltac:(cbn; lia)). cbn in H. congruence.
    - apply IH; [lia|]. intros i Hi. apply (H (S i)). cbn. lia.
  Qed.
  Lemma unpack_tensors off (l : list (list float)) d : List.length l = nq -> Forall (fun t => List.length t = nc) l ->
    (forall q i, q < nq -> i < nc -> nth_error d (off + q * nc + i) = entry_of l q i) ->
    mapR (fun q => mapR (fun i => at_ d (off + q * nc + i)) (seq 0 nc)) (seq 0 nq) = Ok l.
  Proof.
    clear. intros L F H.
    assert (forall q t, nth_error l q = Some t -> mapR (fun i => at_ d (off + q * nc + i)) (seq 0 nc) = Ok t) as G.
    { intros q t E. assert (List.length t = nc) as Lt by (rewrite Forall_forall in F; apply F; now apply (nth_error_In _ q)).
      assert (q < nq) as Hq by (rewrite <- L; apply nth_error_Some; congruence).
      destruct (mapR_seq (fun i => at_ d (off + q * nc + i)) nc) as (ys & Ey & Ly & Hy).
      { intros i Hi. destruct (entry_some l q i L F Hq Hi) as (t' & x & A & B). exists x. apply at_some. rewrite (H q i Hq Hi). unfold entry_of. now rewrite A. }
      rewrite Ey. f_equal. apply list_ext_nth; [lia|]. intros i Hi. destruct (Hy i ltac:(lia)) as (y & Y1 & Y2). rewrite Y1.
      unfold at_ in Y2. rewrite (H q i Hq ltac:(lia)) in Y2. unfold entry_of in Y2. rewrite E in Y2. destruct (nth_error t i); congruence. }
    destruct (mapR_seq (fun q => mapR (fun i => at_ d (off + q * nc + i)) (seq 0 nc)) nq) as (ys & Ey & Ly & Hy).
    { intros q Hq. destruct (nth_error l q) as [t|] eqn:E; [|apply nth_error_None in E; lia]. exists t. now apply G. }
    rewrite Ey. f_equal. apply list_ext_nth; [lia|]. intros q Hq. destruct (Hy q ltac:(lia)) as (y & Y1 & Y2). rewrite Y1.
    destruct (nth_error l q) as [t|] eqn:E; [|apply nth_error_None in E; lia]. rewrite (G q t E) in Y2. congruence.
  Qed.
  (** Packing and unpacking give the same variables back. *)
  Lemma round_trip : exists d, pack_mech nq nc m = Ok d /\ List.length d = nq * n_doubles_per_quad nc /\ unpack_mech nq nc d = Ok m.
  Proof.
    destruct pack_ok as (d & E & L & P1 & P2). exists d. split; [exact E|]. split; [exact L|]. unfold unpack_mech. destruct SH as (L1 & L2 & L3 & F2 & F3).
    assert (mapR (fun q => at_ d q) (seq 0 (stress_offset nq)) = Ok (md_plastic m)) as ->.
    { replace (stress_offset nq) with nq by (unfold stress_offset; lia). destruct (mapR_seq (fun q => at_ d q) nq) as (ys & Ey & Ly & Hy).
      - intros q Hq. destruct (nth_error (md_plastic m) q) as [x|] eqn:Ex; [|apply nth_error_None in Ex; lia]. exists x. apply at_some. now rewrite P1.
      - rewrite Ey. f_equal. apply list_ext_nth; [lia|]. intros q Hq. destruct (Hy q ltac:(lia)) as (y & Y1 & Y2). rewrite Y1. unfold at_ in Y2. rewrite P1 in Y2 by lia.
        destruct (nth_error (md_plastic m) q); congruence. }
    cbn [bind]. rewrite (unpack_tensors (stress_offset nq) (md_stress m) d L2 F2) by (intros; now apply P2). cbn [bind].
    rewrite (unpack_tensors (back_stress_offset nq nc) (md_back m) d L3 F3) by (intros; now apply P2). cbn [bind]. now destruct m.
  Qed.
End Pack.
