(** GeometryProofs.v -- proofs for C51 (binary STL files). *)
From Coq Require Import Reals ZArith Bool List Floats Lia Lra.
From Verif Require Import Base BaseFacts GeometryModel GeometrySpec.
Import ListNotations.
Local Open Scope nat_scope.

(** ** Bytes *)
Lemma nth_skipn_ {A} (l : list A) n i d : nth i (skipn n l) d = nth (n + i) l d.
Proof. revert l. induction n as [|n IH]; intros [|a l]; cbn [skipn Nat.add nth]; try reflexivity; [destruct i; reflexivity|apply IH]. Qed.
Lemma nth_firstn_ {A} (l : list A) n i d : i < n -> nth i (firstn n l) d = nth i l d.
Proof. revert l i. induction n as [|n IH]; intros [|a l] [|i] H; cbn; try reflexivity; try lia. apply IH. lia. Qed.
Lemma skipn_skipn_ {A} (l : list A) n m : skipn n (skipn m l) = skipn (n + m) l.
Proof. rewrite Nat.add_comm. revert l. induction m as [|m IH]; intros l; [reflexivity|]. destruct l as [|a l]; [cbn; destruct n; reflexivity|]. cbn [skipn Nat.add]. apply IH. Qed.
Lemma first_four (l : list Z) : 4 <= length l -> firstn 4 l = [nth 0 l 0%Z; nth 1 l 0%Z; nth 2 l 0%Z; nth 3 l 0%Z].
Proof. destruct l as [|a [|b [|c [|d l]]]]; cbn; intros; try lia. reflexivity. Qed.
Lemma le32_word f off : off + 4 <= length f -> le32 (bytes_at f off 4) = word_at f off.
Proof.
  intros H. unfold bytes_at. rewrite first_four by (rewrite skipn_length; lia). rewrite !nth_skipn_. unfold le32, word_at, byte_at. replace (off + 0) with off by lia. lia.
Qed.
Lemma word_skipn f n off : word_at (skipn n f) off = word_at f (n + off).
Proof. unfold word_at, byte_at. rewrite !nth_skipn_. rewrite !Nat.add_assoc. reflexivity. Qed.
Lemma word_firstn f n off : off + 4 <= n -> word_at (firstn n f) off = word_at f off.
Proof. intros H. unfold word_at, byte_at. rewrite !nth_firstn_ by lia. reflexivity. Qed.
Lemma word_range f off : Forall is_byte f -> (0 <= word_at f off < 2 ^ 32)%Z.
Proof.
  intros H. assert (forall i, is_byte (byte_at f i)) as B.
  { intros i. unfold byte_at. destruct (Nat.lt_ge_cases i (length f)) as [L|L]; [|rewrite nth_overflow by lia; unfold is_byte; lia]. rewrite Forall_forall in H. apply H. apply nth_In. assumption. }
  unfold word_at. assert (X0 := B off). assert (X1 := B (off + 1)). assert (X2 := B (off + 2)). assert (X3 := B (off + 3)). unfold is_byte in *. lia.
Qed.

(** Vertex [j] of triangle [i]. *)
Definition vertex_at (f : list Z) (s : float) (off : nat) : pt FNum :=
  mkpt (N := FNum) (PrimFloat.mul (single (word_at f off)) s) (PrimFloat.mul (single (word_at f (off + 4))) s) (PrimFloat.mul (single (word_at f (off + 8))) s).
Definition tri_at (f : list Z) (s : float) (off : nat) : triangle FNum := (vertex_at f s (off + 12), vertex_at f s (off + 24), vertex_at f s (off + 36)).

Lemma read_point_at (l : list Z) n s : n + 12 <= 50 -> 50 <= length l -> read_point (skipn n (firstn 50 l)) s = vertex_at l s n.
Proof.
  intros H L. unfold read_point, vertex_at. rewrite !le32_word by (rewrite skipn_length, firstn_length; lia).
  rewrite !word_skipn, !word_firstn by lia. rewrite Nat.add_0_r. reflexivity.
Qed.
Lemma vertex_skipn f n s off : vertex_at (skipn n f) s off = vertex_at f s (n + off).
Proof. unfold vertex_at. rewrite !word_skipn, !Nat.add_assoc. reflexivity. Qed.

Lemma read_facets_ok n : forall l s, 50 * n <= length l -> read_facets n (l, false) s = Ok (map (fun i => tri_at l s (50 * i)) (seq 0 n)).
Proof.
  induction n as [|n IH]; intros l s L; [reflexivity|]. cbn [read_facets]. unfold sread. cbn [snd fst].
  rewrite firstn_length, Nat.min_l by lia. cbn [Nat.eqb negb].
  assert ((length l <? 50) = false) as -> by (apply Nat.ltb_ge; lia). rewrite IH by (rewrite skipn_length; lia). cbn [bind].
  rewrite !read_point_at by lia. f_equal. cbn [seq map]. f_equal. rewrite <- seq_shift, map_map. apply map_ext. intros i. unfold tri_at. rewrite !vertex_skipn.
  replace (50 + (50 * i + 12)) with (50 * S i + 12) by lia. replace (50 + (50 * i + 24)) with (50 * S i + 24) by lia. replace (50 + (50 * i + 36)) with (50 * S i + 36) by lia. reflexivity.
Qed.
Lemma read_facets_short n : forall l s, length l < 50 * n -> read_facets n (l, false) s = Throw.
Proof.
  induction n as [|n IH]; intros l s L; [lia|]. cbn [read_facets]. unfold sread. cbn [snd fst]. rewrite firstn_length.
  destruct (Nat.le_gt_cases 50 (length l)) as [H|H].
  - rewrite Nat.min_l by lia. cbn [Nat.eqb negb]. assert ((length l <? 50) = false) as -> by (apply Nat.ltb_ge; lia). rewrite IH; [reflexivity|]. rewrite skipn_length. lia.
  - rewrite Nat.min_r by lia. assert ((length l =? 50) = false) as -> by (apply Nat.eqb_neq; lia). reflexivity.
Qed.

Lemma read_stl_cases f s : read_stl (Some f) s =
  if length f <? 84 then UB
  else if length f <? 84 + 50 * announced f then Throw
  else Ok (map (fun i => tri_at f s (84 + 50 * i)) (seq 0 (announced f))).
Proof.
  unfold read_stl, sread. cbn [snd fst]. destruct (Nat.ltb_spec (length f) 80) as [H|H].
  - cbn [snd fst length Nat.eqb negb]. assert ((length f <? 84) = true) as -> by (apply Nat.ltb_lt; lia). reflexivity.
  - cbn [snd fst]. rewrite firstn_length, skipn_length. destruct (Nat.ltb_spec (length f) 84) as [H'|H'].
    + rewrite Nat.min_r by lia. assert ((length f - 80 =? 4) = false) as -> by (apply Nat.eqb_neq; lia). reflexivity.
    + rewrite Nat.min_l by lia. cbn [Nat.eqb negb]. assert ((length f - 80 <? 4) = false) as -> by (apply Nat.ltb_ge; lia).
      change (firstn 4 (skipn 80 f)) with (bytes_at f 80 4). rewrite le32_word by lia. fold (announced f). rewrite skipn_skipn_. change (4 + 80) with 84.
      destruct (Nat.ltb_spec (length f) (84 + 50 * announced f)) as [H2|H2].
      * rewrite read_facets_short; [reflexivity|]. rewrite skipn_length. lia.
      * rewrite read_facets_ok by (rewrite skipn_length; lia). f_equal. apply map_ext. intros i. unfold tri_at. rewrite !vertex_skipn, !Nat.add_assoc. reflexivity.
Qed.

(** ** C51, the triangles that are read *)
Lemma stl_read f s : 84 + 50 * announced f <= length f -> exists ts, read_stl (Some f) s = Ok ts /\ length ts = announced f /\
  forall i, i < announced f -> exists a b c, nth_error ts i = Some (a, b, c) /\
    forall j v, nth_error [a; b; c] j = Some v ->
      forall k x, nth_error [px v; py v; pz v] k = Some x -> x = PrimFloat.mul (single (word_at f (coord_offset i j k))) s.
Proof.
  intros L. rewrite read_stl_cases. assert ((length f <? 84) = false) as -> by (apply Nat.ltb_ge; lia).
  assert ((length f <? 84 + 50 * announced f) = false) as -> by (apply Nat.ltb_ge; lia).
  eexists. split; [reflexivity|]. split; [rewrite map_length, seq_length; reflexivity|]. intros i Hi. unfold tri_at.
  eexists _, _, _. split.
  - rewrite nth_error_map. rewrite (nth_error_nth' _ 0) by (rewrite seq_length; lia). rewrite seq_nth by lia. cbn [option_map Nat.add]. reflexivity.
  - intros j v Hj k x Hk. unfold coord_offset. destruct j as [|[|[|j]]]; cbn in Hj; try (destruct j; discriminate); injection Hj as <-;
      (destruct k as [|[|[|k]]]; cbn [vertex_at px py pz nth_error] in Hk; try (destruct k; discriminate); injection Hk as <-; do 3 f_equal; lia).
Qed.
Lemma stl_truncated f s : 84 <= length f < 84 + 50 * announced f -> read_stl (Some f) s = Throw.
Proof. intros L. rewrite read_stl_cases. assert ((length f <? 84) = false) as -> by (apply Nat.ltb_ge; lia). assert ((length f <? 84 + 50 * announced f) = true) as -> by (apply Nat.ltb_lt; lia). reflexivity. Qed.
Lemma stl_too_short f s : length f < 84 -> read_stl (Some f) s = UB.
Proof. intros L. rewrite read_stl_cases. assert ((length f <? 84) = true) as -> by (apply Nat.ltb_lt; lia). reflexivity. Qed.

(** ** Files that are written *)
Lemma le32_bytes w : (0 <= w < 2 ^ 32)%Z -> le32 (word_bytes w) = w.
Proof.
  intros H. unfold le32, word_bytes. assert (X0 := Z.div_mod w 256 ltac:(lia)). assert (X1 := Z.div_mod (w / 256) 256 ltac:(lia)). assert (X2 := Z.div_mod (w / 256 / 256) 256 ltac:(lia)).
  assert (w / 256 / 256 / 256 < 256)%Z as B. { rewrite !Z.div_div by lia. apply Z.div_lt_upper_bound; lia. }
  assert (0 <= w / 256 / 256 / 256)%Z by (repeat apply Z.div_pos; lia). rewrite (Z.mod_small (w / 256 / 256 / 256)) by lia. lia.
Qed.
Lemma facet_shape x : facet_ok x -> exists n n' a u v w, f_normal x = n /\ f_attr x = a /\ length n = 12 /\ length a = 2 /\ n' = n /\ f_words x = [u; v; w] /\
  (exists a b c, u = [a; b; c]) /\ (exists a b c, v = [a; b; c]) /\ (exists a b c, w = [a; b; c]).
Proof.
  intros [L1 [L2 [L3 F]]]. exists (f_normal x), (f_normal x), (f_attr x). destruct (f_words x) as [|u [|v [|w [|]]]]; cbn in L3; try lia. exists u, v, w.
  assert (forall z, In z [u; v; w] -> exists a b c, z = [a; b; c]) as S.
  { intros z Hz. destruct (F z Hz) as [L _]. destruct z as [|a [|b [|c [|]]]]; cbn in L; try lia. eauto. }
  split; [reflexivity|]. split; [reflexivity|]. split; [exact L1|]. split; [exact L2|]. split; [reflexivity|]. split; [reflexivity|].
  split; [apply S; cbn; tauto|]. split; apply S; cbn; tauto.
Qed.
Lemma facet_length x : facet_ok x -> length (facet_bytes x) = 50.
Proof.
  intros H. destruct (facet_shape x H) as (n & n' & a & u & v & w & E1 & E2 & L1 & L2 & _ & E3 & (x0 & x1 & x2 & ->) & (x3 & x4 & x5 & ->) & (x6 & x7 & x8 & ->)). unfold facet_bytes. rewrite E1, E2, E3.
  rewrite !app_length, L1, L2. reflexivity.
Qed.
Lemma bytes_length fs : (forall x, In x fs -> facet_ok x) -> length (flat_map facet_bytes fs) = 50 * length fs.
Proof.
  induction fs as [|x fs IH]; intros H; [reflexivity|]. cbn [flat_map]. rewrite app_length, facet_length by (apply H; left; reflexivity). rewrite IH; [cbn [length]; lia|]. intros y Hy. apply H. right. assumption.
Qed.
Lemma read_written fs : forall rest s, (forall x, In x fs -> facet_ok x) -> read_facets (length fs) (flat_map facet_bytes fs ++ rest, false) s = Ok (map (decode single s) fs).
Proof.
  induction fs as [|x fs IH]; intros rest s H; [reflexivity|]. cbn [length read_facets flat_map]. unfold sread. cbn [snd fst].
  assert (facet_ok x) as Hx by (apply H; left; reflexivity). assert (L := facet_length x Hx).
  rewrite <- app_assoc. assert (firstn 50 (facet_bytes x ++ flat_map facet_bytes fs ++ rest) = facet_bytes x) as -> by (rewrite <- L, firstn_app, Nat.sub_diag, firstn_all; cbn; apply app_nil_r).
  assert (skipn 50 (facet_bytes x ++ flat_map facet_bytes fs ++ rest) = flat_map facet_bytes fs ++ rest) as -> by (rewrite <- L, skipn_app, Nat.sub_diag, skipn_all; reflexivity).
  rewrite L. cbn [Nat.eqb negb]. rewrite app_length, L.
  match goal with |- context [ (_, ?b) ] => replace b with false by (symmetry; apply Nat.ltb_ge; lia) end.
  rewrite IH by (intros y Hy; apply H; right; assumption). cbn [bind map]. do 2 f_equal.
  destruct (facet_shape x Hx) as (n & n' & a & u & v & w & E1 & E2 & L1 & L2 & _ & E3 & (x0 & x1 & x2 & ->) & (x3 & x4 & x5 & ->) & (x6 & x7 & x8 & ->)).
  assert (forall z l, In z [[x0; x1; x2]; [x3; x4; x5]; [x6; x7; x8]] -> In l z -> (0 <= l < 2 ^ 32)%Z) as R.
  { intros z l Hz Hl. destruct Hx as [_ [_ [_ F]]]. rewrite E3 in F. destruct (F z Hz) as [_ F']. apply F'. assumption. }
  assert (forall y, In y [x0; x1; x2; x3; x4; x5; x6; x7; x8] -> le32 (word_bytes y) = y) as W.
  { intros y Hy. apply le32_bytes. cbn in Hy. destruct Hy as [<-|[<-|[<-|[<-|[<-|[<-|[<-|[<-|[<-|[]]]]]]]]]].
    1-3: apply (R [x0; x1; x2]); cbn; tauto.
    1-3: apply (R [x3; x4; x5]); cbn; tauto.
    all: apply (R [x6; x7; x8]); cbn; tauto. }
  unfold facet_bytes, decode, read_point. rewrite E1, E2, E3. do 12 (destruct n as [|? n]; [discriminate L1|]). destruct n; [|discriminate L1].
  cbn [nth flat_map app skipn firstn bytes_at word_bytes].
  repeat match goal with |- context [le32 [?a mod 256; _; _; _]%Z] => change (le32 [a mod 256; a / 256 mod 256; a / 256 / 256 mod 256; a / 256 / 256 / 256 mod 256]%Z) with (le32 (word_bytes a)) end.
  rewrite !W by (cbn; tauto). reflexivity.
Qed.
Lemma stl_written header fs rest s : length header = 80 -> (forall x, In x fs -> facet_ok x) -> (Z.of_nat (length fs) < 2 ^ 32)%Z ->
  read_stl (Some (stl_bytes header fs rest)) s = Ok (map (decode single s) fs).
Proof.
  intros LH OK C. unfold read_stl, stl_bytes, sread. cbn [snd fst].
  assert (skipn 80 (header ++ word_bytes (Z.of_nat (length fs)) ++ flat_map facet_bytes fs ++ rest) = word_bytes (Z.of_nat (length fs)) ++ flat_map facet_bytes fs ++ rest) as -> by (rewrite <- LH, skipn_app, Nat.sub_diag, skipn_all; reflexivity).
  match goal with |- context [?b] => match b with (_ <? 80) => replace b with false by (symmetry; apply Nat.ltb_ge; rewrite app_length; lia) end end.
  cbn [snd fst]. change (firstn 4 (word_bytes (Z.of_nat (length fs)) ++ flat_map facet_bytes fs ++ rest)) with (word_bytes (Z.of_nat (length fs))).
  change (skipn 4 (word_bytes (Z.of_nat (length fs)) ++ flat_map facet_bytes fs ++ rest)) with (flat_map facet_bytes fs ++ rest).
  change (length (word_bytes (Z.of_nat (length fs))) =? 4) with true. cbn [negb].
  match goal with |- context [(_, ?b)] => replace b with false by (symmetry; apply Nat.ltb_ge; rewrite app_length; cbn [length word_bytes]; lia) end.
  rewrite le32_bytes by lia. rewrite Nat2Z.id. apply read_written. assumption.
Qed.
