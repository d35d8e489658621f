(** EnsembleProofs.v -- C26-C29. *)
From Coq Require Import Reals ZArith Bool List String Ascii Lia Lra Decimal DecimalNat DecimalString Floats.
From Flocq Require Import Core IEEE754.BinarySingleNaN IEEE754.PrimFloat.
From Verif Require Import Base BaseFacts ScanPathModel MaterialModel MaterialFloat InputModel EnsembleModel EnsembleSpec.
Import ListNotations.

(** ** C26 *)
Lemma split_inv P N r p : split P N r = Ok p -> (r < P)%nat ->
  N <> 0%nat /\ (((N < P)%nat /\ Nat.modulo P N = 0%nat /\ part_color p = Nat.div r (Nat.div P N) /\ part_size p = 1%nat /\ part_first p = part_color p) \/
   ((P <= N)%nat /\ part_color p = r /\ part_size p = (Nat.div N P + (if Nat.eqb r 0 then N - P * Nat.div N P else 0))%nat /\
    part_first p = (if Nat.eqb r 0 then 0 else r * Nat.div N P + (N - P * Nat.div N P))%nat)).
Proof.
  unfold split. intros H L. destruct (Nat.eqb_spec N 0) as [|NZ]; [discriminate|]. split; [exact NZ|]. destruct (Nat.ltb_spec N P) as [LT|GE].
  - left. destruct (Nat.eqb_spec (Nat.modulo P N) 0) as [M|M]; [|discriminate]. injection H as <-. simpl. auto.
  - right. destruct (Nat.eqb_spec r 0) as [->|NR]; injection H as <-; simpl; repeat split; auto; lia.
Qed.
Lemma split_refused P N r : (split P N r = Throw <-> (N <> 0 /\ N < P /\ Nat.modulo P N <> 0)%nat) /\ (split P N r = UB <-> N = 0%nat).
Proof.
  unfold split. destruct (Nat.eqb_spec N 0) as [->|NZ]; [split; split; intros; try discriminate; try tauto; try lia|].
  destruct (Nat.ltb_spec N P) as [LT|GE].
  - destruct (Nat.eqb_spec (Nat.modulo P N) 0) as [M|M]; split; split; intros; try discriminate; try tauto; try lia.
  - destruct (Nat.eqb r 0); split; split; intros; try discriminate; try tauto; try lia.
Qed.
Lemma split_total P N r : (0 < N)%nat -> (P <= N \/ Nat.modulo P N = 0)%nat -> exists p, split P N r = Ok p.
Proof.
  intros NZ H. destruct (split P N r) as [p| |] eqn:E; [eauto| |].
  - apply split_refused in E. lia.
  - apply split_refused in E. lia.
Qed.
Lemma same_group P N r r' p p' : (r < P)%nat -> (r' < P)%nat -> split P N r = Ok p -> split P N r' = Ok p' -> part_color p = part_color p' ->
  part_size p = part_size p' /\ part_first p = part_first p'.
Proof.
  intros L L' H H' C. apply split_inv in H; [|exact L]. apply split_inv in H'; [|exact L'].
  destruct H as (_ & [(A & B & D & E & F)|(A & B & D & E)]), H' as (_ & [(A' & B' & D' & E' & F')|(A' & B' & D' & E')]); [split; congruence|lia|lia|].
  assert (r = r') by lia. rewrite D, D', E, E', H. auto.
Qed.
Lemma owned_exists P N m : (0 < P)%nat -> (0 < N)%nat -> (P <= N \/ Nat.modulo P N = 0)%nat -> (m < N)%nat -> exists c, owns P N c m.
Proof.
  intros P0 N0 OKD M. unfold owns. destruct (Nat.lt_ge_cases N P) as [LT|GE].
  - assert (MOD : Nat.modulo P N = 0%nat) by lia. set (q := Nat.div P N). assert (Q : P = (N * q)%nat) by (apply Nat.div_exact; lia).
    assert (Q1 : (1 <= q)%nat) by nia. exists m, (m * q)%nat. destruct (split_total P N (m * q) N0 OKD) as [p E]. exists p.
    assert (R : (m * q < P)%nat) by nia. apply split_inv in E as E'; [|exact R]. destruct E' as (_ & [(A & B & D & E2 & F)|(A & _)]); [|lia].
    fold q in D. rewrite Nat.div_mul in D by lia. rewrite F, E2, D. repeat split; auto; lia.
  - set (q := Nat.div N P). assert (Q : N = (P * q + Nat.modulo N P)%nat) by (apply Nat.div_mod; lia). assert (MB : (Nat.modulo N P < P)%nat) by (apply Nat.mod_upper_bound; lia).
    assert (Q1 : (1 <= q)%nat) by nia. set (l := Nat.modulo N P) in *.
    destruct (Nat.lt_ge_cases m (q + l)) as [S1|S1].
    + destruct (split_total P N 0 N0 OKD) as [p E]. exists 0%nat, 0%nat, p. apply split_inv in E as E'; [|lia]. destruct E' as (_ & [(A & _)|(A & B & D & F)]); [lia|].
      simpl in D, F. fold q in D. rewrite B, F, D. repeat split; auto; lia.
    + set (r := Nat.div (m - l) q). assert (R : (m - l = q * r + Nat.modulo (m - l) q)%nat) by (apply Nat.div_mod; lia).
      assert (RB : (Nat.modulo (m - l) q < q)%nat) by (apply Nat.mod_upper_bound; lia). assert (R1 : (1 <= r)%nat) by nia. assert (R2 : (r < P)%nat) by nia.
      destruct (split_total P N r N0 OKD) as [p E]. exists r, r, p. apply split_inv in E as E'; [|exact R2]. destruct E' as (_ & [(A & _)|(A & B & D & F)]); [lia|].
      fold q in D, F. destruct (Nat.eqb_spec r 0) as [|_]; [lia|]. rewrite B, F, D. repeat split; auto; nia.
Qed.
Lemma owned_bound P N c m : owns P N c m -> (m < N)%nat /\ (c < P)%nat /\ (c < N)%nat.
Proof.
  intros (r & p & L & E & C & B). apply split_inv in E; [|exact L]. destruct E as (NZ & [(A & D & F & G & H)|(A & D & F & G)]).
  - set (q := Nat.div P N) in *. assert (Q : P = (N * q)%nat) by (apply Nat.div_exact; lia). assert (Q1 : (1 <= q)%nat) by nia.
    assert (X : (Nat.div r q < N)%nat) by (apply Nat.div_lt_upper_bound; nia). lia.
  - set (q := Nat.div N P) in *. assert (Q : (P * q <= N)%nat) by (apply Nat.mul_div_le; lia). assert (Q1 : (1 <= q)%nat) by (apply Nat.div_le_lower_bound; lia).
    destruct (Nat.eqb_spec r 0) as [->|NR]; rewrite F, G in B; [nia|]. nia.
Qed.
Lemma owned_unique P N c c' m : owns P N c m -> owns P N c' m -> c = c'.
Proof.
  intros (r & p & L & E & C & B) (r' & p' & L' & E' & C' & B'). apply split_inv in E; [|exact L]. apply split_inv in E'; [|exact L'].
  destruct E as (NZ & [(A & D & F & G & H)|(A & D & F & G)]), E' as (_ & [(A' & D' & F' & G' & H')|(A' & D' & F' & G')]); try lia.
  set (q := Nat.div N P) in *. assert (Q1 : (1 <= q)%nat) by (apply Nat.div_le_lower_bound; lia). rewrite F, G in B. rewrite F', G' in B'. clear - C C' D D' B B' Q1.
  destruct (Nat.eqb_spec r 0) as [->|NR], (Nat.eqb_spec r' 0) as [->|NR']; rewrite <- C, <- C', D, D'; nia.
Qed.
(** More processes than members: every group has the same number of processes. *)
Lemma count_block q : (1 <= q)%nat -> forall n c, (c < n)%nat -> List.length (filter (fun r => Nat.eqb (Nat.div r q) c) (seq 0 (n * q))) = q.
Proof.
  intros Q1. induction n as [|n IH]; intros c L; [lia|].
  replace (S n * q)%nat with (n * q + q)%nat by lia. rewrite seq_app, filter_app, app_length. simpl (0 + n * q)%nat.
  assert (A : forall k, (k <= q)%nat -> List.length (filter (fun r => Nat.eqb (Nat.div r q) c) (seq (n * q) k)) = if Nat.eqb n c then k else 0%nat).
  { intros k. induction k as [|k IHk]; intros K; [destruct (Nat.eqb n c); reflexivity|]. rewrite seq_S, filter_app, app_length, IHk by lia. cbn [filter].
    assert (D : Nat.div (n * q + k) q = n) by (symmetry; apply Nat.div_unique with k; lia). rewrite D. destruct (Nat.eqb n c); simpl; lia. }
  rewrite (A q (Nat.le_refl q)). destruct (Nat.eqb_spec n c) as [->|NE].
  - assert (B : filter (fun r => Nat.eqb (Nat.div r q) c) (seq 0 (c * q)) = []).
    { apply filter_nil_iff || idtac. assert (G : forall l, (forall r, In r l -> (r < c * q)%nat) -> filter (fun r => Nat.eqb (Nat.div r q) c) l = []).
      { induction l as [|a l IHl]; intros H; [reflexivity|]. simpl. assert ((Nat.div a q < c)%nat) by (apply Nat.div_lt_upper_bound; [lia|]; specialize (H a (or_introl eq_refl)); lia).
        destruct (Nat.eqb_spec (Nat.div a q) c); [lia|]. apply IHl. intros r I. apply H. right. exact I. }
      apply G. intros r I. apply in_seq in I. lia. }
    rewrite B. reflexivity.
  - rewrite IH by lia. lia.
Qed.
Lemma equal_groups P N c : (N < P)%nat -> (0 < N)%nat -> Nat.modulo P N = 0%nat -> (c < N)%nat -> List.length (group P N c) = Nat.div P N.
Proof.
  intros LT N0 M C. set (q := Nat.div P N). assert (Q : P = (N * q)%nat) by (apply Nat.div_exact; lia). assert (Q1 : (1 <= q)%nat) by nia.
  unfold group. rewrite <- (count_block q Q1 N c C). rewrite <- Q. f_equal. apply filter_ext. intros r. unfold split.
  destruct (Nat.eqb_spec N 0); [lia|]. destruct (Nat.ltb_spec N P); [|lia]. rewrite M. simpl. fold q. reflexivity.
Qed.
Lemma single_groups P N c : (P <= N)%nat -> (0 < P)%nat -> (c < P)%nat -> group P N c = [c].
Proof.
  intros LE P0 C. unfold group. erewrite filter_ext with (g := fun r => Nat.eqb r c).
  - assert (G : forall n s, (s <= c < s + n)%nat -> filter (fun r => Nat.eqb r c) (seq s n) = [c]).
    { induction n as [|n IH]; intros s H; [lia|]. simpl. destruct (Nat.eqb_spec s c) as [->|NE].
      - f_equal. assert (F : forall l, (forall x, In x l -> x <> c) -> filter (fun r => Nat.eqb r c) l = []).
        { induction l as [|a l IHl]; intros F; [reflexivity|]. simpl. destruct (Nat.eqb_spec a c) as [E|_]; [exfalso; apply (F a (or_introl eq_refl) E)|]. apply IHl. intros x I. apply F. right. exact I. }
        apply F. intros x I. apply in_seq in I. lia.
      - apply IH. lia. }
    apply G. lia.
  - intros r. unfold split. destruct (Nat.eqb_spec N 0); [lia|]. destruct (Nat.ltb_spec N P); [lia|]. destruct (Nat.eqb r 0); reflexivity.
Qed.

(** ** C27 *)
Local Open Scope string_scope.
Lemma to_uint_nonnil n : Nat.to_uint n <> Nil.
Proof. assert (H := Unsigned.to_of (Nat.to_uint n)). rewrite Unsigned.of_to in H. rewrite H. apply DecimalFacts.unorm_nonnil. Qed.
Lemma to_string_inj a b : to_string a = to_string b -> a = b.
Proof.
  unfold to_string. intros H. apply (f_equal NilZero.uint_of_string) in H. rewrite !NilZero.usu in H by apply to_uint_nonnil.
  injection H as H. apply Unsigned.to_uint_inj, H.
Qed.
Lemma append_inj_l (p a b : string) : p ++ a = p ++ b -> a = b.
Proof. induction p as [|c p IH]; simpl; intros H; [exact H|]. injection H as H. auto. Qed.
Lemma member_file prefix p m : loaded_file prefix p m = saved_file prefix p m <-> part_first p = 0%nat.
Proof.
  unfold loaded_file, saved_file. split; [|intros ->; reflexivity]. intros H. do 2 apply append_inj_l in H. apply to_string_inj in H. lia.
Qed.
Lemma restart_member P N r p prefix m : (r < P)%nat -> split P N r = Ok p -> (m < part_size p)%nat ->
  (loaded_file prefix p m = saved_file prefix p m <-> part_color p = 0%nat).
Proof.
  intros L E M. rewrite member_file. apply split_inv in E; [|exact L]. destruct E as (NZ & [(A & D & F & G & H)|(A & D & F & G)]); [rewrite H; reflexivity|].
  rewrite G, D. destruct (Nat.eqb_spec r 0) as [->|NR]; [tauto|]. assert (Q1 : (1 <= Nat.div N P)%nat) by (apply Nat.div_le_lower_bound; lia). nia.
Qed.
(** What is loaded instead: the file of the member of the same local number in the first group, if it has one. *)
Lemma loads_first P N r p r0 p0 prefix m : (r < P)%nat -> split P N r = Ok p -> (r0 < P)%nat -> split P N r0 = Ok p0 -> part_color p0 = 0%nat -> (m < part_size p)%nat ->
  loaded_file prefix p m = saved_file prefix p0 m /\ (m < part_size p0)%nat.
Proof.
  intros L E L0 E0 C M. assert (F0 : part_first p0 = 0%nat /\ (part_size p <= part_size p0)%nat).
  { apply split_inv in E; [|exact L]. apply split_inv in E0; [|exact L0]. destruct E as (NZ & [(A & D & F & G & H)|(A & D & F & G)]), E0 as (_ & [(A' & D' & F' & G' & H')|(A' & D' & F' & G')]); try lia.
    rewrite C in D'. subst r0. simpl in G', F'. rewrite F, F'. destruct (Nat.eqb r 0); lia. }
  destruct F0 as [F0 S0]. unfold loaded_file, saved_file. rewrite F0. split; [reflexivity|lia].
Qed.
Lemma saved_distinct P N r r' p p' prefix m m' : (r < P)%nat -> (r' < P)%nat -> split P N r = Ok p -> split P N r' = Ok p' ->
  (m < part_size p)%nat -> (m' < part_size p')%nat -> saved_file prefix p m = saved_file prefix p' m' -> part_color p = part_color p' /\ m = m'.
Proof.
  intros L L' E E' M M' H. unfold saved_file in H. do 2 apply append_inj_l in H. apply to_string_inj in H.
  assert (C : part_color p = part_color p').
  { apply (owned_unique P N _ _ (part_first p + m)); [exists r, p|exists r', p']; repeat split; auto; lia. }
  destruct (same_group P N r r' p p' L L' E E' C) as [_ F]. split; [exact C|lia].
Qed.
