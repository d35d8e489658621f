(** ExperimentProofs2.v -- proofs for C32 (frames in the time loop). *)
From Coq Require Import Reals ZArith Bool List Lia Lra.
From Verif Require Import Base BaseFacts ExperimentModel ExperimentSpec.
Import ListNotations.
Local Open Scope R_scope.

Lemma rltb_t x y : Rltb x y = true <-> x < y.
Proof. unfold Rltb. destruct (Rlt_dec x y); split; intros; try discriminate; try reflexivity; lra. Qed.
Lemma rltb_f x y : Rltb x y = false <-> y <= x.
Proof. unfold Rltb. destruct (Rlt_dec x y); split; intros; try discriminate; try reflexivity; lra. Qed.
Lemma rleb_t x y : Rleb x y = true <-> x <= y.
Proof. unfold Rleb. destruct (Rle_dec x y); split; intros; try discriminate; try reflexivity; lra. Qed.
Lemma rleb_f x y : Rleb x y = false <-> y < x.
Proof. unfold Rleb. destruct (Rle_dec x y); split; intros; try discriminate; try reflexivity; lra. Qed.

Lemma incr_tail a l : increasing (a :: l) -> increasing l.
Proof. intros H i j x y L X Y. apply (H (S i) (S j) x y); [lia|assumption|assumption]. Qed.
Lemma incr_head a b l : increasing (a :: b :: l) -> a < b.
Proof. intros H. apply (H 0%nat 1%nat a b); [lia|reflexivity|reflexivity]. Qed.
Lemma incr_first a l x : increasing (a :: l) -> In x l -> a < x.
Proof. intros H I. apply In_nth_error in I. destruct I as [n I]. apply (H 0%nat (S n) a x); [lia|reflexivity|exact I]. Qed.
Lemma incr_le l i j x y : increasing l -> (i <= j)%nat -> nth_error l i = Some x -> nth_error l j = Some y -> x <= y.
Proof.
  intros H L X Y. destruct (Nat.eq_dec i j) as [->|NE]; [rewrite X in Y; injection Y as <-; lra|].
  apply Rlt_le, (H i j x y); [lia|assumption|assumption].
Qed.

Lemma due_S ts t rest k j : due ts (t :: rest) (S k) j <-> due ts rest k j /\ (forall x, nth_error ts j = Some x -> t < x).
Proof.
  split.
  - intros (x & t' & X & T & L & F). split.
    + exists x, t'. repeat split; try assumption. intros k' u Hk U. apply (F (S k') u); [lia|exact U].
    + intros y Y. rewrite X in Y. injection Y as <-. apply (F 0%nat t); [lia|reflexivity].
  - intros ((x & t' & X & T & L & F) & G). exists x, t'. repeat split; try assumption.
    intros [|k'] u Hk U; simpl in U; [injection U as <-; apply G, X|apply (F k' u); [lia|exact U]].
Qed.
Lemma due_0 ts t rest j : due ts (t :: rest) 0 j <-> exists x, nth_error ts j = Some x /\ x <= t.
Proof.
  split.
  - intros (x & t' & X & T & L & _). simpl in T. injection T as <-. exists x. auto.
  - intros (x & X & L). exists x, t. repeat split; try assumption. intros k' t' Hk. lia.
Qed.

(** One step, real arithmetic. *)
Lemma step_none (ts : list R) (half : R) n (old t : R) (st : fstate RNum) : (List.length ts <= f_next st)%nat ->
  frame_step (N := RNum) ts half n old t st = Ok (st, Nothing).
Proof. intros H. unfold frame_step. cbn [num RNum] in *. destruct (Nat.ltb_spec (f_next st) (List.length ts)); [lia|reflexivity]. Qed.
Lemma step_wait (ts : list R) (half : R) n (old t : R) (st : fstate RNum) (x : R) : nth_error ts (f_next st) = Some x -> t < x ->
  exists da : R, frame_step (N := RNum) ts half n old t st = Ok (mkfs (N := RNum) (f_next st) (f_reader st) da, Nothing) /\ da = (if Rltb (f_da_time st + half) t then x else f_da_time st).
Proof.
  intros X L. unfold frame_step. assert (H : (f_next st < List.length ts)%nat) by (apply nth_error_Some; rewrite X; discriminate).
  cbn [num RNum] in *. destruct (Nat.ltb_spec (f_next st) (List.length ts)); [|lia]. unfold at_. rewrite X. cbn [bind].
  simpl (nleb RNum). rewrite (proj2 (rleb_f x t) L). eexists. split; reflexivity.
Qed.
Lemma step_due (ts : list R) (half : R) n (old t : R) (st : fstate RNum) (x y : R) : nth_error ts (f_next st) = Some x -> x <= t -> nth_error ts (f_reader st) = Some y -> y <= t ->
  exists da : R, frame_step (N := RNum) ts half n old t st = (if Rltb old y || Nat.eqb n 1 then Ok (mkfs (N := RNum) (S (f_reader st)) (S (f_reader st)) da, Assimilated (f_reader st)) else Throw) /\
  da = (if Rltb (f_da_time st + half) t then x else f_da_time st).
Proof.
  intros X L Y L'. unfold frame_step. assert (H : (f_next st < List.length ts)%nat) by (apply nth_error_Some; rewrite X; discriminate).
  cbn [num RNum] in *. destruct (Nat.ltb_spec (f_next st) (List.length ts)); [|lia]. unfold at_. rewrite X. cbn [bind].
  simpl (nleb RNum). rewrite (proj2 (rleb_t x t) L). rewrite Y. cbn [bind]. simpl (nleb RNum). rewrite (proj2 (rleb_t y t) L'). eexists. split; reflexivity.
Qed.

Lemma run_ok_gen (ts : list R) (half : R) : increasing ts -> forall (times : list R) (old : R) n m (da : R), increasing (old :: times) -> (n = 1%nat \/ forall j x, (m <= j)%nat -> nth_error ts j = Some x -> old < x) ->
  (forall k j j', (m <= j)%nat -> (m <= j')%nat -> due ts times k j -> due ts times k j' -> j = j') ->
  exists evs, frame_run (N := RNum) ts half n old times (mkfs (N := RNum) m m da) = Ok evs /\ List.length evs = List.length times /\
    forall k st e, nth_error evs k = Some (st, e) ->
      (exists j, e = Assimilated j /\ (m <= j)%nat /\ due ts times k j) \/ (e = Nothing /\ forall j, (m <= j)%nat -> ~ due ts times k j).
Proof.
  intros It. induction times as [|t rest IH]; intros old n m da Ir Hm Ap.
  - exists []. split; [reflexivity|]. split; [reflexivity|]. intros [|k] st e E; discriminate.
  - assert (Ir' := incr_tail _ _ Ir). assert (Lt := incr_head _ _ _ Ir).
    destruct (nth_error ts m) as [x|] eqn:X.
    + destruct (Rle_dec x t) as [L|L].
      * destruct (step_due ts half n old t (mkfs (N := RNum) m m da) x x X L X L) as (da' & E & _).
        assert (C : Rltb old x || Nat.eqb n 1 = true).
        { destruct Hm as [->|Hm]; [apply orb_true_r|]. apply orb_true_iff. left. apply rltb_t, (Hm m x); [lia|exact X]. }
        rewrite C in E. cbn [f_reader] in E.
        assert (Hn : forall j y, (S m <= j)%nat -> nth_error ts j = Some y -> t < y).
        { intros j y Hj Y. destruct (Rlt_dec t y) as [K|K]; [exact K|]. exfalso.
          assert (j = m); [|lia]. apply (Ap 0%nat); [lia|lia|apply due_0; exists y; split; [exact Y|lra]|apply due_0; exists x; auto]. }
        destruct (IH t (S n) (S m) da' Ir' (or_intror Hn)) as (evs & Er & Ln & H).
        { intros k j j' Hj Hj' D D'. apply (Ap (S k)); [lia|lia|apply due_S; split; [exact D|intros y Y; exact (Hn j y Hj Y)]|apply due_S; split; [exact D'|intros y Y; exact (Hn j' y Hj' Y)]]. }
        exists ((mkfs (N := RNum) (S m) (S m) da', Assimilated m) :: evs). split.
        { cbn [frame_run]. rewrite E. cbn [bind]. rewrite Er. reflexivity. }
        split; [simpl; congruence|]. intros [|k] st e Ek; simpl in Ek.
        -- injection Ek as <- <-. left. exists m. split; [reflexivity|]. split; [lia|]. apply due_0. exists x; auto.
        -- destruct (H k st e Ek) as [(j & -> & Hj & D)|(-> & D)].
           ++ left. exists j. split; [reflexivity|]. split; [lia|]. apply due_S. split; [exact D|]. intros y Y. apply (Hn j y Hj Y).
           ++ right. split; [reflexivity|]. intros j Hj Dj. apply due_S in Dj. destruct Dj as [Dj G].
              destruct (Nat.eq_dec j m) as [->|NE]; [specialize (G x X); lra|]. apply (D j); [lia|exact Dj].
      * destruct (step_wait ts half n old t (mkfs (N := RNum) m m da) x X ltac:(lra)) as (da' & E & _). cbn [f_next f_reader] in E.
        assert (Hn : forall j y, (m <= j)%nat -> nth_error ts j = Some y -> t < y).
        { intros j y Hj Y. assert (x <= y) by (apply (incr_le ts m j); assumption). lra. }
        destruct (IH t (S n) m da' Ir' (or_intror Hn)) as (evs & Er & Ln & H).
        { intros k j j' Hj Hj' D D'. apply (Ap (S k)); [lia|lia|apply due_S; split; [exact D|intros y Y; exact (Hn j y Hj Y)]|apply due_S; split; [exact D'|intros y Y; exact (Hn j' y Hj' Y)]]. }
        exists ((mkfs (N := RNum) m m da', Nothing) :: evs). split.
        { cbn [frame_run]. rewrite E. cbn [bind]. rewrite Er. reflexivity. }
        split; [simpl; congruence|]. intros [|k] st e Ek; simpl in Ek.
        -- injection Ek as <- <-. right. split; [reflexivity|]. intros j Hj Dj. apply due_0 in Dj. destruct Dj as (y & Y & Ly). specialize (Hn j y Hj Y). lra.
        -- destruct (H k st e Ek) as [(j & -> & Hj & D)|(-> & D)].
           ++ left. exists j. split; [reflexivity|]. split; [lia|]. apply due_S. split; [exact D|]. intros y Y. apply (Hn j y Hj Y).
           ++ right. split; [reflexivity|]. intros j Hj Dj. apply due_S in Dj. apply (D j Hj), Dj.
    + apply nth_error_None in X.
      destruct (IH t (S n) m da Ir') as (evs & Er & Ln & H).
      { right. intros j y Hj Y. assert ((j < List.length ts)%nat) by (apply nth_error_Some; rewrite Y; discriminate). lia. }
      { intros k j j' Hj Hj' (y & u & Y & _). assert ((j < List.length ts)%nat) by (apply nth_error_Some; rewrite Y; discriminate). lia. }
      exists ((mkfs (N := RNum) m m da, Nothing) :: evs). split.
      { cbn [frame_run]. rewrite step_none by exact X. cbn [bind]. rewrite Er. reflexivity. }
      assert (Nd : forall ts' k j, (m <= j)%nat -> ~ due ts ts' k j).
      { intros ts' k j Hj (y & u & Y & _). assert ((j < List.length ts)%nat) by (apply nth_error_Some; rewrite Y; discriminate). lia. }
      split; [simpl; congruence|]. intros [|k] st e Ek; simpl in Ek.
      * injection Ek as <- <-. right. split; [reflexivity|]. intros j Hj. apply Nd, Hj.
      * destruct (H k st e Ek) as [(j & -> & Hj & D)|(-> & D)]; [exfalso; apply (Nd rest k j Hj D)|]. right. split; [reflexivity|]. intros j Hj. apply Nd, Hj.
Qed.

Lemma run_throw_gen (ts : list R) (half : R) : increasing ts -> forall (times : list R) (old : R) n m (da : R), (1 <= n)%nat -> increasing (old :: times) -> (n = 1%nat \/ forall j x, (m <= j)%nat -> nth_error ts j = Some x -> old < x) ->
  (exists k j j', (S k < List.length times)%nat /\ (m <= j < j')%nat /\ due ts times k j /\ due ts times k j') ->
  frame_run (N := RNum) ts half n old times (mkfs (N := RNum) m m da) = Throw.
Proof.
  intros It. induction times as [|t rest IH]; intros old n m da Hn1 Ir Hm (k & j & j' & Hk & Hj & D & D').
  - simpl in Hk. lia.
  - assert (Ir' := incr_tail _ _ Ir). assert (Lt := incr_head _ _ _ Ir).
    destruct (nth_error ts m) as [x|] eqn:X.
    2:{ apply nth_error_None in X. destruct D as (y & u & Y & _). assert ((j < List.length ts)%nat) by (apply nth_error_Some; rewrite Y; discriminate). lia. }
    cbn [frame_run]. destruct (Rle_dec x t) as [L|L].
    + destruct (step_due ts half n old t (mkfs (N := RNum) m m da) x x X L X L) as (da' & E & _).
      assert (C : Rltb old x || Nat.eqb n 1 = true).
      { destruct Hm as [->|Hm]; [apply orb_true_r|]. apply orb_true_iff. left. apply rltb_t, (Hm m x); [lia|exact X]. }
      rewrite C in E. cbn [f_reader] in E. rewrite E. cbn [bind].
      assert (Hj' : (j' < List.length ts)%nat) by (destruct D' as (y & u & Y & _); apply nth_error_Some; rewrite Y; discriminate).
      destruct (nth_error ts (S m)) as [z|] eqn:Z.
      2:{ apply nth_error_None in Z. lia. }
      destruct (Rle_dec z t) as [Lz|Lz].
      * (* the frame that follows is missed *)
        destruct rest as [|t2 rest]; [simpl in Hk; lia|]. assert (L2 := incr_head _ _ _ Ir').
        cbn [frame_run]. destruct (step_due ts half (S n) t t2 (mkfs (N := RNum) (S m) (S m) da') z z Z ltac:(lra) Z ltac:(lra)) as (da2 & E2 & _).
        rewrite (proj2 (rltb_f t z) Lz) in E2. assert (Nat.eqb (S n) 1 = false) as Nf by (apply Nat.eqb_neq; lia). rewrite Nf in E2. cbn [orb] in E2.
        rewrite E2. reflexivity.
      * assert (Hn : forall j y, (S m <= j)%nat -> nth_error ts j = Some y -> t < y).
        { intros i y Hi Y. assert (z <= y) by (apply (incr_le ts (S m) i); assumption). lra. }
        destruct k as [|k].
        -- exfalso. apply due_0 in D'. destruct D' as (y & Y & Ly). specialize (Hn j' y ltac:(lia) Y). lra.
        -- rewrite (IH t (S n) (S m) da'); [reflexivity|lia|exact Ir'|right; exact Hn|].
           apply due_S in D, D'. destruct D as [D G], D' as [D' G'].
           exists k, j, j'. split; [simpl in Hk; lia|]. split; [|split; assumption].
           assert (j <> m) by (intros ->; specialize (G x X); lra). lia.
    + destruct (step_wait ts half n old t (mkfs (N := RNum) m m da) x X ltac:(lra)) as (da' & E & _). cbn [f_next f_reader] in E. rewrite E. cbn [bind].
      assert (Hn : forall j y, (m <= j)%nat -> nth_error ts j = Some y -> t < y).
      { intros i y Hi Y. assert (x <= y) by (apply (incr_le ts m i); assumption). lra. }
      destruct k as [|k].
      * exfalso. apply due_0 in D. destruct D as (y & Y & Ly). specialize (Hn j y ltac:(lia) Y). lra.
      * rewrite (IH t (S n) m da'); [reflexivity|lia|exact Ir'|right; exact Hn|].
        apply due_S in D, D'. exists k, j, j'. split; [simpl in Hk; lia|]. split; [lia|]. split; [apply D|apply D'].
Qed.

Lemma due_unique ts times k k' j : due ts times k j -> due ts times k' j -> k = k'.
Proof.
  intros (x & t & X & T & L & F) (x' & t' & X' & T' & L' & F'). rewrite X in X'. injection X' as <-.
  destruct (Nat.lt_trichotomy k k') as [H|[H|H]]; [|exact H|].
  - specialize (F' k t H T). lra.
  - specialize (F k' t' H T'). lra.
Qed.
Lemma due_order ts times k k' j j' : increasing ts -> due ts times k j -> due ts times k' j' -> (k < k')%nat -> (j < j')%nat.
Proof.
  intros It (x & t & X & T & L & F) (x' & t' & X' & T' & L' & F') H. specialize (F' k t H T).
  destruct (Nat.lt_ge_cases j j') as [Q|Q]; [exact Q|]. assert (x' <= x) by (apply (incr_le ts j' j); assumption). lra.
Qed.
Lemma due_exists ts times j x t : nth_error ts j = Some x -> In t times -> x <= t -> exists k, due ts times k j.
Proof.
  intros X. induction times as [|u rest IH]; intros I L; [destruct I|].
  destruct (Rle_dec x u) as [Q|Q]; [exists 0%nat; apply due_0; exists x; auto|].
  destruct I as [->|I]; [contradiction|]. destruct (IH I L) as [k D]. exists (S k). apply due_S. split; [exact D|]. intros y Y. rewrite X in Y. injection Y as <-. lra.
Qed.

Definition events {N : Num} (evs : list (fstate N * fevent)) : list fevent := map snd evs.
Theorem each_once (ts : list R) (half t0 : R) (times : list R) : increasing ts -> increasing (t0 :: times) -> apart ts times ->
  exists evs, frame_run (N := RNum) ts half 1 t0 times (frames_initial (N := RNum) 0) = Ok evs /\ List.length evs = List.length times /\
    (forall k j, nth_error (map snd evs) k = Some (Assimilated j) <-> due ts times k j) /\
    (forall k j, nth_error (map snd evs) k <> Some (Read j)) /\
    (forall j x t, nth_error ts j = Some x -> In t times -> x <= t -> exists k, nth_error (map snd evs) k = Some (Assimilated j) /\ forall k', nth_error (map snd evs) k' = Some (Assimilated j) -> k' = k) /\
    (forall k k' j j', (k < k')%nat -> nth_error (map snd evs) k = Some (Assimilated j) -> nth_error (map snd evs) k' = Some (Assimilated j') -> (j < j')%nat).
Proof.
  intros It Ir Ap. destruct (run_ok_gen ts half It times t0 1 0 (IZR (-1)) Ir (or_introl eq_refl)) as (evs & E & L & H).
  { intros k j j' _ _. apply Ap. }
  assert (H' : forall k j, nth_error (map snd evs) k = Some (Assimilated j) <-> due ts times k j).
  { intros k j. split.
    - intros K. rewrite nth_error_map in K. destruct (nth_error evs k) as [[st e]|] eqn:Ek; [|discriminate]. simpl in K. injection K as ->.
      destruct (H k st _ Ek) as [(j' & Ej & _ & D)|(Ej & _)]; [injection Ej as <-; exact D|discriminate].
    - intros D. assert ((k < List.length evs)%nat).
      { rewrite L. destruct D as (x & t & _ & T & _). apply nth_error_Some. rewrite T. discriminate. }
      destruct (nth_error evs k) as [[st e]|] eqn:Ek; [|apply nth_error_None in Ek; lia].
      rewrite nth_error_map, Ek. simpl. destruct (H k st e Ek) as [(j' & -> & _ & D')|(_ & D')]; [rewrite (Ap k j j' D D'); reflexivity|].
      exfalso. apply (D' j); [lia|exact D]. }
  exists evs. split; [exact E|]. split; [exact L|]. split; [exact H'|]. split; [|split].
  - intros k j K. rewrite nth_error_map in K. destruct (nth_error evs k) as [[st e]|] eqn:Ek; [|discriminate]. simpl in K. injection K as ->.
    destruct (H k st _ Ek) as [(j' & Ej & _)|(Ej & _)]; discriminate.
  - intros j x t X I Lx. destruct (due_exists ts times j x t X I Lx) as [k D]. exists k. split; [apply H', D|]. intros k' K. apply H' in K. apply (due_unique ts times k' k j K D).
  - intros k k' j j' Hk K K'. apply H' in K, K'. apply (due_order ts times k k' j j'); assumption.
Qed.
Theorem two_in_a_step (ts : list R) (half t0 : R) (times : list R) : increasing ts -> increasing (t0 :: times) ->
  (exists k j j', (S k < List.length times)%nat /\ j <> j' /\ due ts times k j /\ due ts times k j') ->
  frame_run (N := RNum) ts half 1 t0 times (frames_initial (N := RNum) 0) = Throw.
Proof.
  intros It Ir (k & j & j' & Hk & NE & D & D'). apply run_throw_gen; try assumption; [lia|left; reflexivity|].
  destruct (Nat.lt_ge_cases j j').
  - exists k, j, j'. repeat split; try assumption; lia.
  - exists k, j', j. repeat split; try assumption; lia.
Qed.
Lemma spaced_apart ts t0 times : increasing ts -> increasing (t0 :: times) -> spaced ts times -> apart ts times.
Proof.
  intros It Ir (Sp & S1). assert (G : forall k j j', (j < j')%nat -> due ts times k j -> due ts times k j' -> False).
  { intros k j j' Hj (x & t & X & T & L & F) (x' & t' & X' & T' & L' & F'). rewrite T in T'. injection T' as <-.
    destruct (nth_error ts (S j)) as [y|] eqn:Y.
    2:{ apply nth_error_None in Y. assert ((j' < List.length ts)%nat) by (apply nth_error_Some; rewrite X'; discriminate). lia. }
    assert (y <= x') by (apply (incr_le ts (S j) j'); [assumption|lia|assumption|assumption]).
    destruct k as [|k].
    - destruct (nth_error ts 1) as [z|] eqn:Z; [|apply nth_error_None in Z; assert ((S j < List.length ts)%nat) by (apply nth_error_Some; rewrite Y; discriminate); lia].
      assert (z <= y) by (apply (incr_le ts 1 (S j)); [assumption|lia|assumption|assumption]). specialize (S1 z t eq_refl T). lra.
    - destruct (nth_error times k) as [u|] eqn:U.
      2:{ apply nth_error_None in U. assert ((S k < List.length times)%nat) by (apply nth_error_Some; rewrite T; discriminate). lia. }
      specialize (F k u ltac:(lia) U). specialize (Sp j x y k u t X Y U T). lra. }
  intros k j j' D D'. destruct (Nat.lt_trichotomy j j') as [H|[H|H]]; [exfalso; eapply G; eassumption|exact H|exfalso; eapply G; eassumption].
Qed.

(** Any state, any first frame. *)
Theorem assimilated_window (N : Num) (ts : list N) half : forall times n old st evs, frame_run ts half n old times st = Ok evs ->
  forall k j, nth_error (map snd evs) k = Some (Assimilated j) ->
  exists x prev t, nth_error ts j = Some x /\ nth_error (old :: times) k = Some prev /\ nth_error times k = Some t /\ nleb N x t = true /\ (nltb N prev x = true \/ (n + k = 1)%nat).
Proof.
  induction times as [|t rest IH]; intros n old st evs E k j K.
  - simpl in E. injection E as <-. destruct k; discriminate.
  - cbn [frame_run] in E. destruct (frame_step ts half n old t st) as [[st' e]| |] eqn:Es; try discriminate. cbn [bind] in E.
    destruct (frame_run ts half (S n) t rest st') as [r| |] eqn:Er; try discriminate. cbn [bind] in E. injection E as <-.
    destruct k as [|k]; simpl in K.
    + injection K as ->. unfold frame_step in Es. destruct (Nat.ltb (f_next st) (List.length ts)); [|discriminate].
      destruct (at_ ts (f_next st)) as [x| |]; try discriminate. cbn [bind] in Es. destruct (nleb N x t); [|discriminate].
      unfold at_ in Es. destruct (nth_error ts (f_reader st)) as [y|] eqn:Y; try discriminate. cbn [bind] in Es.
      destruct (nleb N y t) eqn:Ly; [|discriminate]. destruct (nltb N old y || Nat.eqb n 1) eqn:C; [|discriminate]. inversion Es; subst j.
      exists y, old, t. repeat split; try assumption. apply orb_prop in C. destruct C as [C|C]; [left; exact C|right; apply Nat.eqb_eq in C; lia].
    + destruct (IH _ _ _ _ Er k j K) as (x & prev & u & X & Pv & U & L & C). exists x, prev, u. repeat split; try assumption. destruct C as [C|C]; [left; exact C|right; lia].
Qed.

(** Restart. *)
Lemma advance_ok (ts : list R) (T : R) : forall i m, advance (N := RNum) ts T i = Ok m <-> (i <= m)%nat /\ (exists x, nth_error ts (m - i) = Some x /\ T <= x) /\ forall j x, (j < m - i)%nat -> nth_error ts j = Some x -> x < T.
Proof.
  induction ts as [|t ts IH]; intros i m.
  - simpl. split; [discriminate|]. intros (_ & (x & X & _) & _). destruct (m - i)%nat; discriminate.
  - cbn [advance]. simpl (nltb RNum). destruct (Rltb t T) eqn:C.
    + apply rltb_t in C. rewrite IH. split.
      * intros (H & (x & X & L) & F). split; [lia|]. replace (m - i)%nat with (S (m - S i)) by lia. split; [exists x; auto|].
        intros [|j] y Hj Y; simpl in Y; [injection Y as <-; exact C|apply (F j y); [lia|exact Y]].
      * intros (H & (x & X & L) & F). destruct (Nat.eq_dec m i) as [->|NE].
        -- rewrite Nat.sub_diag in X. simpl in X. injection X as <-. lra.
        -- split; [lia|]. replace (m - i)%nat with (S (m - S i)) in * by lia. split; [exists x; auto|].
           intros j y Hj Y. apply (F (S j) y); [lia|exact Y].
    + apply rltb_f in C. split.
      * intros E. injection E as <-. rewrite Nat.sub_diag. split; [lia|]. split; [exists t; auto|]. intros j x Hj. lia.
      * intros (H & _ & F). destruct (Nat.eq_dec m i) as [->|NE]; [reflexivity|]. specialize (F 0%nat t ltac:(lia) eq_refl). lra.
Qed.
Lemma advance_total (ts : list R) (T : R) : forall i, advance (N := RNum) ts T i = UB <-> forall x, In x ts -> x < T.
Proof.
  induction ts as [|t ts IH]; intros i; cbn [advance].
  - split; [intros _ x []|reflexivity].
  - simpl (nltb RNum). destruct (Rltb t T) eqn:C.
    + apply rltb_t in C. rewrite IH. split; [intros H x [<-|I]; [exact C|apply H, I]|intros H x I; apply H; right; exact I].
    + apply rltb_f in C. split; [discriminate|]. intros H. specialize (H t (or_introl eq_refl)). lra.
Qed.
Theorem restart_ub (ts : list R) (T : R) first : (forall x, In x ts -> x < T) -> frames_restarted (N := RNum) first ts T = UB.
Proof. intros H. unfold frames_restarted. rewrite (proj2 (advance_total ts T 0) H). reflexivity. Qed.
Theorem restart_fresh (ts : list R) (T x : R) : nth_error ts 0 = Some x -> T <= x -> frames_restarted (N := RNum) 0 ts T = Ok (frames_initial (N := RNum) 0).
Proof.
  intros X L. unfold frames_restarted. rewrite (proj2 (advance_ok ts T 0 0)); [reflexivity|]. split; [lia|]. split; [exists x; auto|]. intros j y Hj. lia.
Qed.
Lemma restart_run (ts : list R) (half : R) : forall (times : list R) n (old : R) m (da x y : R), nth_error ts m = Some x -> nth_error ts 0 = Some y -> y <= old -> (2 <= n)%nat -> increasing (old :: times) ->
  (exists t, In t times /\ x <= t) -> y <= x -> frame_run (N := RNum) ts half n old times (mkfs (N := RNum) m 0 da) = Throw.
Proof.
  induction times as [|t rest IH]; intros n old m da x y X Y Ly Hn Ir (u & I & Lu) Lxy; [destruct I|].
  cbn [frame_run]. assert (Lt := incr_head _ _ _ Ir). destruct (Rle_dec x t) as [L|L].
  - destruct (step_due ts half n old t (mkfs (N := RNum) m 0 da) x y X L Y ltac:(lra)) as (da' & E & _).
    rewrite (proj2 (rltb_f old y) Ly) in E. assert (Nat.eqb n 1 = false) as Nf by (apply Nat.eqb_neq; lia). rewrite Nf in E. cbn [orb] in E. rewrite E. reflexivity.
  - destruct (step_wait ts half n old t (mkfs (N := RNum) m 0 da) x X ltac:(lra)) as (da' & E & _). rewrite E. cbn [bind f_next f_reader].
    rewrite (IH (S n) t m da' x y); [reflexivity|exact X|exact Y|lra|lia|apply (incr_tail _ _ Ir)| |exact Lxy].
    exists u. split; [|exact Lu]. destruct I as [<-|I]; [contradiction|exact I].
Qed.
Theorem restart_aborts (ts : list R) (half T y : R) (times : list R) n st : increasing ts -> increasing (T :: times) -> (2 <= n)%nat ->
  nth_error ts 0 = Some y -> y < T -> frames_restarted (N := RNum) 0 ts T = Ok st ->
  exists x, nth_error ts (f_next st) = Some x /\ T <= x /\ ((exists t, In t times /\ x <= t) -> frame_run (N := RNum) ts half n T times st = Throw).
Proof.
  intros It Ir Hn Y Ly E. unfold frames_restarted in E. destruct (advance (N := RNum) ts T 0) as [m| |] eqn:Em; try discriminate. cbn [bind] in E. injection E as <-.
  apply advance_ok in Em. destruct Em as (_ & (x & X & L) & _). rewrite Nat.sub_0_r in X. exists x. cbn [f_next]. split; [exact X|]. split; [exact L|].
  intros H. apply (restart_run ts half times n T m _ x y); try assumption; [lra|lra].
Qed.

(** Output around the frames. *)
Theorem output_at_frames (ts : list R) (half t0 : R) (times : list R) : increasing ts -> increasing (t0 :: times) -> apart ts times ->
  (forall x, nth_error ts 0 = Some x -> t0 < x) -> (forall k t t', nth_error (t0 :: times) k = Some t -> nth_error times k = Some t' -> t' - t <= half) -> 0 < half ->
  (forall t, nth_error times 0 = Some t -> -1 + half < t) ->
  forall evs, frame_run (N := RNum) ts half 1 t0 times (frames_initial (N := RNum) 0) = Ok evs ->
  forall k st j t period n, nth_error evs k = Some (st, Assimilated j) -> nth_error times k = Some t ->
  writes_output (N := RNum) true period n half t st = true \/ t = f_da_time st + half.
Proof.
  intros It. unfold frames_initial.
  assert (G : forall (times : list R) (t0 : R) n m (da : R) evs, increasing (t0 :: times) ->
    (forall j x, (m <= j)%nat -> nth_error ts j = Some x -> t0 < x) ->
    (forall k j j', (m <= j)%nat -> (m <= j')%nat -> due ts times k j -> due ts times k j' -> j = j') ->
    (forall k t t', nth_error (t0 :: times) k = Some t -> nth_error times k = Some t' -> t' - t <= half) -> 0 < half ->
    ((forall t, nth_error times 0 = Some t -> da + half < t) \/ exists i, (i <= m)%nat /\ nth_error ts i = Some da) ->
    frame_run (N := RNum) ts half n t0 times (mkfs (N := RNum) m m da) = Ok evs ->
    forall k st j t period n, nth_error evs k = Some (st, Assimilated j) -> nth_error times k = Some t ->
    writes_output (N := RNum) true period n half t st = true \/ t = f_da_time st + half).
  { induction times0 as [|t rest IH]; intros old n m da evs Ir Hm Ap St Hh Hd E k st j t' period n' Ek T; [destruct k; discriminate|].
    assert (Ir' := incr_tail _ _ Ir). assert (Lt := incr_head _ _ _ Ir). cbn [frame_run] in E.
    assert (Hst : t - old <= half) by (apply (St 0%nat); reflexivity).
    assert (St' : forall k t1 t2, nth_error (t :: rest) k = Some t1 -> nth_error rest k = Some t2 -> t2 - t1 <= half).
    { intros q t1 t2 A B. apply (St (S q)); assumption. }
    assert (Ap' : forall m', (m <= m')%nat -> (forall j x, (m' <= j)%nat -> nth_error ts j = Some x -> t < x) -> forall k j j', (m' <= j)%nat -> (m' <= j')%nat -> due ts rest k j -> due ts rest k j' -> j = j').
    { intros m' Hm' Hn q a b Ha Hb D D'. apply (Ap (S q)); [lia|lia|apply due_S; split; [exact D|intros y Y; exact (Hn a y Ha Y)]|apply due_S; split; [exact D'|intros y Y; exact (Hn b y Hb Y)]]. }
    destruct (nth_error ts m) as [x|] eqn:X.
    - assert (Da : forall da' : R, da' = (if Rltb (da + half) t then x else da) -> exists i, (i <= m)%nat /\ nth_error ts i = Some da' ).
      { intros da' ->. destruct (Rltb (da + half) t) eqn:C; [exists m; auto|]. apply rltb_f in C. destruct Hd as [Hd|Hd]; [specialize (Hd t eq_refl); lra|exact Hd]. }
      destruct (Rle_dec x t) as [L|L].
      + destruct (step_due ts half n old t (mkfs (N := RNum) m m da) x x X L X L) as (da' & Es & Eda). cbn [f_da_time f_reader] in *.
        assert (Lx : old < x) by (apply (Hm m x); [lia|exact X]).
        rewrite (proj2 (rltb_t old x) Lx) in Es. cbn [orb] in Es. rewrite Es in E. cbn [bind] in E.
        destruct (frame_run (N := RNum) ts half (S n) t rest (mkfs (N := RNum) (S m) (S m) da')) as [r| |] eqn:Er; try discriminate. cbn [bind] in E. injection E as <-.
        assert (Hn : forall j y, (S m <= j)%nat -> nth_error ts j = Some y -> t < y).
        { intros q y Hq Y. destruct (Rlt_dec t y) as [K|K]; [exact K|]. exfalso.
          assert (q = m); [|lia]. apply (Ap 0%nat); [lia|lia|apply due_0; exists y; split; [exact Y|lra]|apply due_0; exists x; auto]. }
        destruct (Da da' Eda) as (i & Hi & Xi).
        destruct k as [|k]; simpl in Ek, T.
        * injection Ek as <- <-. injection T as <-. unfold writes_output. cbn [f_da_time]. simpl (nltb RNum). simpl (nsub RNum). simpl (nadd RNum).
          assert (Ld : da' <= x) by (apply (incr_le ts i m); assumption).
          assert (Lh : t <= da' + half).
          { rewrite Eda. destruct (Rltb (da + half) t) eqn:C; [lra|apply rltb_f in C; lra]. }
          destruct (Rlt_dec t (da' + half)) as [Q|Q]; [left|right; cbn [num RNum] in *; lra].
          rewrite (proj2 (rltb_t t (da' + half)) Q). rewrite (proj2 (rltb_t (da' - half) t)) by lra. apply orb_true_r.
        * apply (IH t (S n) (S m) da' r Ir' Hn (Ap' (S m) ltac:(lia) Hn) St' Hh) with (k := k) (j := j); try assumption. right. exists i. split; [lia|exact Xi].
      + destruct (step_wait ts half n old t (mkfs (N := RNum) m m da) x X ltac:(lra)) as (da' & Es & Eda). cbn [f_da_time f_reader f_next] in *. rewrite Es in E. cbn [bind] in E.
        destruct (frame_run (N := RNum) ts half (S n) t rest (mkfs (N := RNum) m m da')) as [r| |] eqn:Er; try discriminate. cbn [bind] in E. injection E as <-.
        assert (Hn : forall j y, (m <= j)%nat -> nth_error ts j = Some y -> t < y).
        { intros i y Hi Y. assert (x <= y) by (apply (incr_le ts m i); assumption). lra. }
        destruct k as [|k]; simpl in Ek, T; [discriminate|].
        apply (IH t (S n) m da' r Ir' Hn (Ap' m ltac:(lia) Hn) St' Hh) with (k := k) (j := j); try assumption. right. apply Da, Eda.
    - apply nth_error_None in X. rewrite step_none in E by exact X. cbn [bind] in E.
      destruct (frame_run (N := RNum) ts half (S n) t rest (mkfs (N := RNum) m m da)) as [r| |] eqn:Er; try discriminate. cbn [bind] in E. injection E as <-.
      destruct k as [|k]; simpl in Ek; [discriminate|]. exfalso.
      (* no frame is left *)
      assert (Nd : forall times n old st evs, (List.length ts <= f_next st)%nat -> frame_run (N := RNum) ts half n old times st = Ok evs -> forall k st j, nth_error evs k <> Some (st, Assimilated j)).
      { clear. induction times as [|t rest IH]; intros n old st evs H E k st' j; cbn [frame_run] in E; [injection E as <-; destruct k; discriminate|].
        rewrite step_none in E by exact H. cbn [bind] in E. destruct (frame_run (N := RNum) ts half (S n) t rest st) as [r| |] eqn:Er; try discriminate. cbn [bind] in E. injection E as <-.
        destruct k as [|k]; simpl; [discriminate|]. apply (IH _ _ _ _ H Er). }
      exact (Nd rest (S n) t (mkfs (N := RNum) m m da) r X Er k st j Ek). }
  intros Ir Ap H0 St Hh H1 evs E. apply (G times t0 1%nat 0%nat (IZR (-1)) evs); try assumption.
  - intros j x _ X. destruct (nth_error ts 0) as [y|] eqn:Y.
    + specialize (H0 y eq_refl). assert (y <= x) by (apply (incr_le ts 0 j); [assumption|lia|assumption|assumption]). lra.
    + apply nth_error_None in Y. assert ((j < List.length ts)%nat) by (apply nth_error_Some; rewrite X; discriminate). lia.
  - intros k j j' _ _. apply Ap.
  - left. exact H1.
Qed.
