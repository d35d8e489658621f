(** CholeskyProofs.v -- the factorisation of the covariance of the observations. *)
From Coq Require Import Reals ZArith Bool List Lia Lra.
From Verif Require Import Base BaseFacts AssimilationModel AssimilationSpec AssimilationProofs AssimilationProofs2 AssimilationProofs3 AssimilationProofs4 CholeskyModel AnalysisSpec CholeskySpec AnalysisProofs AnalysisProofs2.
Import ListNotations.
Local Open Scope R_scope.

Lemma Rsum_to_first n f : Rsum_to (S n) f = f 0%nat + Rsum_to n (fun i => f (S i)).
Proof. unfold Rsum_to. cbn [seq map Rsum fold_right]. f_equal. rewrite <- seq_shift, map_map. reflexivity. Qed.
Lemma Rsum_to_trunc p q f : (p <= q)%nat -> (forall k, (p <= k < q)%nat -> f k = 0) -> Rsum_to q f = Rsum_to p f.
Proof.
  intros H. induction q as [|q IH]; intros Z; [f_equal; lia|]. destruct (Nat.eq_dec p (S q)) as [->|Ne]; [reflexivity|]. rewrite Rsum_to_S, IH, (Z q) by (lia || (intros; apply Z; lia)). ring.
Qed.
Lemma dot_acc (a : list R) : forall (b : list R) (s : R), fold_left (fun s (p : R * R) => s + fst p * snd p) (combine a b) s = s + Rsum_to (List.length a) (fun k => nth k a 0 * nth k b 0).
Proof.
  induction a as [|x a IH]; intros b s; [simpl; unfold Rsum_to; simpl; ring|]. destruct b as [|y b].
  - cbn [combine fold_left]. rewrite (Rsum_to_zero _ _); [ring|]. intros i _. destruct i; simpl; ring.
  - cbn [combine fold_left fst snd List.length]. rewrite IH, Rsum_to_first. cbn [nth]. ring.
Qed.
Lemma dot_R (a b : list R) : dot (N := RNum) a b = Rsum_to (List.length a) (fun k => nth k a 0 * nth k b 0).
Proof. pose proof (dot_acc a b 0) as H. rewrite Rplus_0_l in H. exact H. Qed.
Definition Lf (rows : list (list R)) (i j : nat) : R := nth j (nth i rows []) 0.
Definition shape (rows : list (list R)) : Prop := forall i, (i < List.length rows)%nat -> List.length (nth i rows []) = S i.
Lemma Lf_upper rows i j : shape rows -> (i < j)%nat -> Lf rows i j = 0.
Proof.
  intros H L. unfold Lf. destruct (le_lt_dec (List.length rows) i) as [G|G]; [rewrite (nth_overflow rows) by exact G; destruct j; reflexivity|]. apply nth_overflow. rewrite (H i G). lia.
Qed.
(** Forward substitution. *)
Definition solved (full : list (list R)) (ai : nat -> R) (l : list R) (m : nat) : Prop := forall j, (j < m)%nat -> Rsum_to (S j) (fun k => Lf full j k * nth k l 0) = ai j.
Lemma solved_next full ai acc r : nth (List.length acc) full [] = r -> nth (List.length acc) r 0 <> 0 -> solved full ai acc (List.length acc) ->
  solved full ai (acc ++ [1 / nth (List.length acc) r 0 * (ai (List.length acc) - dot (N := RNum) acc r)]) (S (List.length acc)).
Proof.
  intros Hr Hd H j L. destruct (Nat.eq_dec j (List.length acc)) as [->|Ne].
  - rewrite Rsum_to_S. rewrite (Rsum_to_ext (List.length acc) _ (fun k => nth k acc 0 * nth k r 0)) by (intros k Lk; unfold Lf; rewrite Hr, app_nth1 by exact Lk; ring).
    rewrite <- dot_R. unfold Lf at 1. rewrite Hr, app_nth2, Nat.sub_diag by lia. cbn [nth]. set (D := dot (N := RNum) acc r : R). change (D + nth (List.length acc) r 0 * (1 / nth (List.length acc) r 0 * (ai (List.length acc) - D)) = ai (List.length acc)). field. exact Hd.
  - rewrite <- (H j) by lia. apply Rsum_to_ext. intros k Lk. rewrite app_nth1 by lia. reflexivity.
Qed.
Lemma chol_row_cons (ai : nat -> R) (r : list R) rest (acc : list R) : nth (List.length acc) r 0 <> 0 ->
  chol_row (N := RNum) ai (r :: rest) acc = chol_row (N := RNum) ai rest (acc ++ [1 / nth (List.length acc) r 0 * (ai (List.length acc) - dot (N := RNum) acc r)]).
Proof.
  intros H. cbn [chol_row]. match goal with |- (if ?b then _ else _) = _ => assert (E : b = false) end. { change (Reqb (nth (List.length acc) r 0) 0 = false). destruct (Reqb_spec (nth (List.length acc) r 0) 0); [contradiction|reflexivity]. }
  rewrite E. reflexivity.
Qed.
Lemma chol_row_zero (ai : nat -> R) (r : list R) rest (acc : list R) : nth (List.length acc) r 0 = 0 -> chol_row (N := RNum) ai (r :: rest) acc = Throw.
Proof.
  intros H. cbn [chol_row]. match goal with |- (if ?b then _ else _) = _ => assert (E : b = true) end. { change (Reqb (nth (List.length acc) r 0) 0 = true). destruct (Reqb_spec (nth (List.length acc) r 0) 0); [reflexivity|contradiction]. }
  rewrite E. reflexivity.
Qed.
Lemma chol_row_ok (ai : nat -> R) : forall rows pre acc, List.length pre = List.length acc -> solved (pre ++ rows) ai acc (List.length acc) ->
  (forall j, (List.length acc <= j < List.length (pre ++ rows))%nat -> Lf (pre ++ rows) j j <> 0) ->
  exists l : list R, chol_row (N := RNum) ai rows acc = Ok l /\ List.length l = List.length (pre ++ rows) /\ solved (pre ++ rows) ai l (List.length (pre ++ rows)).
Proof.
  induction rows as [|r rest IH]; intros pre acc HL HS HD.
  - exists acc. rewrite app_nil_r in *. rewrite HL. repeat split. exact HS.
  - assert (Hr : nth (List.length acc) (pre ++ r :: rest) [] = r) by (rewrite app_nth2, HL, Nat.sub_diag by lia; reflexivity).
    assert (Hd : nth (List.length acc) r 0 <> 0). { pose proof (HD (List.length acc)) as H. unfold Lf in H. rewrite Hr in H. apply H. rewrite app_length. cbn [List.length]. lia. }
    rewrite (chol_row_cons ai r rest acc Hd).
    pose proof (solved_next _ ai acc r Hr Hd HS) as HS'. replace (pre ++ r :: rest) with ((pre ++ [r]) ++ rest) in * by (rewrite <- app_assoc; reflexivity).
    apply (IH (pre ++ [r]) (acc ++ [1 / nth (List.length acc) r 0 * (ai (List.length acc) - dot (N := RNum) acc r)])).
    + rewrite !app_length. simpl. lia.
    + rewrite app_length. simpl. rewrite Nat.add_1_r. exact HS'.
    + intros j Lj. apply HD. rewrite (app_length acc) in Lj. simpl in Lj. lia.
Qed.
Lemma chol_row_inv (ai : nat -> R) : forall rows pre acc l, List.length pre = List.length acc -> solved (pre ++ rows) ai acc (List.length acc) -> chol_row (N := RNum) ai rows acc = Ok l ->
  List.length l = List.length (pre ++ rows) /\ solved (pre ++ rows) ai l (List.length (pre ++ rows)).
Proof.
  induction rows as [|r rest IH]; intros pre acc l HL HS HE.
  - injection HE as <-. rewrite app_nil_r in *. rewrite HL. split; [reflexivity|exact HS].
  - assert (Hr : nth (List.length acc) (pre ++ r :: rest) [] = r) by (rewrite app_nth2, HL, Nat.sub_diag by lia; reflexivity).
    destruct (Req_EM_T (nth (List.length acc) r 0) 0) as [Z|Hd]; [rewrite (chol_row_zero ai r rest acc Z) in HE; discriminate|]. rewrite (chol_row_cons ai r rest acc Hd) in HE.
    pose proof (solved_next _ ai acc r Hr Hd HS) as HS'. replace (pre ++ r :: rest) with ((pre ++ [r]) ++ rest) in * by (rewrite <- app_assoc; reflexivity).
    apply (IH (pre ++ [r]) _ l) in HE; [exact HE| |].
    + rewrite !app_length. simpl. lia.
    + rewrite app_length. simpl. rewrite Nat.add_1_r. exact HS'.
Qed.
Lemma chol_row_outcome (ai : nat -> R) : forall rows acc, chol_row (N := RNum) ai rows acc <> UB.
Proof. induction rows as [|r rest IH]; intros acc; [discriminate|]. cbn [chol_row]. destruct (neqb RNum _ _); [discriminate|apply IH]. Qed.
Lemma chol_rows_outcome A : forall m rows, chol_rows (N := RNum) A m rows <> UB.
Proof.
  induction m as [|m IH]; intros rows; [discriminate|]. cbn [chol_rows]. pose proof (chol_row_outcome (A (List.length rows)) rows []) as H. destruct (chol_row _ rows []); cbn [bind]; [|discriminate|congruence].
  destruct (nleb RNum _ _); [apply IH|discriminate].
Qed.
(** Rows done so far. *)
Definition good (A : nat -> nat -> R) (rows : list (list R)) : Prop :=
  shape rows /\ (forall i, (i < List.length rows)%nat -> 0 <= Lf rows i i) /\
  forall i j, (i < List.length rows)%nat -> (j < List.length rows)%nat -> Rsum_to (List.length rows) (fun k => Lf rows i k * Lf rows j k) = A i j.
Definition sharp (rows : list (list R)) : Prop := forall i, (i < List.length rows)%nat -> 0 < Lf rows i i.
Lemma Lf_old rows l i j : (i < List.length rows)%nat -> Lf (rows ++ [l]) i j = Lf rows i j.
Proof. intros H. unfold Lf. rewrite app_nth1 by exact H. reflexivity. Qed.
Lemma Lf_new rows l j : Lf (rows ++ [l]) (List.length rows) j = nth j l 0.
Proof. unfold Lf. rewrite app_nth2, Nat.sub_diag by lia. reflexivity. Qed.
Lemma solved_full rows ai l j : shape rows -> solved rows ai l (List.length rows) -> (j < List.length rows)%nat -> Rsum_to (List.length rows) (fun k => Lf rows j k * nth k l 0) = ai j.
Proof. intros Sh H L. rewrite <- (H j L). apply Rsum_to_trunc; [lia|]. intros k Hk. rewrite Lf_upper by (assumption || lia). ring. Qed.
Lemma good_next n (A : nat -> nat -> R) rows (l : list R) d : symmetric n A -> (List.length rows < n)%nat -> good A rows -> List.length l = List.length rows -> solved rows (A (List.length rows)) l (List.length rows) -> d = A (List.length rows) (List.length rows) - Rsum_to (List.length l) (fun k => nth k l 0 * nth k l 0) -> 0 <= d ->
  good A (rows ++ [l ++ [sqrt d]]).
Proof.
  intros HS Ln [Sh [Dg Pr]] Hl So Hd D0. set (m := List.length rows) in *. set (L' := rows ++ [l ++ [sqrt d]]).
  assert (N1 : List.length L' = S m) by (unfold L'; rewrite app_length; simpl; lia).
  assert (Nl : forall k, (k < m)%nat -> nth k (l ++ [sqrt d]) 0 = nth k l 0) by (intros k Lk; rewrite app_nth1 by lia; reflexivity).
  assert (Nm : nth m (l ++ [sqrt d]) 0 = sqrt d) by (rewrite app_nth2 by lia; rewrite Hl, Nat.sub_diag; reflexivity).
  assert (Sh' : shape L').
  { intros i Li. rewrite N1 in Li. unfold L'. destruct (Nat.eq_dec i m) as [->|Ne]; [rewrite app_nth2 by lia; fold m; rewrite Nat.sub_diag; cbn [nth]; rewrite app_length; simpl; lia|]. rewrite app_nth1 by (fold m; lia). apply Sh. fold m. lia. }
  split; [exact Sh'|]. split.
  - intros i Li. rewrite N1 in Li. unfold L'. destruct (Nat.eq_dec i m) as [->|Ne]; [unfold m at 1; rewrite Lf_new; fold m; rewrite Nm; apply sqrt_pos|]. rewrite Lf_old by (fold m; lia). apply Dg. fold m; lia.
  - assert (Row : forall j, (j < m)%nat -> Rsum_to (S m) (fun k => Lf L' m k * Lf L' j k) = A m j).
    { intros j Lj. rewrite Rsum_to_S. rewrite (Lf_upper L' j m Sh' Lj), Rmult_0_r, Rplus_0_r. rewrite <- (solved_full rows (A m) l j Sh So Lj). fold m. apply Rsum_to_ext. intros k Lk. unfold L'. rewrite (Lf_old rows _ j) by exact Lj. replace m with (List.length rows) at 1 by reflexivity. rewrite Lf_new, (Nl k Lk). ring. }
    intros i j Li Lj. rewrite N1 in *. destruct (Nat.eq_dec i m) as [->|Ni]; destruct (Nat.eq_dec j m) as [->|Nj].
    + rewrite Rsum_to_S. replace (Lf L' m m) with (sqrt d) by (unfold L'; unfold m at 1; rewrite Lf_new; fold m; rewrite Nm; reflexivity). rewrite sqrt_sqrt by exact D0.
      rewrite (Rsum_to_ext m _ (fun k => nth k l 0 * nth k l 0)) by (intros k Lk; unfold L', m; rewrite Lf_new, (Nl k Lk); reflexivity). rewrite Hd, Hl. ring.
    + apply Row. lia.
    + rewrite (Rsum_to_ext (S m) _ (fun k => Lf L' m k * Lf L' i k)) by (intros; ring). rewrite Row by lia. apply HS; lia.
    + rewrite Rsum_to_S. rewrite (Lf_upper L' i m Sh'), Rmult_0_l, Rplus_0_r by lia. rewrite <- (Pr i j) by (fold m; lia). fold m. apply Rsum_to_ext. intros k Lk. unfold L'. rewrite !Lf_old by (fold m; lia). reflexivity.
Qed.
(** The pivots of a positive definite matrix are positive. *)
Lemma lower_injective m (L : nat -> nat -> R) d : (forall i, (i < m)%nat -> L i i <> 0) -> (forall i j, (i < j)%nat -> L i j = 0) -> (forall i, (i < m)%nat -> Rsum_to m (fun k => L i k * d k) = 0) -> forall k, (k < m)%nat -> d k = 0.
Proof.
  intros HD HU H k. induction k as [k IH] using lt_wf_ind. intros Lk. pose proof (H k Lk) as Hk. rewrite (Rsum_to_trunc (S k) m) in Hk by (lia || (intros q Hq; rewrite HU by lia; ring)).
  rewrite Rsum_to_S, (Rsum_to_zero k) in Hk by (intros q Hq; rewrite IH by lia; ring). rewrite Rplus_0_l in Hk. apply Rmult_integral in Hk as [Hk|Hk]; [destruct (HD k Lk Hk)|exact Hk].
Qed.
Lemma definite_le n m A : (m <= n)%nat -> positive_definite n A -> positive_definite m A.
Proof.
  intros Le D v [i [Li Vi]]. set (v' := fun i => if Nat.ltb i m then v i else 0). assert (V1 : forall i, (i < m)%nat -> v' i = v i) by (intros j Lj; unfold v'; destruct (Nat.ltb_spec j m); [reflexivity|lia]).
  assert (V2 : forall i, (m <= i)%nat -> v' i = 0) by (intros j Lj; unfold v'; destruct (Nat.ltb_spec j m); [lia|reflexivity]).
  assert (H : 0 < quadratic n A v') by (apply D; exists i; split; [lia|rewrite V1 by exact Li; exact Vi]). unfold quadratic in *.
  rewrite (Rsum_to_trunc m n) in H by (assumption || (intros q Hq; apply Rsum_to_zero; intros; rewrite (V2 q) by lia; ring)).
  rewrite (Rsum_to_ext m _ (fun i => Rsum_to m (fun j => v i * A i j * v j))) in H; [exact H|]. intros p Lp. rewrite (Rsum_to_trunc m n) by (assumption || (intros q Hq; rewrite (V2 q) by lia; ring)). apply Rsum_to_ext. intros q Lq. rewrite !V1 by assumption. reflexivity.
Qed.
Lemma pivot_pos n (A : nat -> nat -> R) rows (l : list R) : symmetric n A -> positive_definite n A -> (List.length rows < n)%nat -> good A rows -> sharp rows -> List.length l = List.length rows -> solved rows (A (List.length rows)) l (List.length rows) ->
  0 < A (List.length rows) (List.length rows) - Rsum_to (List.length l) (fun k => nth k l 0 * nth k l 0).
Proof.
  intros HS HD Ln [Sh [_ Pr]] Sp Hl So. rewrite Hl. set (m := List.length rows) in *.
  destruct (definite_solvable m A (definite_le n m A ltac:(lia) HD) (fun i => - A m i)) as [x X].
  set (y := fun k => Rsum_to m (fun j => Lf rows j k * x j)).
  assert (Y : forall k, (k < m)%nat -> y k + nth k l 0 = 0).
  { apply (lower_injective m (Lf rows)); [intros i Li; pose proof (Sp i Li); lra|intros; apply Lf_upper; assumption|]. intros i Li.
    rewrite (Rsum_to_ext m _ (fun k => Lf rows i k * y k + Lf rows i k * nth k l 0)) by (intros; ring). rewrite Rsum_to_add. pose proof (solved_full rows (A m) l i Sh So Li) as HF. fold m in HF. rewrite HF.
    assert (H : Rsum_to m (fun k => Lf rows i k * y k) = - A m i); [|lra]. rewrite <- (X i Li). unfold y.
    rewrite (Rsum_to_ext m _ (fun k => Rsum_to m (fun j => Lf rows i k * Lf rows j k * x j))) by (intros; rewrite <- Rsum_to_scal; apply Rsum_to_ext; intros; ring). rewrite Rsum_to_swap. apply Rsum_to_ext. intros j Lj.
    rewrite <- (Pr i j Li Lj). fold m. rewrite (Rmult_comm (Rsum_to _ _)), <- Rsum_to_scal. apply Rsum_to_ext. intros. ring. }
  set (v := fun i => if Nat.eqb i m then 1 else x i). assert (Vm : v m = 1) by (unfold v; rewrite Nat.eqb_refl; reflexivity). assert (Vx : forall k, (k < m)%nat -> v k = x k) by (intros k Lk; unfold v; destruct (Nat.eqb_spec k m); [lia|reflexivity]).
  assert (Q : 0 < quadratic (S m) A v) by (apply (definite_le n (S m) A); [lia|exact HD|exists m; split; [lia|rewrite Vm; lra]]).
  rewrite quadratic_rows, Rsum_to_S, Vm, Rmult_1_l in Q. rewrite Rsum_to_zero in Q.
  - rewrite Rplus_0_l, Rsum_to_S, Vm, Rmult_1_r in Q. rewrite (Rsum_to_ext m (fun j => A m j * v j) (fun j => Rsum_to m (fun k => nth k l 0 * (Lf rows j k * x j)))) in Q.
    + rewrite Rsum_to_swap in Q. rewrite (Rsum_to_ext m (fun j => Rsum_to m _) (fun k => -1 * (nth k l 0 * nth k l 0))) in Q; [rewrite Rsum_to_scal in Q; lra|].
      intros k Lk. rewrite Rsum_to_scal. fold (y k). replace (y k) with (- nth k l 0) by (pose proof (Y k Lk); lra). ring.
    + intros j Lj. rewrite (Vx j Lj), <- (solved_full rows (A m) l j Sh So Lj). fold m. rewrite (Rmult_comm (Rsum_to _ _)), <- Rsum_to_scal. apply Rsum_to_ext. intros. ring.
  - intros i Li. rewrite Rsum_to_S, Vm, Rmult_1_r. rewrite (Rsum_to_ext m _ (fun j => A i j * x j)) by (intros j Lj; rewrite (Vx j Lj); reflexivity). rewrite (X i Li), (HS m i) by lia. ring.
Qed.
Lemma chol_rows_S (A : nat -> nat -> R) m (rows : list (list R)) (l : list R) (d : R) : chol_row (N := RNum) (A (List.length rows)) rows [] = Ok l ->
  d = A (List.length rows) (List.length rows) - Rsum_to (List.length l) (fun k => nth k l 0 * nth k l 0) ->
  chol_rows (N := RNum) A (S m) rows = if Rleb 0 d then chol_rows (N := RNum) A m (rows ++ [l ++ [sqrt d]]) else Throw.
Proof.
  intros E ->. transitivity (bind (chol_row (N := RNum) (A (List.length rows)) rows []) (fun l : list R => if Rleb 0 (A (List.length rows) (List.length rows) - dot (N := RNum) l l) then chol_rows (N := RNum) A m (rows ++ [l ++ [sqrt (A (List.length rows) (List.length rows) - dot (N := RNum) l l)]]) else Throw)); [reflexivity|].
  rewrite E. cbn [bind]. rewrite dot_R. reflexivity.
Qed.
Lemma chol_rows_ok n (A : nat -> nat -> R) : symmetric n A -> positive_definite n A -> forall m rows, (List.length rows + m = n)%nat -> good A rows -> sharp rows ->
  exists L : list (list R), chol_rows (N := RNum) A m rows = Ok L /\ List.length L = n /\ good A L /\ sharp L.
Proof.
  intros HS HD. induction m as [|m IH]; intros rows Ln G Sp; [exists rows; split; [reflexivity|]; split; [lia|]; split; assumption|].
  destruct (chol_row_ok (A (List.length rows)) rows [] []) as [l [E1 [E2 E3]]]; [reflexivity|intros j Lj; cbn in Lj; lia|intros j [_ Lj]; pose proof (Sp j Lj); cbn [List.app]; lra|]. cbn [List.app] in *.
  pose proof (pivot_pos n A rows l HS HD ltac:(lia) G Sp E2 E3) as P. set (d := A (List.length rows) (List.length rows) - Rsum_to (List.length l) (fun k => nth k l 0 * nth k l 0)) in *.
  rewrite (chol_rows_S A m rows l d E1 eq_refl). destruct (Rleb_spec 0 d) as [_|F]; [|lra].
  apply IH.
  - rewrite app_length. simpl. lia.
  - apply (good_next n A rows l d); try assumption; [lia|reflexivity|lra].
  - intros i Li. rewrite app_length in Li. simpl in Li. destruct (Nat.eq_dec i (List.length rows)) as [->|Ne].
    + rewrite Lf_new, app_nth2 by lia. rewrite E2, Nat.sub_diag. cbn [nth]. apply sqrt_lt_R0. exact P.
    + rewrite Lf_old by lia. apply Sp. lia.
Qed.
Lemma chol_rows_inv n (A : nat -> nat -> R) : symmetric n A -> forall m (rows L : list (list R)), (List.length rows + m = n)%nat -> good A rows -> chol_rows (N := RNum) A m rows = Ok L -> List.length L = n /\ good A L.
Proof.
  intros HS. induction m as [|m IH]; intros rows L Ln G HE; [assert (E : rows = L) by (injection HE; auto); subst L; split; [rewrite <- Ln, Nat.add_0_r; reflexivity|assumption]|].
  destruct (chol_row (N := RNum) (A (List.length rows)) rows []) as [l| |] eqn:E1.
  2:{ exfalso. cbn [chol_rows] in HE. revert HE. match goal with |- context [bind ?r _] => replace r with (Throw : res (list R)) by (symmetry; exact E1) end. cbn [bind]. discriminate. }
  2:{ destruct (chol_row_outcome _ _ _ E1). }
  destruct (chol_row_inv (A (List.length rows)) rows [] [] l eq_refl ltac:(intros j Lj; cbn in Lj; lia) E1) as [E2 E3]. cbn [List.app] in *.
  set (d := A (List.length rows) (List.length rows) - Rsum_to (List.length l) (fun k => nth k l 0 * nth k l 0)) in *.
  rewrite (chol_rows_S A m rows l d E1 eq_refl) in HE. destruct (Rleb_spec 0 d) as [T|F]; [|discriminate HE].
  apply (IH _ L) in HE; [exact HE| |].
  - rewrite app_length. simpl. lia.
  - apply (good_next n A rows l d); try assumption; [lia|reflexivity].
Qed.
Lemma good_nil A : good A [].
Proof. split; [intros i H; simpl in H; lia|]. split; intros i; [intros H; simpl in H; lia|intros j H; simpl in H; lia]. Qed.
Lemma cholesky_ok n A : symmetric n A -> positive_definite n A -> exists L, cholesky (N := RNum) n A = Ok L /\ lower_factor n A (factor_entry (N := RNum) L).
Proof.
  intros HS HD. destruct (chol_rows_ok n A HS HD n [] eq_refl (good_nil A)) as [L [E1 [E2 [[G1 [G2 G3]] G4]]]]; [intros i H; simpl in H; lia|]. exists L. split; [exact E1|]. rewrite E2 in *. split; [|split].
  - intros i j H. exact (Lf_upper L i j G1 H).
  - intros i Li. apply G4. rewrite E2. exact Li.
  - exact G3.
Qed.
Lemma cholesky_psd n A (L : list (list R)) : symmetric n A -> cholesky (N := RNum) n A = Ok L -> (forall i j, (i < n)%nat -> (j < n)%nat -> Rsum_to n (fun k => factor_entry (N := RNum) L i k * factor_entry (N := RNum) L j k) = A i j) /\ positive_semidefinite n A.
Proof.
  intros HS HE. destruct (chol_rows_inv n A HS n [] L eq_refl (good_nil A) HE) as [E2 [G1 [G2 G3]]]. rewrite E2 in G3. split; [exact G3|]. intros v.
  enough (H : quadratic n A v = Rsum_to n (fun k => Rsqr (Rsum_to n (fun i => v i * Lf L i k)))) by (rewrite H; apply Rsum_to_nonneg; intros; apply Rle_0_sqr).
  unfold quadratic. rewrite (Rsum_to_ext n _ (fun i => Rsum_to n (fun k => v i * Lf L i k * Rsum_to n (fun j => v j * Lf L j k)))).
  - rewrite Rsum_to_swap. apply Rsum_to_ext. intros k _. unfold Rsqr. rewrite <- Rsum_to_scal. apply Rsum_to_ext. intros. ring.
  - intros i Li. rewrite (Rsum_to_ext n (fun j => v i * A i j * v j) (fun j => Rsum_to n (fun k => v i * Lf L i k * (v j * Lf L j k)))).
    + rewrite Rsum_to_swap. apply Rsum_to_ext. intros k _. rewrite <- Rsum_to_scal. apply Rsum_to_ext. intros. ring.
    + intros j Lj. rewrite <- (G3 i j Li Lj). replace (v i * Rsum_to n (fun k => Lf L i k * Lf L j k) * v j) with (v i * v j * Rsum_to n (fun k => Lf L i k * Lf L j k)) by ring. rewrite <- Rsum_to_scal. apply Rsum_to_ext. intros. ring.
Qed.
Lemma cholesky_rejects n A : symmetric n A -> ~ positive_semidefinite n A -> cholesky (N := RNum) n A = Throw.
Proof.
  intros HS HN. destruct (cholesky (N := RNum) n A) as [L| |] eqn:E; [|reflexivity|destruct (chol_rows_outcome A n [] E)]. destruct HN. exact (proj2 (cholesky_psd n A L HS E)).
Qed.
(** Only the lower triangle is read. *)
Lemma chol_row_ext {N : Num} (a b : nat -> N) : forall rows acc, (forall j, (j < List.length acc + List.length rows)%nat -> a j = b j) -> chol_row a rows acc = chol_row b rows acc.
Proof.
  induction rows as [|r rest IH]; intros acc H; [reflexivity|]. cbn [chol_row]. rewrite (H (List.length acc)) by (simpl; lia). destruct (neqb N _ _); [reflexivity|]. apply IH. intros j L. apply H. rewrite app_length in L. simpl in *. lia.
Qed.
Lemma chol_rows_ext {N : Num} (A B : nat -> nat -> N) : forall m rows, (forall i j, (j <= i < List.length rows + m)%nat -> A i j = B i j) -> chol_rows A m rows = chol_rows B m rows.
Proof.
  induction m as [|m IH]; intros rows H; [reflexivity|]. cbn [chol_rows]. rewrite (chol_row_ext (A (List.length rows)) (B (List.length rows)) rows []) by (intros j L; apply H; simpl in L; lia).
  destruct (chol_row (B (List.length rows)) rows []); cbn [bind]; try reflexivity. rewrite (H (List.length rows) (List.length rows)) by lia. destruct (nleb N _ _); [|reflexivity]. apply IH. intros i j L. apply H. rewrite app_length in L. simpl in L. lia.
Qed.
