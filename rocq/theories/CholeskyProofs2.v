(** CholeskyProofs2.v -- analyses with correlated errors of the observations. *)
From Coq Require Import Reals ZArith Bool List Lia Lra.
From Verif Require Import Base BaseFacts AssimilationModel AssimilationSpec AssimilationProofs AssimilationProofs2 AssimilationProofs3 AssimilationProofs4 CholeskyModel AnalysisSpec CholeskySpec AnalysisProofs AnalysisProofs2 CholeskyProofs.
Import ListNotations.
Local Open Scope R_scope.

(** The factor is unique. *)
Lemma factor_unique n A L L' : lower_factor n A L -> lower_factor n A L' -> forall i j, (i < n)%nat -> (j < n)%nat -> L i j = L' i j.
Proof.
  intros [U [D F]] [U' [D' F']].
  assert (H : forall j, (j < n)%nat -> forall i, (i < n)%nat -> L i j = L' i j).
  { intros j. induction j as [j IH] using lt_wf_ind. intros Lj.
    assert (T : forall i, (i < n)%nat -> Rsum_to j (fun k => L i k * L j k) + L i j * L j j = Rsum_to j (fun k => L i k * L j k) + L' i j * L' j j).
    { intros i Li. rewrite (Rsum_to_ext j (fun k => L i k * L j k) (fun k => L' i k * L' j k)) at 2 by (intros k Lk; rewrite !(IH k) by lia; reflexivity).
      rewrite <- !Rsum_to_S. rewrite <- (Rsum_to_trunc (S j) n (fun k => L i k * L j k)) by (lia || (intros k Hk; rewrite (U j k) by lia; ring)). rewrite <- (Rsum_to_trunc (S j) n (fun k => L' i k * L' j k)) by (lia || (intros k Hk; rewrite (U' j k) by lia; ring)). rewrite F, F' by assumption. reflexivity. }
    assert (J : L j j = L' j j) by (pose proof (T j Lj) as T1; pose proof (D j Lj); pose proof (D' j Lj); nra).
    intros i Li. pose proof (T i Li) as T1. rewrite J in T1. pose proof (D' j Lj) as P. apply (Rmult_eq_reg_r (L' j j)); lra. }
  intros i j Li Lj. exact (H j Lj i Li).
Qed.
Lemma diagonal_definite n A : diagonal_matrix n A -> (forall i, (i < n)%nat -> 0 < A i i) -> symmetric n A /\ positive_definite n A.
Proof.
  intros D P. split.
  - intros i j Li Lj. destruct (Nat.eq_dec i j) as [->|Ne]; [reflexivity|]. rewrite !D by (assumption || lia). reflexivity.
  - intros v [i0 [L0 V0]]. unfold quadratic. rewrite (Rsum_to_ext n _ (fun i => A i i * (v i * v i))).
    + assert (N : forall i, (i < n)%nat -> 0 <= A i i * (v i * v i)) by (intros i Li; pose proof (P i Li); nra).
      pose proof (Rsum_pick n i0 (fun i => A i i * (v i * v i)) L0) as H. assert (0 < A i0 i0 * (v i0 * v i0)) by (apply Rmult_lt_0_compat; [apply P; exact L0|nra]).
      eapply Rlt_le_trans; [exact H0|]. rewrite <- H. apply Rsum_to_le. intros i Li. pose proof (N i Li). unfold ind. destruct (Nat.eqb i0 i); lra.
    + intros i Li. rewrite (Rsum_to_ext n _ (fun j => ind (Nat.eqb i j) * (v i * A i i * v i))); [rewrite (Rsum_pick n i (fun _ => v i * A i i * v i) Li); ring|].
      intros j Lj. unfold ind. destruct (Nat.eqb_spec i j) as [->|Ne]; [ring|]. rewrite (D i j Li Lj Ne). ring.
Qed.
Lemma diagonal_factor n A : diagonal_matrix n A -> (forall i, (i < n)%nat -> 0 < A i i) -> lower_factor n A (fun i j => if Nat.eqb i j then sqrt (A i i) else 0).
Proof.
  intros D P. split; [|split].
  - intros i j L. destruct (Nat.eqb_spec i j); [lia|reflexivity].
  - intros i Li. rewrite Nat.eqb_refl. apply sqrt_lt_R0, P, Li.
  - intros i j Li Lj. rewrite (Rsum_to_ext n _ (fun k => ind (Nat.eqb i k) * (sqrt (A i i) * (if Nat.eqb j k then sqrt (A j j) else 0)))) by (intros k _; unfold ind; destruct (Nat.eqb i k); ring).
    rewrite (Rsum_pick n i (fun k => sqrt (A i i) * (if Nat.eqb j k then sqrt (A j j) else 0)) Li). destruct (Nat.eqb_spec j i) as [->|Ne]; [apply sqrt_sqrt; pose proof (P i Li); lra|]. rewrite (D i j) by (assumption || lia). ring.
Qed.
(** Both branches agree where both apply. *)
Lemma branches n A draws k : diagonal_matrix n A -> (forall i, (i < n)%nat -> 0 < A i i) -> exists v : nat -> R, fill_noise (N := RNum) false n A draws k = Ok v /\ forall i, (i < n)%nat -> v i = draws (k + i)%nat * sqrt (A i i).
Proof.
  intros D P. destruct (diagonal_definite n A D P) as [HS HD]. destruct (cholesky_ok n A HS HD) as [L [E F]]. eexists. split; [unfold fill_noise; rewrite E; cbn [bind]; reflexivity|].
  intros i Li. cbv beta. rewrite apply_R. rewrite (Rsum_to_ext n _ (fun j => ind (Nat.eqb i j) * (sqrt (A i i) * draws (k + j)%nat))).
  - rewrite (Rsum_pick n i (fun j => sqrt (A i i) * draws (k + j)%nat) Li). ring.
  - intros j Lj. pose proof (factor_unique n A _ _ F (diagonal_factor n A D P) i j Li Lj) as H. rewrite H. unfold ind. destruct (Nat.eqb i j); ring.
Qed.
(** Innovations, member by member. *)
Section Innovations.
  Context {N : Num}.
  Variables (diagonal : bool) (n : nat) (mapping : list (nat * nat)) (y : nat -> N) (Ro : nat -> nat -> N) (draws : nat -> N) (k : nat).
  Lemma innovations_nth : forall ens m0 bs, innovations diagonal n mapping y Ro draws k m0 ens = Ok bs -> List.length bs = List.length ens /\
    forall m x, nth_error ens m = Some x -> exists v, fill_noise diagonal n Ro draws (k + (m0 + m) * n) = Ok v /\ nth_error bs m = Some (fun i => nadd N (v i) (nsub N (y i) (calc_Hx mapping x i))).
  Proof.
    induction ens as [|x0 ens IH]; intros m0 bs H; [injection H as <-; split; [reflexivity|intros [|m] x E; discriminate]|].
    cbn [innovations] in H. destruct (fill_noise diagonal n Ro draws (k + m0 * n)) as [v| |] eqn:E1; try discriminate H. cbn [bind] in H.
    destruct (innovations diagonal n mapping y Ro draws k (S m0) ens) as [r| |] eqn:E2; try discriminate H. cbn [bind] in H. injection H as <-. destruct (IH (S m0) r E2) as [L I].
    split; [simpl; congruence|]. intros [|m] x E.
    - injection E as ->. exists v. rewrite Nat.add_0_r. split; [exact E1|reflexivity].
    - destruct (I m x E) as [v' [G1 G2]]. exists v'. rewrite <- plus_n_Sm. split; [exact G1|exact G2].
  Qed.
  Lemma innovations_ok : (forall k', exists v, fill_noise diagonal n Ro draws k' = Ok v) -> forall ens m0, exists bs, innovations diagonal n mapping y Ro draws k m0 ens = Ok bs.
  Proof.
    intros H. induction ens as [|x0 ens IH]; intros m0; [eexists; reflexivity|]. cbn [innovations]. destruct (H (k + m0 * n)%nat) as [v ->]. cbn [bind]. destruct (IH (S m0)) as [r ->]. eexists. reflexivity.
  Qed.
End Innovations.
(** The diagonal branch is the program of AssimilationModel. *)
Lemma update_same {N : Num} n (P : nat -> nat -> N) mapping Ro (y : nat -> N) draws k solve : forall ens m0, exists bs, innovations true (List.length mapping) mapping y Ro draws k m0 ens = Ok bs /\
  map (fun (xb : (nat -> N) * (nat -> N)) i => nadd N (fst xb i) (forecast_shift n (List.length mapping) P mapping (solve (snd xb)) i)) (combine ens bs) = update_from n (List.length mapping) P mapping Ro y draws k solve m0 ens.
Proof.
  induction ens as [|x ens IH]; intros m0; [exists []; split; reflexivity|]. destruct (IH (S m0)) as [bs [E1 E2]]. eexists. cbn [innovations fill_noise bind]. rewrite E1. cbn [bind]. split; [reflexivity|].
  cbn [combine map fst snd update_from]. rewrite E2. reflexivity.
Qed.
Lemma application_same {N : Num} fn cutoff sim par pat m mapping Ro (data : list N) draws k solve ens ens' :
  assimilate_general true fn cutoff sim par pat m mapping Ro data draws k solve ens = Ok ens' <-> assimilate fn cutoff sim par pat m mapping Ro data draws k solve ens = Ok ens'.
Proof.
  unfold assimilate_general, assimilate, update_ensemble. destruct (negb _).
  - split; [discriminate|]. destruct (fold_left _ _ _); cbn [bind]; discriminate.
  - destruct (update_same (sim + par) (fun i j => match sample_covariance fn cutoff sim pat m ens i j with Ok x => x | _ => nofZ N 0 end) mapping Ro (fun i => nth i data (nofZ N 0)) draws k solve ens 0) as [bs [E1 E2]]. rewrite E1. cbn [bind].
    destruct (fold_left _ _ _); cbn [bind]; [|split; discriminate|split; discriminate]. rewrite E2. reflexivity.
Qed.
Lemma general_ok {N : Num} diagonal fn cutoff sim par pat m mapping Ro (data : list N) draws k solve ens ens' :
  assimilate_general diagonal fn cutoff sim par pat m mapping Ro data draws k solve ens = Ok ens' ->
  exists bs, innovations diagonal (List.length mapping) mapping (fun i => nth i data (nofZ N 0)) Ro draws k 0 ens = Ok bs /\
    ens' = map (fun (xb : (nat -> N) * (nat -> N)) i => nadd N (fst xb i) (forecast_shift (sim + par) (List.length mapping) (fun i j => match sample_covariance fn cutoff sim pat m ens i j with Ok x => x | _ => nofZ N 0 end) mapping (solve (snd xb)) i)) (combine ens bs).
Proof.
  unfold assimilate_general. destruct (negb _); [discriminate|]. destruct (innovations _ _ _ _ _ _ _ _ _) as [bs| |]; try discriminate. cbn [bind]. destruct (fold_left _ _ _); try discriminate. cbn [bind]. intros H. injection H as <-.
  exists bs. split; reflexivity.
Qed.
Lemma general_nth {N : Num} diagonal fn cutoff sim par pat m mapping Ro (data : list N) draws k solve ens ens' :
  assimilate_general diagonal fn cutoff sim par pat m mapping Ro data draws k solve ens = Ok ens' ->
  List.length ens' = List.length ens /\ forall mb x, nth_error ens mb = Some x -> exists v, fill_noise diagonal (List.length mapping) Ro draws (k + mb * List.length mapping) = Ok v /\
    nth_error ens' mb = Some (fun i => nadd N (x i) (forecast_shift (sim + par) (List.length mapping) (fun i j => match sample_covariance fn cutoff sim pat m ens i j with Ok x => x | _ => nofZ N 0 end) mapping
      (solve (fun i => nadd N (v i) (nsub N (nth i data (nofZ N 0)) (calc_Hx mapping x i)))) i)).
Proof.
  intros H. apply general_ok in H as [bs [E1 ->]]. destruct (innovations_nth _ _ _ _ _ _ _ ens 0%nat bs E1) as [L5 I5]. split; [rewrite map_length, combine_length, L5; apply Nat.min_id|].
  intros mb x V3. destruct (I5 mb x V3) as [v [V1 V2]]. exists v. split; [exact V1|].
  assert (C : nth_error (combine ens bs) mb = Some (x, fun i => nadd N (v i) (nsub N (nth i data (nofZ N 0)) (calc_Hx mapping x i)))).
  { clear - V3 V2. revert mb V3 V2. revert bs. induction ens as [|a l IH]; intros [|b0 b] [|mb] V3 V2; try discriminate V3; try discriminate V2; cbn [combine nth_error] in *.
    - injection V3 as ->. injection V2 as ->. reflexivity.
    - exact (IH b mb V3 V2). }
  rewrite (map_nth_error _ mb _ C). reflexivity.
Qed.
Lemma general_form diagonal fn (cutoff : R) (pos : nat -> pt RNum) owned hits sim par Ro (data : list R) s draws k solve (ens ens' : list (nat -> R)) :
  observed cutoff pos owned hits sim data s ens -> analysed_general diagonal fn cutoff pos owned hits sim par Ro data s draws k solve ens ens' ->
  List.length ens' = List.length ens /\
  forall m, (m < List.length ens)%nat -> exists v : nat -> R, fill_noise (N := RNum) diagonal (List.length data) Ro draws (k + m * List.length data) = Ok v /\
    forall i, (i < sim + par)%nat -> mem ens' m i = mem ens m i + Rsum_to (List.length data) (fun e => localized_covariance fn cutoff pos sim ens i (s e) * solve (fun i => v i + (nth i data 0 - calc_Hx (N := RNum) (obs (List.length data) s) (mem ens m) i)) e).
Proof.
  intros [L2 [Hc [HQ [Hall Hs]]]] [m0 [m1 [pat1 [E1 E2]]]]. assert (Hne : ens <> []) by (intros ->; simpl in L2; lia).
  destruct (localized_ok fn cutoff pos owned hits sim par m0 ens Hne Hc HQ Hall) as [m' [pat [E3 E4]]]. rewrite E1 in E3. injection E3 as <- <-.
  assert (Lo : List.length (obs (List.length data) s) = List.length data) by (unfold obs; rewrite map_length, seq_length; reflexivity).
  destruct (general_nth (N := RNum) _ _ _ _ _ _ _ _ _ _ _ _ _ _ _ E2) as [L5 I5]. rewrite Lo in I5. split; [exact L5|]. intros m Lm. destruct (I5 m (mem ens m) (mem_nth ens m Lm)) as [v [V1 V2]]. exists v. split; [exact V1|]. intros i Li.
  assert (M1 : mem ens' m = fun i => nadd RNum (mem ens m i) (forecast_shift (N := RNum) (sim + par) (List.length data) (fun i j => match sample_covariance (N := RNum) fn cutoff sim pat1 m1 ens i j with Ok x => x | _ => 0 end) (obs (List.length data) s)
         (solve (fun i => nadd RNum (v i) (nsub RNum (nth i data 0) (calc_Hx (N := RNum) (obs (List.length data) s) (mem ens m) i)))) i)).
  { unfold mem at 1. apply nth_error_nth. exact V2. }
  rewrite M1. pose proof (shift_obs (List.length data) s (sim + par) (fun i j => match sample_covariance (N := RNum) fn cutoff sim pat1 m1 ens i j with Ok x => x | _ => 0 end) (solve (fun i => v i + (nth i data 0 - calc_Hx (N := RNum) (obs (List.length data) s) (mem ens m) i))) i) as Sh.
  specialize (Sh ltac:(intros e He; specialize (Hs e He); lia)). refine (eq_trans (f_equal (fun z => mem ens m i + z) Sh) _). f_equal. apply Rsum_to_ext. intros e He. specialize (Hs e He). rewrite E4 by lia. reflexivity.
Qed.
