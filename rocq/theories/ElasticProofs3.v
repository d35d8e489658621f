(** ElasticProofs3.v -- the solution: virtual work up to the tolerance, uniqueness, small systems. *)
From Coq Require Import Reals ZArith Bool List Lia Lra.
From Verif Require Import Base BaseFacts CellModel InputModel AssimilationSpec AssimilationProofs AssimilationProofs3 MechProofs StressModel StressSpec StressProofs ElementModel ElementSpec ElementProofs ElementProofs2
  HeatModel HeatSpec HeatProofs HeatProofs2 ElasticModel ElasticSpec ElasticProofs ElasticProofs2.
Import ListNotations.
Local Open Scope R_scope.

Lemma cell_value_ext n d C c q (z z' : nat -> R) a : closed_ok n C -> cell_ok d n c -> (forall k, (k < n)%nat -> ~ In k (map fst C) -> z k = z' k) -> cell_value C c q z a = cell_value C c q z' a.
Proof. intros Cok H E. apply Rsum_to_ext. intros i L. rewrite (local_ext n d C c z z' i Cok H E L). reflexivity. Qed.
Lemma cell_divergence_ext n d C c q (z z' : nat -> R) : closed_ok n C -> cell_ok d n c -> (forall k, (k < n)%nat -> ~ In k (map fst C) -> z k = z' k) -> cell_divergence d C c q z = cell_divergence d C c q z'.
Proof. intros Cok H E. apply Rsum_to_ext. intros a _. apply gradient_local_ext. intros i L. exact (local_ext n d C c z z' i Cok H E L). Qed.
Lemma load_work_ext n d references t forces C cells (z z' : nat -> R) : closed_ok n C -> Forall (cell_ok d n) cells -> (forall k, (k < n)%nat -> ~ In k (map fst C) -> z k = z' k) ->
  load_work d references t forces C cells z = load_work d references t forces C cells z'.
Proof.
  intros Cok H E. rewrite Forall_forall in H. unfold load_work. f_equal.
  - apply Sum_ext. intros [p c] I. cbn [fst snd]. destruct (takes_part c); [|reflexivity]. apply Sum_ext. intros q _. f_equal. f_equal. apply (cell_divergence_ext n); auto. apply H. apply in_indexed in I. exact I.
  - apply Sum_ext. intros c I. apply filter_In in I. apply Sum_ext. intros q _. f_equal. apply Rsum_to_ext. intros a _. f_equal. apply (cell_value_ext n d); auto. apply H. tauto.
Qed.
Lemma force_work_ext n d forces C cells (z z' : nat -> R) : closed_ok n C -> Forall (cell_ok d n) cells -> (forall k, (k < n)%nat -> ~ In k (map fst C) -> z k = z' k) ->
  force_work d forces C cells z = force_work d forces C cells z'.
Proof.
  intros Cok H E. rewrite Forall_forall in H. apply Sum_ext. intros c I. apply filter_In in I. apply Sum_ext. intros q _. f_equal. apply Rsum_to_ext. intros a _. f_equal. apply (cell_value_ext n d); auto. apply H. tauto.
Qed.

(** ** Norms *)
Definition l2R (v : list R) : R := l2_norm (N := RNum) v.
Lemma l2_size (v : list R) : l2R v = size (List.length v) (entry v).
Proof.
  unfold l2R, l2_norm, size. cbn [nsqrt RNum]. f_equal. etransitivity; [exact (fold_Sum (fun x : R => x * x) v 0)|]. rewrite Rplus_0_l.
  rewrite <- (Sum_map (fun j => entry v j) (fun x => x * x) (seq 0 (List.length v))). f_equal. symmetry. apply nth_ext with (d := 0) (d' := 0).
  - now rewrite map_length, seq_length.
  - intros i L. rewrite map_length, seq_length in L. rewrite (nth_indep _ 0 (entry v 0)) by now rewrite map_length, seq_length. rewrite (map_nth (fun j => entry v j)), seq_nth by exact L. reflexivity.
Qed.
Lemma size_nonneg n v : 0 <= size n v. Proof. apply sqrt_pos. Qed.
Lemma ip_bound z (r : list R) : Rabs (ip z r) <= size (List.length r) z * l2R r.
Proof.
  rewrite l2_size. set (n := List.length r). unfold size. rewrite <- sqrt_mult_alt; [|apply Sum_nonneg; intros; apply Rle_0_sqr].
  rewrite <- sqrt_Rsqr_abs. apply sqrt_le_1_alt. rewrite ip_nth. exact (Cauchy n z (entry r)).
Qed.
Lemma masked_size C n z : size n (masked C z) <= size n z.
Proof. unfold size. apply sqrt_le_1_alt. apply Sum_le. intros j _. unfold masked. destruct (existsb _ _); [|lra]. pose proof (Rle_0_sqr (z j)) as P. unfold Rsqr in P. lra. Qed.
Definition residualR (n : nat) (A : matrix RNum) (b x : list R) : list R := residual (N := RNum) n A b x.
Lemma ip_sub z (a b : list R) : List.length a = List.length b -> ip z (map2 (N := RNum) (fun p q => (p - q)%R) a b) = ip z a - ip z b.
Proof.
  revert z b. induction a as [|x a IH]; intros z [|y b] L; try discriminate; [cbn; lra|]. cbn in L. cbn [map2 combine map ip].
  change (map (fun xy : R * R => fst xy - snd xy) (combine a b)) with (map2 (N := RNum) (fun p q => (p - q)%R) a b). cbn [fst snd]. 
  assert (E : ip (fun j => z (S j)) (map2 (N := RNum) (fun p q => (p - q)%R) a b) = ip (fun j => z (S j)) a - ip (fun j => z (S j)) b) by (apply IH; lia). cbn [num RNum] in *.
  etransitivity; [exact (f_equal (fun w => z O * (x - y) + w)%R E)|ring].
Qed.
Lemma residual_length n A (b x : list R) : List.length b = n -> List.length (residualR n A b x) = n.
Proof. intros L. unfold residualR, residual. rewrite map2_length; [exact L|]. rewrite L. symmetry. apply mvmult_length. Qed.
Lemma ip_residual z n A b x : List.length b = n -> ip z (residualR n A b x) = ip z b - ip z (mvmultR n A x).
Proof. intros L. apply ip_sub. rewrite L. symmetry. apply mvmult_length. Qed.

(** ** The iteration *)
Definition cgR n A b tol iterate left k x : res (list R) := cg (N := RNum) n A b tol iterate left k x.
Lemma cg_ok n A b tol iterate (P : list R -> Prop) : (forall k, P (iterate k)) -> forall left k x y, P x -> cgR n A b tol iterate left k x = Ok y -> P y /\ l2R (residualR n A b y) <= tol.
Proof.
  intros HP left. induction left as [|left IH]; intros k x y Px; unfold cgR; cbn [cg];
    match goal with |- (if ?c then _ else _) = _ -> _ => change c with (Rleb (l2R (residualR n A b x)) tol) end;
    (destruct (Rleb (l2R (residualR n A b x)) tol) eqn:E; [intros X; injection X as <-; split; [exact Px|]; now apply Rleb_true in E|]).
  - discriminate.
  - apply IH, HP.
Qed.
Lemma tolerance_R (b : list R) : tolerance (N := RNum) b = accuracy * l2R b.
Proof. unfold tolerance, accuracy, l2R. change (nofZ RNum 1) with 1. cbn [nmul ndiv RNum]. f_equal. change (nofZ RNum 1000000000000) with (IZR 1000000000000). unfold Rdiv. rewrite Rmult_1_l. f_equal. lra. Qed.
Definition displacementR n C A b iterate : res (list R) := displacement (N := RNum) n C A b iterate.
Lemma displacement_ok n C A (b : list R) iterate u : (forall k, List.length (iterate k : list R) = n) -> displacementR n C A b iterate = Ok u ->
  exists x : list R, List.length x = n /\ l2R (residualR n A b x) <= accuracy * l2R b /\ u = distribute_constraints (N := RNum) C x.
Proof.
  intros L. unfold displacementR, displacement.
  rewrite (tolerance_R b).
  match goal with |- bind ?e _ = _ -> _ => change e with (cgR n A b (accuracy * l2R b) iterate (max_iter n) 0 (repeat 0 n)) end.
  destruct (cgR n A b (accuracy * l2R b) iterate (max_iter n) 0 (repeat 0 n)) as [x| |] eqn:E; cbn [bind]; try discriminate.
  apply (cg_ok n A b (accuracy * l2R b) iterate (fun x => List.length x = n)) in E; [|exact L| apply repeat_length]. destruct E as [Lx B].
  intros X. injection X as <-. exists x. auto.
Qed.

(** ** The displacement *)
Definition distributeR (C : constraints RNum) (x : list R) : list R := distribute_constraints (N := RNum) C x.
Lemma distribute_length C x : List.length (distributeR C x) = List.length x.
Proof. unfold distributeR, distribute_constraints. rewrite map_length. apply seq_length. Qed.
Lemma distribute_entry C x j : (j < List.length x)%nat -> entry (distributeR C x) j = nodal C (entry x) j.
Proof.
  intros L. etransitivity; [|exact (read_dof_nodal C x j)]. unfold distributeR, distribute_constraints, entry.
  rewrite (nth_indep _ 0 (read_dof (N := RNum) C x 0)) by (rewrite map_length, seq_length; exact L). rewrite (map_nth (read_dof (N := RNum) C x)), seq_nth by exact L. reflexivity.
Qed.
Lemma nodal_free n C z k : closed_ok n C -> ~ In k (map fst C) -> nodal C z k = z k.
Proof.
  intros Cok F. rewrite <- targets_nodal. unfold targets. apply (line_none n C k Cok) in F. rewrite F. rewrite Sum_cons. cbn. lra.
Qed.
Lemma distribute_free n C x k : closed_ok n C -> List.length x = n -> (k < n)%nat -> ~ In k (map fst C) -> entry (distributeR C x) k = entry x k.
Proof. intros Cok L Lk F. rewrite distribute_entry by (rewrite L; exact Lk). exact (nodal_free n C _ k Cok F). Qed.
Lemma distribute_conforms n C x j : closed_ok n C -> List.length x = n -> (j < n)%nat -> entry (distributeR C x) j = nodal C (entry (distributeR C x)) j.
Proof.
  intros Cok L Lj. rewrite distribute_entry at 1 by (rewrite L; exact Lj). apply (closed_nodal_ext n); auto. intros k Lk F. symmetry. exact (distribute_free n C x k Cok L Lk F).
Qed.
(** The work of the solution on every virtual displacement. *)
Lemma solution_work n d C cells (W : (nat -> R) -> R) (b : list R) iterate (u : list R) : closed_ok n C -> Forall (cell_ok d n) cells -> List.length b = n -> (forall z, ip z b = W z) ->
  (forall z z', (forall k, (k < n)%nat -> ~ In k (map fst C) -> z k = z' k) -> W z = W z') ->
  (forall k, List.length (iterate k : list R) = n) -> displacementR n C (assemble_matrix (N := RNum) C cells) b iterate = Ok u ->
  List.length u = n /\ (forall j, (j < n)%nat -> entry u j = nodal C (entry u) j) /\
  forall v, Rabs (internal_work d C cells v (entry u) - W v) <= accuracy * size n (entry b) * size n v.
Proof.
  intros Cok H L Wb We LI E. destruct (displacement_ok n C _ b iterate u LI E) as (x & Lx & B & ->). fold (distributeR C x). repeat split.
  - rewrite distribute_length. exact Lx.
  - intros j Lj. apply (distribute_conforms n); auto.
  - intros v.
    assert (I : internal_work d C cells v (entry (distributeR C x)) = internal_work d C cells v (entry x)) by (apply (internal_ext n); auto; intros k Lk F; apply (distribute_free n); auto).
    pose proof (ip_bound (masked C v) (residualR n (assemble_matrix (N := RNum) C cells) b x)) as P. rewrite (residual_length n _ b x L) in P.
    rewrite (ip_residual _ n _ b x L), Wb, (matrix_work n d C cells v x Cok H) in P.
    rewrite (We (masked C v) v) in P by (intros k _ F; apply masked_free; exact F). rewrite I, Rabs_minus_sym. eapply Rle_trans; [exact P|].
    pose proof (masked_size C n v) as M. pose proof (size_nonneg n (masked C v)) as Q. rewrite (l2_size b), L in B.
    eapply Rle_trans; [apply Rmult_le_compat_l; [exact Q| exact B]|]. rewrite (Rmult_comm _ (size n v)). apply Rmult_le_compat_r; [|exact M].
    apply Rmult_le_pos; [unfold accuracy; left; apply Rinv_0_lt_compat; lra| apply size_nonneg].
Qed.
