(** SupportProofs2.v -- loads of the program: temperatures never push a free body, its weight does. *)
From Coq Require Import Reals Bool List Lia Lra.
From Verif Require Import Base BaseFacts CellModel InputModel AssimilationSpec AssimilationProofs AssimilationProofs3 AnalysisProofs ElementModel ElementSpec ElementProofs StressModel StressSpec
  HeatModel HeatSpec HeatProofs HeatProofs2 ElasticModel ElasticSpec ElasticProofs ElasticProofs2 ElasticProofs3 ElasticProofs4 ElasticProofs5 ElasticProofs6 ElasticProofs7 ElasticProofs8 ElasticProofs9 ElasticProofs12 SupportSpec SupportProofs.
Import ListNotations.
Local Open Scope R_scope.

Section Loads.
  Variables (d n : nat) (references : list R) (C : constraints RNum) (cells : list (ecell RNum)).
  Hypothesis Cok : closed_ok n C.
  Hypothesis Hc : Forall (cell_ok d n) cells.
  Local Notation W := (work_of d references C cells).

  Lemma work_ip l : load_ok d n references cells l -> exists b : list R, forall z, W l z = ip z b.
  Proof.
    intros ((t & Et & Tok) & Fok & _). destruct (rhs_work d n references t (ld_forces l) C cells Cok Hc Tok Fok) as (b & _ & _ & P). exists b. intros z. rewrite P. unfold work_of. rewrite Et. reflexivity.
  Qed.
  Lemma work_lin l u w s : load_ok d n references cells l -> W l (fun j => u j + s * w j) = W l u + s * W l w.
  Proof.
    intros Lo. destruct (work_ip l Lo) as (b & E). rewrite !E, !ip_nth, <- Sum_scal, <- Sum_plus. apply Sum_ext. intros j _. ring.
  Qed.
  Lemma work_ext l u w : load_ok d n references cells l -> (forall k, (k < n)%nat -> ~ In k (map fst C) -> u k = w k) -> W l u = W l w.
  Proof. intros ((t & Et & Tok) & _) H. unfold work_of. rewrite Et. apply (load_work_ext n); auto. Qed.
  Lemma thermal_rigid (t : thermal_data RNum) v : rigid d C cells v -> thermal_work d references t C cells v = 0.
  Proof.
    intros Rv. apply Sum_zero. intros [p c] I. cbn [fst snd]. destruct (takes_part c) eqn:T; [|reflexivity]. apply Sum_zero. intros q Iq. apply in_indexed in I. cbn [snd] in I.
    rewrite (rigid_divergence d C cells v c q Rv); [ring| apply filter_In; auto| exact Iq].
  Qed.
  Lemma work_rigid l v : load_ok d n references cells l -> rigid d C cells v -> W l v = force_work d (ld_forces l) C cells v.
  Proof. intros ((t & Et & _) & _) Rv. unfold work_of. rewrite Et. unfold load_work. rewrite (thermal_rigid t v Rv). ring. Qed.

  Hypothesis El : elastic_ok d cells.
  Lemma load_exists l : load_ok d n references cells l ->
    (exists u, exact_solution d n C cells (W l) u) <-> (forall v, rigid d C cells v -> force_work d (ld_forces l) C cells v = 0).
  Proof.
    intros Lo. rewrite (exists_iff d n C cells Cok Hc El (W l) (fun u w s => work_lin l u w s Lo) (fun u w => work_ext l u w Lo)).
    split; intros H v Rv; [rewrite <- (work_rigid l v Lo Rv); auto| rewrite (work_rigid l v Lo Rv); auto].
  Qed.
  Lemma thermal_exists l : load_ok d n references cells l -> ld_forces l = [] -> exists u, exact_solution d n C cells (W l) u.
  Proof. intros Lo E. apply (load_exists l Lo). intros v _. rewrite E. apply force_work_nil. Qed.
  Lemma supported_exists l : load_ok d n references cells l -> supported d n C cells -> exists u, exact_solution d n C cells (W l) u /\ forall w, exact_solution d n C cells (W l) w -> w = u.
  Proof.
    intros Lo S0. destruct (proj2 (load_exists l Lo)) as (u & U).
    - intros v Rv. rewrite <- (work_rigid l v Lo Rv). exact (supported_rigid d n C cells (W l) (fun u w s => work_lin l u w s Lo) (fun u w => work_ext l u w Lo) v S0 Rv).
    - exists u. split; [exact U|]. intros w Ww. exact (supported_unique d n C cells Cok Hc El (W l) w u S0 Ww U).
  Qed.
  Lemma load_potential l u : load_ok d n references cells l -> (balances d C cells (W l) u <-> forall v, potential d C cells (W l) u <= potential d C cells (W l) v).
  Proof. intros Lo. exact (potential_iff d C cells El (W l) (fun u w s => work_lin l u w s Lo) u). Qed.
  (** What pushes a free body: no iterate is ever accepted. *)
  Lemma refused l s v : d = 2%nat \/ d = 3%nat -> load_ok d n references cells l -> state_ok d n C cells s -> rigid d C cells v ->
    accuracy * load_size n (W l) * size n v < Rabs (W l v) -> solve_load (N := RNum) d n references C cells s l = Throw.
  Proof.
    intros Hd Lo So Rv H. destruct (solve_load (N := RNum) d n references C cells s l) as [s'| |] eqn:E.
    - exfalso. destruct (load_solution d n references C cells Hd Cok Hc l s s' Lo So E) as (u & _ & _ & P). specialize (P v). rewrite (rigid_work d C cells v (HeatSpec.entry u) Rv) in P.
      rewrite Rminus_0_l, Rabs_Ropp in P. lra.
    - reflexivity.
    - exfalso. exact (load_outcome d n references C cells Hd Cok Hc l s Lo So E).
  Qed.
  Lemma lifted l v : d = 2%nat \/ d = 3%nat -> load_ok d n references cells l -> ld_forces l = [gravity (N := RNum) d] -> lift d C cells v -> W l v = - total_weight cells.
  Proof.
    intros Hd Lo E [Rv V]. rewrite (work_rigid l v Lo Rv), E. etransitivity; [exact (gravity_work d C cells v Hd)|]. replace (- total_weight cells) with ((-1) * total_weight cells) by ring. unfold total_weight. rewrite <- Sum_scal. apply Sum_ext. intros c Ic. rewrite <- Sum_scal. apply Sum_ext. intros q Iq. rewrite (V c q Ic Iq). ring.
  Qed.
  Lemma falling l s v : d = 2%nat \/ d = 3%nat -> load_ok d n references cells l -> state_ok d n C cells s -> ld_forces l = [gravity (N := RNum) d] -> lift d C cells v ->
    accuracy * load_size n (W l) * size n v < total_weight cells -> (forall u, ~ exact_solution d n C cells (W l) u) /\ solve_load (N := RNum) d n references C cells s l = Throw.
  Proof.
    intros Hd Lo So E V H. pose proof (lifted l v Hd Lo E V) as X. destruct accuracy_small as [A0 _].
    assert (P : 0 < total_weight cells).
    { eapply Rle_lt_trans; [|exact H]. apply Rmult_le_pos; [apply Rmult_le_pos; [lra| apply sqrt_pos]| apply sqrt_pos]. }
    split.
    - intros u U. assert (Z := proj1 (load_exists l Lo) (ex_intro _ u U) v (proj1 V)). rewrite <- (work_rigid l v Lo (proj1 V)) in Z. lra.
    - apply (refused l s v Hd Lo So (proj1 V)). rewrite X, Rabs_Ropp, Rabs_right by lra. exact H.
  Qed.
End Loads.
(** Superposition. *)
Lemma superposition d n C cells (V W : (nat -> R) -> R) (u w : list R) s : exact_solution d n C cells V u -> exact_solution d n C cells W w ->
  exact_solution d n C cells (fun v => V v + s * W v) (map (fun j => HeatSpec.entry u j + s * HeatSpec.entry w j) (seq 0 n)).
Proof.
  intros [[Lu Cu] Bu] [[Lw Cw] Bw]. set (x := map (fun j => HeatSpec.entry u j + s * HeatSpec.entry w j) (seq 0 n)). assert (Lx : List.length x = n) by (unfold x; now rewrite map_length, seq_length).
  assert (Ex : forall k, HeatSpec.entry x k = HeatSpec.entry u k + s * HeatSpec.entry w k).
  { intros k. destruct (Nat.lt_ge_cases k n) as [Lk|Lk].
    - unfold HeatSpec.entry at 1, x. rewrite (nth_indep _ 0 (HeatSpec.entry u 0 + s * HeatSpec.entry w 0)) by (now rewrite map_length, seq_length).
      rewrite (map_nth (fun j => HeatSpec.entry u j + s * HeatSpec.entry w j)), seq_nth by exact Lk. reflexivity.
    - unfold HeatSpec.entry. rewrite !nth_overflow by lia. ring. }
  assert (Nx : forall k, nodal C (HeatSpec.entry x) k = nodal C (HeatSpec.entry u) k + s * nodal C (HeatSpec.entry w) k).
  { intros k. rewrite <- nodal_lin. rewrite <- !targets_nodal. apply Sum_ext. intros y _. now rewrite Ex. }
  split; [split; [exact Lx|]|].
  - intros j Lj. rewrite Nx, Ex, <- (Cu j Lj), <- (Cw j Lj). reflexivity.
  - intros v. rewrite <- (Bu v), <- (Bw v), <- internal_lin. apply (Sum_ext (fun c => _) (fun c => _)). intros c _. apply Sum_ext. intros q _. f_equal.
    assert (EL : forall i, local C (HeatSpec.entry x) c i = local C (fun j => HeatSpec.entry u j + s * HeatSpec.entry w j) c i) by (intros i; unfold local; rewrite Nx, nodal_lin; reflexivity).
    assert (EG : forall a b, ElementSpec.gradient (List.length (ec_dofs c)) (ec_comps c) q (local C (HeatSpec.entry x) c) a b =
      ElementSpec.gradient (List.length (ec_dofs c)) (ec_comps c) q (local C (fun j => HeatSpec.entry u j + s * HeatSpec.entry w j) c) a b) by (intros a b; apply gradient_local_ext; intros i _; apply EL).
    f_equal; [f_equal; unfold cell_divergence, divergence; apply Rsum_to_ext; intros a _; apply EG|].
    f_equal. apply Rsum_to_ext. intros a _. apply Rsum_to_ext. intros b _. f_equal. unfold cell_strain, ElementSpec.strain. now rewrite !EG.
Qed.
