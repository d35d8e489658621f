(** ParallelElasticExamples.v -- the body of ElasticExamples shared by two processes. *)
From Coq Require Import Reals ZArith List Bool Lra Lia.
From Verif Require Import Base BaseFacts CellModel AssimilationSpec InputModel HeatModel HeatSpec HeatProofs HeatExamples ElementModel ElementSpec StressModel StressSpec StressProofs2 ElasticModel ElasticSpec ElasticProofs ElasticProofs2 ElasticProofs3 ElasticProofs4 ElasticProofs6 ElasticProofs7 ElasticProofs9 ElasticExamples
  ParallelElasticModel ParallelElasticSpec ParallelElasticProofs ParallelElasticProofs2.
Import ListNotations.
Local Open Scope R_scope.

Definition halves : list (nat -> bool) := [Nat.even; Nat.odd].
(** Six flags for each process; the second does not know the temperature of a node that no cell of its uses. *)
Definition their_flags : thermal_data RNum := mktd (N := RNum) [5; 77] (repeat false 6).
Definition pull_together (f : R) : pload RNum := mkpload (N := RNum) [their_flags; mktd (N := RNum) [5] (repeat false 6)] [fun _ => [f; 0; 0]] (fun _ => found f).
(** Each process has stress variables of its own cells and none for those of the other. *)
Definition start_together (Y : R) : pstate RNum :=
  mkps (N := RNum) [map (fun pos => if Nat.even pos then [fresh Y] else []) (seq 0 12); map (fun pos => if Nat.odd pos then [fresh Y] else []) (seq 0 12)] None.
Lemma body_one H iso : one_process (body H iso).
Proof. apply Forall_app. split; [apply Forall_forall; intros c I; apply in_map_iff in I; destruct I as (k & <- & _); reflexivity|]. repeat (apply Forall_list; [reflexivity|]). apply Forall_nil. Qed.
Lemma body_shared H iso : shared (body H iso) halves.
Proof. intros pos L. cbn [halves filter]. unfold Nat.odd. destruct (Nat.even pos); reflexivity. Qed.
Lemma body_tdofs H iso pos c j : nth_error (body H iso) pos = Some c -> In j (ec_tdofs c) -> j = O.
Proof.
  intros E. assert (F : Forall (fun c : ecell RNum => In j (ec_tdofs c) -> j = O) (body H iso)); [|rewrite Forall_forall in F; apply F; eapply nth_error_In; eauto].
  apply Forall_app. split; [apply Forall_forall; intros c' I; apply in_map_iff in I; destruct I as (k & <- & _); cbn; intuition|]. repeat (apply Forall_list; [cbn; intuition|]). apply Forall_nil.
Qed.
Lemma pull_shared H iso f : has_load (body H iso) halves (pull f) (pull_together f).
Proof.
  split; [|split; reflexivity]. exists warm. split; [reflexivity|]. constructor; [|constructor; [|constructor]]; (split; [reflexivity|]; intros pos c j E _ I; rewrite (body_tdofs H iso pos c j E I); reflexivity).
Qed.
Lemma start_shared H iso Y : together (body H iso) halves (start Y) (start_together Y).
Proof.
  split; [reflexivity|]. constructor; [|constructor; [|constructor]]; (split; [reflexivity|]); intros pos O1; do 12 (destruct pos as [|pos]; [first [reflexivity|discriminate]|]); cbn [nth_error ms_points start repeat map seq]; destruct pos; reflexivity.
Qed.
Lemma shared_case : closed_ok 12 bonds /\ Forall (cell_ok 3 12) (body 1 1) /\ one_process (body 1 1) /\ shared (body 1 1) halves /\ load_ok 3 12 temps (body 1 1) (pull 4) /\ state_ok 3 12 bonds (body 1 1) (start 2) /\
  has_load (body 1 1) halves (pull 4) (pull_together 4) /\ together (body 1 1) halves (start 2) (start_together 2) /\
  exists s1 s2, solve_loads (N := RNum) 3 12 temps bonds (body 1 1) [pull 4] (start 2) = Ok s1 /\ shared_solve_loads (N := RNum) 3 12 temps bonds (body 1 1) halves [pull_together 4] (start_together 2) = Ok s2.
Proof.
  split; [exact bonds_ok|]. split; [apply body_ok|]. split; [apply body_one|]. split; [apply body_shared|]. split; [apply pull_ok|]. split; [apply start_ok|]. split; [apply pull_shared|]. split; [apply start_shared|].
  destruct (yield_solves 4 2 1 1 ltac:(lra)) as (s1 & E).
  assert (E1 : solve_loads (N := RNum) 3 12 temps bonds (body 1 1) [pull 4] (start 2) = Ok s1) by (unfold solve_loads; rewrite foldR_bind; unfold solve_loadR in E; rewrite E; reflexivity).
  pose proof (shared_loads 3 12 bonds (body 1 1) halves temps (or_intror eq_refl) bonds_ok (body_ok 1 1) (body_one 1 1) (body_shared 1 1) [pull 4] [pull_together 4] (start 2) (start_together 2)
    (Forall_list _ _ _ (pull_ok 1 1 4) (Forall_nil _)) (Forall2_cons _ _ (pull_shared 1 1 4) (Forall2_nil _)) (start_ok 1 1 2) (start_shared 1 1 2)) as SR.
  rewrite E1 in SR. destruct (shared_solve_loads (N := RNum) 3 12 temps bonds (body 1 1) halves [pull_together 4] (start_together 2)) as [s2| |]; cbn [same_result] in SR; try contradiction. exists s1, s2. split; [exact E1|reflexivity].
Qed.
(** The displacement that the processes compute balances the load. *)
Lemma shared_balance d n references (C : constraints RNum) (cells : list (ecell RNum)) owns loads l pls pl s ps ps' : d = 2%nat \/ d = 3%nat -> closed_ok n C -> Forall (cell_ok d n) cells -> one_process cells -> shared cells owns ->
  Forall (load_ok d n references cells) (loads ++ [l]) -> Forall2 (has_load cells owns) (loads ++ [l]) (pls ++ [pl]) -> state_ok d n C cells s -> together cells owns s ps ->
  shared_solve_loads (N := RNum) d n references C cells owns (pls ++ [pl]) ps = Ok ps' ->
  exists u, ps_old ps' = Some u /\ conforms n C u /\
    forall v, Rabs (internal_work d C cells v (HeatSpec.entry u) - work_of d references C cells l v) <= accuracy * load_size n (work_of d references C cells l) * size n v.
Proof.
  intros Hd Cok H One Sh Fl F2 So To E. pose proof (shared_loads d n C cells owns references Hd Cok H One Sh (loads ++ [l]) (pls ++ [pl]) s ps Fl F2 So To) as SR. rewrite E in SR. cbn [same_result] in SR.
  destruct (solve_loads (N := RNum) d n references C cells (loads ++ [l]) s) as [s'| |] eqn:Es; try contradiction. destruct SR as [Old _].
  assert (Sp : exists s1, foldR (solve_load (N := RNum) d n references C cells) loads s = Ok s1 /\ solve_load (N := RNum) d n references C cells s1 l = Ok s').
  { unfold solve_loads in Es. unfold foldR in Es |- *. rewrite fold_left_app in Es. cbn [fold_left] in Es. destruct (fold_left _ loads (Ok s)) as [s1| |] eqn:E1; cbn [bind] in Es; try discriminate. exists s1. split; [reflexivity|exact Es]. }
  destruct Sp as (s1 & E1 & E2). apply Forall_app in Fl. destruct Fl as [Fl Lo]. inversion Lo as [|? ? Lo' _]; subst.
  pose proof (loads_state d n C cells Hd Cok H references loads s s1 Fl So E1) as So1.
  destruct (load_solution d n references C cells Hd Cok H l s1 s' Lo' So1 E2) as (u & Ou & Cu & Bu). exists u. split; [congruence|]. split; assumption.
Qed.
