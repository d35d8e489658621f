(** ParallelElasticProofs2.v -- stress variables of the processes, and histories of solves. *)
From Coq Require Import Reals ZArith List Bool Lra Lia.
From Verif Require Import Base BaseFacts CellModel AssimilationSpec InputModel HeatModel HeatSpec HeatProofs ElementModel ElementSpec StressModel StressSpec StressProofs2 ElasticModel ElasticSpec ElasticProofs ElasticProofs2 ElasticProofs3 ElasticProofs4 ElasticProofs6 ElasticProofs7 ElasticProofs9
  ParallelElasticModel ParallelElasticSpec ParallelElasticProofs.
Import ListNotations.
Local Open Scope R_scope.

Lemma nth_error_eq {A} (a b : list A) : (forall i, nth_error a i = nth_error b i) -> a = b.
Proof. revert b. induction a as [|x a IH]; intros [|y b] E; [reflexivity|discriminate (E O)|discriminate (E O)|]. pose proof (E O) as E0. injection E0 as ->. f_equal. apply IH. intros i. exact (E (Datatypes.S i)). Qed.

Section Shared.
  Variables (d n : nat) (C : constraints RNum) (cells : list (ecell RNum)) (owns : list (nat -> bool)) (references : list R).
  Hypothesis Hd : d = 2%nat \/ d = 3%nat.
  Hypothesis Cok : closed_ok n C.
  Hypothesis H : List.Forall (cell_ok d n) cells.
  Hypothesis One : one_process cells.
  Hypothesis Sh : shared cells owns.
  Local Notation strain inc := (stress_cell (N := RNum) d inc).

  Lemma one_owned c : In c cells -> j_owned (ec_joint c) = true.
  Proof. intros I. unfold one_process in One. rewrite Forall_forall in One. exact (One c I). Qed.
  Lemma process_points (pts : list (list (point RNum))) own mine (inc : list R) : points_ok d cells pts -> has_points cells pts own mine ->
    exists pts' mine', compute_stress (map (strain inc) cells) pts = Ok pts' /\ compute_stress (map (strain inc) (seen_by (N := RNum) own cells)) mine = Ok mine' /\ has_points cells pts' own mine'.
  Proof.
    intros (LP & RP & _) (LM & EM).
    destruct (compute_stress_spec (map (strain inc) cells) pts) as (pts' & Ep & Lp & Ip & Ap).
    { rewrite map_length. exact LP. }
    { intros i c v Ec Ev A. rewrite nth_error_map in Ec. destruct (nth_error cells i) as [c0|] eqn:E0; [|discriminate]. injection Ec as <-. cbn [stress_cell mc_active mc_strain] in *. rewrite map_length, (RP i c0 v E0 A Ev). apply Nat.le_refl. }
    assert (Own : forall i c, nth_error cells i = Some c -> own i = true -> owned_by (N := RNum) own (i, c) = c) by (intros i c E O1; apply own_cell; [exact O1|exact (one_owned c (nth_error_In _ _ E))]).
    assert (Act : forall i c, nth_error (map (strain inc) (seen_by (N := RNum) own cells)) i = Some c -> mc_active c = true -> exists c0, nth_error cells i = Some c0 /\ own i = true /\ c = strain inc c0).
    { intros i c E A. rewrite nth_error_map, seen_nth in E. destruct (nth_error cells i) as [c0|] eqn:E0; [|discriminate]. injection E as <-. cbn [stress_cell mc_active] in A. rewrite seen_takes in A. apply andb_prop in A. destruct A as [A _]. exists c0. split; [reflexivity|]. split; [exact A|]. now rewrite (Own i c0 E0 A). }
    destruct (compute_stress_spec (map (strain inc) (seen_by (N := RNum) own cells)) mine) as (mine' & Em & Lm & Im & Am).
    { rewrite map_length, seen_length. exact LM. }
    { intros i c v Ec Ev A. destruct (Act i c Ec A) as (c0 & E0 & O1 & ->). cbn [stress_cell mc_active mc_strain] in *. rewrite map_length. rewrite (EM i O1) in Ev. rewrite (RP i c0 v E0 A Ev). apply Nat.le_refl. }
    exists pts', mine'. split; [exact Ep|]. split; [exact Em|]. split; [congruence|]. intros i O1.
    destruct (nth_error cells i) as [c|] eqn:Ec.
    - assert (E1 : nth_error (map (strain inc) cells) i = Some (strain inc c)) by (rewrite nth_error_map, Ec; reflexivity).
      assert (E2 : nth_error (map (strain inc) (seen_by (N := RNum) own cells)) i = Some (strain inc c)) by (rewrite nth_error_map, seen_nth, Ec; cbn [option_map]; rewrite (Own i c Ec O1); reflexivity).
      destruct (mc_active (strain inc c)) eqn:A; [|rewrite (Im i _ E2 A), (Ip i _ E1 A); exact (EM i O1)].
      destruct (nth_error pts i) as [v|] eqn:Ev; [|apply nth_error_None in Ev; assert (i < List.length cells)%nat by (apply nth_error_Some; congruence); lia]. pose proof (EM i O1) as Ev2. rewrite Ev in Ev2.
      destruct (nth_error pts' i) as [v1|] eqn:Ev1; [|apply nth_error_None in Ev1; assert (i < List.length pts)%nat by (apply nth_error_Some; congruence); lia].
      destruct (nth_error mine' i) as [v2|] eqn:Ev3; [|apply nth_error_None in Ev3; assert (i < List.length mine)%nat by (apply nth_error_Some; congruence); lia].
      destruct (Ap i _ v v1 E1 A Ev Ev1) as [L1 P1]. destruct (Am i _ v v2 E2 A Ev2 Ev3) as [L2 P2]. f_equal. apply nth_error_eq. intros q.
      destruct (nth_error v q) as [p|] eqn:Eq; [rewrite (P1 q p Eq), (P2 q p Eq); reflexivity|]. apply nth_error_None in Eq. transitivity (@None (point RNum)); [|symmetry]; apply nth_error_None; lia.
    - apply nth_error_None in Ec. transitivity (@None (list (point RNum))); [|symmetry]; apply nth_error_None; lia.
  Qed.
  Lemma processes_points (pts : list (list (point RNum))) (inc : list R) : points_ok d cells pts -> forall os pss, Forall2 (has_points cells pts) os pss ->
    exists pts' pss', compute_stress (map (strain inc) cells) pts = Ok pts' /\
      mapR (fun op => compute_stress (map (strain inc) (seen_by (N := RNum) (fst op) cells)) (snd op)) (combine os pss) = Ok pss' /\ Forall2 (has_points cells pts') os pss'.
  Proof.
    intros Po os pss F. induction F as [|own mine os pss HP _ IH].
    - destruct (process_points pts (fun _ => false) pts inc Po (conj (proj1 Po) (fun _ E => match Bool.diff_false_true E with end))) as (pts' & _ & E & _). exists pts', []. split; [exact E|]. split; [reflexivity|constructor].
    - destruct IH as (pts' & pss' & E1 & E2 & F'). destruct (process_points pts own mine inc Po HP) as (pts2 & mine' & E3 & E4 & HP'). rewrite E1 in E3. injection E3 as <-.
      exists pts', (mine' :: pss'). split; [exact E1|]. split; [|constructor; assumption]. cbn [combine mapR fst snd]. cbn [fst snd] in E4. rewrite E4. cbn [bind]. cbn [num RNum] in *. rewrite E2. reflexivity.
  Qed.
  Definition shared_loadR (ps : pstate RNum) (pl : pload RNum) := shared_solve_load (N := RNum) d n references C cells owns ps pl.
  Lemma shared_load l pl s ps : load_ok d n references cells l -> state_ok d n C cells s -> has_load cells owns l pl -> together cells owns s ps ->
    same_result cells owns (solve_loadR d n C cells references s l) (shared_loadR ps pl).
  Proof.
    intros Lo [Po _] ((t & Et & F2) & Ef & Ei) [Old Pts]. pose proof Lo as ((t' & Et' & TH) & Fo & _). rewrite Et in Et'. injection Et' as <-.
    unfold solve_loadR, solve_load, shared_loadR, shared_solve_load. rewrite Et, Ef, Ei. pose proof (rhs_shared d n C cells owns Cok H One Sh references t (ld_forces l) (pl_thermal pl) TH Fo F2) as Er. cbn [num RNum] in *. rewrite Er.
    destruct (assemble_rhs (N := RNum) d n references (Some t) (ld_forces l) C cells) as [b| |]; cbn [bind same_result]; try exact I.
    unfold solve, shared_solve. pose proof (shared_displacement d n C cells owns Cok H One Sh b (ld_iterate l)) as Ed. cbn [num RNum] in *. rewrite Ed. destruct (displacement (N := RNum) n C (assemble_matrix (N := RNum) C cells) b (ld_iterate l)) as [u| |]; cbn [bind]; try exact I.
    rewrite Old. match goal with |- context [compute_stress (map (stress_cell d ?i) cells) _] => destruct (processes_points (ms_points s) i Po owns (ps_points ps) Pts) as (pts' & pss' & E1 & E2 & F') end.
    cbn [num RNum] in *. rewrite E1, E2. cbn [bind]. split; [reflexivity|exact F'].
  Qed.
  Lemma shared_loads loads : forall pls s ps, List.Forall (load_ok d n references cells) loads -> Forall2 (has_load cells owns) loads pls -> state_ok d n C cells s -> together cells owns s ps ->
    same_result cells owns (solve_loads (N := RNum) d n references C cells loads s) (shared_solve_loads (N := RNum) d n references C cells owns pls ps).
  Proof.
    unfold solve_loads, shared_solve_loads. induction loads as [|l loads IH]; intros pls s ps Fl F2 So To; inversion F2 as [|? pl ? pls' Hl F2']; subst; [exact To|]. inversion Fl as [|? ? Lo Fl']; subst.
    rewrite !foldR_bind. pose proof (shared_load l pl s ps Lo So Hl To) as SR. unfold shared_loadR in SR. pose proof (load_state d n C cells Hd Cok H references l s) as LS. unfold solve_loadR in *.
    destruct (solve_load (N := RNum) d n references C cells s l) as [s1| |]; destruct (shared_solve_load (N := RNum) d n references C cells owns ps pl) as [ps1| |]; cbn [same_result bind] in *; try contradiction; try exact I.
    apply IH; [exact Fl'|exact F2'|exact (LS s1 Lo So eq_refl)|exact SR].
  Qed.
End Shared.
