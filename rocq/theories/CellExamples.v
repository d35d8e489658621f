(** CellExamples.v -- concrete cases for C41-C43, C58. *)
From Coq Require Import Reals ZArith QArith Bool List Floats Lia Lra.
From Verif Require Import Base BaseFacts ScanPathModel HeatSourceModel HeatSourceProofs2 CellModel CellSpec CellProofs CellProofs2 CellProofs3 CellProofs4 CellProofs5 CellProofs6 CellProofs7 RefineModel RefineSpec MeltedSpec RefineProofs.
Import ListNotations.
Local Open Scope nat_scope.

(** Two cells of two nodes sharing node 1.  The first, on process 0, has no material yet; the second, on process 1, has. *)
Definition two_cells : list cell := [mkcell [0; 1] 0 false; mkcell [1; 2] 1 true].
Definition two_arrays : list arrays := [mkarrays [] [] [] [[0x1p0%float]]; mkarrays [0x1p0%float] [0%float] [false] [[0x1p-1%float]]].
Definition two_world : world := mkworld two_cells two_arrays (fun _ => 0x1.2cp8%float).
Definition two_elements : list (list (list nat)) := [[[0]]; [[]]].
Definition id_owner (pos : nat) : nat := pos.
Definition lower (m : nat) : nat := if Nat.eqb m 2 then 1 else 0.
Ltac by_cells := cbn in *; repeat match goal with
  | H : _ \/ _ |- _ => destruct H as [H|H]
  | H : False |- _ => contradiction H
  | H : nth_error _ ?r = Some _ |- _ => destruct r as [|[|[|?]]]; cbn in H; try discriminate H; injection H as H
  | H : _ = _ |- _ => progress (subst; cbn in *)
  end.
Lemma two_wf : well_formed 2 1 two_world.
Proof.
  split.
  - intros c [<-|[<-|[]]]; reflexivity.
  - intros c [<-|[<-|[]]]; cbn; lia.
  - intros [|[|[|r]]] a E; try discriminate E; injection E as <-; reflexivity.
  - intros [|[|[|r]]] a E; try discriminate E; injection E as <-; reflexivity.
  - intros [|[|[|r]]] a E; try discriminate E; injection E as <-; reflexivity.
  - intros [|[|[|r]]] a E; try discriminate E; injection E as <-; reflexivity.
  - intros [|[|[|r]]] a st E; try discriminate E; injection E as <-; intros [<-|[]]; reflexivity.
Qed.
Lemma two_input : activation_input 2 1 two_world two_elements [0x1p0%float] [0%float] 1 id_owner lower.
Proof.
  split; try (cbn; lia); try exact two_wf.
  - split.
    + reflexivity.
    + intros el [<-|[<-|[]]]; reflexivity.
    + intros [|[|[|r]]] el l pos E; try discriminate E; injection E as <-; intros [<-|[]]; cbn; [intros [<-|[]]; eexists; split; reflexivity| intros []].
  - intros pos L. cbn in L. unfold n_ranks, id_owner. cbn. lia.
  - intros m. unfold n_ranks, lower. cbn. destruct (Nat.eqb m 2); lia.
Qed.
Definition two_after : res (world * list (list bool)) := add_material 2 1 two_world two_elements [0x1p0%float] [0%float] 0 1 id_owner lower 0x1.f4p9%float.
Lemma two_run : exists w' flags, two_after = Ok (w', flags) /\ w_cells w' = [mkcell [0; 1] 0 true; mkcell [1; 2] 1 true] /\
  w_sol w' 1 = 0x1.f4p9%float /\ w_sol w' 2 = 0x1.2cp8%float /\ cell_melted w' 0 = Some true /\ cell_melted w' 1 = Some false.
Proof.
  unfold two_after. eexists _, _. split; [vm_compute; reflexivity|]. repeat split; vm_compute; reflexivity.
Qed.
(** The interface node loses its temperature (300 becomes 1000) although every hypothesis holds. *)
Lemma interface_lost : exists n_dofs n_states w elements cs sn first last new_owner node_owner temperature w' flags pos m,
  activation_input n_dofs n_states w elements cs sn last new_owner node_owner /\ finite_temperature w /\
  add_material n_dofs n_states w elements cs sn first last new_owner node_owner temperature = Ok (w', flags) /\
  lowest_owner w' node_owner /\ has_material w pos /\ node_of w pos m /\ w_sol w' m <> w_sol w m.
Proof.
  destruct two_run as (w' & flags & E & EC & E1 & E2 & _ & _).
  exists 2, 1, two_world, two_elements, [0x1p0%float], [0%float], 0, 1, id_owner, lower, 0x1.f4p9%float, w', flags, 1, 1.
  split; [exact two_input|]. split; [intros pos m _ _; vm_compute; reflexivity|]. split; [exact E|]. split; [|split; [|split]].
  - unfold lowest_owner. rewrite EC. intros [|[|[|pos]]] m c Ec; cbn in Ec; try discriminate Ec; injection Ec as <-; cbn; intros _ HI.
    + destruct HI as [<-|[<-|[]]]; (split; [cbn; lia|]); exists 0, (mkcell [0; 1] 0 true); cbn; auto 10.
    + destruct HI as [<-|[<-|[]]]; (split; [cbn; lia|]); [exists 0, (mkcell [0; 1] 0 true)|exists 1, (mkcell [1; 2] 1 true)]; cbn; auto 10.
  - exists (mkcell [1; 2] 1 true). split; reflexivity.
  - exists (mkcell [1; 2] 1 true). split; [reflexivity|]. cbn. auto.
  - rewrite E1. cbn. intros X. assert (PrimFloat.eqb 0x1.f4p9 0x1.2cp8 = true) as Y by (rewrite X; vm_compute; reflexivity). vm_compute in Y. discriminate.
Qed.
(** The same on one process. *)
Definition one_cells : list cell := [mkcell [0; 1] 0 false; mkcell [1; 2] 0 true].
Definition one_world : world := mkworld one_cells [mkarrays [0x1p0%float] [0%float] [false] [[0x1p0%float]; [0x1p-1%float]]] (fun m => if Nat.eqb m 1 then 0x1.2cp8%float else 0x1p8%float).
Lemma one_wf : well_formed 2 1 one_world.
Proof.
  split.
  - intros c [<-|[<-|[]]]; reflexivity.
  - intros c [<-|[<-|[]]]; cbn; lia.
  - intros [|[|r]] a E; try discriminate E; injection E as <-; reflexivity.
  - intros [|[|r]] a E; try discriminate E; injection E as <-; reflexivity.
  - intros [|[|r]] a E; try discriminate E; injection E as <-; reflexivity.
  - intros [|[|r]] a E; try discriminate E; injection E as <-; reflexivity.
  - intros [|[|r]] a st E; try discriminate E; injection E as <-; intros [<-|[<-|[]]]; reflexivity.
Qed.
Lemma one_input : activation_input 2 1 one_world [[[0]; [0; 1]]] [0x1p0%float; 0%float] [0%float; 0x1p0%float] 2 (fun _ => 0) (fun _ => 0).
Proof.
  split; try (cbn; lia); try exact one_wf; try (intros; cbn; unfold n_ranks; cbn; lia).
  split.
  - reflexivity.
  - intros el [<-|[]]; reflexivity.
  - intros [|[|r]] el l pos E; try discriminate E; injection E as <-. intros [<-|[<-|[]]]; cbn; [intros [<-|[]]|intros [<-|[<-|[]]]]; eexists; split; reflexivity.
Qed.
Lemma one_finite : finite_temperature one_world /\ has_material one_world 1 /\ node_of one_world 1 1.
Proof.
  split; [intros pos m _ _; cbn; destruct (Nat.eqb m 1); vm_compute; reflexivity|]. split; exists (mkcell [1; 2] 0 true); cbn; auto.
Qed.
Lemma one_last : last_box one_world [[[0]; [0; 1]]] 0 2 1 0.
Proof.
  split; [lia|]. split; [exists (mkcell [0; 1] 0 false), [[0]; [0; 1]], [0; 1]; cbn; auto 10|]. intros j Hj. lia.
Qed.
(** Deposited material is marked as melted. *)
Lemma deposited_melted : exists w' flags c, add_material 2 1 one_world [[[0]; [0; 1]]] [0x1p0%float; 0%float] [0%float; 0x1p0%float] 0 2 (fun _ => 0) (fun _ => 0) 0x1.f4p9%float = Ok (w', flags) /\
  nth_error (w_cells one_world) 0 = Some c /\ c_active c = false /\ cell_melted w' 0 = Some true.
Proof. eexists _, _, _. split; [vm_compute; reflexivity|]. repeat split; vm_compute; reflexivity. Qed.

(** Coarsening: two children with different states; the parent gets the state of the first. *)
Definition siblings : world := mkworld [mkcell [0; 1] 0 true; mkcell [1; 2] 0 true]
  [mkarrays [0x1p0%float; 0%float] [0%float; 0x1p0%float] [false; true] [[0%float]; [0x1p0%float]]] (fun _ => 0x1.2cp8%float).
Lemma siblings_wf : well_formed 2 1 siblings.
Proof.
  split.
  - intros c [<-|[<-|[]]]; reflexivity.
  - intros c [<-|[<-|[]]]; cbn; lia.
  - intros [|[|r]] a E; try discriminate E; injection E as <-; reflexivity.
  - intros [|[|r]] a E; try discriminate E; injection E as <-; reflexivity.
  - intros [|[|r]] a E; try discriminate E; injection E as <-; reflexivity.
  - intros [|[|r]] a E; try discriminate E; injection E as <-; reflexivity.
  - intros [|[|r]] a st E; try discriminate E; injection E as <-; intros [<-|[<-|[]]]; reflexivity.
Qed.
Definition merged : list (origin * cell) := [(Coarsened 0 [1], mkcell [0; 2] 0 true)].
Lemma merged_ok : forall o c, In (o, c) merged -> source o < List.length (w_cells siblings) /\ c_owner c < n_ranks siblings /\ List.length (c_nodes c) = 2.
Proof. intros o c [H|[]]. injection H as <- <-. unfold n_ranks. cbn. lia. Qed.
Lemma coarsening_forgets : exists n_states w mesh sol w' first others child c, well_formed 2 n_states w /\
  refine_and_transfer n_states w mesh sol = Ok w' /\ nth_error mesh 0 = Some (Coarsened first others, c) /\ In child others /\
  cell_state w' 0 <> cell_state w child /\ cell_melted w child = Some true /\ cell_melted w' 0 = Some false.
Proof.
  eexists 1, siblings, merged, (fun _ => 0x1.2cp8%float), _, 0, [1], 1, _. split; [exact siblings_wf|]. split; [vm_compute; reflexivity|]. split; [reflexivity|]. split; [now left|].
  split; [|split; vm_compute; reflexivity]. vm_compute. intros X. injection X as X. assert (PrimFloat.eqb 0 0x1p0 = true) as Y by (rewrite X; vm_compute; reflexivity). vm_compute in Y. discriminate.
Qed.

(** Thermal run, output every 10 steps, checkpoint every 3: the checkpoint of step 3 holds the state of the start. *)
Lemma stale_checkpoint : exists (cfg : sync_config) (steps : list (bool * bool * Z)) (s : sync_state Z),
  sy_mechanical cfg = None /\ op_state s = mp_state s /\ nth_error steps 2 = Some (false, false, 3%Z) /\
  In (3, 0%Z) (saved (sync_run cfg 1 steps s)) /\ op_state (sync_run cfg 1 steps s) = 3%Z.
Proof.
  exists (mksync 10 3 None), [(false, false, 1%Z); (false, false, 2%Z); (false, false, 3%Z)], (mkss 0%Z 0%Z []). repeat split. vm_compute. now left.
Qed.
Lemma stale_with_mechanics : exists (cfg : sync_config) (steps : list (bool * bool * Z)) (s : sync_state Z),
  sy_mechanical cfg = Some 2 /\ op_state s = mp_state s /\
  In (3, 2%Z) (saved (sync_run cfg 1 steps s)) /\ op_state (sync_run cfg 1 steps s) = 3%Z.
Proof.
  exists (mksync 10 3 (Some 2)), [(false, false, 1%Z); (false, false, 2%Z); (false, false, 3%Z)], (mkss 0%Z 0%Z []). repeat split. vm_compute. now left.
Qed.

(** Two materials with solidus 1000 and 2000: a cell of the second at 1500, below its solidus, is marked. *)
Lemma wrong_solidus : exists (solidus : list Q) (initial : Q) (materials : list nat) (averages : list Q) (flags : list bool) s,
  List.length materials = List.length averages /\ nth_error materials 0 = Some 1 /\ nth_error solidus 1 = Some s /\
  nth_error flags 0 = Some false /\ (nth 0 averages 0 < s)%Q /\
  run_mark_melted (N := QNum) (reference_temperatures (N := QNum) solidus initial) averages flags = Ok [true].
Proof. exists [1000%Q; 2000%Q], 300%Q, [1], [1500%Q], [false], 2000%Q. repeat split; vm_compute; reflexivity. Qed.
(** ... and with the order reversed a cell of the second material that melts is not marked. *)
Lemma wrong_solidus_missed : exists (solidus : list Q) (initial : Q) (materials : list nat) (averages : list Q) (flags : list bool) s,
  List.length materials = List.length averages /\ nth_error materials 0 = Some 1 /\ nth_error solidus 1 = Some s /\
  nth_error flags 0 = Some false /\ (s < nth 0 averages 0)%Q /\
  run_mark_melted (N := QNum) (reference_temperatures (N := QNum) solidus initial) averages flags = Ok [false].
Proof. exists [2000%Q; 1000%Q], 300%Q, [1], [1500%Q], [false], 1000%Q. repeat split; vm_compute; reflexivity. Qed.

(** A linear cell with two nodes and two points: weights 1/2, shape values 3/4 and 1/4. *)
Local Open Scope R_scope.
Definition lin_shape : list (list R) := [[3/4; 1/4]; [1/4; 3/4]].
Lemma lin_ok : List.length lin_shape = 2%nat /\ (forall row, In row lin_shape -> List.length row = 2%nat) /\
  (forall q, (q < 2)%nat -> AssimilationSpec.Rsum_to 2 (fun i => shape_at lin_shape i q) = 1) /\
  (forall row, In row lin_shape -> 0 <= node_weight [1/2; 1/2] row).
Proof.
  split; [reflexivity|]. split; [intros row [<-|[<-|[]]]; reflexivity|]. split.
  - intros [|[|q]] H; [| |lia]; unfold AssimilationSpec.Rsum_to, AssimilationSpec.Rsum, shape_at, lin_shape; cbn; lra.
  - intros row [<-|[<-|[]]]; unfold node_weight, AssimilationSpec.Rsum; cbn; lra.
Qed.
