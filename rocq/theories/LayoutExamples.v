(** LayoutExamples.v -- five cells on one process: one without material, one of another process. *)
From Coq Require Import ZArith Bool List Lia Reals Lra.
From Verif Require Import Base CellModel MaterialModel MaterialSpec LayoutModel LayoutSpec LayoutProofs LayoutProofs2 LayoutProofs3.
Import ListNotations.

Definition ex_cells : list lcell := [mklc true false 0; mklc true true 0; mklc false true 1; mklc true true 2; mklc true true 1].
Definition ex_batches : list (list nat) := [[0; 3]; [4; 1]].
Definition ex_colours : list (list nat) := [[4]; [1; 3]].
Lemma ex_order : in_order ex_cells [1; 3; 4]. Proof. apply in_order_is. reflexivity. Qed.
Lemma ex_coloured : coloured ex_cells ex_colours.
Proof.
  split; [cbn; repeat constructor; cbn; intuition lia|]. intros c. rewrite <- in_with_material. cbn. intuition lia.
Qed.
Lemma ex_nodup : NoDup (List.concat ex_batches). Proof. cbn. repeat constructor; cbn; intuition lia. Qed.
Lemma ex_owned : forall b i c, lane ex_batches b i c -> owned_cell ex_cells c.
Proof.
  intros b i c L. assert (I : In c (List.concat ex_batches)) by (apply lane_concat; exists b, i; exact L). cbn in I. destruct I as [<-|[<-|[<-|[<-|[]]]]]; (eexists; split; [reflexivity|reflexivity]).
Qed.
Lemma ex_lane : lane ex_batches 0 1 3. Proof. exists [0; 3]. split; reflexivity. Qed.
Lemma ex_place : place ex_colours 4 3 2 10. Proof. split; [lia|]. exists 2. split; reflexivity. Qed.
Lemma ex_face : lane [[(0, 1)]; [(0, 2)]] 0 0 (0, 1) /\ inner_boundary ex_cells (0, 1) 1 /\ owned_cell ex_cells 1.
Proof. split; [eexists; split; reflexivity|]. split; [|eexists; split; reflexivity]. exists (mklc true false 0), (mklc true true 0). repeat split. right. repeat split. Qed.
(** The face between the cell without material of this process and the cell of the other process. *)
Lemma ghost_face : inner_boundary ex_cells (0, 2) 2 /\ ~ owned_cell ex_cells 2 /\ owned_cell ex_cells 0 /\
  exists t, host_faces ex_cells [[(0, 2)]] [] 1 (fun c => nth c (map lc_material ex_cells) 0) (fun _ _ _ => 0) = Ok t /\ t 0 0 0 = 0 /\ nth 2 (map lc_material ex_cells) 0 = 1.
Proof.
  split; [exists (mklc true false 0), (mklc false true 1); repeat split; right; repeat split|]. split; [intros [x [X Y]]; cbn in X; injection X as <-; discriminate|].
  split; [eexists; split; reflexivity|]. eexists. split; [reflexivity|]. split; reflexivity.
Qed.
