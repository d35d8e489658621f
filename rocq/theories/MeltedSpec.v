(** MeltedSpec.v -- averages over a cell; steps without refinement and activation. *)
From Coq Require Import Reals List.
From Verif Require Import Base AssimilationSpec.
Import ListNotations.
Local Open Scope R_scope.

(** Shape functions times weights of one node, summed over the points. *)
Definition node_weight (jxw : list R) (s : list R) : R := Rsum (map (fun sw => fst sw * snd sw) (combine s jxw)).
(** The mean over the quadrature points of the interpolated field. *)
Definition shape_at (shape : list (list R)) (i q : nat) : R := nth q (nth i shape []) 0.
Definition interpolated (shape : list (list R)) (values : list R) (q : nat) : R :=
  Rsum_to (List.length values) (fun i => shape_at shape i q * nth i values 0).
Definition quadrature_mean (shape : list (list R)) (jxw values : list R) : R :=
  Rsum_to (List.length jxw) (fun q => interpolated shape values q * nth q jxw 0) / Rsum jxw.
(** No refinement and no activation in these steps. *)
Definition quiet {St : Type} (steps : list (bool * bool * St)) : Prop := forall r a x, In (r, a, x) steps -> r = false /\ a = false.
